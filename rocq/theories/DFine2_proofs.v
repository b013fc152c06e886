(** Lemmas for C81 in double precision: the shortest edge of a mesh with a degenerate triangle is
    zero, and the width computed from it is 255. *)
From Coq Require Import List NArith ZArith Arith Lia Bool Reals Lra ZifyN ZifyNat ZifyBool.
From Flocq Require Import Core IEEE754.BinarySingleNaN.
From Verif Require Import Base BitSpec BitLemmas UnalignedRW BitIOSpec UnalignedRW_proofs ReadExt ByteLemmas Triangles TriSpec
  Triangles_proofs Floats Floats_proofs FloatReal_proofs ValueSpec NormalReal_proofs CustomData Mesh Tmf File Parse_proofs Codec_proofs FileSpec File_proofs Utilis Unify Vertices OptTris OptVertices OptTris_proofs OptVertices_proofs NoPanic_proofs Save2_proofs
  Load_proofs SaveSpec Merge_proofs Save_proofs Agree_proofs Panic_proofs Image_proofs Fine_proofs
  Double DoubleSave DoubleSaveSpec DoubleSpec DoublePanicSpec DoubleValueSpec Double2_proofs DMerge_proofs DCodec_proofs DSave_proofs DAgree_proofs DSplit_proofs
  DQuant_proofs DVertex_proofs DCustom_proofs DPanic_proofs DFineSpec DFine_proofs.
Import ListNotations.
Open Scope res_scope.

(** NaN or not below zero, and not the negative zero. *)
Definition nn_d (x : f64) : Prop := is_nan x = true \/ Bsign x = false.
Lemma overflow_sign_d (z : f64) s : B2SF z = @binary_overflow 53 1024 mode_NE s -> s = false -> nn_d z.
Proof. intros H ->. right. destruct z; cbn in H; try discriminate; try (injection H as <-); reflexivity. Qed.
Lemma nn_square_d x : nn_d (dmul x x).
Proof.
  destruct x as [s|s| |s m e h].
  - right. destruct s; reflexivity.
  - right. destruct s; reflexivity.
  - left. reflexivity.
  - unfold dmul. set (y := B754_finite s m e h). pose proof (Bmult_correct 53 1024 gt0_53 lt_53_1024 mode_NE y y) as C.
    destruct (Rlt_bool _ _).
    + destruct C as (_ & F & S). right. rewrite S; [apply xorb_nilpotent|].
      assert (FF : is_finite (Bmult mode_NE y y) = true) by (rewrite F; reflexivity). destruct (Bmult mode_NE y y); try discriminate; reflexivity.
    + rewrite xorb_nilpotent in C. eapply overflow_sign_d; [exact C|reflexivity].
Qed.
Lemma nn_R_d x : nn_d x -> is_finite x = true -> (0 <= B2R x)%R.
Proof.
  intros [N|N] F; destruct x as [s|s| |s m e h]; try discriminate; cbn in *; try lra. subst s.
  apply F2R_ge_0. cbn. lia.
Qed.
Lemma nn_plus_d x y : nn_d x -> nn_d y -> nn_d (dadd x y).
Proof.
  intros X Y. destruct (is_finite x) eqn:FX; destruct (is_finite y) eqn:FY.
  - assert (SX : Bsign x = false) by (destruct X; [destruct x; discriminate|assumption]).
    assert (SY : Bsign y = false) by (destruct Y; [destruct y; discriminate|assumption]).
    pose proof (nn_R_d x X FX). pose proof (nn_R_d y Y FY).
    pose proof (Bplus_correct 53 1024 gt0_53 lt_53_1024 mode_NE x y FX FY) as C. unfold dadd.
    destruct (Rlt_bool _ _).
    + destruct C as (_ & F & S). right. rewrite S.
      destruct (Rcompare_spec (B2R x + B2R y) 0); try lra; rewrite ?SX; reflexivity.
    + destruct C as [C _]. eapply overflow_sign_d; eauto.
  - destruct y as [s|[]| |s m e h]; try discriminate; destruct x as [s'|[]| |s' m' e' h']; try discriminate;
      try (left; reflexivity); try (right; reflexivity); destruct Y as [Y|Y]; discriminate.
  - destruct x as [s|[]| |s m e h]; try discriminate; destruct y as [s'|[]| |s' m' e' h']; try discriminate;
      try (left; reflexivity); try (right; reflexivity); destruct X as [X|X]; discriminate.
  - destruct x as [s|[]| |s m e h]; try discriminate; destruct y as [s'|[]| |s' m' e' h']; try discriminate;
      try (left; reflexivity); try (right; reflexivity); destruct X as [X|X]; try discriminate; destruct Y as [Y|Y]; discriminate.
Qed.
Lemma nn_sqrt_d x : nn_d x -> nn_d (dsqrt x).
Proof.
  intros X. pose proof (Bsqrt_correct 53 1024 gt0_53 lt_53_1024 mode_NE x) as (_ & _ & S). fold (dsqrt x) in S.
  destruct (is_nan (dsqrt x)) eqn:N; [now left|]. right. rewrite S by first [exact N|reflexivity].
  destruct X as [X|X]; [|exact X]. destruct x; try discriminate.
Qed.
Lemma nn_distance_d a b : nn_d (distance_d a b).
Proof. unfold distance_d. apply nn_sqrt_d, nn_plus_d; [apply nn_plus_d|]; apply nn_square_d. Qed.

Lemma sub_same_d x y : finite64 x -> finite64 y -> val64 x = val64 y -> exists s, dsub x y = B754_zero s.
Proof.
  intros X Y E. pose proof (Bminus_correct 53 1024 gt0_53 lt_53_1024 mode_NE x y X Y) as C. fold (dsub x y) in C.
  unfold val64 in E. replace (B2R x - B2R y)%R with 0%R in C by lra. rewrite round_0, Rabs_R0, Rlt_bool_true in C by (try apply bpow_gt_0; auto with typeclass_instances).
  destruct C as (R & F & _). destruct (dsub x y) as [s|s| |s m e h]; try discriminate; [now exists s|].
  exfalso. cbn in R. apply eq_0_F2R in R. destruct s; discriminate.
Qed.
Lemma distance_same_d a b : same_place_d a b -> distance_d a b = B754_zero false.
Proof.
  intros (A1 & A2 & A3 & B1 & B2 & B3 & E1 & E2 & E3). unfold distance_d.
  destruct (sub_same_d _ _ A1 B1 E1) as [s1 ->]. destruct (sub_same_d _ _ A2 B2 E2) as [s2 ->]. destruct (sub_same_d _ _ A3 B3 E3) as [s3 ->].
  destruct s1, s2, s3; reflexivity.
Qed.
Lemma nn_min_d x y : nn_d x -> nn_d y -> nn_d (dmin x y).
Proof. intros X Y. unfold dmin. destruct (is_nan x); auto. destruct (is_nan y); auto. destruct (dlt y x); auto. Qed.
Notation pz := (B754_zero false).
Lemma min_zero_d x y : nn_d x -> nn_d y -> x = pz \/ y = pz -> dmin x y = pz.
Proof.
  intros X Y [-> | ->].
  - unfold dmin. cbn [is_nan]. destruct (is_nan y) eqn:N; [reflexivity|].
    destruct Y as [Y|Y]; [congruence|]. destruct y as [s|s| |s m e h]; try discriminate; cbn in Y; subst s; reflexivity.
  - unfold dmin. destruct (is_nan x) eqn:N; [reflexivity|]. cbn [is_nan].
    destruct X as [X|X]; [congruence|]. destruct x as [s|s| |s m e h]; try discriminate; cbn in X; subst s; reflexivity.
Qed.
Lemma shortest_nn_d v : forall k t s r, length t <= k -> nn_d s -> shortest_loop_d v t s = Ok r -> nn_d r /\ (s = pz -> r = pz).
Proof.
  induction k as [|k IH]; intros [|a [|b [|c t]]] s r L N E; cbn [length] in L; try lia;
    try (cbn [shortest_loop_d] in E; apply Ok_inj in E; subst r; auto; fail).
  cbn [shortest_loop_d] in E. apply bind_ok in E as (va & _ & E). apply bind_ok in E as (vb & _ & E). apply bind_ok in E as (vc & _ & E). cbv zeta in E.
  assert (M : nn_d (dmin (distance_d va vb) (dmin (distance_d vb vc) (distance_d vc va)))) by (repeat apply nn_min_d; apply nn_distance_d).
  destruct (IH t _ r ltac:(lia) (nn_min_d _ _ N M) E) as [A B]. split; [exact A|]. intros ->. apply B. apply min_zero_d; auto.
Qed.
Lemma shortest_degenerate_d v pa pb pc a b c : corner_d v a pa -> corner_d v b pb -> corner_d v c pc ->
  same_place_d pa pb \/ same_place_d pb pc \/ same_place_d pc pa ->
  forall k t s r, length t <= k -> nn_d s -> In (a, b, c) (triples t) -> shortest_loop_d v t s = Ok r -> r = pz.
Proof.
  intros A B C D. induction k as [|k IH]; intros [|a' [|b' [|c' t]]] s r L N I E; cbn [length] in L; try lia; try (destruct I; fail).
  cbn [shortest_loop_d] in E. apply bind_ok in E as (va & Ea & E). apply bind_ok in E as (vb & Eb & E). apply bind_ok in E as (vc & Ec & E). cbv zeta in E.
  assert (M : nn_d (dmin (distance_d va vb) (dmin (distance_d vb vc) (distance_d vc va)))) by (repeat apply nn_min_d; apply nn_distance_d).
  cbn [triples] in I. destruct I as [I|I].
  - injection I as -> -> ->. unfold index in *. rewrite !get_nth in *. unfold corner_d in *. rewrite A in Ea. rewrite B in Eb. rewrite C in Ec.
    apply Ok_inj in Ea, Eb, Ec. subst va vb vc.
    apply (shortest_nn_d v (length t) t _ r (le_n _) (nn_min_d _ _ N M) E). apply min_zero_d; auto. right.
    destruct D as [D|[D|D]]; apply distance_same_d in D; rewrite ?D in *.
    + apply min_zero_d; auto; [right; reflexivity|apply nn_min_d; apply nn_distance_d].
    + apply min_zero_d; [apply nn_distance_d|apply nn_min_d; [right; reflexivity|apply nn_distance_d]|]. right.
      apply min_zero_d; [right; reflexivity|apply nn_distance_d|now left].
    + apply min_zero_d; [apply nn_distance_d|apply nn_min_d; [apply nn_distance_d|right; reflexivity]|]. right.
      apply min_zero_d; [apply nn_distance_d|right; reflexivity|now right].
  - exact (IH t _ r ltac:(lia) (nn_min_d _ _ N M) I E).
Qed.
Lemma degenerate_edge_d m edge : degenerate_d m -> calc_shortest_edge_d (d_vertex_triangles m) (d_vertices m) = Ok edge -> edge = pz.
Proof.
  intros (v & t & a & b & c & pa & pb & pc & V & T & I & A & B & C & D) E. rewrite V, T in E. unfold calc_shortest_edge_d in E.
  destruct t as [|i t]; [destruct I|]. destruct (shortest_loop_d v (i :: t) d_inf) as [r| |] eqn:R; try discriminate. cbn [bind] in E.
  destruct (is_finite r); try discriminate. apply Ok_inj in E. subst r.
  apply (shortest_degenerate_d v pa pb pc a b c A B C D (length (i :: t)) (i :: t) d_inf edge (le_n _)); auto. right. reflexivity.
Qed.

(** The width. *)
Lemma extent_pos_d x : Bsign (dmax x min_extent_d) = false /\ is_nan (dmax x min_extent_d) = false /\ (is_finite (dmax x min_extent_d) = true -> 0 < B2R (dmax x min_extent_d))%R.
Proof.
  assert (M : exists m e h, min_extent_d = B754_finite false m e h).
  { assert (A : is_finite_strict min_extent_d = true) by (vm_compute; reflexivity).
    assert (B : Bsign min_extent_d = false) by (vm_compute; reflexivity).
    destruct min_extent_d as [s|s| |s m e h]; try discriminate. cbn in B. subst s. eauto. }
  destruct M as (m & e & h & ->).
  assert (P : forall m e h, Bsign (B754_finite (prec:=53) (emax:=1024) false m e h) = false /\ is_nan (B754_finite (prec:=53) (emax:=1024) false m e h) = false /\
     (is_finite (B754_finite (prec:=53) (emax:=1024) false m e h) = true -> 0 < B2R (B754_finite (prec:=53) (emax:=1024) false m e h))%R).
  { intros. split; [reflexivity|]. split; [reflexivity|]. intros _. apply F2R_gt_0. reflexivity. }
  unfold dmax. destruct x as [s|[]| |[] m' e' h']; cbn [is_nan]; try apply P; try (destruct (dlt _ _); apply P);
    try (split; [reflexivity|split; [reflexivity|discriminate]]).
Qed.
Lemma width_zero_edge_d lm s prec : log2_64_infinite lm -> finite64 prec -> (0 < val64 prec)%R ->
  Bsign s = false -> is_nan s = false -> (is_finite s = true -> 0 < B2R s)%R -> axis_precision_d lm pz s prec = 255.
Proof.
  intros L F P S N Z. unfold axis_precision_d.
  assert (D : ddiv pz s = pz).
  { destruct s as [s|s| |s m e h]; try discriminate; cbn in S; subst s; try reflexivity. cbn in Z. specialize (Z eq_refl). lra. }
  rewrite D.
  assert (X : dmul pz prec = pz).
  { destruct prec as [s'|s'| |s' m e h]; try discriminate; cbn in P; try lra. destruct s'; [|reflexivity].
    exfalso. assert (H : (F2R (Float radix2 (cond_Zopp true (Z.pos m)) e) < 0)%R) by (apply F2R_lt_0; reflexivity). lra. }
  rewrite X. replace (ddiv d1 pz) with (B754_infinity (prec:=53) (emax:=1024) false) by (vm_compute; reflexivity).
  unfold log2_64_infinite in L. rewrite L. reflexivity.
Qed.

(** ** Meshes *)
Lemma vertex_pieces_d lm oc m v segs : d_vertices m = Some v -> v <> [] -> optimize_all_d lm oc (merge_segments_d (tmf_segs_d m)) = Ok segs ->
  exists q, In (XVertex q) segs /\ q <> [].
Proof.
  intros V NV E2.
  assert (VM : In (XVertex v) (merge_segments_d (tmf_segs_d m))).
  { apply merge_loop_vertex_d; [now rewrite rev_length|]. apply -> in_rev. unfold tmf_segs_d. rewrite V. left. reflexivity. }
  destruct (optimize_all_each_d _ _ _ _ _ E2 VM) as (x & X). pose proof (optimize_all_in_d _ _ _ _ _ _ E2 VM X) as IN.
  cbn [optimize_d] in X. apply bind_ok in X as (y & Y & X).
  destruct (opt_vertices_total_d lm oc v) as [P|(sg & P & _ & NE & FN)]; [rewrite P in Y; discriminate|].
  rewrite P in Y. cbn [map_err] in Y. apply Ok_inj in Y. subst y. apply Ok_inj in X. subst x.
  destruct sg as [|q sg]; [congruence|]. specialize (FN NV). apply Forall_cons_iff in FN as [FN _].
  exists q. split; [|exact FN]. apply IN. left. reflexivity.
Qed.
(** Every vertex array is given 255 bits an axis. *)
Definition wide_d (lm : libm64) (prec edge : f64) : Prop :=
  forall x, axis_precision_d lm edge (dmax x min_extent_d) prec = 255.
Lemma wide_degenerate_d lm prec : log2_64_infinite lm -> finite64 prec -> (0 < val64 prec)%R -> wide_d lm prec pz.
Proof. intros L F P x. destruct (extent_pos_d x) as (A & B & C). now apply width_zero_edge_d. Qed.
Lemma wide_checked_d lm q prec edge : wide_d lm prec edge -> forall b, save_tmf_vertices_d lm true q prec edge [] <> Ok b.
Proof.
  intros W b. unfold save_tmf_vertices_d. destruct (bounding_box_d q) as [bb| |]; try discriminate. cbn [bind]. cbv zeta.
  rewrite !W. replace (mask_f64 (E:=ioerr) true 255) with (@Panic ioerr f64) by reflexivity. discriminate.
Qed.
Lemma wide_refused_d lm sc oc' p q edge e : wide_d lm (d_vertex_precision p) edge -> (len q <= 2 ^ 24)%N ->
  encode_d lm false p edge (XVertex q) = Ok e -> refused_d sc oc' e.
Proof.
  intros W L E. unfold encode_d in E. destruct (save_tmf_vertices_d lm false q (d_vertex_precision p) edge []) as [b| |] eqn:S; try discriminate.
  injection E as <-. destruct (vertices_release_d _ _ _ _ _ S) as (vp & _ & _ & _ & V & _).
  destruct (vertices_refused_d _ _ _ _ _ _ V S L) as (w & WW & R).
  - unfold vertex_params_d in V. destruct (bounding_box_d (E:=ioerr) q); try discriminate. injection V as <-. cbn [dp_px]. rewrite W. lia.
  - exists w. split; [exact WW|]. unfold decode_d. cbn [e_type e_data]. now rewrite R.
Qed.
Definition vshort_d (d : xseg) : Prop :=
  match d with XVertex l => (len l <= 2 ^ 24)%N | XShared k _ => (0 < k < 8)%N | _ => True end.
Lemma wide_unloadable_d lm sc oc' p m v : d_vertices m = Some v -> v <> [] -> (len v <= 2 ^ 24)%N ->
  (forall edge, calc_shortest_edge_d (d_vertex_triangles m) (d_vertices m) = Ok edge -> wide_d lm (d_vertex_precision p) edge) ->
  unloadable_d lm sc oc' p m.
Proof.
  intros V NV LV W edge E segs S. specialize (W edge E). destruct (vertex_pieces_d _ _ _ _ _ V NV S) as (q & IN & _).
  apply Exists_exists. exists (XVertex q). split; [exact IN|]. intros e X. apply (wide_refused_d lm sc oc' p q edge e W); [|exact X].
  assert (F : Forall vshort_d segs).
  { apply (optimize_all_all_d vshort_d lm false (merge_segments_d (tmf_segs_d m)) segs); auto.
    - unfold sub_ok_d. cbn [vshort_d]. split; [|tauto]. intros a b H. unfold len in *. rewrite app_length in H. lia.
    - assert (G : Forall (fun d => vshort_d d /\ is_something_d d = true) (merge_segments_d (tmf_segs_d m))).
      { apply merge_loop_keeps_d; try (cbn [vshort_d]; auto; fail). apply Forall_rev. unfold tmf_segs_d. rewrite V, !Forall_app.
        assert (O : forall A (f : A -> xseg) (o : option A), (forall x, vshort_d (f x)) -> Forall vshort_d (opt_seg_d f o)).
        { intros A f [x|] HH; constructor; [apply HH|constructor]. }
        split; [constructor; [exact LV|constructor]|]. do 7 (split; [apply O; intros; exact I|]). rewrite Forall_map. apply Forall_forall. intros; exact I. }
      eapply Forall_impl; [|exact G]. intros d [H _]. exact H. }
  rewrite Forall_forall in F. exact (F _ IN).
Qed.
Lemma wide_panics_d lm p l m name v :
  Forall (fun mn => holdable_d (fst mn)) l -> In (m, name) l -> d_vertices m = Some v -> v <> [] ->
  (forall edge, calc_shortest_edge_d (d_vertex_triangles m) (d_vertices m) = Ok edge -> wide_d lm (d_vertex_precision p) edge) ->
  saved_d lm true p l = Panic.
Proof.
  intros H I V NV W. apply saved_panic_d; auto. intros out S.
  destruct (saved_mesh_d _ _ _ _ _ _ _ S I) as (o & T). apply mesh_inv_d in T as (edge & segs & es & E1 & E2 & E3 & _).
  specialize (W edge E1). destruct (vertex_pieces_d _ _ _ _ _ V NV E2) as (q & IN & _).
  clear -E3 IN W. induction E3 as [|s e segs es X _ IH]; [destruct IN|]. destruct IN as [-> | IN]; auto.
  unfold encode_d in X. destruct (save_tmf_vertices_d lm true q (d_vertex_precision p) edge []) as [b| |] eqn:S; try discriminate.
  now apply (wide_checked_d lm q _ edge W b).
Qed.

(** ** A precision of zero *)
Definition sm_d (x : f64) : Prop := is_finite x = true -> (B2R x <= bpow radix2 512)%R.
Lemma sm_sqrt_d z : sm_d (dsqrt z).
Proof.
  intros F. destruct (is_finite z) eqn:FZ.
  - destruct (Bsqrt_correct 53 1024 gt0_53 lt_53_1024 mode_NE z) as (C1 & _ & _). fold (dsqrt z) in C1. rewrite C1. cbn [round_mode].
    apply Rle_trans with (1 := Rle_abs _). apply (rnd64_abs_le_bpow (sqrt (B2R z)) 512); [lia|].
    rewrite Rabs_pos_eq by apply sqrt_ge_0. replace (bpow radix2 512) with (sqrt (bpow radix2 1024)).
    + apply sqrt_le_1_alt. apply Rle_trans with (1 := Rle_abs _). apply Rlt_le, abs_B2R_lt_emax.
    + change 1024%Z with (512 + 512)%Z. rewrite bpow_plus. apply sqrt_square, bpow_ge_0.
  - destruct z as [s|[]| |s m e h]; try discriminate.
Qed.
Lemma sm_min_d x y : sm_d x -> sm_d y -> sm_d (dmin x y).
Proof. intros X Y. unfold dmin. destruct (is_nan x); auto. destruct (is_nan y); auto. destruct (dlt y x); auto. Qed.
Lemma shortest_sm_d v : forall k t s r, length t <= k -> sm_d s -> shortest_loop_d v t s = Ok r -> sm_d r.
Proof.
  induction k as [|k IH]; intros [|a [|b [|c t]]] s r L N E; cbn [length] in L; try lia;
    try (cbn [shortest_loop_d] in E; apply Ok_inj in E; subst r; auto; fail).
  cbn [shortest_loop_d] in E. apply bind_ok in E as (va & _ & E). apply bind_ok in E as (vb & _ & E). apply bind_ok in E as (vc & _ & E). cbv zeta in E.
  apply (IH t _ r ltac:(lia)) in E; [exact E|]. repeat apply sm_min_d; auto; apply sm_sqrt_d.
Qed.
Lemma edge_range_d tris vs e : calc_shortest_edge_d tris vs = Ok e -> is_finite e = true /\ Bsign e = false /\ (0 <= B2R e <= bpow radix2 512)%R.
Proof.
  intros E.
  assert (D : is_finite default_edge_d = true /\ Bsign default_edge_d = false /\ (0 <= B2R default_edge_d <= bpow radix2 512)%R).
  { split; [vm_compute; reflexivity|]. assert (S : Bsign default_edge_d = false) by (vm_compute; reflexivity). split; [exact S|].
    split; [apply nn_R_d; [now right|vm_compute; reflexivity]|].
    destruct (dlit_R 1 10) as [A _]; [lia|lia|]. fold default_edge_d in A. unfold R64 in A. rewrite A.
    apply Rle_trans with (1 := Rle_abs _). apply rnd64_abs_le_bpow; [lia|]. rewrite Rabs_pos_eq by lra.
    apply Rle_trans with (bpow radix2 0); [cbn; lra|apply bpow_le; lia]. }
  unfold calc_shortest_edge_d in E. destruct tris as [[|i t]|]; try (apply Ok_inj in E; subst e; exact D).
  destruct vs as [v|]; [|apply Ok_inj in E; subst e; exact D].
  destruct (shortest_loop_d v (i :: t) d_inf) as [r| |] eqn:R; try discriminate. cbn [bind] in E.
  destruct (is_finite r) eqn:F; try discriminate. apply Ok_inj in E. subst r.
  assert (N : nn_d e) by (apply (shortest_nn_d v _ _ d_inf e (le_n _)) in R; [apply R|right; reflexivity]).
  split; [exact F|]. split; [destruct N as [N|N]; [destruct e; discriminate|exact N]|].
  split; [now apply nn_R_d|]. apply (shortest_sm_d v _ _ d_inf e (le_n _)) in R; [exact (R F)|discriminate].
Qed.
Lemma wide_zero_d lm tris vs e : log2_64_infinite lm -> calc_shortest_edge_d tris vs = Ok e -> wide_d lm d0 e.
Proof.
  intros L E x. destruct (edge_range_d _ _ _ E) as (F & S & B). destruct (extent_pos_d x) as (A1 & A2 & A3).
  unfold axis_precision_d.
  assert (G : is_finite (ddiv e (dmax x min_extent_d)) = true /\ Bsign (ddiv e (dmax x min_extent_d)) = false).
  { destruct (is_finite (dmax x min_extent_d)) eqn:FM.
    - specialize (A3 eq_refl).
      assert (ME : (/ bpow radix2 20 <= B2R (dmax x min_extent_d))%R).
      { destruct min_extent_R_d as [M1 M2]. unfold R64 in M2.
        assert (MM : (/ bpow radix2 20 <= B2R min_extent_d)%R).
        { rewrite bpow_powerRZ. cbn [powerRZ]. replace (IZR radix2) with 2%R by reflexivity. simpl pow. lra. }
        unfold dmax in *. destruct (is_nan x) eqn:NX; [exact MM|]. replace (is_nan min_extent_d) with false in * by (vm_compute; reflexivity).
        destruct (dlt x min_extent_d) eqn:LT; [exact MM|].
        unfold dlt in LT. rewrite Bltb_correct in LT by auto. destruct (Rlt_bool_spec (B2R x) (B2R min_extent_d)); [discriminate|lra]. }
      assert (Q : (Rabs (B2R e / B2R (dmax x min_extent_d)) <= bpow radix2 532)%R).
      { rewrite Rabs_pos_eq by (apply Rmult_le_pos; [lra|apply Rlt_le, Rinv_0_lt_compat; lra]).
        change 532%Z with (512 + 20)%Z. rewrite bpow_plus. apply Rmult_le_compat; try lra; [apply Rlt_le, Rinv_0_lt_compat; lra|].
        rewrite <- (Rinv_inv (bpow radix2 20)). apply Rinv_le_contravar; [apply Rinv_0_lt_compat, bpow_gt_0|exact ME]. }
      pose proof (Bdiv_correct 53 1024 gt0_53 lt_53_1024 mode_NE e (dmax x min_extent_d) ltac:(lra)) as C.
      fold (ddiv e (dmax x min_extent_d)) in C. cbn [round_mode] in C.
      rewrite (no_overflow64 (B2R e / B2R (dmax x min_extent_d))) in C.
      + destruct C as (_ & C1 & C2). rewrite F in C1. split; [exact C1|]. rewrite C2, S, A1; [reflexivity|].
        destruct (ddiv e (dmax x min_extent_d)); try discriminate; reflexivity.
      + apply Rle_trans with (1 := Q). apply bpow_le. lia.
    - destruct (dmax x min_extent_d) as [s|s| |s m0 e0 h]; try discriminate. cbn in A1. subst s.
      destruct e as [s|s| |s m0 e0 h]; try discriminate; cbn in S; subst s; split; reflexivity. }
  destruct G as [G1 G2].
  assert (X : dmul (ddiv e (dmax x min_extent_d)) d0 = d0).
  { destruct (ddiv e (dmax x min_extent_d)) as [s|s| |s m0 e0 h]; try discriminate; cbn in G2; subst s; reflexivity. }
  rewrite X. replace (ddiv d1 d0) with (B754_infinity (prec:=53) (emax:=1024) false) by (vm_compute; reflexivity).
  unfold log2_64_infinite in L. rewrite L. reflexivity.
Qed.

Lemma span_infinite_d l a b : Forall finite64 l -> In a l -> In b l -> (val64 a < val64 b)%R ->
  ddiv (dsub (fst (float_range_d l)) (snd (float_range_d l))) d0 = B754_infinity false.
Proof.
  intros F A B LT. assert (NE : l <> []) by (intros ->; destruct A).
  destruct (range_R_d l F NE) as (Fx & Fn & [_ G] & [_ L]).
  set (mx := fst (float_range_d l)) in *. set (mn := snd (float_range_d l)) in *.
  assert (H : (R64 mn < R64 mx)%R).
  { specialize (G _ (in_map val64 _ _ B)). specialize (L _ (in_map val64 _ _ A)). cbv beta in *. lra. }
  pose proof (Bminus_correct 53 1024 gt0_53 lt_53_1024 mode_NE mx mn Fx Fn) as C. fold (dsub mx mn) in C.
  pose proof (rnd64_diff mx mn) as D. unfold R64 in *.
  destruct (Rlt_bool _ _).
  - destruct C as (C1 & C2 & _). cbn [round_mode] in C1. fold (rnd64 (B2R mx - B2R mn)) in C1. rewrite <- C1 in D.
    assert (P : (0 < B2R (dsub mx mn))%R).
    { pose proof u64_small. rewrite (Rabs_pos_eq (B2R mx - B2R mn)) in D by lra. apply Rabs_le_iff in D.
      assert (u64 * (B2R mx - B2R mn) <= 0.5 * (B2R mx - B2R mn))%R by (apply Rmult_le_compat_r; lra). lra. }
    destruct (dsub mx mn) as [s|s| |s m e h]; try discriminate; cbn in P; try lra.
    destruct s; [|reflexivity]. exfalso. assert (X : (F2R (Float radix2 (cond_Zopp true (Z.pos m)) e) < 0)%R) by (apply F2R_lt_0; reflexivity). lra.
  - destruct C as [C S].
    assert (SX : Bsign mx = false).
    { destruct (Bsign mx) eqn:SX; [|reflexivity]. exfalso. symmetry in S. apply negb_true_iff in S.
      assert (nn_d mn) by now right. pose proof (nn_R_d mn H0 Fn).
      assert (B2R mx <= 0)%R; [|lra].
      destruct mx as [s|s| |s m e h]; try discriminate; cbn in SX |- *; [lra|subst s]. apply F2R_le_0. cbn. lia. }
    rewrite SX in C. destruct (dsub mx mn) as [s|s| |s m e h]; cbn in C; try discriminate. injection C as ->. reflexivity.
Qed.
Lemma zero_float_width_d lm l a b : log2_64_infinite lm -> Forall finite64 l -> In a l -> In b l -> (val64 a < val64 b)%R -> float_width_d lm l d0 = 255.
Proof.
  intros L F A B LT. unfold float_width_d. rewrite (span_infinite_d l a b F A B LT). unfold log2_64_infinite in L. rewrite L. reflexivity.
Qed.
Lemma custom_kept_d lm oc m s segs : In s (d_custom_data m) -> optimize_all_d lm oc (merge_segments_d (tmf_segs_d m)) = Ok segs -> In (XCustom s) segs.
Proof.
  intros I E. apply (optimize_all_in_d lm oc (XCustom s) [XCustom s] _ _ E); [|reflexivity|left; reflexivity].
  rewrite merge_segments_split_d. apply in_or_app. left. apply in_map. now apply -> in_rev.
Qed.
Lemma float_unloadable_d lm sc oc' p m s l q : In s (d_custom_data m) -> x_data s = XFloat l q -> custom_ok_d s -> (len l <= 2 ^ 25)%N ->
  float_width_d lm l q = 255 -> unloadable_d lm sc oc' p m.
Proof.
  intros I D C L W edge E segs S. apply Exists_exists. exists (XCustom s). split; [eapply custom_kept_d; eauto|].
  intros e X. unfold encode_d in X. destruct (cseg_encode_d lm false s []) as [b| |] eqn:EB; try discriminate. injection X as <-.
  pose proof (name_header_d s C) as (N1 & N2 & N3 & N4 & N5 & N6).
  unfold cseg_encode_d in EB. rewrite N1 in EB. cbn [app] in EB. rewrite N2, D in EB.
  destruct (float_written_d lm l q _ b N3 EB) as (pl & -> & _). rewrite W. exists 255%N. split; [lia|].
  unfold decode_d. rewrite D. cbn [e_type e_data dcdata_kind]. unfold cseg_read_d. cbn [app].
  rewrite N5. cbn [io map_err bind]. rewrite N6. cbn [io map_err bind]. rewrite read_float_wide_d by (unfold len in *; lia). reflexivity.
Qed.
Lemma float_panics_d lm p l m name s fs q : Forall (fun mn => holdable_d (fst mn)) l -> In (m, name) l -> In s (d_custom_data m) ->
  x_data s = XFloat fs q -> float_width_d lm fs q = 255 -> saved_d lm true p l = Panic.
Proof.
  intros H I Is D W. apply saved_panic_d; auto. intros out S.
  destruct (saved_mesh_d _ _ _ _ _ _ _ S I) as (o & T). apply mesh_inv_d in T as (edge & segs & es & _ & E2 & E3 & _).
  pose proof (custom_kept_d _ _ _ _ _ Is E2) as IN.
  clear -E3 IN W D. induction E3 as [|x e segs es X _ IH]; [destruct IN|]. destruct IN as [-> | IN]; auto.
  unfold encode_d, cseg_encode_d in X. rewrite D in X. unfold float_width_d in W. cbn [cdata_write_d] in X.
  destruct (float_range_d fs) as [mx mn]. cbn [fst snd] in W. cbv zeta in X. rewrite W in X.
  destruct (_ <? _)%N in X; discriminate X.
Qed.

(** ** Colours of precision zero *)
Lemma one_custom_file_d lm oc p s name out : custom_ok_d s -> name_ok name ->
  saved_d lm oc p [(with_custom_data_d d_empty [s], name)] = Ok out ->
  exists b, cseg_encode_d lm oc s [] = Ok b /\
    ((len b <= 2 ^ 31)%N -> bytes_ok b -> forall sc oc',
     read_tmf_d sc oc' out =
       let* c := cseg_read_d oc' new_ctx (dcdata_kind (x_data s)) b in Ok [(with_custom_data_d d_empty [c], name)]).
Proof.
  intros C HN S. apply saved_inv_d in S as (outs & -> & F).
  inversion F as [|? o ? os T F']; subst. inversion F'; subst. clear F F'. cbn [fst snd] in T.
  apply mesh_inv_d in T as (edge & segs & es & _ & E2 & E3 & ->).
  assert (SG : segs = [XCustom s]).
  { rewrite merge_segments_split_d in E2. cbn [with_custom_data_d d_empty d_custom_data rev app map] in E2.
    change (merge_segments_d _) with (@nil xseg) in E2. cbn [app optimize_all_d optimize_d bind map_err] in E2. apply Ok_inj in E2. now subst segs. }
  subst segs. inversion E3 as [|? e ? ees EE E3']; subst. inversion E3'; subst. clear E3 E3'.
  unfold encode_d in EE. destruct (cseg_encode_d lm oc s []) as [b| |] eqn:EB; try discriminate. cbn [bind] in EE. apply Ok_inj in EE. subst e.
  exists b. split; [reflexivity|]. intros LB BB sc oc'.
  set (e := mk_eseg (SCustom (dcdata_kind (x_data s))) CNone b).
  set (raws := [(name, [raw_of e])]).
  assert (FO : file_ok raws).
  { split; [reflexivity|]. apply Forall_cons; [|apply Forall_nil]. split; [exact HN|]. cbn [snd]. split; [reflexivity|].
    apply Forall_cons; [|apply Forall_nil]. unfold frameable, raw_of. cbn [r_kind r_comp r_payload e_data e_type e_comp e].
    split; [apply section_code_ok|]. split; [apply compression_code_ok|exact LB]. }
  match goal with |- read_tmf_d _ _ ?x = _ => assert (EQ : x = file_bytes raws) end.
  { unfold file_bytes, raws. cbn [map concat length]. unfold mesh_bytes. cbn [fst snd map concat]. rewrite !lend_le. unfold len. cbn [length].
    rewrite !app_nil_r. do 5 f_equal. now apply segment_layout. }
  rewrite EQ, read_tmf_new_d by exact FO.
  unfold raws. cbn [map collect]. unfold load_raw_d. cbn [fst snd map]. rewrite eseg_of_raw. unfold decode_d. cbn [e e_type e_data e_comp].
  destruct (cseg_read_d oc' new_ctx (dcdata_kind (x_data s)) b) as [c|x|]; reflexivity.
Qed.
Lemma color_many_wide oc (mk : N -> f64) n : forall r w acc, 64 <= w ->
  read_many (fun r =>
      let* (p, r) := io (read2_unaligned oc r w) in
      let* (q, r) := io (read2_unaligned oc r w) in
      Ok ((mk (fst p), mk (snd p), mk (fst q), mk (snd q)), r)) n r acc = Ok (acc ++ repeat (mk 0%N, mk 0%N, mk 0%N, mk 0%N) n).
Proof.
  induction n as [|n IH]; intros r w acc W; cbn [read_many repeat]; [now rewrite app_nil_r|].
  assert (R : read2_unaligned oc r w = Ok ((0%N, 0%N), r)).
  { unfold read2_unaligned, read_unaligned. replace (w =? 0) with false by (symmetry; apply Nat.eqb_neq; lia).
    replace (32 <? w) with true by (symmetry; apply Nat.ltb_lt; lia). replace (64 <=? w) with true by (symmetry; apply Nat.leb_le; lia). reflexivity. }
  rewrite R. cbn [io map_err bind]. rewrite R. cbn [io map_err bind]. rewrite IH by exact W. cbn [fst snd]. now rewrite <- app_assoc.
Qed.
Lemma color_written_d lm l p hd b : color_width_d lm p <= 255 -> bytes_ok hd -> cdata_write_d lm false (XColor l p) hd = Ok b ->
  exists pl, b = hd ++ color_header (N.of_nat (length l)) (color_width_d lm p) ++ pl /\ bytes_ok pl /\ 8 * length pl <= 255 * (4 * length l) + 8.
Proof.
  intros WL Hs S. unfold cdata_write_d in S. unfold color_header, color_width_d in *. cbv zeta in S.
  match type of S with context [mask_f64 false ?a] => destruct (mask_release_d (E:=ioerr) a) as [mul M]; rewrite M in S end. cbn [bind] in S.
  match type of S with context [write_fields false (writer_new ?a) ?f] => set (S0 := a) in *; set (fs := f) in *;
    destruct (write_fields false (writer_new S0) fs) as [w| |] eqn:W; try discriminate S end.
  cbn [bind] in S. apply Ok_inj in S. subst b.
  destruct (finish_len false S0 fs w 255) as (pl & F & B & L); auto.
  - unfold S0. rewrite !bytes_ok_app. split; auto. split; [apply le_bytes_ok|]. apply small_byte. lia.
  - unfold fs. apply flat_Forall. intros v. unfold dc4; cbn [map]. repeat (apply Forall_cons; [cbn [fst]; lia|]). apply Forall_nil.
  - exists pl. split; [|split; [exact B|]].
    + rewrite F. unfold S0. now rewrite <- !app_assoc.
    + unfold fs in L. rewrite (flat_len _ 4) in L by reflexivity. lia.
Qed.
Lemma zero_color_width_d lm : log2_64_infinite lm -> color_width_d lm d0 = 255.
Proof.
  intros L. unfold color_width_d. replace (ddiv d1 (dmin d0 d1)) with (B754_infinity (prec:=53) (emax:=1024) false) by (vm_compute; reflexivity).
  unfold log2_64_infinite in L. rewrite L. reflexivity.
Qed.
Lemma black_file_d lm p s l name out : log2_64_infinite lm -> custom_ok_d s -> x_data s = XColor l d0 -> (len l <= 2 ^ 24)%N -> name_ok name ->
  saved_d lm false p [(with_custom_data_d d_empty [s], name)] = Ok out ->
  (forall sc, read_tmf_d sc true out = Panic) /\
  (forall sc, exists q, read_tmf_d sc false out =
     Ok [(with_custom_data_d d_empty [mk_dcseg (x_name s) (x_name_len s) (XColor (map (fun _ => (d0, d0, d0, d0)) l) q)], name)]).
Proof.
  intros LI C D L HN S. destruct (one_custom_file_d _ _ _ _ _ _ C HN S) as (b & EB & R).
  pose proof (name_header_d s C) as (N1 & N2 & N3 & N4 & N5 & N6). pose proof C as (C1 & C2 & C3 & _).
  unfold cseg_encode_d in EB. rewrite N1 in EB. cbn [app] in EB. rewrite N2, D in EB.
  pose proof (zero_color_width_d lm LI) as W.
  destruct (color_written_d lm l d0 (x_name_len s :: x_name s) b) as (pl & E & B & PL); auto; [rewrite W; lia|]. rewrite W in E. rewrite D in R. cbn [dcdata_kind] in R.
  unfold len in *.
  assert (LB : (N.of_nat (length b) <= 2 ^ 31)%N).
  { rewrite E. unfold color_header. rewrite !app_length, le_bytes_length. cbn [length]. lia. }
  assert (BB : bytes_ok b).
  { rewrite E. unfold color_header. rewrite !bytes_ok_app. repeat split; auto; [apply le_bytes_ok|]. constructor; [unfold byte_ok; lia|constructor]. }
  specialize (R LB BB).
  assert (RD : forall oc', cseg_read_d oc' new_ctx KColor b = let* one := shl64 oc' 1 255 in
     let mk v := ddiv (f64_of_N v) (f64_of_N (one - 1)) in
     let* l' := Ok (repeat (mk 0%N, mk 0%N, mk 0%N, mk 0%N) (length l)) in
     Ok (mk_dcseg (x_name s) (x_name_len s) (XColor l' (dmul (ddiv (f64_of_N 1) (f64_of_N one)) d099999)))).
  { intros oc'. unfold cseg_read_d. rewrite E. cbn [app]. rewrite N5. cbn [io map_err bind]. rewrite N6. cbn [io map_err bind].
    unfold read_custom_color_d, color_header. rewrite <- !app_assoc.
    rewrite read_u64_w by (apply len64; lia). cbn [io map_err bind app].
    change (N.of_nat 255) with 255%N. rewrite read_u8_cons by lia. cbn [io map_err bind].
    replace (color_alloc_ok_d (N.of_nat (length l))) with true
      by (symmetry; unfold color_alloc_ok_d; apply N.ltb_lt; lia).
    cbn [negb]. rewrite !Nat2N.id. change (N.to_nat 255) with 255.
    destruct (shl64 oc' 1 255) as [one| |]; try reflexivity. cbn [bind]. cbv zeta.
    pose proof (color_many_wide oc' (fun v => ddiv (f64_of_N v) (f64_of_N (one - 1))) (length l) (reader_new (slice pl)) 255 [] ltac:(lia)) as Q.
    cbv beta in Q. rewrite Q. cbn [bind app]. now rewrite N4. }
  split; intros sc; rewrite R, RD.
  - reflexivity.
  - assert (SH : shl64 (E:=ierr) false 1 255 = Ok (2 ^ 63)%N) by reflexivity. rewrite SH. cbn [bind]. cbv zeta. cbn [bind].
    eexists. f_equal. f_equal. f_equal. f_equal. f_equal. f_equal. f_equal.
    set (z := ddiv _ _). assert (Z : z = d0) by (unfold z; destruct (ddiv (f64_of_N 0) (f64_of_N (2 ^ 63 - 1))) as [[]| | |] eqn:Q; vm_compute in Q; try discriminate Q; reflexivity).
    rewrite Z. clear. induction l as [|a l IH]; [reflexivity|]. cbn [length repeat map]. now rewrite IH.
Qed.
