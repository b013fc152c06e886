(** Lemmas for C81: the shortest edge of a mesh with a degenerate triangle is zero, and
    the width computed from it is 255. *)
From Coq Require Import List NArith ZArith Arith Lia Bool Reals Lra ZifyN ZifyNat ZifyBool.
From Flocq Require Import Core IEEE754.BinarySingleNaN.
From Verif Require Import Base BitSpec BitLemmas UnalignedRW BitIOSpec UnalignedRW_proofs ReadExt ByteLemmas Triangles TriSpec
  Triangles_proofs OptTris OptTris_proofs Floats Floats_proofs Utilis Unify Vertices Uv Normals CustomData Mesh
  OptVertices OptVertices_proofs Tmf File Parse_proofs Codec_proofs FileSpec File_proofs
  NoPanic_proofs Load_proofs SaveSpec Merge_proofs Save_proofs Save2_proofs Agree_proofs Panic_proofs
  ValueSpec FineSpec Fine_proofs FloatReal_proofs VertexReal_proofs CustomReal_proofs NormalReal_proofs.
Import ListNotations.
Open Scope res_scope.

(** NaN or not below zero, and not the negative zero. *)
Definition nn (x : f32) : Prop := is_nan x = true \/ Bsign x = false.
Lemma overflow_sign (z : f32) s : B2SF z = @binary_overflow 24 128 mode_NE s -> s = false -> nn z.
Proof. intros H ->. right. destruct z; cbn in H; try discriminate; try (injection H as <-); reflexivity. Qed.
Lemma nn_square x : nn (fmul x x).
Proof.
  destruct x as [s|s| |s m e h].
  - right. destruct s; reflexivity.
  - right. destruct s; reflexivity.
  - left. reflexivity.
  - unfold fmul. set (y := B754_finite s m e h). pose proof (Bmult_correct 24 128 gt0_24 lt_24_128 mode_NE y y) as C.
    destruct (Rlt_bool _ _).
    + destruct C as (_ & F & S). right. rewrite S; [apply xorb_nilpotent|].
      assert (FF : is_finite (Bmult mode_NE y y) = true) by (rewrite F; reflexivity). destruct (Bmult mode_NE y y); try discriminate; reflexivity.
    + rewrite xorb_nilpotent in C. eapply overflow_sign; [exact C|reflexivity].
Qed.
Lemma nn_R x : nn x -> is_finite x = true -> (0 <= B2R x)%R.
Proof.
  intros [N|N] F; destruct x as [s|s| |s m e h]; try discriminate; cbn in *; try lra. subst s.
  apply F2R_ge_0. cbn. lia.
Qed.
Lemma nn_plus x y : nn x -> nn y -> nn (fadd x y).
Proof.
  intros X Y. destruct (is_finite x) eqn:FX; destruct (is_finite y) eqn:FY.
  - assert (SX : Bsign x = false) by (destruct X; [destruct x; discriminate|assumption]).
    assert (SY : Bsign y = false) by (destruct Y; [destruct y; discriminate|assumption]).
    pose proof (nn_R x X FX). pose proof (nn_R y Y FY).
    pose proof (Bplus_correct 24 128 gt0_24 lt_24_128 mode_NE x y FX FY) as C. unfold fadd.
    destruct (Rlt_bool _ _).
    + destruct C as (_ & F & S). right. rewrite S.
      destruct (Rcompare_spec (B2R x + B2R y) 0); try lra; rewrite ?SX; reflexivity.
    + destruct C as [C _]. eapply overflow_sign; eauto.
  - destruct y as [s|[]| |s m e h]; try discriminate; destruct x as [s'|[]| |s' m' e' h']; try discriminate;
      try (left; reflexivity); try (right; reflexivity); destruct Y as [Y|Y]; discriminate.
  - destruct x as [s|[]| |s m e h]; try discriminate; destruct y as [s'|[]| |s' m' e' h']; try discriminate;
      try (left; reflexivity); try (right; reflexivity); destruct X as [X|X]; discriminate.
  - destruct x as [s|[]| |s m e h]; try discriminate; destruct y as [s'|[]| |s' m' e' h']; try discriminate;
      try (left; reflexivity); try (right; reflexivity); destruct X as [X|X]; try discriminate; destruct Y as [Y|Y]; discriminate.
Qed.
Lemma nn_sqrt x : nn x -> nn (fsqrt x).
Proof.
  intros X. pose proof (Bsqrt_correct 24 128 gt0_24 lt_24_128 mode_NE x) as (_ & _ & S). fold (fsqrt x) in S.
  destruct (is_nan (fsqrt x)) eqn:N; [now left|]. right. rewrite S by first [exact N|reflexivity].
  destruct X as [X|X]; [|exact X]. destruct x; try discriminate.
Qed.
Lemma nn_distance a b : nn (distance a b).
Proof. unfold distance. apply nn_sqrt, nn_plus; [apply nn_plus|]; apply nn_square. Qed.

Lemma sub_same x y : finite x -> finite y -> val x = val y -> exists s, fsub x y = B754_zero s.
Proof.
  intros X Y E. pose proof (Bminus_correct 24 128 gt0_24 lt_24_128 mode_NE x y X Y) as C. fold (fsub x y) in C.
  unfold val in E. replace (B2R x - B2R y)%R with 0%R in C by lra. rewrite round_0, Rabs_R0, Rlt_bool_true in C by (try apply bpow_gt_0; auto with typeclass_instances).
  destruct C as (R & F & _). destruct (fsub x y) as [s|s| |s m e h]; try discriminate; [now exists s|].
  exfalso. cbn in R. apply eq_0_F2R in R. destruct s; discriminate.
Qed.
Lemma distance_same a b : same_place a b -> distance a b = B754_zero false.
Proof.
  intros (A1 & A2 & A3 & B1 & B2 & B3 & E1 & E2 & E3). unfold distance.
  destruct (sub_same _ _ A1 B1 E1) as [s1 ->]. destruct (sub_same _ _ A2 B2 E2) as [s2 ->]. destruct (sub_same _ _ A3 B3 E3) as [s3 ->].
  destruct s1, s2, s3; reflexivity.
Qed.
Lemma nn_min x y : nn x -> nn y -> nn (fmin x y).
Proof. intros X Y. unfold fmin. destruct (is_nan x); auto. destruct (is_nan y); auto. destruct (flt y x); auto. Qed.
Notation pz := (B754_zero false).
Lemma min_zero x y : nn x -> nn y -> x = pz \/ y = pz -> fmin x y = pz.
Proof.
  intros X Y [-> | ->].
  - unfold fmin. cbn [is_nan]. destruct (is_nan y) eqn:N; [reflexivity|].
    destruct Y as [Y|Y]; [congruence|]. destruct y as [s|s| |s m e h]; try discriminate; cbn in Y; subst s; reflexivity.
  - unfold fmin. destruct (is_nan x) eqn:N; [reflexivity|]. cbn [is_nan].
    destruct X as [X|X]; [congruence|]. destruct x as [s|s| |s m e h]; try discriminate; cbn in X; subst s; reflexivity.
Qed.
Lemma shortest_nn v : forall k t s r, length t <= k -> nn s -> shortest_loop v t s = Ok r -> nn r /\ (s = pz -> r = pz).
Proof.
  induction k as [|k IH]; intros [|a [|b [|c t]]] s r L N E; cbn [length] in L; try lia;
    try (cbn [shortest_loop] in E; apply Ok_inj in E; subst r; auto; fail).
  cbn [shortest_loop] in E. apply bind_ok in E as (va & _ & E). apply bind_ok in E as (vb & _ & E). apply bind_ok in E as (vc & _ & E). cbv zeta in E.
  assert (M : nn (fmin (distance va vb) (fmin (distance vb vc) (distance vc va)))) by (repeat apply nn_min; apply nn_distance).
  destruct (IH t _ r ltac:(lia) (nn_min _ _ N M) E) as [A B]. split; [exact A|]. intros ->. apply B. apply min_zero; auto.
Qed.
Lemma shortest_degenerate v pa pb pc a b c : corner v a pa -> corner v b pb -> corner v c pc ->
  same_place pa pb \/ same_place pb pc \/ same_place pc pa ->
  forall k t s r, length t <= k -> nn s -> In (a, b, c) (triples t) -> shortest_loop v t s = Ok r -> r = pz.
Proof.
  intros A B C D. induction k as [|k IH]; intros [|a' [|b' [|c' t]]] s r L N I E; cbn [length] in L; try lia; try (destruct I; fail).
  cbn [shortest_loop] in E. apply bind_ok in E as (va & Ea & E). apply bind_ok in E as (vb & Eb & E). apply bind_ok in E as (vc & Ec & E). cbv zeta in E.
  assert (M : nn (fmin (distance va vb) (fmin (distance vb vc) (distance vc va)))) by (repeat apply nn_min; apply nn_distance).
  cbn [triples] in I. destruct I as [I|I].
  - injection I as -> -> ->. unfold index in *. rewrite !get_nth in *. unfold corner in *. rewrite A in Ea. rewrite B in Eb. rewrite C in Ec.
    apply Ok_inj in Ea, Eb, Ec. subst va vb vc.
    apply (shortest_nn v (length t) t _ r (le_n _) (nn_min _ _ N M) E). apply min_zero; auto. right.
    destruct D as [D|[D|D]]; apply distance_same in D; rewrite ?D in *.
    + apply min_zero; auto; [right; reflexivity|apply nn_min; apply nn_distance].
    + apply min_zero; [apply nn_distance|apply nn_min; [right; reflexivity|apply nn_distance]|]. right.
      apply min_zero; [right; reflexivity|apply nn_distance|now left].
    + apply min_zero; [apply nn_distance|apply nn_min; [apply nn_distance|right; reflexivity]|]. right.
      apply min_zero; [apply nn_distance|right; reflexivity|now right].
  - exact (IH t _ r ltac:(lia) (nn_min _ _ N M) I E).
Qed.
Lemma degenerate_edge m edge : degenerate m -> calc_shortest_edge (vertex_triangles m) (vertices m) = Ok edge -> edge = pz.
Proof.
  intros (v & t & a & b & c & pa & pb & pc & V & T & I & A & B & C & D) E. rewrite V, T in E. unfold calc_shortest_edge in E.
  destruct t as [|i t]; [destruct I|]. destruct (shortest_loop v (i :: t) f32_inf) as [r| |] eqn:R; try discriminate. cbn [bind] in E.
  destruct (is_finite r); try discriminate. apply Ok_inj in E. subst r.
  apply (shortest_degenerate v pa pb pc a b c A B C D (length (i :: t)) (i :: t) f32_inf edge (le_n _)); auto. right. reflexivity.
Qed.

(** The width. *)
Lemma extent_pos x : Bsign (fmax x min_extent) = false /\ is_nan (fmax x min_extent) = false /\ (is_finite (fmax x min_extent) = true -> 0 < B2R (fmax x min_extent))%R.
Proof.
  assert (M : exists m e h, min_extent = B754_finite false m e h).
  { assert (A : is_finite_strict min_extent = true) by (vm_compute; reflexivity).
    assert (B : Bsign min_extent = false) by (vm_compute; reflexivity).
    destruct min_extent as [s|s| |s m e h]; try discriminate. cbn in B. subst s. eauto. }
  destruct M as (m & e & h & ->).
  assert (P : forall m e h, Bsign (B754_finite (prec:=24) (emax:=128) false m e h) = false /\ is_nan (B754_finite (prec:=24) (emax:=128) false m e h) = false /\
     (is_finite (B754_finite (prec:=24) (emax:=128) false m e h) = true -> 0 < B2R (B754_finite (prec:=24) (emax:=128) false m e h))%R).
  { intros. split; [reflexivity|]. split; [reflexivity|]. intros _. apply F2R_gt_0. reflexivity. }
  unfold fmax. destruct x as [s|[]| |[] m' e' h']; cbn [is_nan]; try apply P; try (destruct (flt _ _); apply P);
    try (split; [reflexivity|split; [reflexivity|discriminate]]).
Qed.
Lemma width_zero_edge lm s prec : log2_infinite lm -> finite prec -> (0 < val prec)%R ->
  Bsign s = false -> is_nan s = false -> (is_finite s = true -> 0 < B2R s)%R -> axis_precision lm pz s prec = 255.
Proof.
  intros L F P S N Z. unfold axis_precision.
  assert (D : fdiv pz s = pz).
  { destruct s as [s|s| |s m e h]; try discriminate; cbn in S; subst s; try reflexivity. cbn in Z. specialize (Z eq_refl). lra. }
  rewrite D.
  assert (X : fmul pz prec = pz).
  { destruct prec as [s'|s'| |s' m e h]; try discriminate; cbn in P; try lra. destruct s'; [|reflexivity].
    exfalso. assert (H : (F2R (Float radix2 (cond_Zopp true (Z.pos m)) e) < 0)%R) by (apply F2R_lt_0; reflexivity). lra. }
  rewrite X. replace (fdiv f1 pz) with (B754_infinity (prec:=24) (emax:=128) false) by (vm_compute; reflexivity).
  unfold log2_infinite in L. rewrite L. reflexivity.
Qed.

(** ** Meshes *)
Lemma vertex_pieces lm oc m v segs : vertices m = Some v -> v <> [] -> optimize_all lm oc (merge_segments (tmf_segs m)) = Ok segs ->
  exists q, In (DVertex q) segs /\ q <> [].
Proof.
  intros V NV E2.
  assert (VM : In (DVertex v) (merge_segments (tmf_segs m))).
  { apply merge_loop_vertex; [now rewrite rev_length|]. apply -> in_rev. unfold tmf_segs. rewrite V. left. reflexivity. }
  destruct (optimize_all_each _ _ _ _ _ E2 VM) as (x & X). pose proof (optimize_all_in _ _ _ _ _ _ E2 VM X) as IN.
  cbn [optimize] in X. apply bind_ok in X as (y & Y & X).
  destruct (opt_vertices_total lm oc v) as [P|(sg & P & _ & NE & FN)]; [rewrite P in Y; discriminate|].
  rewrite P in Y. cbn [map_err] in Y. apply Ok_inj in Y. subst y. apply Ok_inj in X. subst x.
  destruct sg as [|q sg]; [congruence|]. specialize (FN NV). apply Forall_cons_iff in FN as [FN _].
  exists q. split; [|exact FN]. apply IN. left. reflexivity.
Qed.
(** Every vertex array is given 255 bits an axis. *)
Definition wide (lm : libm) (prec edge : f32) : Prop :=
  forall x, axis_precision lm edge (fmax x min_extent) prec = 255.
Lemma wide_degenerate lm prec : log2_infinite lm -> finite prec -> (0 < val prec)%R -> wide lm prec pz.
Proof. intros L F P x. destruct (extent_pos x) as (A & B & C). now apply width_zero_edge. Qed.
Lemma wide_checked lm q prec edge : wide lm prec edge -> forall b, save_tmf_vertices lm true q prec edge [] <> Ok b.
Proof.
  intros W b. unfold save_tmf_vertices. destruct (bounding_box q) as [bb| |]; try discriminate. cbn [bind]. cbv zeta.
  rewrite !W. replace (mask_f32 (E:=ioerr) true 255) with (@Panic ioerr f32) by reflexivity. discriminate.
Qed.
Lemma wide_refused lm lm' oc' p q edge e : wide lm (vertex_precision p) edge -> (len q <= 2 ^ 24)%N ->
  encode lm false p edge (DVertex q) = Ok e -> refused lm' oc' e.
Proof.
  intros W L E. unfold encode in E. destruct (save_tmf_vertices lm false q (vertex_precision p) edge []) as [b| |] eqn:S; try discriminate.
  injection E as <-. destruct (vertices_release _ _ _ _ _ S) as (vp & _ & _ & _ & V & _).
  destruct (vertices_refused _ _ _ _ _ _ V S L) as (w & WW & R).
  - unfold vertex_params in V. destruct (bounding_box (E:=ioerr) q); try discriminate. injection V as <-. cbn [vp_px]. rewrite W. lia.
  - exists w. split; [exact WW|]. unfold decode. cbn [e_type e_data]. now rewrite R.
Qed.
Definition vshort (d : dseg) : Prop :=
  match d with DVertex l => (len l <= 2 ^ 24)%N | DShared k _ => (0 < k < 8)%N | _ => True end.
Lemma wide_unloadable lm lm' oc' p m v : vertices m = Some v -> v <> [] -> (len v <= 2 ^ 24)%N ->
  (forall edge, calc_shortest_edge (vertex_triangles m) (vertices m) = Ok edge -> wide lm (vertex_precision p) edge) ->
  unloadable lm lm' oc' p m.
Proof.
  intros V NV LV W edge E segs S. specialize (W edge E). destruct (vertex_pieces _ _ _ _ _ V NV S) as (q & IN & _).
  apply Exists_exists. exists (DVertex q). split; [exact IN|]. intros e X. apply (wide_refused lm lm' oc' p q edge e W); [|exact X].
  assert (F : Forall vshort segs).
  { apply (optimize_all_all vshort lm false (merge_segments (tmf_segs m)) segs); auto.
    - unfold sub_ok. cbn [vshort]. split; [|tauto]. intros a b H. unfold len in *. rewrite app_length in H. lia.
    - assert (G : Forall (fun d => vshort d /\ is_something d = true) (merge_segments (tmf_segs m))).
      { apply merge_loop_keeps; try (cbn [vshort]; auto; fail). apply Forall_rev. unfold tmf_segs. rewrite V, !Forall_app.
        assert (O : forall A (f : A -> dseg) (o : option A), (forall x, vshort (f x)) -> Forall vshort (opt_seg f o)).
        { intros A f [x|] HH; constructor; [apply HH|constructor]. }
        split; [constructor; [exact LV|constructor]|]. do 7 (split; [apply O; intros; exact I|]). rewrite Forall_map. apply Forall_forall. intros; exact I. }
      eapply Forall_impl; [|exact G]. intros d [H _]. exact H. }
  rewrite Forall_forall in F. exact (F _ IN).
Qed.
Lemma wide_panics lm p l m name v :
  Forall (fun mn => holdable (fst mn)) l -> In (m, name) l -> vertices m = Some v -> v <> [] ->
  (forall edge, calc_shortest_edge (vertex_triangles m) (vertices m) = Ok edge -> wide lm (vertex_precision p) edge) ->
  saved lm true p l = Panic.
Proof.
  intros H I V NV W. apply saved_panic; auto. intros out S.
  destruct (saved_mesh _ _ _ _ _ _ _ S I) as (o & T). apply mesh_inv in T as (edge & segs & es & E1 & E2 & E3 & _).
  specialize (W edge E1). destruct (vertex_pieces _ _ _ _ _ V NV E2) as (q & IN & _).
  clear -E3 IN W. induction E3 as [|s e segs es X _ IH]; [destruct IN|]. destruct IN as [-> | IN]; auto.
  unfold encode in X. destruct (save_tmf_vertices lm true q (vertex_precision p) edge []) as [b| |] eqn:S; try discriminate.
  now apply (wide_checked lm q _ edge W b).
Qed.

(** ** A precision of zero *)
Definition sm (x : f32) : Prop := is_finite x = true -> (B2R x <= bpow radix2 64)%R.
Lemma sm_sqrt z : sm (fsqrt z).
Proof.
  intros F. destruct (is_finite z) eqn:FZ.
  - destruct (Bsqrt_correct 24 128 gt0_24 lt_24_128 mode_NE z) as (C1 & _ & _). fold (fsqrt z) in C1. rewrite C1. cbn [round_mode].
    apply Rle_trans with (1 := Rle_abs _). apply (rnd32_abs_le_bpow (sqrt (B2R z)) 64); [lia|].
    rewrite Rabs_pos_eq by apply sqrt_ge_0. replace (bpow radix2 64) with (sqrt (bpow radix2 128)).
    + apply sqrt_le_1_alt. apply Rle_trans with (1 := Rle_abs _). apply Rlt_le, abs_B2R_lt_emax.
    + change 128%Z with (64 + 64)%Z. rewrite bpow_plus. apply sqrt_square, bpow_ge_0.
  - destruct z as [s|[]| |s m e h]; try discriminate.
Qed.
Lemma sm_min x y : sm x -> sm y -> sm (fmin x y).
Proof. intros X Y. unfold fmin. destruct (is_nan x); auto. destruct (is_nan y); auto. destruct (flt y x); auto. Qed.
Lemma shortest_sm v : forall k t s r, length t <= k -> sm s -> shortest_loop v t s = Ok r -> sm r.
Proof.
  induction k as [|k IH]; intros [|a [|b [|c t]]] s r L N E; cbn [length] in L; try lia;
    try (cbn [shortest_loop] in E; apply Ok_inj in E; subst r; auto; fail).
  cbn [shortest_loop] in E. apply bind_ok in E as (va & _ & E). apply bind_ok in E as (vb & _ & E). apply bind_ok in E as (vc & _ & E). cbv zeta in E.
  apply (IH t _ r ltac:(lia)) in E; [exact E|]. repeat apply sm_min; auto; apply sm_sqrt.
Qed.
Lemma edge_range tris vs e : calc_shortest_edge tris vs = Ok e -> is_finite e = true /\ Bsign e = false /\ (0 <= B2R e <= bpow radix2 64)%R.
Proof.
  intros E.
  assert (D : is_finite default_edge = true /\ Bsign default_edge = false /\ (0 <= B2R default_edge <= bpow radix2 64)%R).
  { split; [vm_compute; reflexivity|]. assert (S : Bsign default_edge = false) by (vm_compute; reflexivity). split; [exact S|].
    split; [apply nn_R; [now right|vm_compute; reflexivity]|].
    destruct (flit_R 1 10) as [A _]; [lia|lia|]. fold default_edge in A. unfold R32 in A. rewrite A.
    apply Rle_trans with (1 := Rle_abs _). apply rnd32_abs_le_bpow; [lia|]. rewrite Rabs_pos_eq by lra.
    apply Rle_trans with (bpow radix2 0); [cbn; lra|apply bpow_le; lia]. }
  unfold calc_shortest_edge in E. destruct tris as [[|i t]|]; try (apply Ok_inj in E; subst e; exact D).
  destruct vs as [v|]; [|apply Ok_inj in E; subst e; exact D].
  destruct (shortest_loop v (i :: t) f32_inf) as [r| |] eqn:R; try discriminate. cbn [bind] in E.
  destruct (is_finite r) eqn:F; try discriminate. apply Ok_inj in E. subst r.
  assert (N : nn e) by (apply (shortest_nn v _ _ f32_inf e (le_n _)) in R; [apply R|right; reflexivity]).
  split; [exact F|]. split; [destruct N as [N|N]; [destruct e; discriminate|exact N]|].
  split; [now apply nn_R|]. apply (shortest_sm v _ _ f32_inf e (le_n _)) in R; [exact (R F)|discriminate].
Qed.
Lemma wide_zero lm tris vs e : log2_infinite lm -> calc_shortest_edge tris vs = Ok e -> wide lm f0 e.
Proof.
  intros L E x. destruct (edge_range _ _ _ E) as (F & S & B). destruct (extent_pos x) as (A1 & A2 & A3).
  unfold axis_precision.
  assert (G : is_finite (fdiv e (fmax x min_extent)) = true /\ Bsign (fdiv e (fmax x min_extent)) = false).
  { destruct (is_finite (fmax x min_extent)) eqn:FM.
    - specialize (A3 eq_refl).
      assert (ME : (/ bpow radix2 20 <= B2R (fmax x min_extent))%R).
      { destruct min_extent_R as [M1 M2]. unfold R32 in M2.
        assert (MM : (/ bpow radix2 20 <= B2R min_extent)%R).
        { rewrite bpow_powerRZ. cbn [powerRZ]. replace (IZR radix2) with 2%R by reflexivity. simpl pow. lra. }
        unfold fmax in *. destruct (is_nan x) eqn:NX; [exact MM|]. replace (is_nan min_extent) with false in * by (vm_compute; reflexivity).
        destruct (flt x min_extent) eqn:LT; [exact MM|].
        unfold flt in LT. rewrite Bltb_correct in LT by auto. destruct (Rlt_bool_spec (B2R x) (B2R min_extent)); [discriminate|lra]. }
      assert (Q : (Rabs (B2R e / B2R (fmax x min_extent)) <= bpow radix2 84)%R).
      { rewrite Rabs_pos_eq by (apply Rmult_le_pos; [lra|apply Rlt_le, Rinv_0_lt_compat; lra]).
        change 84%Z with (64 + 20)%Z. rewrite bpow_plus. apply Rmult_le_compat; try lra; [apply Rlt_le, Rinv_0_lt_compat; lra|].
        rewrite <- (Rinv_inv (bpow radix2 20)). apply Rinv_le_contravar; [apply Rinv_0_lt_compat, bpow_gt_0|exact ME]. }
      pose proof (Bdiv_correct 24 128 gt0_24 lt_24_128 mode_NE e (fmax x min_extent) ltac:(lra)) as C.
      fold (fdiv e (fmax x min_extent)) in C. cbn [round_mode] in C.
      rewrite (no_overflow32 (B2R e / B2R (fmax x min_extent))) in C.
      + destruct C as (_ & C1 & C2). rewrite F in C1. split; [exact C1|]. rewrite C2, S, A1; [reflexivity|].
        destruct (fdiv e (fmax x min_extent)); try discriminate; reflexivity.
      + apply Rle_trans with (1 := Q). apply bpow_le. lia.
    - destruct (fmax x min_extent) as [s|s| |s m0 e0 h]; try discriminate. cbn in A1. subst s.
      destruct e as [s|s| |s m0 e0 h]; try discriminate; cbn in S; subst s; split; reflexivity. }
  destruct G as [G1 G2].
  assert (X : fmul (fdiv e (fmax x min_extent)) f0 = f0).
  { destruct (fdiv e (fmax x min_extent)) as [s|s| |s m0 e0 h]; try discriminate; cbn in G2; subst s; reflexivity. }
  rewrite X. replace (fdiv f1 f0) with (B754_infinity (prec:=24) (emax:=128) false) by (vm_compute; reflexivity).
  unfold log2_infinite in L. rewrite L. reflexivity.
Qed.

Lemma span_infinite l a b : Forall finite l -> In a l -> In b l -> (val a < val b)%R ->
  fdiv (fsub (fst (float_range l)) (snd (float_range l))) f0 = B754_infinity false.
Proof.
  intros F A B LT. assert (NE : l <> []) by (intros ->; destruct A).
  destruct (range_R l F NE) as (Fx & Fn & [_ G] & [_ L]).
  set (mx := fst (float_range l)) in *. set (mn := snd (float_range l)) in *.
  assert (H : (R32 mn < R32 mx)%R).
  { specialize (G _ (in_map val _ _ B)). specialize (L _ (in_map val _ _ A)). cbv beta in *. lra. }
  pose proof (Bminus_correct 24 128 gt0_24 lt_24_128 mode_NE mx mn Fx Fn) as C. fold (fsub mx mn) in C.
  pose proof (rnd32_diff mx mn) as D. unfold R32 in *.
  destruct (Rlt_bool _ _).
  - destruct C as (C1 & C2 & _). cbn [round_mode] in C1. fold (rnd32 (B2R mx - B2R mn)) in C1. rewrite <- C1 in D.
    assert (P : (0 < B2R (fsub mx mn))%R).
    { pose proof u32_small. rewrite (Rabs_pos_eq (B2R mx - B2R mn)) in D by lra. apply Rabs_le_iff in D.
      assert (u32 * (B2R mx - B2R mn) <= 0.5 * (B2R mx - B2R mn))%R by (apply Rmult_le_compat_r; lra). lra. }
    destruct (fsub mx mn) as [s|s| |s m e h]; try discriminate; cbn in P; try lra.
    destruct s; [|reflexivity]. exfalso. assert (X : (F2R (Float radix2 (cond_Zopp true (Z.pos m)) e) < 0)%R) by (apply F2R_lt_0; reflexivity). lra.
  - destruct C as [C S].
    assert (SX : Bsign mx = false).
    { destruct (Bsign mx) eqn:SX; [|reflexivity]. exfalso. symmetry in S. apply negb_true_iff in S.
      assert (nn mn) by now right. pose proof (nn_R mn H0 Fn).
      assert (B2R mx <= 0)%R; [|lra].
      destruct mx as [s|s| |s m e h]; try discriminate; cbn in SX |- *; [lra|subst s]. apply F2R_le_0. cbn. lia. }
    rewrite SX in C. destruct (fsub mx mn) as [s|s| |s m e h]; cbn in C; try discriminate. injection C as ->. reflexivity.
Qed.
Lemma zero_float_width lm l a b : log2_infinite lm -> Forall finite l -> In a l -> In b l -> (val a < val b)%R -> float_width lm l f0 = 255.
Proof.
  intros L F A B LT. unfold float_width. rewrite (span_infinite l a b F A B LT). unfold log2_infinite in L. rewrite L. reflexivity.
Qed.
Lemma custom_kept lm oc m s segs : In s (custom_data m) -> optimize_all lm oc (merge_segments (tmf_segs m)) = Ok segs -> In (DCustom s) segs.
Proof.
  intros I E. apply (optimize_all_in lm oc (DCustom s) [DCustom s] _ _ E); [|reflexivity|left; reflexivity].
  rewrite merge_segments_split. apply in_or_app. left. apply in_map. now apply -> in_rev.
Qed.
Lemma float_unloadable lm lm' oc' p m s l q : In s (custom_data m) -> c_data s = CFloat l q -> custom_ok s -> (len l <= 2 ^ 25)%N ->
  float_width lm l q = 255 -> unloadable lm lm' oc' p m.
Proof.
  intros I D C L W edge E segs S. apply Exists_exists. exists (DCustom s). split; [eapply custom_kept; eauto|].
  intros e X. unfold encode in X. destruct (cseg_encode lm false s []) as [b| |] eqn:EB; try discriminate. injection X as <-.
  pose proof (name_header s C) as (N1 & N2 & N3 & N4 & N5 & N6).
  unfold cseg_encode in EB. rewrite N1 in EB. cbn [app] in EB. rewrite N2, D in EB.
  destruct (float_written lm l q _ b N3 EB) as (pl & -> & _). rewrite W. exists 255%N. split; [lia|].
  unfold decode. rewrite D. cbn [e_type e_data cdata_kind]. unfold cseg_read. cbn [app].
  rewrite N5. cbn [io map_err bind]. rewrite N6. cbn [io map_err bind]. rewrite read_float_wide by (unfold len in *; lia). reflexivity.
Qed.
Lemma float_panics lm p l m name s fs q : Forall (fun mn => holdable (fst mn)) l -> In (m, name) l -> In s (custom_data m) ->
  c_data s = CFloat fs q -> float_width lm fs q = 255 -> saved lm true p l = Panic.
Proof.
  intros H I Is D W. apply saved_panic; auto. intros out S.
  destruct (saved_mesh _ _ _ _ _ _ _ S I) as (o & T). apply mesh_inv in T as (edge & segs & es & _ & E2 & E3 & _).
  pose proof (custom_kept _ _ _ _ _ Is E2) as IN.
  clear -E3 IN W D. induction E3 as [|x e segs es X _ IH]; [destruct IN|]. destruct IN as [-> | IN]; auto.
  unfold encode, cseg_encode in X. rewrite D in X. unfold float_width in W. cbn [cdata_write] in X.
  destruct (float_range fs) as [mx mn]. cbn [fst snd] in W. cbv zeta in X. rewrite W in X.
  destruct (_ <? _)%N in X; discriminate X.
Qed.

(** ** Colours of precision zero *)
Lemma one_custom_file lm oc p s name out : custom_ok s -> name_ok name ->
  saved lm oc p [(with_custom_data empty [s], name)] = Ok out ->
  exists b, cseg_encode lm oc s [] = Ok b /\
    ((len b <= 2 ^ 31)%N -> bytes_ok b -> forall lm' oc',
     read_tmf lm' oc' out =
       let* c := cseg_read oc' new_ctx (cdata_kind (c_data s)) b in Ok [(with_custom_data empty [c], name)]).
Proof.
  intros C HN S. apply saved_inv in S as (outs & -> & F).
  inversion F as [|? o ? os T F']; subst. inversion F'; subst. clear F F'. cbn [fst snd] in T.
  apply mesh_inv in T as (edge & segs & es & _ & E2 & E3 & ->).
  assert (SG : segs = [DCustom s]).
  { rewrite merge_segments_split in E2. cbn [with_custom_data empty custom_data rev app map] in E2.
    change (merge_segments _) with (@nil dseg) in E2. cbn [app optimize_all optimize bind map_err] in E2. apply Ok_inj in E2. now subst segs. }
  subst segs. inversion E3 as [|? e ? ees EE E3']; subst. inversion E3'; subst. clear E3 E3'.
  unfold encode in EE. destruct (cseg_encode lm oc s []) as [b| |] eqn:EB; try discriminate. cbn [bind] in EE. apply Ok_inj in EE. subst e.
  exists b. split; [reflexivity|]. intros LB BB lm' oc'.
  set (e := mk_eseg (SCustom (cdata_kind (c_data s))) CNone b).
  set (raws := [(name, [raw_of e])]).
  assert (FO : file_ok raws).
  { split; [reflexivity|]. apply Forall_cons; [|apply Forall_nil]. split; [exact HN|]. cbn [snd]. split; [reflexivity|].
    apply Forall_cons; [|apply Forall_nil]. unfold frameable, raw_of. cbn [r_kind r_comp r_payload e_data e_type e_comp e].
    split; [apply section_code_ok|]. split; [apply compression_code_ok|exact LB]. }
  match goal with |- read_tmf _ _ ?x = _ => assert (EQ : x = file_bytes raws) end.
  { unfold file_bytes, raws. cbn [map concat length]. unfold mesh_bytes. cbn [fst snd map concat]. rewrite !lend_le. unfold len. cbn [length].
    rewrite !app_nil_r. do 5 f_equal. now apply segment_layout. }
  rewrite EQ. unfold read_tmf. rewrite <- (app_nil_r (file_bytes raws)), import_new by exact FO.
  unfold raws. cbn [map collect]. unfold load_raw. cbn [fst snd map]. rewrite eseg_of_raw. unfold decode. cbn [e e_type e_data e_comp].
  destruct (cseg_read oc' new_ctx (cdata_kind (c_data s)) b) as [c|x|]; reflexivity.
Qed.
Lemma color_loop_wide oc n : forall r w mk acc, 64 <= w ->
  read_color_loop oc n r w mk acc = Ok (acc ++ repeat (mk 0%N, mk 0%N, mk 0%N, mk 0%N) n).
Proof.
  induction n as [|n IH]; intros r w mk acc W; cbn [read_color_loop repeat]; [now rewrite app_nil_r|].
  assert (R : read2_unaligned oc r w = Ok ((0%N, 0%N), r)).
  { unfold read2_unaligned, read_unaligned. replace (w =? 0) with false by (symmetry; apply Nat.eqb_neq; lia).
    replace (32 <? w) with true by (symmetry; apply Nat.ltb_lt; lia). replace (64 <=? w) with true by (symmetry; apply Nat.leb_le; lia). reflexivity. }
  rewrite R. cbn [io map_err bind]. rewrite R. cbn [io map_err bind]. rewrite IH by exact W. cbn [fst snd]. now rewrite <- app_assoc.
Qed.
Lemma color_written lm l p hd b : color_width lm p <= 255 -> bytes_ok hd -> cdata_write lm false (CColor l p) hd = Ok b ->
  exists pl, b = hd ++ color_header (N.of_nat (length l)) (color_width lm p) ++ pl /\ bytes_ok pl /\ 8 * length pl <= 255 * (4 * length l) + 8.
Proof.
  intros WL Hs S. unfold cdata_write in S. unfold color_header, color_width in *. cbv zeta in S.
  match type of S with context [mask_f32 false ?a] => destruct (mask_release (E:=ioerr) a) as [mul M]; rewrite M in S end. cbn [bind] in S.
  match type of S with context [write_fields false (writer_new ?a) ?f] => set (S0 := a) in *; set (fs := f) in *;
    destruct (write_fields false (writer_new S0) fs) as [w| |] eqn:W; try discriminate S end.
  cbn [bind] in S. apply Ok_inj in S. subst b.
  destruct (finish_len false S0 fs w 255) as (pl & F & B & L); auto.
  - unfold S0. rewrite !bytes_ok_app. split; auto. split; [apply le_bytes_ok|]. apply small_byte. lia.
  - unfold fs. apply flat_Forall. intros v. cbn [c4 map]. repeat (apply Forall_cons; [cbn [fst]; lia|]). apply Forall_nil.
  - exists pl. split; [|split; [exact B|]].
    + rewrite F. unfold S0. now rewrite <- !app_assoc.
    + unfold fs in L. rewrite (flat_len _ 4) in L by reflexivity. lia.
Qed.
Lemma zero_color_width lm : log2_infinite lm -> color_width lm f0 = 255.
Proof.
  intros L. unfold color_width. replace (fdiv f1 (fmin f0 f1)) with (B754_infinity (prec:=24) (emax:=128) false) by (vm_compute; reflexivity).
  unfold log2_infinite in L. rewrite L. reflexivity.
Qed.
Lemma black_file lm p s l name out : log2_infinite lm -> custom_ok s -> c_data s = CColor l f0 -> (len l <= 2 ^ 24)%N -> name_ok name ->
  saved lm false p [(with_custom_data empty [s], name)] = Ok out ->
  (forall lm', read_tmf lm' true out = Panic) /\
  (forall lm', exists q, read_tmf lm' false out =
     Ok [(with_custom_data empty [mk_cseg (c_name s) (c_name_len s) (CColor (map (fun _ => (f0, f0, f0, f0)) l) q)], name)]).
Proof.
  intros LI C D L HN S. destruct (one_custom_file _ _ _ _ _ _ C HN S) as (b & EB & R).
  pose proof (name_header s C) as (N1 & N2 & N3 & N4 & N5 & N6). pose proof C as (C1 & C2 & C3 & _).
  unfold cseg_encode in EB. rewrite N1 in EB. cbn [app] in EB. rewrite N2, D in EB.
  pose proof (zero_color_width lm LI) as W.
  destruct (color_written lm l f0 (c_name_len s :: c_name s) b) as (pl & E & B & PL); auto; [rewrite W; lia|]. rewrite W in E. rewrite D in R. cbn [cdata_kind] in R.
  unfold len in *.
  assert (LB : (N.of_nat (length b) <= 2 ^ 31)%N).
  { rewrite E. unfold color_header. rewrite !app_length, le_bytes_length. cbn [length]. lia. }
  assert (BB : bytes_ok b).
  { rewrite E. unfold color_header. rewrite !bytes_ok_app. repeat split; auto; [apply le_bytes_ok|]. constructor; [unfold byte_ok; lia|constructor]. }
  specialize (R LB BB).
  assert (RD : forall oc', cseg_read oc' new_ctx KColor b = let* one := shl64 oc' 1 255 in
     let* l' := read_color_loop oc' (length l) (reader_new (slice pl)) 255 (fun v => f32_of_f64 (ddiv (f64_of_N v) (f64_of_N (one - 1)))) [] in
     Ok (new_raw (CColor l' (fmul (f32_of_f64 (ddiv (f64_of_N 1) (f64_of_N one))) f099999)) (c_name s) (c_name_len s))).
  { intros oc'. unfold cseg_read. rewrite E. cbn [app]. rewrite N5. cbn [io map_err bind]. rewrite N6. cbn [io map_err bind].
    unfold read_custom_color, color_header. rewrite <- !app_assoc.
    rewrite read_u64_w by (apply len64; lia). cbn [io map_err bind app].
    change (N.of_nat 255) with 255%N. rewrite read_u8_cons by lia. cbn [io map_err bind].
    replace (color_alloc_ok (N.of_nat (length l))) with true
      by (symmetry; unfold color_alloc_ok; apply N.ltb_lt; lia).
    cbn [negb]. rewrite !Nat2N.id. change (N.to_nat 255) with 255.
    destruct (shl64 oc' 1 255) as [one| |]; try reflexivity. cbn [bind].
    destruct (read_color_loop _ _ _ _ _ _); reflexivity. }
  split; intros lm'; rewrite R, RD.
  - reflexivity.
  - assert (SH : shl64 (E:=ierr) false 1 255 = Ok (2 ^ 63)%N) by reflexivity. rewrite SH. cbn [bind].
    rewrite color_loop_wide by lia. cbn [bind app]. eexists. f_equal. f_equal. f_equal. f_equal. f_equal.
    rewrite N4. f_equal. f_equal.
    set (z := f32_of_f64 _). assert (Z : z = f0) by (unfold z; destruct (f32_of_f64 (ddiv (f64_of_N 0) (f64_of_N (2 ^ 63 - 1)))) as [[]| | |] eqn:Q; vm_compute in Q; try discriminate Q; reflexivity).
    rewrite Z. clear. induction l as [|a l IH]; [reflexivity|]. cbn [length repeat map]. now rewrite IH.
Qed.
