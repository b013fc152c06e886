(** Which saves panic and which succeed in double precision: as Save2_proofs.v, Panic_proofs.v and
    Save4_proofs.v. *)
From Coq Require Import List NArith ZArith Arith Bool Lia ZifyN ZifyNat ZifyBool.
From Flocq Require Import IEEE754.BinarySingleNaN.
From Verif Require Import Base BitSpec UnalignedRW UnalignedRW_proofs ReadExt ByteLemmas Triangles TriSpec
  Triangles_proofs OptTris OptTris_proofs Floats Utilis Unify Vertices Uv Normals CustomData Mesh
  OptVertices OptVertices_proofs Tmf File Parse_proofs Codec_proofs FileSpec File_proofs
  NoPanic_proofs Load_proofs SaveSpec Merge_proofs Save_proofs Agree_proofs Save2_proofs Panic_proofs Split_proofs Save4_proofs
  Double DoubleSave DoubleSaveSpec DoublePanicSpec DMerge_proofs DCodec_proofs DSave_proofs DSplit_proofs.
Import ListNotations.
Open Scope res_scope.
Ltac Zify.zify_post_hook ::= Z.div_mod_to_equations.

Definition wt_d (d : xseg) : nat :=
  match d with
  | XNothing => 0
  | XVertex l => Nat.max 1 (length l)
  | XTriVertex l | XTriNormal l | XTriUV l | XTriTangent l | XShared _ l => Nat.max 1 (length l)
  | _ => 1
  end.
Definition wts_d (l : list xseg) : nat := list_sum (map wt_d l).
Lemma wts_cons_d d l : wts_d (d :: l) = wt_d d + wts_d l. Proof. reflexivity. Qed.
Definition dval_d (d : xseg) : Prop :=
  match d with
  | XTriVertex l | XTriNormal l | XTriUV l | XTriTangent l => u32s l /\ (len l < 2 ^ 57)%N
  | XShared k l => (0 < k < 8)%N /\ u32s l /\ (len l < 2 ^ 57)%N
  | _ => True
  end.
Lemma opt_vertices_nil_d lm oc l : opt_vertices_d lm oc [] = Ok l -> l = [[]].
Proof.
  unfold opt_vertices_d. cbn [opt_vertices_fuel_d length]. unfold find_best_vertex_split_d. cbn [vertex_scan_d fold_left length].
  cbv zeta. destruct (range_to_vertex_bit_count_d lm oc zero_span_d split_edge_d); cbn [bind]; try discriminate.
  cbn [fst]. change (0 <? isize_min)%Z with false. cbn [bind]. congruence.
Qed.
Lemma vertices_pieces_d lm oc l o : opt_vertices_d lm oc l = Ok o ->
  concat o = l /\ length o <= Nat.max 1 (length l) /\
    (l <> [] -> Forall (fun s => s <> []) o) /\ (l = [] -> o = [[]]).
Proof.
  intros O. destruct l as [|x l].
  - apply opt_vertices_nil_d in O as ->. repeat split; auto; cbn; try lia; congruence.
  - destruct (opt_vertices_total_d lm oc (x :: l)) as [P|(o' & O' & C & NE & F)]; [congruence|].
    rewrite O in O'. injection O' as <-. split; auto.
    assert (HF : Forall (fun s => s <> []) o) by (apply F; discriminate).
    split; [|split; [auto|discriminate]]. apply concat_ge in HF. rewrite C in HF. lia.
Qed.
Lemma optimize_wt_d lm oc d : dval_d d ->
  optimize_d lm oc d = Panic \/ exists l, optimize_d lm oc d = Ok l /\ length l <= Nat.max 1 (wt_d d).
Proof.
  intros D. destruct d; cbn [optimize_d dval_d wt_d] in *; try (right; eexists; split; [reflexivity|cbn; lia]).
  - destruct (opt_vertices_total_d lm oc l) as [->|(o & O & _)]; [now left|]. right. rewrite O. cbn [bind].
    eexists. split; [reflexivity|]. rewrite map_length. apply vertices_pieces_d in O. lia.
  - destruct D as [U L]. destruct (tris_pieces oc l U L) as (o & -> & _ & C & _). right. eexists. split; [reflexivity|].
    rewrite map_length. lia.
  - destruct D as [U L]. destruct (tris_pieces oc l U L) as (o & -> & _ & C & _). right. eexists. split; [reflexivity|].
    rewrite map_length. lia.
  - destruct D as [U L]. destruct (tris_pieces oc l U L) as (o & -> & _ & C & _). right. eexists. split; [reflexivity|].
    rewrite map_length. lia.
  - destruct D as [U L]. destruct (tris_pieces oc l U L) as (o & -> & _ & C & _). right. eexists. split; [reflexivity|].
    rewrite map_length. lia.
  - destruct D as (_ & U & L). destruct (tris_pieces oc l U L) as (o & -> & _ & C & _). right. eexists. split; [reflexivity|].
    rewrite map_length. lia.
Qed.
Lemma optimize_all_wt_d lm oc segs : Forall dval_d segs -> Forall (fun d => is_something_d d = true) segs ->
  optimize_all_d lm oc segs = Panic \/ exists l, optimize_all_d lm oc segs = Ok l /\ length l <= wts_d segs.
Proof.
  induction segs as [|d segs IH]; intros D S; cbn [optimize_all_d].
  - right. exists []. split; auto.
  - apply Forall_cons_iff in D as [D1 D2]. apply Forall_cons_iff in S as [S1 S2].
    destruct (optimize_wt_d lm oc d D1) as [->|(a & -> & La)]; [now left|]. cbn [map_err bind].
    destruct (IH D2 S2) as [->|(b & -> & Lb)]; [now left|]. cbn [bind]. right. eexists. split; [reflexivity|].
    rewrite app_length, wts_cons_d. destruct d; cbn [wt_d is_something_d] in *; try discriminate; lia.
Qed.
Definition holdable_d (m : dmesh) : Prop :=
  u32_array (d_vertex_triangles m) /\ u32_array (d_normal_triangles m) /\
  u32_array (d_uv_triangles m) /\ u32_array (d_tangent_triangles m).
Lemma merged_dval_d m : holdable_d m -> Forall dval_d (merge_segments_d (tmf_segs_d m)) /\
  Forall (fun d => is_something_d d = true) (merge_segments_d (tmf_segs_d m)).
Proof.
  intros (H1 & H2 & H3 & H4).
  assert (F : Forall (fun d => dval_d d /\ is_something_d d = true) (merge_segments_d (tmf_segs_d m))).
  { apply merge_loop_keeps_d.
    - exact I.
    - cbn [dval_d]. intros l H k Hk. split; auto. destruct H as [H|[H|[H|[? [_ H]]]]]; auto.
    - cbn [dval_d]. tauto.
    - apply Forall_rev. unfold tmf_segs_d. rewrite !Forall_app.
      assert (O : forall A (f : A -> xseg) (o : option A), (forall x, o = Some x -> dval_d (f x)) -> Forall dval_d (opt_seg_d f o)).
      { intros A f [x|] HH; constructor; auto. }
      do 8 (split; [apply O; intros x HX; cbn [dval_d]; solve [exact I|auto]|]).
      rewrite Forall_map. apply Forall_forall. intros. exact I. }
  split; (eapply Forall_impl; [|exact F]); cbv beta; tauto.
Qed.
Lemma noerr_mask_d {E} oc p : noerr (@mask_f64 E oc p).
Proof.
  unfold mask_f64, mask_i32. repeat first [apply noerr_ok | apply noerr_bind; [|intros] | discriminate
    | match goal with |- noerr (if ?c then _ else _) => destruct c end].
Qed.
Lemma noerr_code_d {E} lm oc n p : noerr (@normal_to_encoding_d E lm oc n p).
Proof. unfold normal_to_encoding_d. apply noerr_bind; [apply noerr_mask_d|discriminate]. Qed.
Lemma noerr_encode_d lm oc p e d : noerr (encode_d lm oc p e d).
Proof.
  unfold encode_d. apply noerr_bind; [|intros [? ?]; discriminate]. destruct d; try discriminate.
  - apply noerr_bind; [|discriminate]. unfold save_tmf_vertices_d. apply noerr_bind.
    { unfold bounding_box_d. destruct l; discriminate. }
    intros b. cbv zeta. repeat (apply noerr_bind; [first [apply noerr_mask_d|apply noerr_fields]|intros]). discriminate.
  - apply noerr_bind; [|discriminate]. unfold save_normal_array_d. cbv zeta.
    apply noerr_bind; [apply noerr_map; intros; apply noerr_code_d|]. intros.
    apply noerr_bind; [apply noerr_fields|discriminate].
  - apply noerr_bind; [|discriminate]. unfold save_uvs_d. apply noerr_bind; [apply noerr_mask_d|]. intros. cbv zeta.
    apply noerr_bind; [apply noerr_fields|discriminate].
  - apply noerr_bind; [|discriminate]. unfold save_tangents_d. cbv zeta.
    apply noerr_bind; [apply noerr_map; intros; apply noerr_bind; [apply noerr_code_d|discriminate]|]. intros.
    apply noerr_bind; [apply noerr_fields|discriminate].
  - apply noerr_bind; [apply noerr_tris|discriminate].
  - apply noerr_bind; [apply noerr_tris|discriminate].
  - apply noerr_bind; [apply noerr_tris|discriminate].
  - apply noerr_bind; [apply noerr_tris|discriminate].
  - apply noerr_bind; [apply noerr_tris|discriminate].
  - apply noerr_bind; [|discriminate]. unfold cseg_encode_d. destruct (_ <? _)%N; [discriminate|].
    destruct (x_data s); cbn [cdata_write_d]; try apply noerr_tris.
    + destruct (float_range_d l). cbv zeta. apply noerr_bind; [apply noerr_mask_d|]. intros.
      apply noerr_bind; [apply noerr_fields|discriminate].
    + apply noerr_bind; [apply noerr_mask_d|]. intros. cbv zeta. apply noerr_bind; [apply noerr_fields|discriminate].
Qed.
Lemma calc_noerr_d t v : noerr (calc_shortest_edge_d t v).
Proof.
  unfold calc_shortest_edge_d. destruct t as [[|i t]|]; try discriminate.
  destruct v as [v|]; try discriminate. apply noerr_bind; [|intros a; destruct (is_finite a); discriminate].
  assert (S : forall k tt s, length tt <= k -> noerr (shortest_loop_d v tt s)).
  { induction k as [|k IHk]; intros [|a [|b [|c ll]]] s L; cbn [shortest_loop_d length] in *; try discriminate; try lia.
    unfold index. destruct (get v a), (get v b), (get v c); cbn [bind]; try discriminate. apply IHk. lia. }
  apply (S _ _ _ (le_n _)).
Qed.
Lemma saved_noerr_d lm oc p l : Forall (fun mn => holdable_d (fst mn)) l -> noerr (saved_d lm oc p l).
Proof.
  intros H.
  assert (N : no_err (fun _ => False) (write_tmf_d lm oc p l)).
  { apply no_err_bind; [apply no_err_chunks|intros _].
    induction H as [|[m name] l Hm _ IH]; cbn [write_meshes_d].
    - apply (no_err_pure _ (Ok tt)). discriminate.
    - apply no_err_bind; [|auto]. unfold write_mesh_d.
      apply no_err_bind; [apply no_err_chunks|intros _].
      apply no_err_bind.
      { apply no_err_pure. intros e E. now apply (calc_noerr_d _ _ e) in E. }
      intros edge. apply no_err_bind.
      { apply no_err_pure. intros e E. cbn [fst] in Hm. destruct (merged_dval_d m Hm) as [D S].
        destruct (optimize_all_wt_d lm oc _ D S) as [P|(x & P & _)]; rewrite P in E; discriminate. }
      intros segs. cbv zeta. apply no_err_bind.
      { apply no_err_pure. destruct (existsb _ _); discriminate. }
      intros _. apply no_err_bind; [apply no_err_write|intros _].
      induction segs as [|s segs IHs]; cbn [map write_segments].
      + apply (no_err_pure _ (Ok tt)). discriminate.
      + apply no_err_bind; [|intros a; apply no_err_bind; [apply no_err_chunks|auto]].
        apply no_err_pure. intros e. pose proof (noerr_encode_d lm oc p edge s).
        destruct (encode_d lm oc p edge s) as [|x|]; cbn [map_err]; try discriminate. now specialize (H x). }
  unfold saved_d, noerr. destruct (has_trace_tmf_d lm oc p l) as (o & r & T). pose proof (proj1 T []) as T1. rewrite T1.
  destruct r as [x|e|]; cbn [bind]; try discriminate. intros e0 _. exact (proj2 N _ _ T).
Qed.
Lemma saved_panic_d lm oc p l : Forall (fun mn => holdable_d (fst mn)) l ->
  (forall out, saved_d lm oc p l <> Ok out) -> saved_d lm oc p l = Panic.
Proof.
  intros H N. pose proof (saved_noerr_d lm oc p l H) as E. destruct (saved_d lm oc p l) as [o|e|]; auto.
  - now specialize (N o).
  - now specialize (E e).
Qed.
Lemma saved_mesh_d lm oc p l out m name : saved_d lm oc p l = Ok out -> In (m, name) l ->
  exists o, traced (write_mesh_d lm oc p m name) o (Ok tt).
Proof.
  intros S I. apply saved_inv_d in S as (outs & _ & F). clear out.
  induction F as [|a o l outs T _ IH]; [destruct I|]. destruct I as [-> | I]; eauto.
Qed.
Definition ninf_d (x : f64) : Prop := x <> B754_infinity true.
Lemma fmin_fin_d x y : ninf_d x -> ninf_d y ->
  is_finite (dmin x y) = (is_finite x || is_finite y)%bool /\ ninf_d (dmin x y).
Proof.
  intros X Y. unfold dmin. destruct (is_nan x) eqn:NX.
  - destruct x; try discriminate. cbn [is_finite orb]. auto.
  - destruct (is_nan y) eqn:NY.
    + destruct y; try discriminate. cbn [is_finite]. rewrite orb_false_r. auto.
    + unfold dlt, Bltb, SpecFloat.SFltb. unfold ninf_d in *.
      destruct x as [sx|[]| |sx mx ex hx], y as [sy|[]| |sy my ey hy]; try discriminate; try congruence;
        cbn [B2SF SpecFloat.SFcompare is_finite orb];
        repeat match goal with |- context [if ?c then _ else _] => destruct c
                             | |- context [match ?c with _ => _ end] => destruct c end; cbn; split; auto; discriminate.
Qed.
Lemma fsqrt_ninf_d x : ninf_d (dsqrt x).
Proof.
  unfold ninf_d, dsqrt. destruct x as [s|s| |s m e h]; try (cbn; congruence).
  - destruct s; discriminate.
  - pose proof (Bsqrt_correct 53 1024 gt0_53 lt_53_1024 mode_NE (B754_finite s m e h)) as (_ & F & _).
    destruct s; [discriminate|]. intros E. rewrite E in F. discriminate.
Qed.
Lemma distance_ninf_d a b : ninf_d (distance_d a b).
Proof. apply fsqrt_ninf_d. Qed.
Lemma shortest_spec_d v : forall k t s, length t <= k -> ninf_d s ->
  (corners_exist_d v t /\ exists r, shortest_loop_d v t s = Ok r /\ ninf_d r /\
     (is_finite r = true <-> is_finite s = true \/ finite_edge_d distance_d v t)) \/
  (~ corners_exist_d v t /\ shortest_loop_d v t s = Panic).
Proof.
  assert (Base : forall t s, triples t = [] -> shortest_loop_d v t s = Ok s -> ninf_d s ->
    corners_exist_d v t /\ exists r, shortest_loop_d v t s = Ok r /\ ninf_d r /\
     (is_finite r = true <-> is_finite s = true \/ finite_edge_d distance_d v t)).
  { intros t s T E N. unfold corners_exist_d, finite_edge_d. rewrite T. split; [constructor|].
    exists s. split; auto. split; auto. split; auto. intros [H|H]; auto. inversion H. }
  induction k as [|k IH]; intros [|a [|b [|c t]]] s L N; cbn [length] in L; try lia;
    try (left; apply Base; auto; reflexivity).
  cbn [shortest_loop_d]. unfold index. rewrite !get_nth.
  assert (C : corners_exist_d v (a :: b :: c :: t) <-> (a < len v /\ b < len v /\ c < len v)%N /\ corners_exist_d v t).
  { unfold corners_exist_d. cbn [triples]. rewrite Forall_cons_iff. tauto. }
  assert (R : forall i, (i < len v)%N <-> nth_error v (N.to_nat i) <> None).
  { intros i. rewrite nth_error_Some. unfold len. lia. }
  destruct (nth_error v (N.to_nat a)) as [va|] eqn:A; cbn [bind].
  2:{ right. split; auto. rewrite C, !R. intros [[H _] _]. congruence. }
  destruct (nth_error v (N.to_nat b)) as [vb|] eqn:B; cbn [bind].
  2:{ right. split; auto. rewrite C, !R. intros [[_ [H _]] _]. congruence. }
  destruct (nth_error v (N.to_nat c)) as [vc|] eqn:D; cbn [bind].
  2:{ right. split; auto. rewrite C, !R. intros [[_ [_ H]] _]. congruence. }
  cbv zeta. pose proof (distance_ninf_d va vb) as N1. pose proof (distance_ninf_d vb vc) as N2.
  pose proof (distance_ninf_d vc va) as N3.
  destruct (fmin_fin_d _ _ N2 N3) as [F1 N4]. destruct (fmin_fin_d _ _ N1 N4) as [F2 N5]. destruct (fmin_fin_d _ _ N N5) as [F3 N6].
  destruct (IH t (dmin s (dmin (distance_d va vb) (dmin (distance_d vb vc) (distance_d vc va)))) ltac:(lia) N6)
    as [(CE & r & E & NR & F)|[CE E]].
  - left. split.
    + rewrite C. split; auto. rewrite !R, A, B, D. repeat split; discriminate.
    + exists r. split; auto. split; auto. rewrite F, F3, F2, F1, !orb_true_iff.
      unfold finite_edge_d. cbn [triples]. rewrite Exists_cons. unfold corner_d.
      split.
      * intros [[H|H]|H]; auto. right. left. exists va, vb, vc. auto.
      * intros [H|[(va' & vb' & vc' & A' & B' & D' & H)|H]]; auto.
        rewrite A in A'. rewrite B in B'. rewrite D in D'. injection A' as <-. injection B' as <-. injection D' as <-. auto.
  - right. split; auto. rewrite C. tauto.
Qed.
Lemma edge_spec_d v t : t <> [] ->
  (corners_exist_d v t /\ finite_edge_d distance_d v t /\ exists e, calc_shortest_edge_d (Some t) (Some v) = Ok e) \/
  (~ (corners_exist_d v t /\ finite_edge_d distance_d v t) /\ calc_shortest_edge_d (Some t) (Some v) = Panic).
Proof.
  intros H. unfold calc_shortest_edge_d. destruct t as [|i t]; [congruence|].
  destruct (shortest_spec_d v _ (i :: t) d_inf (le_n _)) as [(C & r & E & NR & F)|[C E]].
  - discriminate.
  - rewrite E. cbn [bind]. destruct (is_finite r) eqn:IR.
    + left. split; auto. assert (is_finite d_inf = true \/ finite_edge_d distance_d v (i :: t)) as [X|X] by tauto; [discriminate|].
      split; eauto.
    + right. split; auto. intros [_ X]. assert (false = true) by tauto. discriminate.
  - right. rewrite E. split; auto. tauto.
Qed.
Lemma merge_all_vertex_d l others : forall d d' others', merge_all_d d others = (d', others') ->
  (d = XVertex l -> d' = XVertex l) /\ (In (XVertex l) others -> In (XVertex l) others') /\
  length others' = length others.
Proof.
  induction others as [|o others IH]; intros d d' others' E; cbn [merge_all_d] in E.
  - injection E as <- <-. auto.
  - destruct (merge_d d o) as [s1 o1] eqn:M. destruct (merge_all_d s1 others) as [s2 t2] eqn:MA. injection E as <- <-.
    destruct (IH _ _ _ MA) as (A & B & C). split; [|split; [|cbn [length]; auto]].
    + intros ->. apply A. unfold merge_d in M. destruct (as_triangles_d o) as [[? ?]|]; now injection M as <- <-.
    + intros [-> | I]; [|right; auto]. left. unfold merge_d in M. cbn [as_triangles_d] in M. now injection M as <- <-.
Qed.
Lemma merge_loop_vertex_d l fuel : forall st, length st <= fuel -> In (XVertex l) st -> In (XVertex l) (merge_loop_d fuel st).
Proof.
  induction fuel as [|fuel IH]; intros st L I; [destruct st; [destruct I|cbn in L; lia]|].
  cbn [merge_loop_d]. destruct st as [|d rest]; [destruct I|]. cbn [length] in L.
  destruct (is_something_d d) eqn:D.
  - destruct (merge_all_d d (rev rest)) as [d' o] eqn:M. destruct (merge_all_vertex_d l _ _ _ _ M) as (A & B & C).
    rewrite rev_length in C. destruct I as [-> | I]; [left; auto|right]. apply IH; [rewrite rev_length; lia|].
    apply -> in_rev. apply B. now apply -> in_rev.
  - destruct I as [-> | I]; [discriminate|]. apply IH; auto. lia.
Qed.
Lemma optimize_all_in_d lm oc d l segs : forall o, optimize_all_d lm oc segs = Ok o -> In d segs ->
  optimize_d lm oc d = Ok l -> incl l o.
Proof.
  induction segs as [|s segs IH]; intros o H I D; [destruct I|]. cbn [optimize_all_d] in H.
  apply bind_ok in H as (a & A & H). apply bind_ok in H as (b & B & H). injection H as <-.
  destruct I as [-> | I].
  - rewrite D in A. injection A as <-. apply incl_appl, incl_refl.
  - apply incl_appr. eauto.
Qed.
Lemma optimize_all_each_d lm oc d segs : forall o, optimize_all_d lm oc segs = Ok o -> In d segs ->
  exists l, optimize_d lm oc d = Ok l.
Proof.
  induction segs as [|s segs IH]; intros o H I; [destruct I|]. cbn [optimize_all_d] in H.
  apply bind_ok in H as (a & A & H). apply bind_ok in H as (b & B & H).
  destruct I as [-> | I]; [|eauto]. destruct (optimize_d lm oc d); try discriminate. eauto.
Qed.
Definition bad_vertices_d (m : dmesh) : Prop :=
  d_vertices m = Some [] \/
  exists v t, d_vertices m = Some v /\ d_vertex_triangles m = Some t /\ t <> [] /\
    ~ (corners_exist_d v t /\ finite_edge_d distance_d v t).
Lemma bad_vertices_panic_d lm oc p l m name :
  Forall (fun mn => holdable_d (fst mn)) l -> In (m, name) l -> bad_vertices_d m -> saved_d lm oc p l = Panic.
Proof.
  intros H I B. apply saved_panic_d; auto. intros out S.
  destruct (saved_mesh_d _ _ _ _ _ _ _ S I) as (o & T). apply mesh_inv_d in T as (edge & segs & es & E1 & E2 & E3 & _).
  destruct B as [V|(v & t & V & T & NT & BE)].
  - assert (VI : In (XVertex []) segs).
    { assert (VM : In (XVertex []) (merge_segments_d (tmf_segs_d m))).
      { apply merge_loop_vertex_d; [now rewrite rev_length|]. apply -> in_rev. unfold tmf_segs_d. rewrite V. left. reflexivity. }
      destruct (optimize_all_each_d _ _ _ _ _ E2 VM) as (x & X). apply (optimize_all_in_d _ _ _ _ _ _ E2 VM X).
      cbn [optimize_d] in X. apply bind_ok in X as (y & Y & X). apply opt_vertices_nil_d in Y as ->. injection X as <-. left. reflexivity. }
    clear -E3 VI. induction E3 as [|s e segs es X _ IH]; [destruct VI|]. destruct VI as [-> | VI]; auto.
    discriminate X.
  - destruct (edge_spec_d v t NT) as [(A & B & _)|[_ X]]; [tauto|]. rewrite V, T, X in E1. discriminate.
Qed.
Lemma mask_ok_d {E} oc p : p <= 30 -> exists m, mask_f64 (E:=E) oc p = Ok m.
Proof.
  intros H. unfold mask_f64, mask_i32. destruct (p <? 32) eqn:L; [|lia]. cbn [bind].
  assert (X : (2 ^ Z.of_nat p <= 2 ^ 30)%Z) by (apply Z.pow_le_mono_r; lia).
  assert (0 < 2 ^ Z.of_nat p)%Z by (apply Z.pow_pos_nonneg; lia).
  unfold wrap_i32. rewrite Z.mod_small by lia.
  replace (2 ^ Z.of_nat p + 2 ^ 31 - 2 ^ 31)%Z with (2 ^ Z.of_nat p)%Z by lia.
  destruct (- 2 ^ 31 <=? 2 ^ Z.of_nat p - 1)%Z eqn:C; [|lia]. cbn [bind]. eauto.
Qed.
Definition custom_fits_d (lm : libm64) (s : dcseg) : Prop :=
  Forall (fun b => (b < 256)%N) (x_name s) /\ x_name_len s = len (x_name s) /\ (x_name_len s <= 255)%N /\
  match x_data s with
  | XIndex l m | XInteger l m => u32s l /\ (m < 2 ^ 64)%N
  | XFloat l p => float_width_d lm l p <= 30
  | XColor l p => color_width_d lm p <= 30
  end.
Definition dfits_d (lm : libm64) (d : xseg) : Prop :=
  match d with
  | XVertex _ => False
  | XCustom s => custom_fits_d lm s
  | _ => dval_d d
  end.
Lemma written {S0 fs} : bytes_ok S0 -> Forall (fun f => fst f <= 64 /\ (snd f < two64)%N) fs ->
  exists w, write_fields true (writer_new S0) fs = Ok w.
Proof. intros B F. destruct (fields_written true S0 fs B F) as (w & _ & E & _). eauto. Qed.
Lemma encode_fits_d lm p edge d :
  d_normal_precision p <= 30 -> d_uv_prec p <= 30 -> d_tangent_prec p <= 30 ->
  dfits_d lm d -> exists e, encode_d lm true p edge d = Ok e.
Proof.
  intros Hn Hu Ht F.
  assert (T : forall l m sink, u32s l -> (m < 2 ^ 64)%N -> bytes_ok sink -> exists b, save_triangles true l m sink = Ok b).
  { intros l m sink U M B. destruct (save_triangles_spec true l m sink B U M) as (x & X & _). eauto. }
  assert (MX : forall l, u32s l -> (max_or 0 l < 2 ^ 64)%N).
  { intros l U. apply (N.lt_trans _ (2 ^ 32)); [|reflexivity]. apply max_or_lt; auto. reflexivity. }
  assert (NC : forall p n, p <= 30 -> exists c, normal_to_encoding_d (E:=ioerr) lm true n p = Ok c).
  { intros q n Hq. unfold normal_to_encoding_d. destruct (mask_ok_d (E:=ioerr) true q Hq) as [mk ->]. cbn [bind]. eauto. }
  unfold encode_d. destruct d as [|l|l|l|l|l|l|l|l|k l|s]; cbn [dfits_d dval_d] in F; try contradiction.
  - eexists. reflexivity.
  - destruct (map_res_ok (fun n => normal_to_encoding_d (E:=ioerr) lm true n (d_normal_precision p)) l) as [codes C]; [intros; now apply NC|].
    assert (Hc : Forall Codec_proofs.code_ok codes) by (eapply map_res_Forall; [|exact C]; intros a c; apply normal_to_encoding_d_range).
    unfold save_normal_array_d. cbv zeta. rewrite C. cbn [bind app].
    destruct (@written (le_bytes 8 (N.of_nat (length l)) ++ [N.of_nat (d_normal_precision p)]) (flat_map (fun c => normal_fields c (d_normal_precision p)) codes)) as [w W].
    { exact (narr_header_ok _ (d_normal_precision p) ltac:(lia)). }
    { apply Forall_flat_map. intros a Ha. apply normal_fields_ok; [lia|]. rewrite Forall_forall in Hc. auto. }
    cbn [app] in W. rewrite W. eexists. reflexivity.
  - destruct (mask_ok_d (E:=ioerr) true _ Hu) as [mk M]. unfold save_uvs_d. rewrite M. cbn [bind]. cbv zeta.
    match goal with |- context [write_fields true (writer_new ?s) ?f] => destruct (@written s f) as [w W] end.
    { rewrite !bytes_ok_app. repeat split; try apply le_bytes_ok; [constructor|]. apply small_byte. lia. }
    { apply flat_Forall. intros a. repeat (apply Forall_cons; [cbn [fst snd]; split; [lia|apply u64_d_lt]|]). apply Forall_nil. }
    rewrite W. eexists. reflexivity.
  - destruct (map_res_ok (tangent_code_d lm true (d_tangent_prec p)) l) as [codes C].
    { intros [a h]. unfold tangent_code_d. destruct (NC (d_tangent_prec p) a Ht) as [c EC]. cbn [fst]. rewrite EC. cbn [bind]. eauto. }
    assert (Hc : Forall (fun hc => Codec_proofs.code_ok (snd hc)) codes).
    { eapply map_res_Forall; [|exact C]. intros a c. unfold tangent_code_d.
      destruct (normal_to_encoding_d lm true (fst a) (d_tangent_prec p)) eqn:En; cbn [bind]; try discriminate.
      intros Q. apply Ok_inj in Q. subst c. eapply normal_to_encoding_d_range. exact En. }
    unfold save_tangents_d. cbv zeta. change (map_res _ l) with (map_res (tangent_code_d lm true (d_tangent_prec p)) l). rewrite C. cbn [bind].
    match goal with |- context [write_fields true (writer_new ?s) ?f] => destruct (@written s f) as [w W] end.
    { exact (narr_header_ok _ (d_tangent_prec p) ltac:(lia)). }
    { apply Forall_flat_map. intros a Ha. apply tangent_fields_ok; [lia|]. rewrite Forall_forall in Hc. auto. }
    rewrite W. eexists. reflexivity.
  - destruct F as [U _]. destruct (T l (max_or 0 l) [] U (MX l U) (Forall_nil _)) as [b ->]. eexists. reflexivity.
  - destruct F as [U _]. destruct (T l (max_or 0 l) [] U (MX l U) (Forall_nil _)) as [b ->]. eexists. reflexivity.
  - destruct F as [U _]. destruct (T l (max_or 0 l) [] U (MX l U) (Forall_nil _)) as [b ->]. eexists. reflexivity.
  - destruct F as [U _]. destruct (T l (max_or 0 l) [] U (MX l U) (Forall_nil _)) as [b ->]. eexists. reflexivity.
  - destruct F as (K & U & _). destruct (T l (max_or 0 l) [k] U (MX l U)) as [b ->]; [|eexists; reflexivity].
    constructor; [unfold byte_ok; lia|constructor].
  - destruct F as (F1 & F2 & F3 & F4). unfold cseg_encode_d. unfold len in F2.
    destruct (N.of_nat (length (x_name s)) <? x_name_len s)%N eqn:C; [lia|].
    assert (B : bytes_ok ([] ++ le_bytes 1 (x_name_len s) ++ firstn (N.to_nat (x_name_len s)) (x_name s))).
    { cbn [app]. apply bytes_ok_app. split; [apply le_bytes_ok|]. apply Forall_firstn. exact F1. }
    destruct (x_data s) as [l m|l m|l q|l q]; cbn [dcdata_kind].
    + destruct F4 as [U M]. destruct (T l m _ U M B) as [b E]. cbn [cdata_write_d]. rewrite E. eexists. reflexivity.
    + destruct F4 as [U M]. destruct (T l m _ U M B) as [b E]. cbn [cdata_write_d]. rewrite E. eexists. reflexivity.
    + cbn [cdata_write_d]. unfold float_width_d in F4. destruct (float_range_d l) as [mx mn]. cbn [fst snd] in F4. cbv zeta.
      destruct (mask_ok_d (E:=ioerr) true _ F4) as [mk M]. rewrite M. cbn [bind].
      match goal with |- context [write_fields true (writer_new ?s) ?f] => destruct (@written s f) as [w W] end.
      { rewrite bytes_ok_app. split; [exact B|]. rewrite !bytes_ok_app. repeat split; try apply le_bytes_ok; try apply le_d_ok. apply small_byte. lia. }
      { apply Forall_map, Forall_forall. intros a _. cbn [fst snd]. split; [lia|apply u64_d_lt]. }
      rewrite W. eexists. reflexivity.
    + cbn [cdata_write_d]. unfold color_width_d in F4. cbv zeta.
      destruct (mask_ok_d (E:=ioerr) true _ F4) as [mk M]. rewrite M. cbn [bind].
      match goal with |- context [write_fields true (writer_new ?s) ?f] => destruct (@written s f) as [w W] end.
      { rewrite bytes_ok_app. split; [exact B|]. rewrite !bytes_ok_app. repeat split; try apply le_bytes_ok; try apply le_d_ok. apply small_byte. lia. }
      { apply flat_Forall. intros a. unfold dc4. cbn [map]. repeat (apply Forall_cons; [cbn [fst snd]; split; [lia|apply u64_d_lt]|]). apply Forall_nil. }
      rewrite W. eexists. reflexivity.
Qed.
Lemma dfits_sub_d lm : sub_ok_d (dfits_d lm).
Proof.
  assert (I : forall a b : list N, u32s (a ++ b) /\ (len (a ++ b) < 2 ^ 57)%N ->
    (u32s a /\ (len a < 2 ^ 57)%N) /\ (u32s b /\ (len b < 2 ^ 57)%N)).
  { intros a b [U L]. unfold u32s in *. apply Forall_app in U as [U1 U2]. unfold len in *. rewrite app_length in L.
    repeat split; auto; lia. }
  unfold sub_ok_d. cbn [dfits_d dval_d]. repeat split; intros; try tauto; try (now apply I in H).
  - destruct H as [_ H]. now apply I in H.
  - destruct H as [_ H]. apply I in H. tauto.
  - destruct H as [_ H]. now apply I in H.
  - destruct H as [_ H]. apply I in H. tauto.
Qed.
Lemma optimize_fits_d lm segs : Forall (dfits_d lm) segs -> exists o, optimize_all_d lm true segs = Ok o.
Proof.
  induction 1 as [|d segs F _ [o IH]]; cbn [optimize_all_d]; [eauto|].
  assert (exists a, optimize_d lm true d = Ok a) as [a ->].
  { destruct d; cbn [optimize_d dfits_d dval_d] in *; try contradiction; eauto;
      first [destruct F as (_ & U & L) | destruct F as [U L]]; destruct (tris_pieces true l U L) as (x & -> & _); cbn [bind]; eauto. }
  cbn [map_err bind]. rewrite IH. cbn [bind]. eauto.
Qed.
Lemma merged_dfits_d lm m : d_vertices m = None -> holdable_d m -> Forall (custom_fits_d lm) (d_custom_data m) ->
  Forall (dfits_d lm) (merge_segments_d (tmf_segs_d m)).
Proof.
  intros V (H1 & H2 & H3 & H4) C.
  assert (F : Forall (fun d => dfits_d lm d /\ is_something_d d = true) (merge_segments_d (tmf_segs_d m))).
  { apply merge_loop_keeps_d.
    - exact I.
    - cbn [dfits_d dval_d]. intros l H k Hk. split; auto. destruct H as [H|[H|[H|[? [_ H]]]]]; auto.
    - cbn [dfits_d dval_d]. tauto.
    - apply Forall_rev. unfold tmf_segs_d. rewrite !Forall_app.
      assert (O : forall A (f : A -> xseg) (o : option A), (forall x, o = Some x -> dfits_d lm (f x)) -> Forall (dfits_d lm) (opt_seg_d f o)).
      { intros A f [x|] HH; constructor; auto. }
      split; [rewrite V; constructor|].
      do 7 (split; [apply O; intros x HX; cbn [dfits_d dval_d]; solve [exact I|auto]|]).
      rewrite Forall_map. exact C. }
  eapply Forall_impl; [|exact F]. cbv beta. tauto.
Qed.
Lemma write_mesh_ok_d lm p m name edge segs es :
  calc_shortest_edge_d (d_vertex_triangles m) (d_vertices m) = Ok edge ->
  optimize_all_d lm true (merge_segments_d (tmf_segs_d m)) = Ok segs ->
  Forall2 (fun s e => encode_d lm true p edge s = Ok e) segs es ->
  exists o, traced (write_mesh_d lm true p m name) o (Ok tt).
Proof.
  intros E1 E2 E3. eexists. unfold write_mesh_d. eapply traced_bind; [apply traced_chunks|].
  rewrite E1. eapply traced_bind; [apply traced_pure|]. rewrite E2. eapply traced_bind; [apply traced_pure|]. cbv zeta.
  assert (M : map (fun s => map_err XIo (encode_d lm true p edge s)) segs = map Ok es).
  { clear -E3. induction E3 as [|s e segs es H _ IH]; [reflexivity|]. cbn [map]. rewrite H, IH. reflexivity. }
  rewrite M.
  assert (P : existsb is_panic (map (@Ok xerr eseg) es) = false).
  { clear. induction es; auto. }
  rewrite P. eapply traced_bind; [apply traced_pure|]. eapply traced_bind; [apply traced_write|]. apply write_segments_ok.
Qed.
Lemma plain_saves_d lm p l :
  d_normal_precision p <= 30 -> d_uv_prec p <= 30 -> d_tangent_prec p <= 30 ->
  Forall (fun mn => d_vertices (fst mn) = None /\ holdable_d (fst mn) /\ Forall (custom_fits_d lm) (d_custom_data (fst mn))) l ->
  exists out, saved_d lm true p l = Ok out.
Proof.
  intros Hn Hu Ht F.
  assert (W : exists o, traced (write_meshes_d lm true p l) o (Ok tt)).
  { induction F as [|[m name] l (V & H & C) _ [o IH]]; cbn [write_meshes_d fst] in *; [eexists; apply traced_ret|].
    pose proof (merged_dfits_d lm m V H C) as D. destruct (optimize_fits_d lm _ D) as [segs E2].
    pose proof (optimize_all_all_d (dfits_d lm) lm true _ _ (dfits_sub_d lm) D E2) as D2.
    assert (exists es, Forall2 (fun s e => encode_d lm true p default_edge_d s = Ok e) segs es) as [es E3].
    { clear -D2 Hn Hu Ht. induction D2 as [|d segs F _ [es IH]]; [exists []; constructor|].
      destruct (encode_fits_d lm p default_edge_d d Hn Hu Ht F) as [e E]. exists (e :: es). auto. }
    assert (E1 : calc_shortest_edge_d (d_vertex_triangles m) (d_vertices m) = Ok default_edge_d).
    { rewrite V. destruct (d_vertex_triangles m) as [[|]|]; reflexivity. }
    destruct (write_mesh_ok_d lm p m name _ _ _ E1 E2 E3) as [o1 T]. eexists. eapply traced_bind; [exact T|exact IH]. }
  destruct W as [o W]. eexists. apply saved_traced_d. eapply traced_bind; [apply traced_chunks|exact W].
Qed.
Lemma mask_rel_d {E} p : okr (@mask_f64 E false p).
Proof.
  unfold mask_f64, mask_i32. apply okr_bind; [|intros; apply okr_ok].
  apply okr_bind; [destruct (p <? 32); apply okr_ok|]. intros s. destruct (_ <=? _)%Z; apply okr_ok.
Qed.
Lemma code_ok_d {E} lm n p : okr (@normal_to_encoding_d E lm false n p).
Proof. unfold normal_to_encoding_d. apply okr_bind; [apply mask_rel_d|intros; apply okr_ok]. Qed.
Definition dgood_d (d : xseg) : Prop :=
  match d with
  | XVertex l => l <> []
  | XCustom s => (x_name_len s <= len (x_name s))%N
  | _ => True
  end.
Lemma encode_rel_d lm p e d : dgood_d d -> okr (encode_d lm false p e d).
Proof.
  intros G. unfold encode_d. apply okr_bind; [|intros [? ?]; apply okr_ok].
  destruct d; cbn [dgood_d] in G; try apply okr_ok; (apply okr_bind; [|intros; apply okr_ok]); try apply tris_ok.
  - unfold save_tmf_vertices_d. apply okr_bind; [unfold bounding_box_d; destruct l; [congruence|apply okr_ok]|].
    intros b. cbv zeta. repeat (apply okr_bind; [first [apply mask_rel_d|apply new_fields_ok]|intros]). apply okr_ok.
  - unfold save_normal_array_d. cbv zeta. apply okr_bind; [apply okr_map; intros; apply code_ok_d|]. intros.
    apply okr_bind; [apply new_fields_ok|intros; apply okr_ok].
  - unfold save_uvs_d. apply okr_bind; [apply mask_rel_d|]. intros. cbv zeta.
    apply okr_bind; [apply new_fields_ok|intros; apply okr_ok].
  - unfold save_tangents_d. cbv zeta.
    apply okr_bind; [apply okr_map; intros; apply okr_bind; [apply code_ok_d|intros; apply okr_ok]|]. intros.
    apply okr_bind; [apply new_fields_ok|intros; apply okr_ok].
  - unfold cseg_encode_d. unfold len in G. destruct (_ <? _)%N eqn:C; [lia|].
    destruct (x_data s); cbn [cdata_write_d]; try apply tris_ok.
    + destruct (float_range_d l). cbv zeta. apply okr_bind; [apply mask_rel_d|]. intros.
      apply okr_bind; [apply new_fields_ok|intros; apply okr_ok].
    + apply okr_bind; [apply mask_rel_d|]. intros. cbv zeta. apply okr_bind; [apply new_fields_ok|intros; apply okr_ok].
Qed.
Lemma opt_vertices_rel_d lm l : okr (opt_vertices_d lm false l).
Proof. apply opt_vertices_release_fuel_d. lia. Qed.
Lemma optimize_good_d lm segs : Forall dval_d segs -> Forall dgood_d segs ->
  exists o, optimize_all_d lm false segs = Ok o /\ Forall dgood_d o.
Proof.
  induction segs as [|d segs IH]; intros D G; cbn [optimize_all_d]; [eauto|].
  apply Forall_cons_iff in D as [D1 D2]. apply Forall_cons_iff in G as [G1 G2]. destruct (IH D2 G2) as (o & -> & O).
  assert (exists a, optimize_d lm false d = Ok a /\ Forall dgood_d a) as (a & -> & A).
  { assert (T : forall (l : list N) (mk : list N -> xseg), (forall x, dgood_d (mk x)) -> u32s l -> (len l < 2 ^ 57)%N ->
      exists a, (let* o := opt_tris false l in Ok (map mk o)) = Ok a /\ Forall dgood_d a).
    { intros l mk M U L. destruct (tris_pieces false l U L) as (x & -> & _). cbn [bind]. eexists. split; [reflexivity|].
      apply Forall_map, Forall_forall. intros. apply M. }
    destruct d; cbn [optimize_d dval_d] in *; try (eexists; split; [reflexivity|]; apply Forall_cons; [exact G1|apply Forall_nil]);
      try solve [destruct D1 as [U L]; apply T; auto; intros; exact I].
    - destruct (opt_vertices_rel_d lm l) as [x X]. rewrite X. cbn [bind]. eexists. split; [reflexivity|].
      apply vertices_pieces_d in X as (_ & _ & F & _). apply Forall_map. cbn [dgood_d] in *. exact (F G1).
    - destruct D1 as (_ & U & L). match goal with |- context [XShared ?k] => apply (T l (XShared k)) end; auto; intros; exact I. }
  cbn [map_err bind]. eexists. split; [reflexivity|]. apply Forall_app. auto.
Qed.
Definition named_d (m : dmesh) : Prop := Forall (fun s => (x_name_len s <= len (x_name s))%N) (d_custom_data m).
Lemma merged_good_d m : named_d m -> d_vertices m <> Some [] -> Forall dgood_d (merge_segments_d (tmf_segs_d m)).
Proof.
  intros NM V.
  assert (F : Forall (fun d => (dgood_d d /\ forall k l, d = XShared k l -> (0 < k < 8)%N) /\ is_something_d d = true) (merge_segments_d (tmf_segs_d m))).
  { apply merge_loop_keeps_d.
    - split; [exact I|discriminate].
    - intros l _ k K. split; [exact I|]. intros k' l' E. injection E as <- <-. exact K.
    - intros k l [_ H]. eapply H. reflexivity.
    - apply Forall_rev. unfold tmf_segs_d. rewrite !Forall_app.
      set (Q := fun d => dgood_d d /\ forall k l, d = XShared k l -> (0 < k < 8)%N).
      assert (O : forall A (f : A -> xseg) (o : option A), (forall x, o = Some x -> Q (f x)) -> Forall Q (opt_seg_d f o)).
      { intros A f [x|] HH; constructor; auto. }
      split; [apply O; intros x HX; split; [|discriminate]; cbn [dgood_d]; intros ->; congruence|].
      do 7 (split; [apply O; intros x HX; split; [exact I|discriminate]|]).
      rewrite Forall_map. eapply Forall_impl; [|exact NM]. intros s HS. split; [exact HS|discriminate]. }
  eapply Forall_impl; [|exact F]. cbv beta. tauto.
Qed.
Lemma write_mesh_rel_d lm p m name edge segs es :
  calc_shortest_edge_d (d_vertex_triangles m) (d_vertices m) = Ok edge ->
  optimize_all_d lm false (merge_segments_d (tmf_segs_d m)) = Ok segs ->
  Forall2 (fun s e => encode_d lm false p edge s = Ok e) segs es ->
  exists o, traced (write_mesh_d lm false p m name) o (Ok tt).
Proof.
  intros E1 E2 E3. eexists. unfold write_mesh_d. eapply traced_bind; [apply traced_chunks|].
  rewrite E1. eapply traced_bind; [apply traced_pure|]. rewrite E2. eapply traced_bind; [apply traced_pure|]. cbv zeta.
  assert (M : map (fun s => map_err XIo (encode_d lm false p edge s)) segs = map Ok es).
  { clear -E3. induction E3 as [|s e segs es H _ IH]; [reflexivity|]. cbn [map]. rewrite H, IH. reflexivity. }
  rewrite M.
  assert (P : existsb is_panic (map (@Ok xerr eseg) es) = false).
  { clear. induction es; auto. }
  rewrite P. eapply traced_bind; [apply traced_pure|]. eapply traced_bind; [apply traced_write|]. apply write_segments_ok.
Qed.
Lemma edge_good_d m : ~ bad_vertices_d m -> exists e, calc_shortest_edge_d (d_vertex_triangles m) (d_vertices m) = Ok e.
Proof.
  intros B. destruct (d_vertex_triangles m) as [[|i t]|] eqn:T; [eexists; reflexivity| |eexists; reflexivity].
  destruct (d_vertices m) as [v|] eqn:V; [|eexists; reflexivity].
  destruct (edge_spec_d v (i :: t)) as [(_ & _ & H)|[H _]]; [discriminate|exact H|].
  exfalso. apply B. right. exists v, (i :: t). rewrite V, T. repeat split; auto. discriminate.
Qed.
Lemma release_saves_d lm p l :
  Forall (fun mn => holdable_d (fst mn) /\ named_d (fst mn) /\ ~ bad_vertices_d (fst mn)) l ->
  exists out, saved_d lm false p l = Ok out.
Proof.
  intros F.
  assert (W : exists o, traced (write_meshes_d lm false p l) o (Ok tt)).
  { induction F as [|[m name] l (H & NM & B) _ [o IH]]; cbn [write_meshes_d fst] in *; [eexists; apply traced_ret|].
    destruct (merged_dval_d m H) as [D _].
    assert (G : Forall dgood_d (merge_segments_d (tmf_segs_d m))).
    { apply merged_good_d; auto. intros V. apply B. now left. }
    destruct (optimize_good_d lm _ D G) as (segs & E2 & G2). destruct (edge_good_d m B) as [edge E1].
    assert (exists es, Forall2 (fun s e => encode_d lm false p edge s = Ok e) segs es) as [es E3].
    { clear -G2. induction G2 as [|d segs G _ [es IH]]; [exists []; constructor|].
      destruct (encode_rel_d lm p edge d G) as [e E]. exists (e :: es). auto. }
    destruct (write_mesh_rel_d lm p m name _ _ _ E1 E2 E3) as [o1 T]. eexists. eapply traced_bind; [exact T|exact IH]. }
  destruct W as [o W]. eexists. apply saved_traced_d. eapply traced_bind; [apply traced_chunks|exact W].
Qed.
Lemma bad_vertices_dec_d m : bad_vertices_d m \/ ~ bad_vertices_d m.
Proof.
  assert (D : (exists e, calc_shortest_edge_d (d_vertex_triangles m) (d_vertices m) = Ok e) \/ ~ exists e, calc_shortest_edge_d (d_vertex_triangles m) (d_vertices m) = Ok e).
  { destruct (calc_shortest_edge_d _ _); [left; eauto|right; intros [? ?]; discriminate|right; intros [? ?]; discriminate]. }
  destruct (d_vertices m) as [[|v0 v]|] eqn:V.
  - left. now left.
  - destruct (d_vertex_triangles m) as [[|i t]|] eqn:T.
    + right. intros [B|(v' & t & A & B & C & _)]; congruence.
    + destruct (edge_spec_d (v0 :: v) (i :: t)) as [(C & F & _)|[H _]]; [discriminate| |].
      * right. intros [B|(v' & t' & A & B & _ & N)]; [congruence|]. rewrite V in A. rewrite T in B. injection A as <-. injection B as <-. tauto.
      * left. right. exists (v0 :: v), (i :: t). repeat split; auto. discriminate.
    + right. intros [B|(v' & t & A & B & C & _)]; congruence.
  - right. intros [B|(v' & t & A & _)]; congruence.
Qed.
