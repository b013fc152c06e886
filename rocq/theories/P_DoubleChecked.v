(** Property C84: which saves in double precision succeed and which panic. *)
From Coq Require Import List NArith ZArith Arith Lia Bool Reals Lra ZifyN ZifyNat ZifyBool.
From Flocq Require Import Core IEEE754.BinarySingleNaN.
From Verif Require Import Base UnalignedRW UnalignedRW_proofs ReadExt ByteLemmas Floats Floats_proofs FloatReal_proofs Utilis Vertices TriSpec Triangles_proofs OptTris OptTris_proofs OptVertices CustomData Mesh Tmf File FileSpec SaveSpec
  File_proofs ValueSpec VertexSpec CheckedSpec Demo Split_proofs Merge_proofs Save_proofs Save2_proofs Codec_proofs Quant_proofs NormalReal_proofs Log2_proofs VertexReal_proofs
  Panic_proofs P_Save Unify Double DoubleSpec Double2_proofs DoubleSave DoubleSaveSpec DoubleValueSpec DoublePanicSpec DoubleMesh DMerge_proofs DSave_proofs DCodec_proofs DQuant_proofs DVertex_proofs DPiece_proofs
  DSplit_proofs DPanic_proofs DVSave_proofs P_Double P_DoubleSave P_DoubleValue.
Import ListNotations.
Open Scope res_scope.

(** C84. What can go wrong in a save in double precision to a sink that does not fail. Every mesh a
    program can hold is meant here: indices are 32 bit numbers and arrays have less
    than 2^57 of them. A save never returns an error ... *)
Definition any_mesh_d (m : dmesh) : Prop :=
  forall l, In (Some l) [d_vertex_triangles m; d_normal_triangles m; d_uv_triangles m; d_tangent_triangles m] ->
    Forall (fun i => (i < 2 ^ 32)%N) l /\ (len l < 2 ^ 57)%N.
Lemma any_mesh_holdable_d m : any_mesh_d m -> holdable_d m.
Proof.
  intros H. repeat split; intros; apply (fun I => H _ I); rewrite <- H0; cbn; tauto.
Qed.
Lemma any_meshes_d l : Forall (fun mn => any_mesh_d (fst mn)) l -> Forall (fun mn : dmesh * list N => holdable_d (fst mn)) l.
Proof. apply Forall_impl. intros. now apply any_mesh_holdable_d. Qed.
Theorem C84_no_error : forall lm oc p l e,
  Forall (fun mn => any_mesh_d (fst mn)) l -> saved_d lm oc p l <> Err e.
Proof. intros. apply saved_noerr_d. now apply any_meshes_d. Qed.
Print Assumptions C84_no_error.
(** ... but panics, in every mode and with every precision, if some mesh has an
    empty vertex array, or vertices and vertex indices with a corner that does not
    exist or without an edge of finite length (notions from DoublePanicSpec). *)
Theorem C84_panics : forall lm oc p l m name,
  Forall (fun mn => any_mesh_d (fst mn)) l -> In (m, name) l ->
  (d_vertices m = Some [] \/
   exists v t, d_vertices m = Some v /\ d_vertex_triangles m = Some t /\ t <> [] /\
     ~ (corners_exist_d v t /\ finite_edge_d distance_d v t)) ->
  saved_d lm oc p l = Panic.
Proof. intros lm oc p l m name H. apply bad_vertices_panic_d. now apply any_meshes_d. Qed.
Print Assumptions C84_panics.
(** In particular fewer than three indices always panic. *)
Theorem C84_short_index_array_panics : forall lm oc p l m name v t,
  Forall (fun mn => any_mesh_d (fst mn)) l -> In (m, name) l ->
  d_vertices m = Some v -> d_vertex_triangles m = Some t -> 0 < length t < 3 -> saved_d lm oc p l = Panic.
Proof.
  intros lm oc p l m name v t H I V T L. eapply C84_panics; eauto. right. exists v, t. split; auto. split; auto.
  destruct t as [|a [|b [|c t]]]; cbn [length] in L; try lia; (split; [discriminate|]); intros [_ F]; inversion F.
Qed.
Print Assumptions C84_short_index_array_panics.
(** Meshes without vertices are always saved, with precisions of up to 30 bits. *)
Definition custom_widths_ok_d (lm : libm64) (s : dcseg) : Prop :=
  Forall (fun b => (b < 256)%N) (x_name s) /\ x_name_len s = len (x_name s) /\ (x_name_len s <= 255)%N /\
  match x_data s with
  | XIndex l m | XInteger l m => Forall (fun i => (i < 2 ^ 32)%N) l /\ (m < 2 ^ 64)%N
  | XFloat l p => float_width_d lm l p <= 30
  | XColor l p => color_width_d lm p <= 30
  end.
Theorem C84_without_vertices_saved : forall lm p l,
  d_normal_precision p <= 30 -> d_uv_prec p <= 30 -> d_tangent_prec p <= 30 ->
  Forall (fun mn => d_vertices (fst mn) = None /\ any_mesh_d (fst mn) /\
                    Forall (custom_widths_ok_d lm) (d_custom_data (fst mn))) l ->
  exists out, saved_d lm true p l = Ok out.
Proof.
  intros lm p l H1 H2 H3 H. apply plain_saves_d; auto. eapply Forall_impl; [|exact H]. intros mn (A & B & C).
  split; auto. split; auto. now apply any_mesh_holdable_d.
Qed.
Print Assumptions C84_without_vertices_saved.
(** Without overflow checks these are all: with every precision and every list of
    meshes the save either succeeds or one mesh has one of the two defects. A name of
    custom data is an array and the length of its used part. *)
Theorem C84_release_exact : forall lm p l,
  Forall (fun mn => any_mesh_d (fst mn) /\ Forall (fun s => (x_name_len s <= len (x_name s))%N) (d_custom_data (fst mn))) l ->
  let bad m := d_vertices m = Some [] \/
    exists v t, d_vertices m = Some v /\ d_vertex_triangles m = Some t /\ t <> [] /\
      ~ (corners_exist_d v t /\ finite_edge_d distance_d v t) in
  (saved_d lm false p l = Panic <-> Exists (fun mn => bad (fst mn)) l) /\
  ((exists out, saved_d lm false p l = Ok out) <-> Forall (fun mn => ~ bad (fst mn)) l).
Proof.
  intros lm p l H bad.
  assert (A : Forall (fun mn => any_mesh_d (fst mn)) l) by (eapply Forall_impl; [|exact H]; cbv beta; tauto).
  assert (P : Exists (fun mn => bad (fst mn)) l -> saved_d lm false p l = Panic).
  { intros X. apply Exists_exists in X as ([m name] & I & X). eapply C84_panics; eauto. }
  assert (O : Forall (fun mn => ~ bad (fst mn)) l -> exists out, saved_d lm false p l = Ok out).
  { intros X. apply release_saves_d. rewrite Forall_forall in *. intros mn I. destruct (H mn I). split; [now apply any_mesh_holdable_d|].
    split; [assumption|exact (X mn I)]. }
  assert (D : Exists (fun mn => bad (fst mn)) l \/ Forall (fun mn => ~ bad (fst mn)) l).
  { clear. induction l as [|mn l [IH|IH]]; [right; constructor|left; now right|].
    destruct (bad_vertices_dec_d (fst mn)) as [B|B]; [left; now left|right; constructor; auto]. }
  split; split; auto.
  - intros E. destruct D as [D|D]; auto. destruct (O D) as [out X]. congruence.
  - intros [out E]. destruct D as [D|D]; auto. rewrite (P D) in E. discriminate.
Qed.
Print Assumptions C84_release_exact.
(** Verification does not find the panics. *)
Theorem C84_verified_mesh_panics : exists m,
  any_mesh_d m /\ verify_tmf_mesh_d m = Ok tt /\ forall lm oc p name, saved_d lm oc p [(m, name)] = Panic.
Proof.
  set (m := mk_dmesh None None (Some legs) (Some [0; 1; 3]%N) None None None None []).
  assert (A : any_mesh_d m).
  { intros l [I|[I|[I|[I|[]]]]]; inversion I; subst. split; [|reflexivity].
    repeat (apply Forall_cons; [reflexivity|]). apply Forall_nil. }
  exists m. split; [exact A|]. split; [vm_compute; reflexivity|]. intros lm oc p name.
  eapply C84_panics; [|left; reflexivity|].
  - apply Forall_cons; [exact A|apply Forall_nil].
  - right. exists legs, [0; 1; 3]%N. split; [reflexivity|]. split; [reflexivity|]. split; [discriminate|].
    intros [C _]. unfold corners_exist_d in C. cbn [triples] in C. apply Forall_cons_iff in C as [(_ & _ & H) _].
    vm_compute in H. discriminate.
Qed.
Print Assumptions C84_verified_mesh_panics.
Example C84_case : any_mesh_d demo_mesh_d /\ (exists out, saved_d demo_d true demo_prec_d [(demo_mesh_d, [])] = Ok out) /\
  (exists out, saved_d demo_d true demo_prec_d [(mk_dmesh (d_normals demo_mesh_d) (d_normal_triangles demo_mesh_d) None None (d_uvs demo_mesh_d) None None None (d_custom_data demo_mesh_d), [])] = Ok out).
Proof.
  split; [|split; eexists; vm_compute; reflexivity].
  intros l [I|[I|[I|[I|[]]]]]; inversion I; subst; (split; [|reflexivity]);
    repeat (apply Forall_cons; [reflexivity|]); apply Forall_nil.
Qed.

(** A save writes at most 8 more segments than there are vertices, indices and custom data. *)
Lemma wts_app_d a b : wts_d (a ++ b) = wts_d a + wts_d b.
Proof. unfold wts_d. now rewrite map_app, list_sum_app. Qed.
Lemma wts_rev_d l : wts_d (rev l) = wts_d l.
Proof. induction l as [|d l IH]; [reflexivity|]. cbn [rev]. rewrite wts_app_d, IH, !wts_cons_d. unfold wts_d. cbn. lia. Qed.
Lemma merge_wt_d a b a' b' : merge_d a b = (a', b') -> wt_d a' + wt_d b' <= wt_d a + wt_d b.
Proof.
  unfold merge_d. destruct (as_triangles_d b) as [[l k]|]; [|intros [= <- <-]; lia].
  destruct a; cbv beta iota zeta; try (intros H; apply pair_equal_spec in H as [<- <-]; lia);
  match goal with |- context [list_eqb ?x ?y] => destruct (list_eqb x y) end;
    intros H; apply pair_equal_spec in H as [<- <-]; cbn [wt_d]; lia.
Qed.
Lemma merge_all_wt_d others : forall d d' others', merge_all_d d others = (d', others') ->
  wt_d d' + wts_d others' <= wt_d d + wts_d others.
Proof.
  induction others as [|o others IH]; intros d d' others' E; cbn [merge_all_d] in E.
  - injection E as <- <-. lia.
  - destruct (merge_d d o) as [s1 o1] eqn:M. destruct (merge_all_d s1 others) as [s2 t2] eqn:MA.
    injection E as <- <-. rewrite !wts_cons_d. apply merge_wt_d in M. apply IH in MA. lia.
Qed.
Lemma merge_loop_wt_d fuel : forall st, wts_d (merge_loop_d fuel st) <= wts_d st.
Proof.
  induction fuel as [|fuel IH]; intros st; cbn [merge_loop_d]; [cbn; lia|].
  destruct st as [|d rest]; [reflexivity|]. destruct (is_something_d d).
  - destruct (merge_all_d d (rev rest)) as [s o] eqn:M. rewrite !wts_cons_d. apply merge_all_wt_d in M.
    specialize (IH (rev o)). rewrite !wts_rev_d in *. lia.
  - rewrite wts_cons_d. specialize (IH rest). lia.
Qed.
Definition elements_d (m : dmesh) : N :=
  (count (d_vertices m) + count (d_vertex_triangles m) + count (d_normal_triangles m) +
   count (d_uv_triangles m) + count (d_tangent_triangles m) + len (d_custom_data m))%N.
Lemma tmf_segs_wt_d m : (N.of_nat (wts_d (tmf_segs_d m)) <= elements_d m + 8)%N.
Proof.
  unfold tmf_segs_d. rewrite !wts_app_d.
  assert (O : forall A (f : list A -> xseg) o, (forall l, wt_d (f l) <= S (length l)) ->
    (N.of_nat (wts_d (opt_seg_d f o)) <= count o + 1)%N).
  { intros A f [l|] H; unfold wts_d, opt_seg_d, count, len; cbn [map list_sum fold_right]; [|lia].
    specialize (H l). lia. }
  assert (O1 : forall A (f : list A -> xseg) o, (forall l, wt_d (f l) = 1) ->
    (N.of_nat (wts_d (opt_seg_d f o)) <= 1)%N).
  { intros A f [l|] H; unfold wts_d, opt_seg_d; cbn [map list_sum fold_right]; [|lia]. rewrite H. lia. }
  assert (C : wts_d (map XCustom (d_custom_data m)) = length (d_custom_data m)).
  { induction (d_custom_data m) as [|s l IH]; [reflexivity|]. cbn [map]. rewrite wts_cons_d, IH. reflexivity. }
  rewrite C. unfold elements_d. unfold len at 1.
  pose proof (O _ XVertex (d_vertices m) ltac:(intros; cbn [wt_d]; lia)).
  pose proof (O _ XTriVertex (d_vertex_triangles m) ltac:(intros; cbn [wt_d]; lia)).
  pose proof (O _ XTriNormal (d_normal_triangles m) ltac:(intros; cbn [wt_d]; lia)).
  pose proof (O _ XTriUV (d_uv_triangles m) ltac:(intros; cbn [wt_d]; lia)).
  pose proof (O _ XTriTangent (d_tangent_triangles m) ltac:(intros; cbn [wt_d]; lia)).
  pose proof (O1 _ XNormal (d_normals m) ltac:(intros; reflexivity)).
  pose proof (O1 _ XUV (d_uvs m) ltac:(intros; reflexivity)).
  pose proof (O1 _ XTangent (d_tangents m) ltac:(intros; reflexivity)).
  lia.
Qed.
Lemma segment_count_le_d lm oc m : holdable_d m -> (segment_count_d lm oc m <= elements_d m + 8)%N.
Proof.
  intros H. unfold segment_count_d.  destruct (merged_dval_d m H) as [D S].
  destruct (optimize_all_wt_d lm oc _ D S) as [->|(l & -> & L)]; [lia|]. unfold len.
  pose proof (tmf_segs_wt_d m). pose proof (merge_loop_wt_d (length (tmf_segs_d m)) (rev (tmf_segs_d m))) as W.
  rewrite wts_rev_d in W. unfold merge_segments_d in *. lia.
Qed.
Theorem C84_few_segments : forall lm oc m,
  any_mesh_d m ->
  (segment_count_d lm oc m <=
     count (d_vertices m) + count (d_vertex_triangles m) + count (d_normal_triangles m) +
     count (d_uv_triangles m) + count (d_tangent_triangles m) + len (d_custom_data m) + 8)%N.
Proof. intros lm oc m H. apply segment_count_le_d. now apply any_mesh_holdable_d. Qed.
Print Assumptions C84_few_segments.

Local Open Scope R_scope.
(** ** Widths of 1 to 30 bits *)
Lemma log2_small lm (r : f64) : log2_64_ok lm -> fin r -> 0 < R64 r -> R64 r <= 2 ^ 29 * 1.02 ->
  (u8_of_f64 (dceil (l_log2 lm r)) <= 30)%nat.
Proof.
  intros LG FR P HR. destruct (LG _ FR P) as [H1 H2].
  assert (L : log2 (R64 r) <= 29.04).
  { unfold log2. pose proof ln2_bounds as LN. apply Rmult_le_reg_r with (ln 2); [lra|].
    replace (ln (R64 r) / ln 2 * ln 2) with (ln (R64 r)) by (field; lra).
    assert (p29 : 0 < 2 ^ 29) by (apply pow_lt; lra).
    apply Rle_trans with (ln (2 ^ 29 * 1.02)).
    - destruct HR as [HR|HR]; [left; now apply ln_increasing|rewrite HR; lra].
    - rewrite ln_mult by lra.
      assert (E : ln (2 ^ 29) = 29 * ln 2).
      { rewrite <- (Rpower_pow 29) by lra. unfold Rpower. rewrite ln_exp, INR_IZR_INZ. reflexivity. }
      rewrite E. assert (ln 1.02 <= 0.02).
      { pose proof (exp_ineq1_le 0.02). rewrite <- (ln_exp 0.02). destruct (Req_dec 1.02 (exp 0.02)) as [->|N]; [lra|].
        left. apply ln_increasing; lra. }
      lra. }
  change (val64 r) with (R64 r) in H2. change (val64 (l_log2 lm r)) with (R64 (l_log2 lm r)) in H2. apply Rabs_le_iff in H2.
  assert (V : R64 (l_log2 lm r) <= 30).
  { assert (0 < / 2 ^ 30 <= / 1000) by (simpl pow; lra). set (t := log2 (R64 r)) in *.
    destruct (Rle_or_lt 0 t) as [S|S].
    - rewrite (Rabs_pos_eq t) in H2 by exact S.
      assert (/ 2 ^ 30 * (1 + t) <= / 1000 * 31) by (apply Rmult_le_compat; lra). lra.
    - rewrite (Rabs_left t) in H2 by exact S.
      assert (/ 2 ^ 30 * (1 + - t) <= / 1000 * (1 + - t)) by (apply Rmult_le_compat_r; lra). lra. }
  apply Nat2Z.inj_le. rewrite u8_ceil_d by exact H1.
  assert (Zceil (R64 (l_log2 lm r)) <= 30)%Z; [|lia].
  rewrite <- (Zceil_IZR 30). now apply Zceil_le.
Qed.
Lemma axis_small_d lm (e s prec : f64) : log2_64_ok lm -> fin e -> fin s -> fin prec ->
  0 < R64 e <= 2 ^ 60 -> / 2 ^ 20 <= R64 s -> 0 < R64 prec <= 1 -> R64 s <= 2 ^ 29 * 1.01 * (R64 e * R64 prec) ->
  (1 <= axis_precision_d lm e s prec <= 30)%nat.
Proof.
  intros LG Fe Fs Fp He Hs Hp HS29. pose proof u64_small as U.
  set (E := R64 e) in *. set (S := R64 s) in *. set (P := R64 prec) in *.
  assert (HS : S <= 2 ^ 190 * (E * P)).
  { eapply Rle_trans; [exact HS29|]. apply Rmult_le_compat_r; [left; apply Rmult_lt_0_compat; lra|].
    apply Rle_trans with (2 ^ 30); [change (2 ^ 30) with (2 * 2 ^ 29); assert (0 < 2 ^ 29) by (apply pow_lt; lra); lra|apply pow2_le; lia]. }
  assert (s0 : 0 < / 2 ^ 20) by (apply Rinv_0_lt_compat, pow_lt; lra).
  assert (S0 : 0 < S) by lra. assert (EP : 0 < E * P) by (apply Rmult_lt_0_compat; lra).
  assert (iS : 0 < / S) by (apply Rinv_0_lt_compat; lra).
  assert (Q1 : / 2 ^ 190 <= E / S * P).
  { apply Rmult_le_reg_r with S; [lra|]. replace (E / S * P * S) with (E * P) by (field; lra).
    assert (0 < 2 ^ 190) by (apply pow_lt; lra). apply Rmult_le_reg_l with (2 ^ 190); [lra|]. rewrite <- Rmult_assoc, Rinv_r by lra. lra. }
  assert (Q0 : 0 < E / S) by (apply Rmult_lt_0_compat; lra).
  assert (Q2 : E / S * P <= E / S) by (pose proof (Rmult_le_compat_l (E / S) P 1 ltac:(lra) ltac:(lra)); lra).
  assert (Q3 : E / S <= 2 ^ 80).
  { replace (2 ^ 80) with (2 ^ 60 * 2 ^ 20) by (rewrite <- pow_add; reflexivity). apply mul_le; try lra.
    rewrite <- (Rinv_inv (2 ^ 20)). apply Rinv_le_contravar; lra. }
  assert (p22 : / 2 ^ 200 <= / 2 ^ 190 / 2).
  { unfold Rdiv. rewrite <- Rinv_mult. apply Rinv_le_contravar; [assert (0 < 2 ^ 190) by (apply pow_lt; lra); lra|].
    replace (2 ^ 190 * 2) with (2 ^ 191) by (simpl; lra). apply pow2_le. lia. }
  assert (p22' : 0 < / 2 ^ 190) by (apply Rinv_0_lt_compat, pow_lt; lra).
  destruct (ddiv_R e s Fe) as [A1 A2]; [fold S; lra|fold E S; apply big_ok_d; split; [lra|eapply Rle_trans; [exact Q3|apply pow2_le; lia]]|].
  fold E S in A1. pose proof (rnd64_rel_pos (E / S) ltac:(lra)) as R1. rewrite <- A1 in R1. set (a := R64 (ddiv e s)) in *.
  assert (aP1 : (1 - u64) * (E / S * P) <= a * P <= (1 + u64) * (E / S * P)).
  { rewrite <- !Rmult_assoc. split; apply Rmult_le_compat_r; lra. }
  assert (h1 : (1 - u64) * (E / S * P) >= 0.999 * (E / S * P)) by (apply Rle_ge, Rmult_le_compat_r; lra).
  assert (h2 : (1 + u64) * (E / S * P) <= 1.001 * (E / S * P)) by (apply Rmult_le_compat_r; lra).
  assert (p81 : 4 * 2 ^ 80 <= 2 ^ 300) by (replace 4 with (2 ^ 2) by (simpl; lra); rewrite <- pow_add; apply pow2_le; lia).
  destruct (dmul_R (ddiv e s) prec A2 Fp) as [B1 B2]; [fold a P; apply big_ok_d; lra|].
  fold a P in B1. pose proof (rnd64_rel_pos (a * P) ltac:(lra)) as R2. rewrite <- B1 in R2. set (b := R64 (dmul (ddiv e s) prec)) in *.
  assert (h3 : 0.9999 * (a * P) <= b <= 1.0001 * (a * P)).
  { split; [eapply Rle_trans; [|apply R2]|eapply Rle_trans; [apply R2|]]; apply Rmult_le_compat_r; lra. }
  set (x := E / S * P) in *.
  assert (bx : 0.9999 * x <= b <= 1.0001 * x).
  { assert ((1 - u64) * ((1 - u64) * x) <= (1 - u64) * (a * P)) by (apply Rmult_le_compat_l; lra).
    assert ((1 + u64) * (a * P) <= (1 + u64) * ((1 + u64) * x)) by (apply Rmult_le_compat_l; lra).
    assert (0 <= u64 * x <= 0.00001 * x) by (split; [apply Rmult_le_pos|apply Rmult_le_compat_r]; lra).
    assert (0 <= u64 * (u64 * x) <= 0.00001 * (u64 * x)) by (split; [apply Rmult_le_pos|apply Rmult_le_compat_r]; lra). lra. }
  assert (b0 : 0 < b) by lra. assert (x0 : 0 < x) by lra.
  assert (ib : 0.9998 * / x <= 1 / b <= 1.0002 * / x).
  { unfold Rdiv. rewrite Rmult_1_l. split.
    - apply Rmult_le_reg_r with b; [lra|]. rewrite Rinv_l by lra. apply Rle_trans with (0.9998 * / x * (1.0001 * x)).
      + apply Rmult_le_compat_l; [apply Rmult_le_pos; [lra|left; now apply Rinv_0_lt_compat]|lra].
      + replace (0.9998 * / x * (1.0001 * x)) with (0.9998 * 1.0001) by (field; lra). lra.
    - apply Rmult_le_reg_r with b; [lra|]. rewrite Rinv_l by lra. apply Rle_trans with (1.0002 * / x * (0.9999 * x)).
      + replace (1.0002 * / x * (0.9999 * x)) with (1.0002 * 0.9999) by (field; lra). lra.
      + apply Rmult_le_compat_l; [apply Rmult_le_pos; [lra|left; now apply Rinv_0_lt_compat]|lra]. }
  assert (ix : / x = S / (E * P)) by (unfold x; field; repeat split; lra).
  assert (xub : / x <= 2 ^ 190).
  { rewrite <- (Rinv_inv (2 ^ 190)). apply Rinv_le_contravar; lra. }
  assert (xlb : 2 * / 2 ^ 200 <= / x).
  { apply Rle_trans with (/ 2 ^ 80); [|apply Rinv_le_contravar; lra].
    replace (2 ^ 200) with (2 ^ 80 * 2 ^ 120) by (rewrite <- pow_add; reflexivity). rewrite Rinv_mult.
    assert (0 < / 2 ^ 80) by (apply Rinv_0_lt_compat, pow_lt; lra).
    replace (2 * (/ 2 ^ 80 * / 2 ^ 120)) with (/ 2 ^ 80 * (2 * / 2 ^ 120)) by ring. rewrite <- (Rmult_1_r (/ 2 ^ 80)) at 2.
    apply Rmult_le_compat_l; [lra|]. simpl pow. lra. }
  assert (p100 : 0 < / 2 ^ 200) by (apply Rinv_0_lt_compat, pow_lt; lra).
  destruct d1_R as [O1 O2].
  destruct (ddiv_R d1 (dmul (ddiv e s) prec) O2) as [C1 C2]; [fold b; lra|rewrite O1; fold b; apply big_ok_d|].
  { split; [lra|]. apply Rle_trans with (2 ^ 191); [change (2 ^ 191) with (2 * 2 ^ 190); lra|apply pow2_le; lia]. }
  rewrite O1 in C1. fold b in C1. pose proof (rnd64_rel_pos (1 / b) ltac:(lra)) as R3. rewrite <- C1 in R3.
  set (r := ddiv d1 (dmul (ddiv e s) prec)) in *.
  assert (rx : 0.9997 * / x <= R64 r <= 1.0003 * / x).
  { assert (0 <= u64 * (1 / b) <= 0.00001 * (1 / b)) by (split; [apply Rmult_le_pos|apply Rmult_le_compat_r]; lra). lra. }
  assert (r0 : 0 < R64 r) by lra.
  assert (R64 r <= 2 ^ 29 * 1.02).
  { assert (/ x <= 2 ^ 29 * 1.01).
    { rewrite ix. apply Rmult_le_reg_r with (E * P); [lra|]. unfold Rdiv. rewrite Rmult_assoc, Rinv_l by lra. lra. }
    assert (0 < 2 ^ 29) by (apply pow_lt; lra). lra. }
  pose proof (log2_small lm r LG C2 r0 ltac:(assumption)). unfold axis_precision_d. fold r. lia.
Qed.
Lemma width_small_d lm prec edge B s lo hi :
  log2_64_ok lm -> B <= 2 ^ 50 -> edge_near_d s edge -> / 2 ^ 20 <= s <= 2 ^ 52 ->
  fin prec -> 0 < R64 prec <= 1 -> B + 0.000001 <= 2 ^ 28 * (s * R64 prec) ->
  fin lo -> fin hi -> Rabs (R64 lo) <= B -> Rabs (R64 hi) <= B ->
  (1 <= axis_precision_d lm edge (dmax (dsub hi lo) min_extent_d) prec <= 30)%nat.
Proof.
  intros LG HB [Fe Ne] Hs Fp Hp HBs Fl Fh Bl Bh. pose proof u64_small as U.
  assert (HB6 : B <= 2 ^ 60) by (eapply Rle_trans; [exact HB|apply pow2_le; lia]).
  set (t := s * R64 prec) in *. destruct min_extent_R_d as [E1 E2].
  assert (p20 : 0 < / 2 ^ 20 <= 0.000001) by (split; [apply Rinv_0_lt_compat, pow_lt; lra|simpl pow; lra]).
  assert (t0 : 0 < t) by (apply Rmult_lt_0_compat; lra).
  apply Rabs_le_iff in Ne.
  assert (s20 : / 2 ^ 20 * s <= 0.000001 * s) by (apply Rmult_le_compat_r; lra).
  assert (EP : 0.999999 * t <= R64 edge * R64 prec <= 1.000001 * t).
  { unfold t. rewrite <- !Rmult_assoc. split; apply Rmult_le_compat_r; lra. }
  set (sx := dmax (dsub hi lo) min_extent_d). set (p := axis_precision_d lm edge sx prec).
  apply Rabs_le_iff in Bl, Bh.
  destruct (dsub_R hi lo Fh Fl) as [D1 D2]; [apply (fits_B_d B); auto; apply Rabs_le_iff; lra|].
  pose proof (rnd64_diff hi lo) as DE. rewrite <- D1 in DE.
  destruct (dmax_R (dsub hi lo) min_extent_d D2 E1) as [X1 X2]. fold sx in X1, X2.
  assert (s2 : R64 min_extent_d <= R64 sx) by (rewrite X1; apply Rmax_r).
  assert (AB : Rabs (R64 hi - R64 lo) <= 2 * B) by (apply Rabs_le_iff; lra).
  assert (u64 * Rabs (R64 hi - R64 lo) <= 0.0001 * (2 * B)) by (apply mul_le; try lra; apply Rabs_pos).
  assert (SU : R64 sx <= 2.001 * B + 0.0000010001).
  { rewrite X1. apply Rmax_lub; [|lra]. apply Rabs_le_iff in DE. lra. }
  assert (HS : R64 sx <= 2 ^ 29 * 1.01 * (R64 edge * R64 prec)).
  { replace (2 ^ 29) with (2 * 2 ^ 28) by (simpl; lra). assert (0 < 2 ^ 28) by (apply pow_lt; lra).
    assert (2 ^ 28 * (0.999999 * t) <= 2 ^ 28 * (R64 edge * R64 prec)) by (apply Rmult_le_compat_l; lra). lra. }
  assert (E60 : 0 < R64 edge <= 2 ^ 60).
  { split; [lra|]. apply Rle_trans with (2 * 2 ^ 52); [lra|]. change (2 * 2 ^ 52) with (2 ^ 53). apply pow2_le. lia. }
  apply (axis_small_d lm edge sx prec LG Fe X2 Fp E60); auto. lra.
Qed.
Lemma vertices_encode_d lm vs prec edge B s :
  log2_64_ok lm -> vs <> [] -> Forall (bounded_d B) vs -> B <= 2 ^ 50 -> edge_near_d s edge -> / 2 ^ 20 <= s <= 2 ^ 52 ->
  fin prec -> 0 < R64 prec <= 1 -> B + 0.000001 <= 2 ^ 28 * (s * R64 prec) ->
  exists b, save_tmf_vertices_d lm true vs prec edge [] = Ok b.
Proof.
  intros LG NE F HB EN Hs Fp Hp HBs.
  destruct (bounding_box_d (E:=ioerr) vs) as [b| |] eqn:EB; [|destruct vs; [congruence|discriminate EB]..].
  assert (FF : Forall finite3_d vs) by (eapply Forall_impl; [|exact F]; now intros v [? _]).
  pose proof (box_is_d vs b FF EB) as BX. pose proof (box_bounded_d B vs _ _ _ _ _ _ F BX) as BB.
  destruct (box_finite_d _ _ _ _ _ _ _ BX) as (F1 & F2 & F3 & F4 & F5 & F6).
  repeat (apply Forall_cons_iff in BB as [? BB]). change val64 with R64 in *. unfold finite64 in *.
  assert (Px := width_small_d lm prec edge B s (dmin_x b) (dmax_x b) LG HB EN Hs Fp Hp HBs F1 F2 ltac:(assumption) ltac:(assumption)).
  assert (Py := width_small_d lm prec edge B s (dmin_y b) (dmax_y b) LG HB EN Hs Fp Hp HBs F3 F4 ltac:(assumption) ltac:(assumption)).
  destruct (mask_ok_d (E:=ioerr) true (axis_precision_d lm edge (dmax (dsub (dmax_x b) (dmin_x b)) min_extent_d) prec)) as [mx Mx]; [lia|].
  destruct (mask_ok_d (E:=ioerr) true (axis_precision_d lm edge (dmax (dsub (dmax_y b) (dmin_y b)) min_extent_d) prec)) as [my My]; [lia|].
  unfold save_tmf_vertices_d. rewrite EB. cbn [bind]. cbv zeta. rewrite Mx, My. cbn [bind].
  match goal with |- context [write_fields true (writer_new ?s) ?f] => destruct (@written s f) as [w W] end.
  { rewrite !bytes_ok_app. repeat split; try apply le_bytes_ok; try apply le_d_ok; try solve [repeat (apply Forall_cons; [unfold byte_ok; lia|]); apply Forall_nil]. }
  { apply flat_Forall. intros a. repeat (apply Forall_cons; [cbn [fst snd]; split; [lia|apply u64_d_lt]|]). apply Forall_nil. }
  rewrite W. eexists. reflexivity.
Qed.

(** ** Segments *)
Definition pfits_d (lm : libm64) (B : R) (d : xseg) : Prop :=
  match d with
  | XVertex l => l <> [] /\ Forall (bounded_d B) l /\ (len l < 2 ^ 50)%N
  | _ => dfits_d lm d
  end.
Lemma encode_pfits_d lm p edge B s d :
  log2_64_ok lm -> (d_normal_precision p <= 30)%nat -> (d_uv_prec p <= 30)%nat -> (d_tangent_prec p <= 30)%nat ->
  B <= 2 ^ 50 -> edge_near_d s edge -> / 2 ^ 20 <= s <= 2 ^ 52 ->
  fin (d_vertex_precision p) -> 0 < R64 (d_vertex_precision p) <= 1 -> B + 0.000001 <= 2 ^ 28 * (s * R64 (d_vertex_precision p)) ->
  pfits_d lm B d -> exists e, encode_d lm true p edge d = Ok e.
Proof.
  intros LG Hn Hu Ht HB EN Hs Fp Hp HBs F.
  destruct d as [|l|l|l|l|l|l|l|l|k l|c]; try (apply encode_fits_d; assumption).
  destruct F as (NE & F & _). destruct (vertices_encode_d lm l _ edge B s LG NE F HB EN Hs Fp Hp HBs) as [b E].
  unfold encode_d. rewrite E. eexists. reflexivity.
Qed.
Lemma optimize_pfits_d lm B segs : log2_64_ok lm -> log2_64_standard lm -> 0 <= B <= 2 ^ 60 -> Forall (pfits_d lm B) segs ->
  exists o, optimize_all_d lm true segs = Ok o /\ Forall (pfits_d lm B) o.
Proof.
  intros LG LS HB. induction 1 as [|d segs F _ (o & O1 & O2)]; cbn [optimize_all_d]; [eauto|].
  assert (exists a, optimize_d lm true d = Ok a /\ Forall (pfits_d lm B) a) as (a & -> & A).
  { assert (T : forall (l : list N) (mk : list N -> xseg), (forall x, u32s x -> (len x < 2 ^ 57)%N -> pfits_d lm B (mk x)) -> u32s l -> (len l < 2 ^ 57)%N ->
      exists a, (let* o := opt_tris true l in Ok (map mk o)) = Ok a /\ Forall (pfits_d lm B) a).
    { intros l mk M U L. destruct (tris_pieces true l U L) as (x & -> & C & _). cbn [bind]. eexists. split; [reflexivity|].
      apply Forall_map, Forall_forall. intros y Y. apply in_split in Y as (y1 & y2 & ->). subst l.
      rewrite concat_app in U, L. cbn [concat] in U, L. unfold u32s, len in *. rewrite !app_length in L. rewrite !Forall_app in U.
      apply M; [apply U|unfold len; lia]. }
    destruct d; cbn [optimize_d pfits_d dfits_d dval_d] in *; try (eexists; split; [reflexivity|]; apply Forall_cons; [exact F|apply Forall_nil]);
      try solve [destruct F as [U L]; apply T; auto; intros; cbn [pfits_d dfits_d dval_d]; auto].
    - destruct F as (NE & FB & L). destruct (opt_vertices_checked_d lm B l LG LS HB FB L) as [x X]. rewrite X. cbn [bind]. eexists. split; [reflexivity|].
      apply vertices_pieces_d in X as (C & _ & G & _). specialize (G NE). apply Forall_map, Forall_forall. intros y Y.
      rewrite Forall_forall in G. split; [now apply G|]. apply in_split in Y as (y1 & y2 & ->). subst l.
      rewrite concat_app in FB, L. cbn [concat] in FB, L. unfold len in *. rewrite !app_length in L. rewrite !Forall_app in FB. split; [apply FB|lia].
    - destruct F as (K & U & L). match goal with |- context [XShared ?k] => apply (T l (XShared k)) end; auto. cbn [pfits_d dfits_d dval_d]. auto. }
  cbn [map_err bind]. rewrite O1. cbn [bind]. eexists. split; [reflexivity|]. apply Forall_app. auto.
Qed.
Lemma merged_pfits_d lm B m : (forall v, d_vertices m = Some v -> v <> [] /\ Forall (bounded_d B) v /\ (len v < 2 ^ 50)%N) ->
  holdable_d m -> Forall (custom_fits_d lm) (d_custom_data m) -> Forall (pfits_d lm B) (merge_segments_d (tmf_segs_d m)).
Proof.
  intros V (H1 & H2 & H3 & H4) C.
  assert (F : Forall (fun d => pfits_d lm B d /\ is_something_d d = true) (merge_segments_d (tmf_segs_d m))).
  { apply merge_loop_keeps_d.
    - exact I.
    - cbn [pfits_d dfits_d dval_d]. intros l H k Hk. split; auto. destruct H as [H|[H|[H|[? [_ H]]]]]; auto.
    - cbn [pfits_d dfits_d dval_d]. tauto.
    - apply Forall_rev. unfold tmf_segs_d. rewrite !Forall_app.
      assert (O : forall A (f : A -> xseg) (o : option A), (forall x, o = Some x -> pfits_d lm B (f x)) -> Forall (pfits_d lm B) (opt_seg_d f o)).
      { intros A f [x|] HH; constructor; auto. }
      do 8 (split; [apply O; intros x HX; cbn [pfits_d dfits_d dval_d]; solve [exact I|auto]|]).
      rewrite Forall_map. exact C. }
  eapply Forall_impl; [|exact F]. cbv beta. tauto.
Qed.

(** A mesh of bounded extent: its coordinates are at most [B], and its triangles name
    existing vertices and have a shortest edge of length [s]. *)
Lemma side_finite_d v t d : Forall (bounded_d (2 ^ 50)) v -> side_of_d v t d -> (forall d, side_of_d v t d -> / 2 ^ 20 <= d) -> finite_edge_d distance_d v t.
Proof.
  intros F. rewrite Forall_forall in F. induction 1 as [a b c t va vb vc d G1 G2 G3 D|a b c t d S IH]; intros H.
  - apply Exists_cons_hd. exists va, vb, vc. repeat split; auto. left.
    apply distance_R_d; [apply F; eapply nth_error_In; eauto..|]. apply H. eapply side_first_d; eauto.
  - cbn [triples]. apply Exists_cons_tl. apply IH. intros e E. apply H. now apply side_later_d.
Qed.

(** C84. With overflow checks a mesh with vertices is saved if no coordinate exceeds
    about 268 million times the precision asked for, that is the shortest edge times the
    vertex precision. *)
Theorem C84_with_vertices_saved : forall lm p l,
  log2_64_ok lm -> log2_64_standard lm ->
  (d_normal_precision p <= 30)%nat -> (d_uv_prec p <= 30)%nat -> (d_tangent_prec p <= 30)%nat ->
  finite64 (d_vertex_precision p) -> 0 < val64 (d_vertex_precision p) <= 1 ->
  Forall (fun mn => any_mesh_d (fst mn) /\ Forall (custom_widths_ok_d lm) (d_custom_data (fst mn)) /\
    forall v, d_vertices (fst mn) = Some v ->
      v <> [] /\ (len v < 2 ^ 50)%N /\ (forall t, d_vertex_triangles (fst mn) = Some t -> corners_exist_d v t) /\
      exists B s, Forall (bounded_d B) v /\ B <= 2 ^ 50 /\
        shortest_edge_d (Some v) (d_vertex_triangles (fst mn)) s /\ / 2 ^ 20 <= s /\
        B + 0.000001 <= 2 ^ 28 * (s * val64 (d_vertex_precision p))) l ->
  exists out, saved_d lm true p l = Ok out.
Proof.
  intros lm p l LG LS Hn Hu Ht Fp Hp F. change val64 with R64 in *. unfold finite64 in *.
  assert (W : exists o, traced (write_meshes_d lm true p l) o (Ok tt)).
  { induction F as [|[m name] l (H & C & V) _ [o IH]]; cbn [write_meshes_d fst] in *; [eexists; apply traced_ret|].
    apply any_mesh_holdable_d in H.
    destruct (d_vertices m) as [v|] eqn:EV.
    - destruct (V v eq_refl) as (NE & L & CE & B & s & FB & HB & SE & Hs & HBs).
      assert (B0 : 0 <= B).
      { destruct FB as [|u v (_ & U & _) _]; [congruence|]. eapply Rle_trans; [apply Rabs_pos|exact U]. }
      assert (FB' : Forall (bounded_d (2 ^ 50)) v).
      { eapply Forall_impl; [|exact FB]. intros u (A1 & A2 & A3 & A4). repeat split; try apply A1; lra. }
      assert (exists edge, calc_shortest_edge_d (d_vertex_triangles m) (d_vertices m) = Ok edge) as [edge EE].
      { apply edge_good_d. intros [Z|(v' & t & Z & T & NT & BE)]; [congruence|]. rewrite EV in Z. injection Z as <-.
        apply BE. split; [now apply CE|]. rewrite T in SE. destruct t as [|i t]; [congruence|]. destruct SE as [S1 S2].
        eapply side_finite_d; [exact FB'|exact S1|]. intros d D. apply S2 in D. lra. }
      assert (EN : edge_near_d s edge) by (apply (shortest_edge_R_d (d_vertex_triangles m) (Some v)); auto; now rewrite <- EV).
      pose proof (edge_bound_d (Some v) (d_vertex_triangles m) s FB' SE) as SB.
      assert (D : Forall (pfits_d lm B) (merge_segments_d (tmf_segs_d m))).
      { apply merged_pfits_d; auto. intros u U. rewrite EV in U. injection U as <-. auto. }
      assert (HB6 : 0 <= B <= 2 ^ 60) by (split; [exact B0|eapply Rle_trans; [exact HB|apply pow2_le; lia]]).
      destruct (optimize_pfits_d lm B _ LG LS HB6 D) as (segs & E2 & D2).
      assert (exists es, Forall2 (fun s e => encode_d lm true p edge s = Ok e) segs es) as [es E3].
      { clear E2 D. induction D2 as [|d segs G _ [es IH2]]; [exists []; constructor|].
        destruct (encode_pfits_d lm p edge B s d) as [e E]; auto. exists (e :: es). auto. }
      destruct (write_mesh_ok_d lm p m name _ _ _ EE E2 E3) as [o1 T]. eexists. eapply traced_bind; [exact T|exact IH].
    - pose proof (merged_dfits_d lm m EV H C) as D. destruct (optimize_fits_d lm _ D) as [segs E2].
      pose proof (optimize_all_all_d (dfits_d lm) lm true _ _ (dfits_sub_d lm) D E2) as D2.
      assert (exists es, Forall2 (fun s e => encode_d lm true p default_edge_d s = Ok e) segs es) as [es E3].
      { clear -D2 Hn Hu Ht. induction D2 as [|d segs F _ [es IH]]; [exists []; constructor|].
        destruct (encode_fits_d lm p default_edge_d d Hn Hu Ht F) as [e E]. exists (e :: es). auto. }
      assert (E1 : calc_shortest_edge_d (d_vertex_triangles m) (d_vertices m) = Ok default_edge_d).
      { rewrite EV. destruct (d_vertex_triangles m) as [[|]|]; reflexivity. }
      destruct (write_mesh_ok_d lm p m name _ _ _ E1 E2 E3) as [o1 T]. eexists. eapply traced_bind; [exact T|exact IH]. }
  destruct W as [o W]. eexists. apply saved_traced_d. eapply traced_bind; [apply traced_chunks|exact W].
Qed.
Print Assumptions C84_with_vertices_saved.

(** A library that meets both hypotheses: the nearest f64, and minus infinity for zero. *)
Definition exact_d : libm64 :=
  mk_libm64 (fun x => f64_of_R (log2 (val64 x))) (fun x => f64_of_R (asin (val64 x))) exact_sin_cos64.
Definition ieee_d : libm64 :=
  mk_libm64 (fun x => if Beqb x d0 then B754_infinity true else l_log2 exact_d x) (l_asin exact_d) (l_sin_cos exact_d).
Lemma feq_zero_d x : finite64 x -> Beqb x d0 = Req_bool (val64 x) 0.
Proof. intros F. rewrite Beqb_correct by (auto; reflexivity). reflexivity. Qed.
Lemma ieee_log2_ok_d : log2_64_ok ieee_d.
Proof.
  intros x F P. unfold ieee_d. cbn [l_log2]. rewrite (feq_zero_d x F), Req_bool_false by lra. now apply exact_log2_d.
Qed.
Lemma ieee_log2_standard_d : log2_64_standard ieee_d.
Proof.
  split; unfold ieee_d; cbn [l_log2 exact_d].
  - intros x F Z. now rewrite (feq_zero_d x F), Req_bool_true.
  - intros x y Fx Fy [P L]. rewrite (feq_zero_d x Fx), (feq_zero_d y Fy), !Req_bool_false by lra.
    assert (R : forall z : f64, 0 < R64 z -> R64 (f64_of_R (log2 (R64 z))) = rnd64 (log2 (R64 z))).
    { intros z Z. apply f64_of_R_R. eapply Rle_trans; [apply (float_log2_bound_d z Z)|]. eapply Rle_trans; [|apply big64_ge]. apply IZR_le. lia. }
    change val64 with R64 in *. rewrite !R by lra. apply rnd64_le. now apply log2_le.
Qed.
Definition plain_d : dmesh := mk_dmesh None None (Some legs) (Some [0; 1; 2]%N) None None None None [].
Example C84_with_vertices_case : log2_64_ok ieee_d /\ log2_64_standard ieee_d /\
  finite64 (d_vertex_precision sixteenth_d) /\ 0 < val64 (d_vertex_precision sixteenth_d) <= 1 /\
  Forall (fun mn => any_mesh_d (fst mn) /\ Forall (custom_widths_ok_d ieee_d) (d_custom_data (fst mn)) /\
    forall v, d_vertices (fst mn) = Some v ->
      v <> [] /\ (len v < 2 ^ 50)%N /\ (forall t, d_vertex_triangles (fst mn) = Some t -> corners_exist_d v t) /\
      exists B s, Forall (bounded_d B) v /\ B <= 2 ^ 50 /\
        shortest_edge_d (Some v) (d_vertex_triangles (fst mn)) s /\ / 2 ^ 20 <= s /\
        B + 0.000001 <= 2 ^ 28 * (s * val64 (d_vertex_precision sixteenth_d))) [(plain_d, @nil N)].
Proof.
  destruct C74_case as (_ & _ & _ & _ & A1 & A2 & A3 & _ & A4 & A5 & _). destruct leg_d_R as [L1 L2]. destruct sixteenth_d_R as [S1 S2].
  assert (A6 : 1 + 0.000001 <= 2 ^ 28 * (val64 leg_d * val64 (d_vertex_precision sixteenth_d))) by (cbn [d_vertex_precision sixteenth_d]; rewrite S2; simpl pow; lra).
  split; [apply ieee_log2_ok_d|]. split; [apply ieee_log2_standard_d|]. split; [exact A1|]. split; [split; [cbn [d_vertex_precision sixteenth_d]; rewrite S2; lra|apply A2]|].
  apply Forall_cons; [|apply Forall_nil]. cbn [fst]. split; [|split; [apply Forall_nil|]].
  - intros l [I|[I|[I|[I|[]]]]]; inversion I; subst. split; [|reflexivity]. repeat (apply Forall_cons; [reflexivity|]). apply Forall_nil.
  - intros v V. split; [intros ->; discriminate V|]. split; [injection V as <-; reflexivity|].
    split; [intros t T; injection V as <-; injection T as <-; apply Forall_cons; [repeat split|apply Forall_nil]|].
    exists 1, (val64 leg_d). rewrite <- V. split; [|split; [|split; [exact A4|split; [exact A5|exact A6]]]].
    + injection V as <-. exact A3.
    + apply Rle_trans with (2 ^ 0); [simpl; lra|apply pow2_le; lia].
Qed.
