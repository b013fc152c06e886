(** C51, C82: normalising, saving and loading. *)
From Coq Require Import List NArith ZArith Arith Lia Bool Reals Lra.
From Flocq Require Import Core IEEE754.BinarySingleNaN.
From Verif Require Import Base Floats Floats_proofs FloatReal_proofs ValueSpec Demo Log2_proofs Trig_proofs Save_proofs Save2_proofs DSave_proofs DMerge_proofs DoubleSaveSpec Utilis CustomData Mesh Tmf File FileSpec SaveSpec MeshSpec Mesh2_proofs Image_proofs NormalReal_proofs Normalize_proofs Cosine_proofs
  P_Save P_Normals P_Normalize Double DoubleSpec DoubleSave DoubleValueSpec DoubleNormalSpec DoubleMesh DoubleMeshSpec DNormalize_proofs P_DoubleSave P_DoubleNormals P_DoubleMesh.
Import ListNotations.
Local Open Scope R_scope.

(** The meshes with their normals normalised. *)
Definition normalized (l : list (mesh * list N)) : list (mesh * list N) := map (fun mn => (mesh_normalize (fst mn), snd mn)) l.
Definition normalized_d (l : list (dmesh * list N)) : list (dmesh * list N) := map (fun mn => (mesh_normalize_d (fst mn), snd mn)) l.

Lemma ordinary_cosine n n' c : ordinary n -> c <= cosine (normalize n) n' -> c - / 2 ^ 18 <= cosine n n'.
Proof.
  intros O C. destruct (normalize_R n O) as (U & (S1 & S2 & S3) & D). destruct (measure n O) as [_ MP _ _ _ _].
  change val with R32 in *.
  pose proof (cos_shift (R32 (fst (fst n))) (R32 (snd (fst n))) (R32 (snd n))
    (R32 (fst (fst (normalize n)))) (R32 (snd (fst (normalize n)))) (R32 (snd (normalize n)))
    (R32 (fst (fst n'))) (R32 (snd (fst n'))) (R32 (snd n')) (8 * u32) (9 * u32) c MP S1 S2 S3 D ltac:(unfold u32; lra) C) as G.
  eapply Rle_trans; [|exact G]. unfold u32. simpl pow. lra.
Qed.
Lemma ordinary_cosine_d n n' c : ordinary_d n -> c <= cosine_d (normalize_d n) n' -> c - / 2 ^ 47 <= cosine_d n n'.
Proof.
  intros O C. destruct (normalize_R_d n O) as (U & (S1 & S2 & S3) & D). destruct (measure_d n O) as [_ MP _ _ _ _].
  change val64 with R64 in *.
  pose proof (cos_shift (R64 (fst (fst n))) (R64 (snd (fst n))) (R64 (snd n))
    (R64 (fst (fst (normalize_d n)))) (R64 (snd (fst (normalize_d n)))) (R64 (snd (normalize_d n)))
    (R64 (fst (fst n'))) (R64 (snd (fst n'))) (R64 (snd n')) (8 * u64) (9 * u64) c MP S1 S2 S3 D ltac:(unfold u64; lra) C) as G.
  eapply Rle_trans; [|exact G]. rewrite (pow_IZR 2 47). change (2 ^ Z.of_nat 47)%Z with 140737488355328%Z. unfold u64. lra.
Qed.

(** C51. Normals of any ordinary length, normalised, saved and loaded, point where they pointed:
    the cosine of the angle between the original and the loaded normal is at least that of C35,
    less 2^-18. *)
Theorem C51_saved : forall lm lm' oc' p l out,
  asin_ok lm -> sin_cos_ok lm' -> (1 <= normal_precision p <= 24)%nat ->
  precision_ok p -> list_ok lm (normalized l) -> saved lm true p (normalized l) = Ok out ->
  exists l', read_tmf lm' oc' out = Ok l' /\
    Forall2 (on_normals (fun n n' => ordinary n -> least_cosine (normal_precision p) - / 2 ^ 18 <= cosine n n')) l l'.
Proof.
  intros lm lm' oc' p l out A SC B HP HL S. destruct (C35_normal_cosine_bound lm lm' oc' p _ out A SC B HP HL S) as (l' & R & F).
  exists l'. split; [exact R|]. clear S HL R. revert l' F. induction l as [|[m nm] l IH]; intros l' F; inversion F; subst; constructor; auto.
  unfold on_normals in *. cbn [fst snd] in *. unfold mesh_normalize in *. destruct (normals m) as [ns|] eqn:E.
  - cbn [normals with_normals arrays] in *. destruct (normals (fst y)) as [ns'|]; auto. clear -H1.
    revert ns' H1. induction ns as [|n ns IH]; intros ns' G; inversion G; subst; constructor; auto.
    intros O. apply ordinary_cosine; auto. apply H1. now apply normalize_R.
  - now rewrite E in H1.
Qed.
Print Assumptions C51_saved.
(** C82. The same with [double_precision]: that of C76, less 2^-47. *)
Theorem C82_saved : forall lm sc oc' p l out,
  asin_64_ok lm -> sin_cos64_sharp sc -> (1 <= d_normal_precision p)%nat ->
  precision_ok_d p -> list_ok_d lm (normalized_d l) -> saved_d lm true p (normalized_d l) = Ok out ->
  exists l', read_tmf_d sc oc' out = Ok l' /\
    Forall2 (on_normals_d (fun n n' => ordinary_d n -> least_cosine_d (d_normal_precision p) - / 2 ^ 47 <= cosine_d n n')) l l'.
Proof.
  intros lm lm' oc' p l out A SC B HP HL S. destruct (C76_normal_cosine_bound lm lm' oc' p _ out A SC B HP HL S) as (l' & R & F).
  exists l'. split; [exact R|]. clear S HL R. revert l' F. induction l as [|[m nm] l IH]; intros l' F; inversion F; subst; constructor; auto.
  unfold on_normals_d in *. cbn [fst snd] in *. unfold mesh_normalize_d in *. destruct (d_normals m) as [ns|] eqn:E.
  - cbn [d_normals arrays] in *. destruct (d_normals (fst y)) as [ns'|]; auto. clear -H1.
    revert ns' H1. induction ns as [|n ns IH]; intros ns' G; inversion G; subst; constructor; auto.
    intros O. apply ordinary_cosine_d; auto. apply H1. now apply normalize_R_d.
  - now rewrite E in H1.
Qed.
Print Assumptions C82_saved.
(** A mesh with the normal (3, 0, -4) meets the hypotheses of both. *)
Example C51_saved_case : let l := [(normal_mesh (f32_of_Z 3, f0, f32_of_Z (-4)), [])] in let p := mk_prec (flit 1 10) 7 14 8 in
  asin_ok exact_libm /\ sin_cos_ok exact_libm /\ precision_ok p /\ list_ok exact_libm (normalized l) /\
  (exists out, saved exact_libm true p (normalized l) = Ok out) /\ ordinary (f32_of_Z 3, f0, f32_of_Z (-4)) /\
  0.99 <= least_cosine (normal_precision p) - / 2 ^ 18.
Proof.
  intros l p. destruct (normal_mesh_saved exact_libm p (normalize (f32_of_Z 3, f0, f32_of_Z (-4))) prec7_ok ltac:(cbn; lia)) as [A B].
  split; [apply exact_asin_ok|]. split; [apply exact_sin_cos_ok|]. split; [apply prec7_ok|]. split; [exact A|]. split; [exact B|].
  split; [apply C51_case|]. unfold least_cosine. cbn [normal_precision p]. simpl pow. lra.
Qed.
Lemma one_normal_d_ok n : list_ok_d corner_d [(one_normal_d n, [])].
Proof.
  split; [reflexivity|]. apply Forall_cons; [|apply Forall_nil]. cbn [fst snd]. split; [|split; [apply name_ok_ascii; reflexivity|reflexivity]].
  constructor; unfold one_normal_d; cbn [d_normals d_normal_triangles d_vertices d_vertex_triangles d_uvs d_uv_triangles d_tangents d_tangent_triangles d_custom_data]; first [apply small_none | apply indices_none | apply small_some; reflexivity | apply Forall_nil].
Qed.
Example C82_saved_case : let l := [(one_normal_d (f64_of_Z 3, d0, f64_of_Z (-4)), [])] in
  asin_64_ok corner_d /\ sin_cos64_sharp corner_sc /\ precision_ok_d one_degree /\ list_ok_d corner_d (normalized_d l) /\
  (exists out, saved_d corner_d true one_degree (normalized_d l) = Ok out) /\ ordinary_d (f64_of_Z 3, d0, f64_of_Z (-4)) /\
  0.99 <= least_cosine_d (d_normal_precision one_degree) - / 2 ^ 47.
Proof.
  intros l. assert (E : normalized_d l = [(one_normal_d slanted_d, [])]).
  { assert (G : forall a b : f64, B2SF a = B2SF b -> a = b) by (intros a b; apply B2SF_inj).
    assert (N : normalize_d (f64_of_Z 3, d0, f64_of_Z (-4)) = slanted_d).
    { rewrite (normalize_by_d _ _ _ (magnitude_d (f64_of_Z 3, d0, f64_of_Z (-4))) eq_refl) by (vm_compute; reflexivity). unfold slanted_d. apply f_equal2; [apply f_equal2|]; apply G; vm_compute; reflexivity. }
    unfold normalized_d, l. cbn [map fst snd]. unfold mesh_normalize_d, one_normal_d. cbn [d_normals map]. rewrite N. reflexivity. }
  rewrite E. split; [apply corner_asin_ok|]. split; [apply corner_sc_sharp|]. split; [split; cbn; lia|].
  split; [apply one_normal_d_ok|]. split; [eexists; vm_compute; reflexivity|]. split; [apply C82_case|].
  unfold least_cosine_d. cbn [d_normal_precision one_degree]. simpl pow. lra.
Qed.
