(** Property C65: reordering and unifying in programs built with another index type. *)
From Coq Require Import List NArith ZArith Arith Lia Bool ZifyN ZifyNat ZifyBool.
From Flocq Require Import IEEE754.BinarySingleNaN.
From Verif Require Import Base Floats Utilis Unify CustomData Mesh FileSpec MeshSpec IndexWidth IndexSpec IndexMesh IndexMesh_proofs P_Mesh.
Import ListNotations.
Open Scope res_scope.

(** [w] and [v] are the widths in bits of the index type: 16 with the feature
    [short_indices], 32 without a feature, 64 with [long_indices]. Width 32 is the program of
    C25 to C28. *)
Theorem C65_default : forall m,
  reorder_data_w 32 (E:=False) m = reorder_data m /\ unify_index_data_w 32 (E:=False) m = unify_index_data m.
Proof. intros. split; reflexivity. Qed.
Print Assumptions C65_default.
(** C65. Reordering keeps the buffers in every width, whatever the indices. *)
Theorem C65_reorder_same_buffers : forall w m m', indices_fit w m -> reorder_data_w w (E:=False) m = Ok m' ->
  get_vertex_buffer m' = get_vertex_buffer m /\ get_normal_buffer m' = get_normal_buffer m /\ get_uv_buffer m' = get_uv_buffer m /\
  tangents m' = tangents m /\ tangent_triangles m' = tangent_triangles m /\ custom_data m' = custom_data m.
Proof. intros w m m'. apply reorder_buffers. Qed.
Print Assumptions C65_reorder_same_buffers.
(** C65. Its result does not depend on the width, if the indices fit. *)
Theorem C65_reorder_same : forall v w m, indices_fit v m -> indices_fit w m ->
  reorder_data_w v (E:=False) m = reorder_data_w w m.
Proof. intros v w m. apply reorder_same. Qed.
Print Assumptions C65_reorder_same.
(** C65. The result of unifying does not depend on the width, if no index array has more than
    2^w entries. *)
Definition corners_fit (w : nat) (m : mesh) : Prop :=
  short_w w (vertex_triangles m) /\ short_w w (normal_triangles m) /\ short_w w (uv_triangles m) /\ short_w w (tangent_triangles m).
Theorem C65_unify_same : forall v w m, corners_fit v m -> corners_fit w m ->
  unify_index_data_w v (E:=False) m = unify_index_data_w w m.
Proof. intros v w m (V1 & V2 & V3 & _) (W1 & W2 & W3 & _). now apply unify_same. Qed.
Print Assumptions C65_unify_same.
(** So it keeps the buffers. *)
Theorem C65_unify_same_buffers : forall w m m', w <= 32 -> corners_fit w m -> unify_index_data_w w (E:=False) m = Ok m' ->
  buffer (vertices m') (vertex_triangles m') = buffer (vertices m) (vertex_triangles m) /\
  buffer (normals m') (normal_triangles m') = buffer (normals m) (normal_triangles m) /\
  buffer (uvs m') (uv_triangles m') = buffer (uvs m) (uv_triangles m) /\
  buffer (tangents m') (tangent_triangles m') = buffer (tangents m) (tangent_triangles m) /\
  custom_data m' = custom_data m.
Proof.
  intros w m m' W F H.
  assert (G : forall t, short_w w t -> short_w 32 t).
  { intros t S i E. eapply N.le_trans; [exact (S i E)|]. apply N.pow_le_mono_r; [discriminate|lia]. }
  assert (F32 : corners_fit 32 m) by (destruct F as (F1 & F2 & F3 & F4); repeat split; auto).
  rewrite (C65_unify_same w 32 m F F32) in H. apply (C27_unify_same_buffers m m'); [|exact H].
  destruct F32 as (F1 & F2 & F3 & F4). repeat split; assumption.
Qed.
Print Assumptions C65_unify_same_buffers.

(** The hypotheses are met. *)
Lemma demo_corners w : 2 <= w -> corners_fit w demo /\ indices_fit w demo.
Proof.
  intros W. assert (P : (4 <= 2 ^ N.of_nat w)%N).
  { change 4%N with (2 ^ 2)%N. apply N.pow_le_mono_r; [discriminate|lia]. }
  split.
  - repeat split; intros i E; first [discriminate E | injection E as <-; exact P].
  - constructor; cbn; auto; unfold fits_all, fits_custom; cbn [c_data];
      repeat (apply Forall_cons; [try (eapply N.lt_le_trans; [|exact P]; reflexivity)|]); try apply Forall_nil.
Qed.
Example C65_case : exists m' m'',
  unify_index_data_w 16 (E:=False) demo = Ok m' /\ vertex_triangles m' = Some [0; 1; 0; 2]%N /\
  unify_index_data_w 64 (E:=False) demo = Ok m' /\
  reorder_data_w 16 (E:=False) demo = Ok m'' /\ reorder_data_w 64 (E:=False) demo = Ok m'' /\
  get_vertex_buffer m'' = get_vertex_buffer demo.
Proof.
  destruct (demo_corners 16 ltac:(lia)) as [C16 I16]. destruct (demo_corners 32 ltac:(lia)) as [C32 I32]. destruct (demo_corners 64 ltac:(lia)) as [C64 I64].
  destruct (demo_unify (pt 1 0 0) (pt 0 0 1) (pt 0 0 0) (pt 7 0 0) (pt 0 7 0) (pt 0 0 7) (f0, f1)) as [U _].
  destruct (demo_reorder (pt 1 0 0) (pt 0 0 1) (pt 0 0 0) (pt 7 0 0) (pt 0 7 0) (pt 0 0 7) (f0, f1)) as [R _].
  fold demo in U, R. rewrite <- unify_32 in U. rewrite <- reorder_32 in R.
  eexists. eexists. split; [rewrite (C65_unify_same 16 32); [exact U|assumption|assumption]|]. split; [reflexivity|].
  split; [rewrite (C65_unify_same 64 32); [exact U|assumption|assumption]|].
  split; [rewrite (C65_reorder_same 16 32); [exact R|assumption|assumption]|].
  split; [rewrite (C65_reorder_same 64 32); [exact R|assumption|assumption]|].
  apply (C65_reorder_same_buffers 32 demo); assumption.
Qed.

(** With more corners the numbers wrap without a warning: with [short_indices] there is a mesh
    of 65535 vertices and 65537 corners that loses a normal. *)
Theorem C65_unify_refuted : exists m m', indices_fit 16 m /\ (forall v, vertices m = Some v -> len v = 65535%N) /\
  fits (N.to_nat 65537) (vertices m) (vertex_triangles m) /\ fits (N.to_nat 65537) (normals m) (normal_triangles m) /\ uvs m = None /\ tangents m = None /\
  unify_index_data_w 16 (E:=False) m = Ok m' /\ get_normal_buffer m' <> get_normal_buffer m.
Proof.
  assert (H : exists n, n = N.to_nat 65536) by eauto. destruct H as [n Hn].
  assert (I : imod 16 = N.of_nat n) by (rewrite Hn, N2Nat.id; reflexivity).
  assert (P : 2 < n) by lia.
  assert (D : (f0, f0, f0) <> (f1, f0, f0)).
  { intros D. injection D as D. apply (f_equal B2SF) in D. vm_compute in D. discriminate D. }
  destruct (wrap_changes 16 n I P (E:=False) (repeat (f0, f0, f0) (n - 1)) (f0, f0, f0) (f1, f0, f0) (repeat_length _ _) D) as (m' & U & B & b & Hb).
  destruct (wrap_fits 16 n I ltac:(lia) ltac:(lia)) as [F1 F2].
  eexists. exists m'. split; [|split; [|split; [|split; [|split; [|split; [|split; [exact U|exact B]]]]]]].
  - constructor; cbn [vertex_triangles normal_triangles uv_triangles tangent_triangles custom_data fits_opt]; auto.
  - intros v [= <-]. unfold len. rewrite repeat_length. lia.
  - intros d i [= <-] [= <-]. split; [rewrite (ia_len 16 n I P); lia|]. unfold in_range, len. rewrite repeat_length. apply (ia_range 16 n I P).
  - intros d i [= <-] [= <-]. split; [rewrite (ib_len 16 n I P); lia|]. unfold ib. apply Forall_app. split; [|repeat constructor].
    apply Forall_forall. intros k K. apply repeat_spec in K. subst k. reflexivity.
  - reflexivity.
  - reflexivity.
Qed.
Print Assumptions C65_unify_refuted.
