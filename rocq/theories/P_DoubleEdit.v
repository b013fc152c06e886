(** Property C83: editing a mesh with the feature [double_precision]. The statements are those
    of C25-C28 and C30-C32 (P_Mesh.v), for the other float type. *)
From Coq Require Import List NArith ZArith Arith Lia Bool ZifyN ZifyNat ZifyBool.
From Flocq Require Import IEEE754.BinarySingleNaN.
From Verif Require Import Base Floats Utilis Unify CustomData Mesh FileSpec MeshSpec File_proofs Mesh_proofs Unify_proofs Mesh2_proofs UnifyPanic_proofs P_Mesh P_UnifyPanic.
From Verif Require Import FastTrig Double DoubleSave DoubleMesh DoubleEdit DEdit_proofs P_DoubleMesh.
Import ListNotations.
Open Scope res_scope.

Definition d_u32_indices (m : dmesh) : Prop :=
  u32_opt (d_vertex_triangles m) /\ u32_opt (d_normal_triangles m) /\ u32_opt (d_uv_triangles m) /\ u32_opt (d_tangent_triangles m).

Definition d_pt (a b c : Z) : dvec3 := (f64_of_Z a, f64_of_Z b, f64_of_Z c).
(** Vertices used out of order with one unused, shared normals, no UVs. *)
Definition d_demo_of (n1 n2 v1 v2 v3 v4 : dvec3) (u : dvec2) : dmesh :=
  mk_dmesh (Some [n1; n2]) (Some [1; 0; 1; 1]%N) (Some [v1; v2; v3; v4]) (Some [3; 1; 3; 2]%N)
          (Some [u]) None None None [mk_dcseg [97]%N 1 (XIndex [1]%N 1)].
Definition d_demo : dmesh :=
  d_demo_of (d_pt 1 0 0) (d_pt 0 0 1) (d_pt 0 0 0) (d_pt 7 0 0) (d_pt 0 7 0) (d_pt 0 0 7) (d0, d1).
Lemma d_demo_u32 : d_u32_indices d_demo.
Proof. repeat split; cbn; first [apply u32_none|apply u32_some; reflexivity]. Qed.

(** Reordering keeps the buffers, tangents and custom data. *)
Theorem C83_reorder_same_buffers : forall m m', d_u32_indices m -> d_reorder_data (E:=False) m = Ok m' ->
  d_get_vertex_buffer m' = d_get_vertex_buffer m /\ d_get_normal_buffer m' = d_get_normal_buffer m /\ d_get_uv_buffer m' = d_get_uv_buffer m /\
  d_tangents m' = d_tangents m /\ d_tangent_triangles m' = d_tangent_triangles m /\ d_custom_data m' = d_custom_data m.
Proof.
  intros m m' (U1 & U2 & U3 & _) H.
  destruct (d_reorder_spec (E:=False) m U1 U2 U3) as [(_ & _ & _ & m2 & R & _ & S1 & S2 & S3 & T)|(_ & R)]; rewrite R in H; [|discriminate H].
  injection H as <-. unfold d_get_vertex_buffer, d_get_normal_buffer, d_get_uv_buffer.
  rewrite (reordered_buffer _ _ _ _ S1), (reordered_buffer _ _ _ _ S2), (reordered_buffer _ _ _ _ S3). auto.
Qed.
(** It returns exactly when each attribute lacks data or indices, or has all
    indices in range. Otherwise it panics. *)
Theorem C83_reorder_panics : forall m, d_u32_indices m ->
  ((exists m', d_reorder_data (E:=False) m = Ok m') <->
   reorderable (d_vertices m) (d_vertex_triangles m) /\ reorderable (d_normals m) (d_normal_triangles m) /\ reorderable (d_uvs m) (d_uv_triangles m)) /\
  (d_reorder_data (E:=False) m = Panic <-> ~ exists m', d_reorder_data (E:=False) m = Ok m').
Proof.
  intros m (U1 & U2 & U3 & _).
  destruct (d_reorder_spec (E:=False) m U1 U2 U3) as [(R1 & R2 & R3 & m2 & R & _)|(NR & R)]; rewrite R; split; split; eauto.
  - discriminate.
  - intros H. exfalso. eauto.
  - intros (m' & D). discriminate.
  - intros H. tauto.
  - intros _ (m' & D). discriminate.
Qed.
(** Attributes with data and indices are compacted: the indices introduce
    0, 1, 2, ... in this order, every element is used, and the elements are those
    that were used before. Doing it again changes nothing. *)
Theorem C83_reorder_compacts : forall m m', d_u32_indices m -> d_reorder_data (E:=False) m = Ok m' ->
  reordered (d_vertices m) (d_vertex_triangles m) (d_vertices m') (d_vertex_triangles m') /\
  reordered (d_normals m) (d_normal_triangles m) (d_normals m') (d_normal_triangles m') /\
  reordered (d_uvs m) (d_uv_triangles m) (d_uvs m') (d_uv_triangles m') /\
  d_reorder_data (E:=False) m' = Ok m'.
Proof.
  intros m m' (U1 & U2 & U3 & _) H.
  destruct (d_reorder_spec (E:=False) m U1 U2 U3) as [(_ & _ & _ & m2 & R & A & S1 & S2 & S3 & _)|(_ & R)]; rewrite R in H; [|discriminate H].
  injection H as <-. auto.
Qed.
Lemma d_demo_reorder n1 n2 v1 v2 v3 v4 u :
  d_reorder_data (E:=False) (d_demo_of n1 n2 v1 v2 v3 v4 u) =
    Ok (mk_dmesh (Some [n2; n1]) (Some [0; 1; 0; 0]%N) (Some [v4; v2; v3]) (Some [0; 1; 0; 2]%N)
          (Some [u]) None None None [mk_dcseg [97]%N 1 (XIndex [1]%N 1)]) /\
  d_reorder_data (E:=False) (d_with_vertex_triangles (d_demo_of n1 n2 v1 v2 v3 v4 u) (Some [4]%N)) = Panic.
Proof. split; reflexivity. Qed.
Example C83_reorder_case : d_u32_indices d_demo /\
  (exists m', d_reorder_data (E:=False) d_demo = Ok m' /\ d_vertex_triangles m' = Some [0; 1; 0; 2]%N /\
     d_vertices m' = Some [d_pt 0 0 7; d_pt 7 0 0; d_pt 0 7 0] /\ d_normal_triangles m' = Some [0; 1; 0; 0]%N) /\
  d_reorder_data (E:=False) (d_with_vertex_triangles d_demo (Some [4]%N)) = Panic.
Proof.
  split; [exact d_demo_u32|]. unfold d_demo. destruct (d_demo_reorder (d_pt 1 0 0) (d_pt 0 0 1) (d_pt 0 0 0) (d_pt 7 0 0) (d_pt 0 7 0) (d_pt 0 0 7) (d0, d1)) as [E P].
  split; [|exact P]. eexists. split; [exact E|]. repeat split.
Qed.
Print Assumptions C83_reorder_same_buffers.
Print Assumptions C83_reorder_panics.
Print Assumptions C83_reorder_compacts.

(** At most 2^32 entries in every index array. *)
Definition d_short_indices (m : dmesh) : Prop :=
  short (d_vertex_triangles m) /\ short (d_normal_triangles m) /\ short (d_uv_triangles m) /\ short (d_tangent_triangles m).
(** Unifying keeps the buffers of all four attributes and the custom data. All
    attributes that have data and indices share one index array afterwards. *)
Theorem C83_unify_same_buffers : forall m m', d_short_indices m -> d_unify_index_data (E:=False) m = Ok m' ->
  buffer (d_vertices m') (d_vertex_triangles m') = buffer (d_vertices m) (d_vertex_triangles m) /\
  buffer (d_normals m') (d_normal_triangles m') = buffer (d_normals m) (d_normal_triangles m) /\
  buffer (d_uvs m') (d_uv_triangles m') = buffer (d_uvs m) (d_uv_triangles m) /\
  buffer (d_tangents m') (d_tangent_triangles m') = buffer (d_tangents m) (d_tangent_triangles m) /\
  d_custom_data m' = d_custom_data m.
Proof.
  intros m m' S H.
  destruct (d_unify_spec (E:=False) m S) as [(R & _)|[(R & _)|(m2 & idx & n & R & _ & _ & _ & (B1 & B2 & B3 & B4) & C & _)]];
    rewrite R in H; [discriminate H|..]; injection H as <-; auto.
Qed.
Theorem C83_unify_shares : forall m m', d_short_indices m -> d_unify_index_data (E:=False) m = Ok m' ->
  shared (d_vertices m') (d_vertex_triangles m') (d_normals m') (d_normal_triangles m') /\
  shared (d_vertices m') (d_vertex_triangles m') (d_uvs m') (d_uv_triangles m') /\
  shared (d_vertices m') (d_vertex_triangles m') (d_tangents m') (d_tangent_triangles m') /\
  shared (d_normals m') (d_normal_triangles m') (d_uvs m') (d_uv_triangles m') /\
  shared (d_normals m') (d_normal_triangles m') (d_tangents m') (d_tangent_triangles m') /\
  shared (d_uvs m') (d_uv_triangles m') (d_tangents m') (d_tangent_triangles m').
Proof.
  intros m m' S H.
  destruct (d_unify_spec (E:=False) m S) as [(R & _)|[(R & A)|(m2 & idx & n & R & _ & _ & (U1 & U2 & U3 & U4) & _)]];
    rewrite R in H; [discriminate H|..]; injection H as <-; [exact A|].
  repeat split; eapply unified_shared; eauto.
Qed.
(** It returns when the index arrays that have data are equally long and in
    range. *)
Theorem C83_unify_returns : forall m n, d_short_indices m ->
  fits n (d_vertices m) (d_vertex_triangles m) -> fits n (d_normals m) (d_normal_triangles m) ->
  fits n (d_uvs m) (d_uv_triangles m) -> fits n (d_tangents m) (d_tangent_triangles m) ->
  exists m', d_unify_index_data (E:=False) m = Ok m'.
Proof.
  intros m n S F1 F2 F3 F4.
  destruct (d_unify_spec (E:=False) m S) as [(R & X)|[(R & _)|(m2 & idx & k & R & _)]]; eauto.
  exfalso. apply X. exists n. auto.
Qed.
(** When something changes, all attributes with data and indices get one index
    array in order of first use and data arrays of one length [n]; two corners get
    the same number exactly when they agreed in every such attribute before. *)
Theorem C83_unify_compact : forall m m', d_short_indices m -> d_unify_index_data (E:=False) m = Ok m' ->
  m' = m \/
  exists idx n, first_use 0 idx n /\
    unified idx n (d_vertices m) (d_vertex_triangles m) (d_vertices m') (d_vertex_triangles m') /\
    unified idx n (d_normals m) (d_normal_triangles m) (d_normals m') (d_normal_triangles m') /\
    unified idx n (d_uvs m) (d_uv_triangles m) (d_uvs m') (d_uv_triangles m') /\
    unified idx n (d_tangents m) (d_tangent_triangles m) (d_tangents m') (d_tangent_triangles m') /\
    forall p q, p < length idx -> q < length idx ->
      (nth_error idx p = nth_error idx q <->
       same_at (d_vertices m) (d_vertex_triangles m) p q /\ same_at (d_normals m) (d_normal_triangles m) p q /\
       same_at (d_uvs m) (d_uv_triangles m) p q /\ same_at (d_tangents m) (d_tangent_triangles m) p q).
Proof.
  intros m m' S H.
  destruct (d_unify_spec (E:=False) m S) as [(R & _)|[(R & A)|(m2 & idx & n & R & _ & F & (U1 & U2 & U3 & U4) & _ & _ & X)]];
    rewrite R in H; [discriminate H|..]; injection H as <-; [auto|].
  right. exists idx, n. auto 10.
Qed.
(** Attributes that share an index array already are left alone; unifying again
    changes nothing. *)
Theorem C83_unify_idempotent : forall m m', d_short_indices m -> d_unify_index_data (E:=False) m = Ok m' ->
  d_unify_index_data (E:=False) m' = Ok m'.
Proof. intros m m'. apply d_unify_again. Qed.
Lemma d_demo_unify n1 n2 v1 v2 v3 v4 u :
  d_unify_index_data (E:=False) (d_demo_of n1 n2 v1 v2 v3 v4 u) =
    Ok (mk_dmesh (Some [n2; n1; n2]) (Some [0; 1; 0; 2]%N) (Some [v4; v2; v3]) (Some [0; 1; 0; 2]%N)
          (Some [u]) None None None [mk_dcseg [97]%N 1 (XIndex [1]%N 1)]) /\
  d_unify_index_data (E:=False) (d_with_normal_triangles (d_demo_of n1 n2 v1 v2 v3 v4 u) (Some [0; 1]%N)) = Panic.
Proof. split; reflexivity. Qed.
Example C83_unify_case : d_short_indices d_demo /\
  (fits 4 (d_vertices d_demo) (d_vertex_triangles d_demo) /\ fits 4 (d_normals d_demo) (d_normal_triangles d_demo) /\
   fits 4 (d_uvs d_demo) (d_uv_triangles d_demo) /\ fits 4 (d_tangents d_demo) (d_tangent_triangles d_demo)) /\
  (exists m', d_unify_index_data (E:=False) d_demo = Ok m' /\ d_vertex_triangles m' = Some [0; 1; 0; 2]%N /\
     d_normal_triangles m' = Some [0; 1; 0; 2]%N /\ d_normals m' = Some [d_pt 0 0 1; d_pt 1 0 0; d_pt 0 0 1]) /\
  d_unify_index_data (E:=False) (d_with_normal_triangles d_demo (Some [0; 1]%N)) = Panic.
Proof.
  split; [split; [|split; [|split]]; cbn; first [apply short_none|apply short_some; reflexivity]|].
  split; [split; [|split; [|split]]; cbn [d_vertices d_normals d_uvs d_tangents d_vertex_triangles d_normal_triangles d_uv_triangles d_tangent_triangles d_demo d_demo_of];
          first [apply fits_no_index|apply fits_some; vm_compute; reflexivity]|].
  unfold d_demo. destruct (d_demo_unify (d_pt 1 0 0) (d_pt 0 0 1) (d_pt 0 0 0) (d_pt 7 0 0) (d_pt 0 7 0) (d_pt 0 0 7) (d0, d1)) as [E P].
  split; [|exact P]. eexists. split; [exact E|]. repeat split.
Qed.
Print Assumptions C83_unify_same_buffers.
Print Assumptions C83_unify_shares.
Print Assumptions C83_unify_returns.
Print Assumptions C83_unify_compact.
Print Assumptions C83_unify_idempotent.

Definition d_attributes (m : dmesh) : list (list N * N) :=
  attribute (d_vertices m) (d_vertex_triangles m) ++ attribute (d_normals m) (d_normal_triangles m) ++
  attribute (d_uvs m) (d_uv_triangles m) ++ attribute (d_tangents m) (d_tangent_triangles m).
(** No data array is there but empty. *)
Definition d_no_empty_array (m : dmesh) : Prop :=
  d_vertices m <> Some [] /\ d_normals m <> Some [] /\ d_uvs m <> Some [] /\ d_tangents m <> Some [].

(** Unifying panics exactly if two attributes have different index arrays, and two have
    index arrays of different lengths or one has an index outside its data. *)
Theorem C83_panics_iff : forall m, d_no_empty_array m ->
  d_unify_index_data (E:=False) m = Panic <->
  (exists a b, In a (d_attributes m) /\ In b (d_attributes m) /\ fst a <> fst b) /\
  ((exists a b, In a (d_attributes m) /\ In b (d_attributes m) /\ length (fst a) <> length (fst b)) \/
   (exists a i, In a (d_attributes m) /\ In i (fst a) /\ (snd a <= i)%N)).
Proof.
  intros m (Fv & Fn & Fu & Ft). rewrite d_unify_panic by assumption. unfold clash. rewrite not_alike. reflexivity.
Qed.
Print Assumptions C83_panics_iff.
(** So indices outside the data go unnoticed while all the index arrays are equal. *)
Theorem C83_equal_arrays : forall m t, d_no_empty_array m -> Forall (fun a => fst a = t) (d_attributes m) ->
  exists m', d_unify_index_data (E:=False) m = Ok m'.
Proof.
  intros m t N F. destruct (d_unify_index_data m) as [m'|[]|] eqn:R; [eauto|].
  apply C83_panics_iff in R as [(a & b & A & B & D) _]; auto. rewrite Forall_forall in F. apply F in A, B. congruence.
Qed.
Print Assumptions C83_equal_arrays.

(** The buffer getters. They have no way to panic: their type says so. *)
Theorem C83_vertex_buffer : forall m b,
  d_get_vertex_buffer m = Some b <-> exists v t, d_vertices m = Some v /\ d_vertex_triangles m = Some t /\ looks_up v t b.
Proof. intros m b. apply buffer_iff. Qed.
Theorem C83_normal_buffer : forall m b,
  d_get_normal_buffer m = Some b <-> exists v t, d_normals m = Some v /\ d_normal_triangles m = Some t /\ looks_up v t b.
Proof. intros m b. apply buffer_iff. Qed.
Theorem C83_uv_buffer : forall m b,
  d_get_uv_buffer m = Some b <-> exists v t, d_uvs m = Some v /\ d_uv_triangles m = Some t /\ looks_up v t b.
Proof. intros m b. apply buffer_iff. Qed.
Theorem C83_buffer_exists : forall m,
  (d_get_vertex_buffer m <> None <-> exists v t, d_vertices m = Some v /\ d_vertex_triangles m = Some t /\ in_range v t) /\
  (d_get_normal_buffer m <> None <-> exists v t, d_normals m = Some v /\ d_normal_triangles m = Some t /\ in_range v t) /\
  (d_get_uv_buffer m <> None <-> exists v t, d_uvs m = Some v /\ d_uv_triangles m = Some t /\ in_range v t).
Proof.
  assert (G : forall A (d : option (list A)) t, buffer d t <> None <-> exists v i, d = Some v /\ t = Some i /\ in_range v i).
  { intros A d t. split.
    - destruct (buffer d t) as [b|] eqn:E; [|congruence]. intros _. apply buffer_iff in E as (v & i & -> & -> & L).
      exists v, i. split; auto. split; auto. eapply looks_up_in_range; eauto.
    - intros (v & i & -> & -> & R) H. apply in_range_looks_up in R as [b B].
      assert (buffer (Some v) (Some i) = Some b) by (apply buffer_iff; eauto). congruence. }
  intros m. split; [apply G|split; apply G].
Qed.
(** A verified mesh in which no index equals the number of elements has buffers. *)
Theorem C83_verified_buffers : forall m, u32_length (d_vertices m) -> u32_length (d_normals m) -> u32_length (d_uvs m) ->
  verify_tmf_mesh_d m = Ok tt ->
  (forall v t, d_vertices m = Some v -> d_vertex_triangles m = Some t -> ~ In (len v) t -> exists b, d_get_vertex_buffer m = Some b) /\
  (forall v t, d_normals m = Some v -> d_normal_triangles m = Some t -> ~ In (len v) t -> exists b, d_get_normal_buffer m = Some b) /\
  (forall v t, d_uvs m = Some v -> d_uv_triangles m = Some t -> ~ In (len v) t -> exists b, d_get_uv_buffer m = Some b).
Proof.
  intros m S1 S2 S3 H. apply C82_verify_ok in H; auto. destruct H as (H1 & H2 & H3 & _).
  assert (G : forall A (d : option (list A)) o, indices_at_most d o -> forall v t, d = Some v -> o = Some t -> ~ In (len v) t -> exists b, buffer d o = Some b).
  { intros A d o H v t EV ET NI. unfold indices_at_most in H. rewrite ET in H.
    destruct H as (l & E & F). assert (l = v) by congruence. subst l.
    destruct (in_range_looks_up v t) as [b B].
    { apply Forall_forall. intros k K. rewrite Forall_forall in F. specialize (F k K). assert (k <> len v) by congruence. lia. }
    exists b. apply buffer_iff. exists v, t. auto. }
  split; [|split]; [exact (G _ _ _ H1)|exact (G _ _ _ H2)|exact (G _ _ _ H3)].
Qed.
(** Without that condition it need not: the check lets an index equal to the number
    of elements pass. *)
Theorem C83_verified_buffers_refuted : exists m, u32_length (d_vertices m) /\ u32_length (d_normals m) /\ u32_length (d_uvs m) /\
  verify_tmf_mesh_d m = Ok tt /\ d_vertices m <> None /\ d_vertex_triangles m <> None /\ d_get_vertex_buffer m = None.
Proof.
  exists (mk_dmesh None None (Some [d_pt 0 0 0]) (Some [1]%N) None None None None []).
  split; [intros l E; injection E as <-; reflexivity|]. split; [intros l E; discriminate E|]. split; [intros l E; discriminate E|].
  split; [vm_compute; reflexivity|]. split; [discriminate|]. split; [discriminate|]. reflexivity.
Qed.
Lemma d_demo_buffers n1 n2 v1 v2 v3 v4 u : d_get_vertex_buffer (d_demo_of n1 n2 v1 v2 v3 v4 u) = Some [v4; v2; v4; v3] /\
  d_get_uv_buffer (d_demo_of n1 n2 v1 v2 v3 v4 u) = None /\
  d_get_vertex_buffer (d_with_vertex_triangles (d_demo_of n1 n2 v1 v2 v3 v4 u) (Some [0; 4]%N)) = None.
Proof. repeat split. Qed.
Example C83_buffers_case : d_get_vertex_buffer d_demo = Some [d_pt 0 0 7; d_pt 7 0 0; d_pt 0 0 7; d_pt 0 7 0] /\ d_get_uv_buffer d_demo = None /\
  d_get_vertex_buffer (d_with_vertex_triangles d_demo (Some [0; 4]%N)) = None.
Proof. apply d_demo_buffers. Qed.
Print Assumptions C83_vertex_buffer.
Print Assumptions C83_normal_buffer.
Print Assumptions C83_uv_buffer.
Print Assumptions C83_buffer_exists.
Print Assumptions C83_verified_buffers.
Print Assumptions C83_verified_buffers_refuted.

(** Histories of calls on one mesh, beginning with the empty mesh. *)
Inductive d_call :=
| SetVertices (l : list dvec3) | SetNormals (l : list dvec3) | SetUvs (l : list dvec2) | SetTangents (l : list dtangent)
| SetVertexTriangles (l : list N) | SetNormalTriangles (l : list N) | SetUvTriangles (l : list N) | SetTangentTriangles (l : list N)
| AppendVertices (l : list dvec3) | AppendNormals (l : list dvec3) | AppendUvs (l : list dvec2) | AppendTangents (l : list dtangent)
| AppendVertexTriangles (l : list N) | AppendNormalTriangles (l : list N) | AppendUvTriangles (l : list N)
| AppendTangentTriangles (l : list N)
| AddCustomData (d : dcdata) (name : list N).
Inductive d_reply :=
| Nothing | Old3 (v : option (list dvec3)) | Old2 (v : option (list dvec2)) | OldT (v : option (list dtangent))
| OldI (v : option (list N)) | Rejected (e : dserr).
Definition d_perform (m : dmesh) (c : d_call) : dmesh * d_reply :=
  match c with
  | SetVertices l => let (m, o) := d_set_vertices m l in (m, Old3 o)
  | SetNormals l => let (m, o) := d_set_normals m l in (m, Old3 o)
  | SetUvs l => let (m, o) := d_set_uvs m l in (m, Old2 o)
  | SetTangents l => let (m, o) := d_set_tangents m l in (m, OldT o)
  | SetVertexTriangles l => let (m, o) := d_set_vertex_triangles m l in (m, OldI o)
  | SetNormalTriangles l => let (m, o) := d_set_normal_triangles m l in (m, OldI o)
  | SetUvTriangles l => let (m, o) := d_set_uv_triangles m l in (m, OldI o)
  | SetTangentTriangles l => let (m, o) := d_set_tangent_triangles m l in (m, OldI o)
  | AppendVertices l => (d_append_vertices m l, Nothing)
  | AppendNormals l => (d_append_normals m l, Nothing)
  | AppendUvs l => (d_append_uvs m l, Nothing)
  | AppendTangents l => (d_append_tangents m l, Nothing)
  | AppendVertexTriangles l => (d_append_vertex_triangles m l, Nothing)
  | AppendNormalTriangles l => (d_append_normal_triangles m l, Nothing)
  | AppendUvTriangles l => (d_append_uv_triangles m l, Nothing)
  | AppendTangentTriangles l => (d_append_tangent_triangles m l, Nothing)
  | AddCustomData d name =>
    match d_add_custom_data m d name with
    | Ok m => (m, Nothing)
    | Err e => (m, Rejected e)
    | Panic => (m, Nothing)
    end
  end.
Definition d_run (m : dmesh) (h : list d_call) : dmesh := fold_left (fun m c => fst (d_perform m c)) h m.

(** What each call is meant to do to each attribute. *)
Definition d_on_vertices c := match c with SetVertices l => [Replace l] | AppendVertices l => [Extend l] | _ => [] end.
Definition d_on_normals c := match c with SetNormals l => [Replace l] | AppendNormals l => [Extend l] | _ => [] end.
Definition d_on_uvs c := match c with SetUvs l => [Replace l] | AppendUvs l => [Extend l] | _ => [] end.
Definition d_on_tangents c := match c with SetTangents l => [Replace l] | AppendTangents l => [Extend l] | _ => [] end.
Definition d_on_vertex_triangles c := match c with SetVertexTriangles l => [Replace l] | AppendVertexTriangles l => [Extend l] | _ => [] end.
Definition d_on_normal_triangles c := match c with SetNormalTriangles l => [Replace l] | AppendNormalTriangles l => [Extend l] | _ => [] end.
Definition d_on_uv_triangles c := match c with SetUvTriangles l => [Replace l] | AppendUvTriangles l => [Extend l] | _ => [] end.
Definition d_on_tangent_triangles c := match c with SetTangentTriangles l => [Replace l] | AppendTangentTriangles l => [Extend l] | _ => [] end.

Lemma d_run_content h : forall m,
  d_vertices (d_run m h) = content (d_vertices m) (flat_map d_on_vertices h) /\
  d_normals (d_run m h) = content (d_normals m) (flat_map d_on_normals h) /\
  d_uvs (d_run m h) = content (d_uvs m) (flat_map d_on_uvs h) /\
  d_tangents (d_run m h) = content (d_tangents m) (flat_map d_on_tangents h) /\
  d_vertex_triangles (d_run m h) = content (d_vertex_triangles m) (flat_map d_on_vertex_triangles h) /\
  d_normal_triangles (d_run m h) = content (d_normal_triangles m) (flat_map d_on_normal_triangles h) /\
  d_uv_triangles (d_run m h) = content (d_uv_triangles m) (flat_map d_on_uv_triangles h) /\
  d_tangent_triangles (d_run m h) = content (d_tangent_triangles m) (flat_map d_on_tangent_triangles h).
Proof.
  induction h as [|c h IH]; intros m; [cbn; auto 10|].
  change (d_run m (c :: h)) with (d_run (fst (d_perform m c)) h).
  destruct (IH (fst (d_perform m c))) as (-> & -> & -> & -> & -> & -> & -> & ->).
  destruct c; cbn [d_perform flat_map d_on_vertices d_on_normals d_on_uvs d_on_tangents d_on_vertex_triangles d_on_normal_triangles
    d_on_uv_triangles d_on_tangent_triangles app content d_set_vertices d_set_normals d_set_uvs d_set_tangents d_set_vertex_triangles
    d_set_normal_triangles d_set_uv_triangles d_set_tangent_triangles fst];
  unfold d_append_vertices, d_append_normals, d_append_uvs, d_append_tangents, d_append_vertex_triangles, d_append_normal_triangles,
    d_append_uv_triangles, d_append_tangent_triangles.
  all: try (match goal with |- context [match ?d with Some _ => _ | None => _ end] => destruct d end;
            cbn [d_set_vertices d_set_normals d_set_uvs d_set_tangents d_set_vertex_triangles d_set_normal_triangles d_set_uv_triangles
                 d_set_tangent_triangles fst]; repeat split; reflexivity).
  all: try (repeat split; reflexivity).
  unfold d_add_custom_data. destruct (d_cseg_new d name); cbn [bind]; repeat split; reflexivity.
Qed.
Lemma holds_snoc_old {A} (evs : list (event A)) v : v = content None evs -> holds evs v.
Proof. intros ->. apply content_holds. Qed.

(** After any history every getter returns what the history says. *)
Theorem C83_getters : forall h,
  let m := d_run d_empty h in
  holds (flat_map d_on_vertices h) (d_vertices m) /\ holds (flat_map d_on_normals h) (d_normals m) /\
  holds (flat_map d_on_uvs h) (d_uvs m) /\ holds (flat_map d_on_tangents h) (d_tangents m) /\
  holds (flat_map d_on_vertex_triangles h) (d_vertex_triangles m) /\ holds (flat_map d_on_normal_triangles h) (d_normal_triangles m) /\
  holds (flat_map d_on_uv_triangles h) (d_uv_triangles m) /\ holds (flat_map d_on_tangent_triangles h) (d_tangent_triangles m).
Proof.
  intros h m. destruct (d_run_content h d_empty) as (E1 & E2 & E3 & E4 & E5 & E6 & E7 & E8).
  split; [exact (holds_snoc_old _ _ E1)|]. split; [exact (holds_snoc_old _ _ E2)|]. split; [exact (holds_snoc_old _ _ E3)|].
  split; [exact (holds_snoc_old _ _ E4)|]. split; [exact (holds_snoc_old _ _ E5)|]. split; [exact (holds_snoc_old _ _ E6)|].
  split; [exact (holds_snoc_old _ _ E7)|exact (holds_snoc_old _ _ E8)].
Qed.
(** A set call returns what was there before. *)
Theorem C83_replies : forall h,
  let m := d_run d_empty h in
  (forall l v, snd (d_perform m (SetVertices l)) = Old3 v -> holds (flat_map d_on_vertices h) v) /\
  (forall l v, snd (d_perform m (SetNormals l)) = Old3 v -> holds (flat_map d_on_normals h) v) /\
  (forall l v, snd (d_perform m (SetUvs l)) = Old2 v -> holds (flat_map d_on_uvs h) v) /\
  (forall l v, snd (d_perform m (SetTangents l)) = OldT v -> holds (flat_map d_on_tangents h) v) /\
  (forall l v, snd (d_perform m (SetVertexTriangles l)) = OldI v -> holds (flat_map d_on_vertex_triangles h) v) /\
  (forall l v, snd (d_perform m (SetNormalTriangles l)) = OldI v -> holds (flat_map d_on_normal_triangles h) v) /\
  (forall l v, snd (d_perform m (SetUvTriangles l)) = OldI v -> holds (flat_map d_on_uv_triangles h) v) /\
  (forall l v, snd (d_perform m (SetTangentTriangles l)) = OldI v -> holds (flat_map d_on_tangent_triangles h) v).
Proof.
  intros h m. destruct (C83_getters h) as (E1 & E2 & E3 & E4 & E5 & E6 & E7 & E8). fold m in E1, E2, E3, E4, E5, E6, E7, E8.
  repeat split; intros l v H; injection H as <-; assumption.
Qed.
Example C83_history_case :
  let h := [AppendNormals [d_pt 1 0 0]; SetVertexTriangles [4; 5]%N; AppendNormals [d_pt 0 1 0]; SetVertexTriangles [6]%N;
            AppendVertexTriangles [7; 8]%N] in
  d_normals (d_run d_empty h) = Some [d_pt 1 0 0; d_pt 0 1 0] /\ d_vertex_triangles (d_run d_empty h) = Some [6; 7; 8]%N /\
  d_vertices (d_run d_empty h) = None /\ snd (d_perform (d_run d_empty h) (SetVertexTriangles [])) = OldI (Some [6; 7; 8]%N).
Proof. repeat split. Qed.
Print Assumptions C83_getters.
Print Assumptions C83_replies.

(** The accepted additions of a history, in order. *)
Definition d_added (h : list d_call) : list (list N * dcdata) :=
  flat_map (fun c => match c with AddCustomData d name => if name_accepted name then [(name, d)] else [] | _ => [] end) h.
Lemma d_cseg_new_ok d name : name_accepted name = true -> exists s, d_cseg_new d name = Ok s /\ x_name s = name /\ x_name_len s = len name /\ x_data s = d.
Proof.
  unfold name_accepted, len. intros H. unfold d_cseg_new.
  replace (255 <? N.of_nat (length name))%N with false by lia. replace (length name =? 0) with false by lia.
  eexists. split; [reflexivity|]. unfold d_new_raw. cbn [x_name x_name_len x_data]. split; auto.
  rewrite Nnat.Nat2N.id, firstn_app, Nat.sub_diag, firstn_all, app_nil_r. reflexivity.
Qed.
Lemma d_cseg_new_bad d name : name_accepted name = false ->
  d_cseg_new d name = Err (if (255 <? len name)%N then NameTooLong else NoName).
Proof.
  unfold name_accepted, len. intros H. unfold d_cseg_new. destruct (N.ltb_spec 255 (N.of_nat (length name))); auto.
  replace (length name =? 0) with true by lia. reflexivity.
Qed.
Definition d_keeps_name (s : dcseg) (p : list N * dcdata) : Prop := x_name s = fst p /\ x_name_len s = len (fst p) /\ x_data s = snd p.
Lemma d_run_customs h : forall m l, Forall2 d_keeps_name (d_custom_data m) l -> Forall2 d_keeps_name (d_custom_data (d_run m h)) (l ++ d_added h).
Proof.
  induction h as [|c h IH]; intros m l F; [cbn; now rewrite app_nil_r|].
  change (d_run m (c :: h)) with (d_run (fst (d_perform m c)) h).
  assert (X : d_added (c :: h) = d_added [c] ++ d_added h) by (unfold d_added; cbn [flat_map]; now rewrite app_nil_r).
  rewrite X, app_assoc. apply IH. clear IH X.
  destruct c; try (cbn [d_added flat_map]; rewrite ?app_nil_r; cbn [d_perform d_set_vertices d_set_normals d_set_uvs d_set_tangents
    d_set_vertex_triangles d_set_normal_triangles d_set_uv_triangles d_set_tangent_triangles fst];
    unfold d_append_vertices, d_append_normals, d_append_uvs, d_append_tangents, d_append_vertex_triangles, d_append_normal_triangles,
      d_append_uv_triangles, d_append_tangent_triangles;
    try match goal with |- context [match ?d with Some _ => _ | None => _ end] => destruct d end; exact F).
  cbn [d_added flat_map d_perform]. rewrite app_nil_r. unfold d_add_custom_data. destruct (name_accepted name) eqn:NA.
  - destruct (d_cseg_new_ok d name NA) as (s & -> & K1 & K2 & K3). cbn [bind fst d_add_custom_data_seg d_with_custom_data d_custom_data].
    apply Forall2_app; auto. constructor; [repeat split; auto|constructor].
  - rewrite (d_cseg_new_bad d name NA). cbn [bind fst]. now rewrite app_nil_r.
Qed.
Lemma d_lookup_loop_spec (name : list N) segs l : Forall2 d_keeps_name segs l ->
  (exists before d after, l = before ++ (name, d) :: after /\ (forall d', ~ In (name, d') before) /\
     d_lookup_loop (E:=False) segs name (len name) = Ok (Some d)) \/
  ((forall d, ~ In (name, d) l) /\ d_lookup_loop (E:=False) segs name (len name) = Ok None).
Proof.
  induction 1 as [|s [n d] segs l (K1 & K2 & K3) _ IH]; cbn [d_lookup_loop]; [right; auto|]. cbn [fst snd] in *. subst n d. rewrite K2.
  assert (LE : (N.of_nat (length (x_name s)) <? len (x_name s))%N = false) by (unfold len; lia). rewrite LE.
  assert (FS : firstn (N.to_nat (len (x_name s))) (x_name s) = x_name s).
  { unfold len. rewrite Nnat.Nat2N.id. apply firstn_all. }
  rewrite FS.
  assert (D : name = x_name s \/ name <> x_name s) by (destruct (list_eq_dec N.eq_dec name (x_name s)); auto).
  destruct D as [D|D].
  - left. subst name. rewrite N.eqb_refl. assert (Q : list_eqb (x_name s) (x_name s) = true) by now apply list_eqb_eq. rewrite Q.
    exists [], (x_data s), l. split; auto.
  - assert (Q : d_lookup_loop (E:=False) segs name (len name) =
      (if (len (x_name s) =? len name)%N then if list_eqb name (x_name s) then Ok (Some (x_data s)) else d_lookup_loop segs name (len name)
       else d_lookup_loop segs name (len name))).
    { destruct (list_eqb name (x_name s)) eqn:B; [apply list_eqb_eq in B; congruence|]. now destruct (_ =? _)%N. }
    rewrite <- Q. destruct IH as [(b & d & a & -> & NI & ->)|(NI & ->)].
    + left. exists ((x_name s, x_data s) :: b), d, a. split; auto. split; auto. intros d' [E|I]; [congruence|]. eapply NI; eauto.
    + right. split; auto. intros d [E|I]; [congruence|]. eapply NI; eauto.
Qed.
(** After any history a lookup returns the first data added under the name, and
    nothing if none was. It never panics. *)
Theorem C83_lookup : forall h name,
  (exists before d after, d_added h = before ++ (name, d) :: after /\ (forall d', ~ In (name, d') before) /\
     d_lookup_custom_data (E:=False) (d_run d_empty h) name = Ok (Some d)) \/
  ((forall d, ~ In (name, d) (d_added h)) /\ d_lookup_custom_data (E:=False) (d_run d_empty h) name = Ok None).
Proof.
  intros h name. pose proof (d_run_customs h d_empty [] (Forall2_nil _)) as F. cbn [app] in F. unfold d_lookup_custom_data.
  fold (len name). destruct (N.ltb_spec 255 (len name)).
  - right. split; auto. intros d I. unfold d_added in I. apply in_flat_map in I as (c & _ & I). destruct c; try destruct I.
    destruct (name_accepted name0) eqn:NA; [|destruct I]. destruct I as [[= -> ->]|[]]. unfold name_accepted in NA. lia.
  - now apply d_lookup_loop_spec.
Qed.
(** Names of 1 to 255 bytes are accepted, even if used before; others are
    rejected and leave the mesh as it was. *)
Theorem C83_add : forall m d name,
  (name_accepted name = true /\ snd (d_perform m (AddCustomData d name)) = Nothing) \/
  (len name = 0%N /\ d_perform m (AddCustomData d name) = (m, Rejected NoName)) \/
  ((255 < len name)%N /\ d_perform m (AddCustomData d name) = (m, Rejected NameTooLong)).
Proof.
  intros m d name. cbn [d_perform]. unfold d_add_custom_data. destruct (name_accepted name) eqn:NA.
  - left. destruct (d_cseg_new_ok d name NA) as (s & -> & _). auto.
  - right. rewrite (d_cseg_new_bad d name NA). cbn [bind]. unfold name_accepted in NA.
    destruct (N.ltb_spec 255 (len name)); [right; auto|left]. split; auto. lia.
Qed.
Example C83_lookup_case :
  let a := XIndex [1; 2]%N 2 in let b := XInteger [7]%N 7 in
  let h := [AddCustomData a [120]%N; AddCustomData b []; AddCustomData b [120]%N; AddCustomData b [121]%N] in
  d_added h = [([120]%N, a); ([120]%N, b); ([121]%N, b)] /\
  d_lookup_custom_data (E:=False) (d_run d_empty h) [120]%N = Ok (Some a) /\ d_lookup_custom_data (E:=False) (d_run d_empty h) [121]%N = Ok (Some b) /\
  d_lookup_custom_data (E:=False) (d_run d_empty h) [122]%N = Ok None.
Proof. repeat split. Qed.
Print Assumptions C83_lookup.
Print Assumptions C83_add.
Example C83_verified_case : verify_tmf_mesh_d d_demo = Ok tt /\ u32_length (d_vertices d_demo) /\ u32_length (d_normals d_demo) /\
  u32_length (d_uvs d_demo) /\ (exists v t, d_vertices d_demo = Some v /\ d_vertex_triangles d_demo = Some t /\ ~ In (len v) t).
Proof.
  split; [vm_compute; reflexivity|]. split; [intros l E; injection E as <-; reflexivity|]. split; [intros l E; injection E as <-; reflexivity|].
  split; [intros l E; injection E as <-; reflexivity|]. eexists _, _. split; [reflexivity|]. split; [reflexivity|].
  unfold len. cbn [length]. intros I. cbn [In] in I. repeat (destruct I as [I|I]; [discriminate I|]). exact I.
Qed.
