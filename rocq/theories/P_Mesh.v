(** Properties C25-C32: operations on a mesh in memory. *)
From Coq Require Import List NArith ZArith Arith Lia Bool ZifyN ZifyNat ZifyBool.
From Flocq Require Import IEEE754.BinarySingleNaN.
From Verif Require Import Base Floats Utilis Unify CustomData Mesh FileSpec MeshSpec File_proofs Mesh_proofs Unify_proofs Mesh2_proofs.
Import ListNotations.
Open Scope res_scope.

(** [Ok m'] means the operation returns and leaves the mesh [m']; [Panic] that it
    panics. Operations in this file have no other way to fail, which the empty error
    type says. *)
Definition op := res False.

Definition u32_indices (m : mesh) : Prop :=
  u32_opt (vertex_triangles m) /\ u32_opt (normal_triangles m) /\ u32_opt (uv_triangles m) /\ u32_opt (tangent_triangles m).

Definition pt (a b c : Z) : vec3 := (f32_of_Z a, f32_of_Z b, f32_of_Z c).
(** Vertices used out of order with one unused, shared normals, no UVs. *)
Definition demo_of (n1 n2 v1 v2 v3 v4 : vec3) (u : vec2) : mesh :=
  mk_mesh (Some [n1; n2]) (Some [1; 0; 1; 1]%N) (Some [v1; v2; v3; v4]) (Some [3; 1; 3; 2]%N)
          (Some [u]) None None None [mk_cseg [97]%N 1 (CIndex [1]%N 1)].
Definition demo : mesh :=
  demo_of (pt 1 0 0) (pt 0 0 1) (pt 0 0 0) (pt 7 0 0) (pt 0 7 0) (pt 0 0 7) (f0, f1).
Lemma u32_some l : forallb (fun i => (i <? 2 ^ 32)%N) l = true -> u32_opt (Some l).
Proof.
  intros H l' E. injection E as <-. apply Forall_forall. intros x X. rewrite forallb_forall in H. apply N.ltb_lt. auto.
Qed.
Lemma u32_none : u32_opt None. Proof. intros l E. discriminate E. Qed.
Lemma demo_u32 : u32_indices demo.
Proof. repeat split; cbn; first [apply u32_none|apply u32_some; reflexivity]. Qed.

(** C25. Reordering keeps the buffers, tangents and custom data. *)
Theorem C25_reorder_same_buffers : forall m m', u32_indices m -> reorder_data (E:=False) m = Ok m' ->
  get_vertex_buffer m' = get_vertex_buffer m /\ get_normal_buffer m' = get_normal_buffer m /\ get_uv_buffer m' = get_uv_buffer m /\
  tangents m' = tangents m /\ tangent_triangles m' = tangent_triangles m /\ custom_data m' = custom_data m.
Proof.
  intros m m' (U1 & U2 & U3 & _) H.
  destruct (reorder_spec (E:=False) m U1 U2 U3) as [(_ & _ & _ & m2 & R & _ & S1 & S2 & S3 & T)|(_ & R)]; rewrite R in H; [|discriminate H].
  injection H as <-. unfold get_vertex_buffer, get_normal_buffer, get_uv_buffer.
  rewrite (reordered_buffer _ _ _ _ S1), (reordered_buffer _ _ _ _ S2), (reordered_buffer _ _ _ _ S3). auto.
Qed.
(** C25. It returns exactly when each attribute lacks data or indices, or has all
    indices in range. Otherwise it panics. *)
Theorem C25_reorder_panics : forall m, u32_indices m ->
  ((exists m', reorder_data (E:=False) m = Ok m') <->
   reorderable (vertices m) (vertex_triangles m) /\ reorderable (normals m) (normal_triangles m) /\ reorderable (uvs m) (uv_triangles m)) /\
  (reorder_data (E:=False) m = Panic <-> ~ exists m', reorder_data (E:=False) m = Ok m').
Proof.
  intros m (U1 & U2 & U3 & _).
  destruct (reorder_spec (E:=False) m U1 U2 U3) as [(R1 & R2 & R3 & m2 & R & _)|(NR & R)]; rewrite R; split; split; eauto.
  - discriminate.
  - intros H. exfalso. eauto.
  - intros (m' & D). discriminate.
  - intros H. tauto.
  - intros _ (m' & D). discriminate.
Qed.
(** C26. Attributes with data and indices are compacted: the indices introduce
    0, 1, 2, ... in this order, every element is used, and the elements are those
    that were used before. Doing it again changes nothing. *)
Theorem C26_reorder_compacts : forall m m', u32_indices m -> reorder_data (E:=False) m = Ok m' ->
  reordered (vertices m) (vertex_triangles m) (vertices m') (vertex_triangles m') /\
  reordered (normals m) (normal_triangles m) (normals m') (normal_triangles m') /\
  reordered (uvs m) (uv_triangles m) (uvs m') (uv_triangles m') /\
  reorder_data (E:=False) m' = Ok m'.
Proof.
  intros m m' (U1 & U2 & U3 & _) H.
  destruct (reorder_spec (E:=False) m U1 U2 U3) as [(_ & _ & _ & m2 & R & A & S1 & S2 & S3 & _)|(_ & R)]; rewrite R in H; [|discriminate H].
  injection H as <-. auto.
Qed.
Lemma demo_reorder n1 n2 v1 v2 v3 v4 u :
  reorder_data (E:=False) (demo_of n1 n2 v1 v2 v3 v4 u) =
    Ok (mk_mesh (Some [n2; n1]) (Some [0; 1; 0; 0]%N) (Some [v4; v2; v3]) (Some [0; 1; 0; 2]%N)
          (Some [u]) None None None [mk_cseg [97]%N 1 (CIndex [1]%N 1)]) /\
  reorder_data (E:=False) (with_vertex_triangles (demo_of n1 n2 v1 v2 v3 v4 u) (Some [4]%N)) = Panic.
Proof. split; reflexivity. Qed.
Example C25_C26_case : u32_indices demo /\
  (exists m', reorder_data (E:=False) demo = Ok m' /\ vertex_triangles m' = Some [0; 1; 0; 2]%N /\
     vertices m' = Some [pt 0 0 7; pt 7 0 0; pt 0 7 0] /\ normal_triangles m' = Some [0; 1; 0; 0]%N) /\
  reorder_data (E:=False) (with_vertex_triangles demo (Some [4]%N)) = Panic.
Proof.
  split; [exact demo_u32|]. unfold demo. destruct (demo_reorder (pt 1 0 0) (pt 0 0 1) (pt 0 0 0) (pt 7 0 0) (pt 0 7 0) (pt 0 0 7) (f0, f1)) as [E P].
  split; [|exact P]. eexists. split; [exact E|]. repeat split.
Qed.
Print Assumptions C25_reorder_same_buffers.
Print Assumptions C25_reorder_panics.
Print Assumptions C26_reorder_compacts.

(** At most 2^32 entries in every index array. *)
Definition short_indices (m : mesh) : Prop :=
  short (vertex_triangles m) /\ short (normal_triangles m) /\ short (uv_triangles m) /\ short (tangent_triangles m).
(** C27. Unifying keeps the buffers of all four attributes and the custom data. All
    attributes that have data and indices share one index array afterwards. *)
Theorem C27_unify_same_buffers : forall m m', short_indices m -> unify_index_data (E:=False) m = Ok m' ->
  buffer (vertices m') (vertex_triangles m') = buffer (vertices m) (vertex_triangles m) /\
  buffer (normals m') (normal_triangles m') = buffer (normals m) (normal_triangles m) /\
  buffer (uvs m') (uv_triangles m') = buffer (uvs m) (uv_triangles m) /\
  buffer (tangents m') (tangent_triangles m') = buffer (tangents m) (tangent_triangles m) /\
  custom_data m' = custom_data m.
Proof.
  intros m m' S H.
  destruct (unify_spec (E:=False) m S) as [(R & _)|[(R & _)|(m2 & idx & n & R & _ & _ & _ & (B1 & B2 & B3 & B4) & C & _)]];
    rewrite R in H; [discriminate H|..]; injection H as <-; auto.
Qed.
Theorem C27_unify_shares : forall m m', short_indices m -> unify_index_data (E:=False) m = Ok m' ->
  shared (vertices m') (vertex_triangles m') (normals m') (normal_triangles m') /\
  shared (vertices m') (vertex_triangles m') (uvs m') (uv_triangles m') /\
  shared (vertices m') (vertex_triangles m') (tangents m') (tangent_triangles m') /\
  shared (normals m') (normal_triangles m') (uvs m') (uv_triangles m') /\
  shared (normals m') (normal_triangles m') (tangents m') (tangent_triangles m') /\
  shared (uvs m') (uv_triangles m') (tangents m') (tangent_triangles m').
Proof.
  intros m m' S H.
  destruct (unify_spec (E:=False) m S) as [(R & _)|[(R & A)|(m2 & idx & n & R & _ & _ & (U1 & U2 & U3 & U4) & _)]];
    rewrite R in H; [discriminate H|..]; injection H as <-; [exact A|].
  repeat split; eapply unified_shared; eauto.
Qed.
(** C27. It returns when the index arrays that have data are equally long and in
    range. *)
Theorem C27_unify_returns : forall m n, short_indices m ->
  fits n (vertices m) (vertex_triangles m) -> fits n (normals m) (normal_triangles m) ->
  fits n (uvs m) (uv_triangles m) -> fits n (tangents m) (tangent_triangles m) ->
  exists m', unify_index_data (E:=False) m = Ok m'.
Proof.
  intros m n S F1 F2 F3 F4.
  destruct (unify_spec (E:=False) m S) as [(R & X)|[(R & _)|(m2 & idx & k & R & _)]]; eauto.
  exfalso. apply X. exists n. auto.
Qed.
(** C28. When something changes, all attributes with data and indices get one index
    array in order of first use and data arrays of one length [n]; two corners get
    the same number exactly when they agreed in every such attribute before. *)
Theorem C28_unify_compact : forall m m', short_indices m -> unify_index_data (E:=False) m = Ok m' ->
  m' = m \/
  exists idx n, first_use 0 idx n /\
    unified idx n (vertices m) (vertex_triangles m) (vertices m') (vertex_triangles m') /\
    unified idx n (normals m) (normal_triangles m) (normals m') (normal_triangles m') /\
    unified idx n (uvs m) (uv_triangles m) (uvs m') (uv_triangles m') /\
    unified idx n (tangents m) (tangent_triangles m) (tangents m') (tangent_triangles m') /\
    forall p q, p < length idx -> q < length idx ->
      (nth_error idx p = nth_error idx q <->
       same_at (vertices m) (vertex_triangles m) p q /\ same_at (normals m) (normal_triangles m) p q /\
       same_at (uvs m) (uv_triangles m) p q /\ same_at (tangents m) (tangent_triangles m) p q).
Proof.
  intros m m' S H.
  destruct (unify_spec (E:=False) m S) as [(R & _)|[(R & A)|(m2 & idx & n & R & _ & F & (U1 & U2 & U3 & U4) & _ & _ & X)]];
    rewrite R in H; [discriminate H|..]; injection H as <-; [auto|].
  right. exists idx, n. auto 10.
Qed.
(** C28. Attributes that share an index array already are left alone; unifying again
    changes nothing. *)
Theorem C28_unify_idempotent : forall m m', short_indices m -> unify_index_data (E:=False) m = Ok m' ->
  unify_index_data (E:=False) m' = Ok m'.
Proof. intros m m'. apply unify_again. Qed.
Lemma short_some l : (len l <=? 2 ^ 32)%N = true -> short (Some l).
Proof. intros H i E. injection E as <-. now apply N.leb_le. Qed.
Lemma short_none : short None. Proof. intros i E. discriminate E. Qed.
Lemma fits_some {A} n (d : list A) i : (length i =? n) && forallb (fun k => (k <? len d)%N) i = true -> fits n (Some d) (Some i).
Proof.
  intros H d0 i0 E1 E2. injection E1 as <-. injection E2 as <-. apply andb_prop in H as [H1 H2]. apply Nat.eqb_eq in H1.
  split; auto. apply Forall_forall. intros k K. rewrite forallb_forall in H2. apply N.ltb_lt. auto.
Qed.
Lemma fits_no_index {A} n (d : option (list A)) : fits n d None. Proof. intros d0 i0 _ E. discriminate E. Qed.
Lemma demo_unify n1 n2 v1 v2 v3 v4 u :
  unify_index_data (E:=False) (demo_of n1 n2 v1 v2 v3 v4 u) =
    Ok (mk_mesh (Some [n2; n1; n2]) (Some [0; 1; 0; 2]%N) (Some [v4; v2; v3]) (Some [0; 1; 0; 2]%N)
          (Some [u]) None None None [mk_cseg [97]%N 1 (CIndex [1]%N 1)]) /\
  unify_index_data (E:=False) (with_normal_triangles (demo_of n1 n2 v1 v2 v3 v4 u) (Some [0; 1]%N)) = Panic.
Proof. split; reflexivity. Qed.
Example C27_C28_case : short_indices demo /\
  (fits 4 (vertices demo) (vertex_triangles demo) /\ fits 4 (normals demo) (normal_triangles demo) /\
   fits 4 (uvs demo) (uv_triangles demo) /\ fits 4 (tangents demo) (tangent_triangles demo)) /\
  (exists m', unify_index_data (E:=False) demo = Ok m' /\ vertex_triangles m' = Some [0; 1; 0; 2]%N /\
     normal_triangles m' = Some [0; 1; 0; 2]%N /\ normals m' = Some [pt 0 0 1; pt 1 0 0; pt 0 0 1]) /\
  unify_index_data (E:=False) (with_normal_triangles demo (Some [0; 1]%N)) = Panic.
Proof.
  split; [split; [|split; [|split]]; cbn; first [apply short_none|apply short_some; reflexivity]|].
  split; [split; [|split; [|split]]; cbn [vertices normals uvs tangents vertex_triangles normal_triangles uv_triangles tangent_triangles demo demo_of];
          first [apply fits_no_index|apply fits_some; vm_compute; reflexivity]|].
  unfold demo. destruct (demo_unify (pt 1 0 0) (pt 0 0 1) (pt 0 0 0) (pt 7 0 0) (pt 0 7 0) (pt 0 0 7) (f0, f1)) as [E P].
  split; [|exact P]. eexists. split; [exact E|]. repeat split.
Qed.
Print Assumptions C27_unify_same_buffers.
Print Assumptions C27_unify_shares.
Print Assumptions C27_unify_returns.
Print Assumptions C28_unify_compact.
Print Assumptions C28_unify_idempotent.

(** C29. [length_off n]: the computed length differs from 1 by more than 0.001, in
    single precision. *)
Definition length_off (n : vec3) : Prop := flt (flit 1 1000) (fabs (fsub f1 (magnitude n))) = true.
Theorem C29_verify_ok : forall m, u32_length (vertices m) -> u32_length (normals m) -> u32_length (uvs m) ->
  (verify_tmf_mesh m = Ok tt <->
   indices_at_most (vertices m) (vertex_triangles m) /\
   indices_at_most (normals m) (normal_triangles m) /\
   indices_at_most (uvs m) (uv_triangles m) /\
   forall l n, normals m = Some l -> In n l -> ~ length_off n).
Proof.
  intros m S1 S2 S3. rewrite verify_ok_iff.
  assert (D : reported (verify_tmf_mesh m) = [] <-> forall e, ~ In e (reported (verify_tmf_mesh m))).
  { split; [intros -> e []|]. destruct (reported _); auto. intros H. exfalso. apply (H i). left. auto. }
  rewrite D.
  assert (O : ~ off_normal m <-> forall l n, normals m = Some l -> In n l -> ~ length_off n).
  { unfold off_normal, length_off. split; [intros H l n E I L; apply H; exists l, n; auto|]. intros H (l & n & E & I & L). exact (H l n E I L). }
  rewrite <- O.
  assert (P : forall A (d : option (list A)) t (mi : integrity) o, indices_at_most d t <-> forall e, ~ index_problem mi o d t e).
  { intros A d t mi o. pose proof (index_problem_iff d t mi o) as Q. split.
    - intros H e I. apply Q in H; eauto.
    - intros H. unfold indices_at_most in *. destruct t as [i|]; auto. destruct d as [l|].
      + destruct (indices_inside_array i (len l)) as [k|] eqn:E; [|exists l; split; auto; now apply inside_none].
        exfalso. apply inside_some in E. apply (H (o k (len l))). exists i. split; auto. right. eauto.
      + exfalso. apply (H mi). exists i. auto. }
  split.
  - intros H. assert (NO : ~ off_normal m). { intros X. apply (H NormalsNotNormalized). apply reported_in; auto. }
    split; [|split; [|split]]; auto; (eapply P; intros e I; apply (H e); apply reported_in; eauto).
  - intros (A & B & C & NO) e I. apply reported_in in I; auto. destruct I as [I|[(I & _)|[(_ & I)|I]]]; auto.
    + eapply P in A; eauto.
    + eapply P in B; eauto.
    + eapply P in C; eauto.
Qed.
(** C29. The errors reported, one or several ([reported] flattens the verdict): per
    attribute the missing array or the first index beyond the array with the array's
    length; for normals only if none is off, else that some normal is off. *)
Theorem C29_verify_errors : forall m e, u32_length (vertices m) -> u32_length (normals m) -> u32_length (uvs m) ->
  (In e (reported (verify_tmf_mesh m)) <->
   index_problem VertexArrayMissing IndexOutsideVertexArray (vertices m) (vertex_triangles m) e \/
   ((exists l n, normals m = Some l /\ In n l /\ length_off n) /\ e = NormalsNotNormalized) \/
   (~ (exists l n, normals m = Some l /\ In n l /\ length_off n) /\
    index_problem NormalArrayMissing IndexOutsideNormalArray (normals m) (normal_triangles m) e) \/
   index_problem UVArrayMissing IndexOutsideUVArray (uvs m) (uv_triangles m) e).
Proof. intros m e. apply reported_in. Qed.
Theorem C29_verify_total : forall m, verify_tmf_mesh m <> Panic.
Proof. exact verify_never_panics. Qed.
(** A verified mesh in which no index equals the number of elements has buffers. *)
Theorem C29_verified_buffers : forall m, u32_length (vertices m) -> u32_length (normals m) -> u32_length (uvs m) ->
  verify_tmf_mesh m = Ok tt ->
  (forall v t, vertices m = Some v -> vertex_triangles m = Some t -> ~ In (len v) t -> exists b, get_vertex_buffer m = Some b) /\
  (forall v t, normals m = Some v -> normal_triangles m = Some t -> ~ In (len v) t -> exists b, get_normal_buffer m = Some b) /\
  (forall v t, uvs m = Some v -> uv_triangles m = Some t -> ~ In (len v) t -> exists b, get_uv_buffer m = Some b).
Proof.
  intros m S1 S2 S3 H. apply C29_verify_ok in H; auto. destruct H as (H1 & H2 & H3 & _).
  assert (G : forall A (d : option (list A)) o, indices_at_most d o -> forall v t, d = Some v -> o = Some t -> ~ In (len v) t -> exists b, buffer d o = Some b).
  { intros A d o H v t EV ET NI. unfold indices_at_most in H. rewrite ET in H.
    destruct H as (l & E & F). assert (l = v) by congruence. subst l.
    destruct (in_range_looks_up v t) as [b B].
    { apply Forall_forall. intros k K. rewrite Forall_forall in F. specialize (F k K). assert (k <> len v) by congruence. lia. }
    exists b. apply buffer_iff. exists v, t. auto. }
  split; [|split]; [exact (G _ _ _ H1)|exact (G _ _ _ H2)|exact (G _ _ _ H3)].
Qed.
(** Without that condition it need not: the check lets an index equal to the number
    of elements pass. *)
Theorem C29_verified_buffers_refuted : exists m, u32_length (vertices m) /\ u32_length (normals m) /\ u32_length (uvs m) /\
  verify_tmf_mesh m = Ok tt /\ vertices m <> None /\ vertex_triangles m <> None /\ get_vertex_buffer m = None.
Proof.
  exists (mk_mesh None None (Some [pt 0 0 0]) (Some [1]%N) None None None None []).
  split; [intros l E; injection E as <-; reflexivity|]. split; [intros l E; discriminate E|]. split; [intros l E; discriminate E|].
  split; [vm_compute; reflexivity|]. split; [discriminate|]. split; [discriminate|]. reflexivity.
Qed.
(** A UV far outside 0..1 is not reported, whatever else the mesh holds. *)
Theorem C29_uv_range_unchecked : forall m x y, ~ In (UVOutsideRange x y) (reported (verify_tmf_mesh m)).
Proof.
  intros m x y I. rewrite verify_reported, somes_in in I. cbn [In] in I. destruct I as [I|[I|[I|[]]]].
  - unfold verify_vertices in I. destruct (vertices m), (vertex_triangles m); try discriminate I. destruct (indices_inside_array _ _); discriminate I.
  - unfold verify_normals in I. destruct (normals m), (normal_triangles m); try destruct (existsb _ _); try discriminate I.
    destruct (indices_inside_array _ _); discriminate I.
  - unfold verify_uvs in I. destruct (uvs m), (uv_triangles m); try rewrite uv_range_none in I; try discriminate I.
    destruct (indices_inside_array _ _); discriminate I.
Qed.
Example C29_case : verify_tmf_mesh demo = Ok tt /\
  verify_tmf_mesh (with_normals demo (Some [pt 1 1 0])) = Err NormalsNotNormalized /\
  verify_tmf_mesh (with_vertices (with_normals demo None) (Some [pt 0 0 0])) =
    Err (CompositeError [IndexOutsideVertexArray 3 1; NormalArrayMissing]) /\
  verify_tmf_mesh (with_uvs demo (Some [(f32_of_Z 5, f32_of_Z (-5))])) = Ok tt.
Proof. repeat split; vm_compute; reflexivity. Qed.
Print Assumptions C29_verify_ok.
Print Assumptions C29_verify_errors.
Print Assumptions C29_verify_total.
Print Assumptions C29_verified_buffers.
Print Assumptions C29_verified_buffers_refuted.
Print Assumptions C29_uv_range_unchecked.

(** C30. The buffer getters. They have no way to panic: their type says so. *)
Theorem C30_vertex_buffer : forall m b,
  get_vertex_buffer m = Some b <-> exists v t, vertices m = Some v /\ vertex_triangles m = Some t /\ looks_up v t b.
Proof. intros m b. apply buffer_iff. Qed.
Theorem C30_normal_buffer : forall m b,
  get_normal_buffer m = Some b <-> exists v t, normals m = Some v /\ normal_triangles m = Some t /\ looks_up v t b.
Proof. intros m b. apply buffer_iff. Qed.
Theorem C30_uv_buffer : forall m b,
  get_uv_buffer m = Some b <-> exists v t, uvs m = Some v /\ uv_triangles m = Some t /\ looks_up v t b.
Proof. intros m b. apply buffer_iff. Qed.
Theorem C30_buffer_exists : forall m,
  (get_vertex_buffer m <> None <-> exists v t, vertices m = Some v /\ vertex_triangles m = Some t /\ in_range v t) /\
  (get_normal_buffer m <> None <-> exists v t, normals m = Some v /\ normal_triangles m = Some t /\ in_range v t) /\
  (get_uv_buffer m <> None <-> exists v t, uvs m = Some v /\ uv_triangles m = Some t /\ in_range v t).
Proof.
  assert (G : forall A (d : option (list A)) t, buffer d t <> None <-> exists v i, d = Some v /\ t = Some i /\ in_range v i).
  { intros A d t. split.
    - destruct (buffer d t) as [b|] eqn:E; [|congruence]. intros _. apply buffer_iff in E as (v & i & -> & -> & L).
      exists v, i. split; auto. split; auto. eapply looks_up_in_range; eauto.
    - intros (v & i & -> & -> & R) H. apply in_range_looks_up in R as [b B].
      assert (buffer (Some v) (Some i) = Some b) by (apply buffer_iff; eauto). congruence. }
  intros m. split; [apply G|split; apply G].
Qed.
Lemma demo_buffers n1 n2 v1 v2 v3 v4 u : get_vertex_buffer (demo_of n1 n2 v1 v2 v3 v4 u) = Some [v4; v2; v4; v3] /\
  get_uv_buffer (demo_of n1 n2 v1 v2 v3 v4 u) = None /\
  get_vertex_buffer (with_vertex_triangles (demo_of n1 n2 v1 v2 v3 v4 u) (Some [0; 4]%N)) = None.
Proof. repeat split. Qed.
Example C30_case : get_vertex_buffer demo = Some [pt 0 0 7; pt 7 0 0; pt 0 0 7; pt 0 7 0] /\ get_uv_buffer demo = None /\
  get_vertex_buffer (with_vertex_triangles demo (Some [0; 4]%N)) = None.
Proof. apply demo_buffers. Qed.
Print Assumptions C30_vertex_buffer.
Print Assumptions C30_normal_buffer.
Print Assumptions C30_uv_buffer.
Print Assumptions C30_buffer_exists.

(** C31, C32. Histories of calls on one mesh, beginning with the empty mesh. *)
Inductive call :=
| SetVertices (l : list vec3) | SetNormals (l : list vec3) | SetUvs (l : list vec2) | SetTangents (l : list tangent)
| SetVertexTriangles (l : list N) | SetNormalTriangles (l : list N) | SetUvTriangles (l : list N) | SetTangentTriangles (l : list N)
| AppendVertices (l : list vec3) | AppendNormals (l : list vec3) | AppendUvs (l : list vec2) | AppendTangents (l : list tangent)
| AppendVertexTriangles (l : list N) | AppendNormalTriangles (l : list N) | AppendUvTriangles (l : list N)
| AppendTangentTriangles (l : list N)
| AddCustomData (d : cdata) (name : list N).
Inductive reply :=
| Nothing | Old3 (v : option (list vec3)) | Old2 (v : option (list vec2)) | OldT (v : option (list tangent))
| OldI (v : option (list N)) | Rejected (e : dserr).
Definition perform (m : mesh) (c : call) : mesh * reply :=
  match c with
  | SetVertices l => let (m, o) := set_vertices m l in (m, Old3 o)
  | SetNormals l => let (m, o) := set_normals m l in (m, Old3 o)
  | SetUvs l => let (m, o) := set_uvs m l in (m, Old2 o)
  | SetTangents l => let (m, o) := set_tangents m l in (m, OldT o)
  | SetVertexTriangles l => let (m, o) := set_vertex_triangles m l in (m, OldI o)
  | SetNormalTriangles l => let (m, o) := set_normal_triangles m l in (m, OldI o)
  | SetUvTriangles l => let (m, o) := set_uv_triangles m l in (m, OldI o)
  | SetTangentTriangles l => let (m, o) := set_tangent_triangles m l in (m, OldI o)
  | AppendVertices l => (append_vertices m l, Nothing)
  | AppendNormals l => (append_normals m l, Nothing)
  | AppendUvs l => (append_uvs m l, Nothing)
  | AppendTangents l => (append_tangents m l, Nothing)
  | AppendVertexTriangles l => (append_vertex_triangles m l, Nothing)
  | AppendNormalTriangles l => (append_normal_triangles m l, Nothing)
  | AppendUvTriangles l => (append_uv_triangles m l, Nothing)
  | AppendTangentTriangles l => (append_tangent_triangles m l, Nothing)
  | AddCustomData d name =>
    match add_custom_data m d name with
    | Ok m => (m, Nothing)
    | Err e => (m, Rejected e)
    | Panic => (m, Nothing)
    end
  end.
Definition run (m : mesh) (h : list call) : mesh := fold_left (fun m c => fst (perform m c)) h m.

(** What each call is meant to do to each attribute. *)
Definition on_vertices c := match c with SetVertices l => [Replace l] | AppendVertices l => [Extend l] | _ => [] end.
Definition on_normals c := match c with SetNormals l => [Replace l] | AppendNormals l => [Extend l] | _ => [] end.
Definition on_uvs c := match c with SetUvs l => [Replace l] | AppendUvs l => [Extend l] | _ => [] end.
Definition on_tangents c := match c with SetTangents l => [Replace l] | AppendTangents l => [Extend l] | _ => [] end.
Definition on_vertex_triangles c := match c with SetVertexTriangles l => [Replace l] | AppendVertexTriangles l => [Extend l] | _ => [] end.
Definition on_normal_triangles c := match c with SetNormalTriangles l => [Replace l] | AppendNormalTriangles l => [Extend l] | _ => [] end.
Definition on_uv_triangles c := match c with SetUvTriangles l => [Replace l] | AppendUvTriangles l => [Extend l] | _ => [] end.
Definition on_tangent_triangles c := match c with SetTangentTriangles l => [Replace l] | AppendTangentTriangles l => [Extend l] | _ => [] end.

Lemma run_content h : forall m,
  vertices (run m h) = content (vertices m) (flat_map on_vertices h) /\
  normals (run m h) = content (normals m) (flat_map on_normals h) /\
  uvs (run m h) = content (uvs m) (flat_map on_uvs h) /\
  tangents (run m h) = content (tangents m) (flat_map on_tangents h) /\
  vertex_triangles (run m h) = content (vertex_triangles m) (flat_map on_vertex_triangles h) /\
  normal_triangles (run m h) = content (normal_triangles m) (flat_map on_normal_triangles h) /\
  uv_triangles (run m h) = content (uv_triangles m) (flat_map on_uv_triangles h) /\
  tangent_triangles (run m h) = content (tangent_triangles m) (flat_map on_tangent_triangles h).
Proof.
  induction h as [|c h IH]; intros m; [cbn; auto 10|].
  change (run m (c :: h)) with (run (fst (perform m c)) h).
  destruct (IH (fst (perform m c))) as (-> & -> & -> & -> & -> & -> & -> & ->).
  destruct c; cbn [perform flat_map on_vertices on_normals on_uvs on_tangents on_vertex_triangles on_normal_triangles
    on_uv_triangles on_tangent_triangles app content set_vertices set_normals set_uvs set_tangents set_vertex_triangles
    set_normal_triangles set_uv_triangles set_tangent_triangles fst];
  unfold append_vertices, append_normals, append_uvs, append_tangents, append_vertex_triangles, append_normal_triangles,
    append_uv_triangles, append_tangent_triangles.
  all: try (match goal with |- context [match ?d with Some _ => _ | None => _ end] => destruct d end;
            cbn [set_vertices set_normals set_uvs set_tangents set_vertex_triangles set_normal_triangles set_uv_triangles
                 set_tangent_triangles fst]; repeat split; reflexivity).
  all: try (repeat split; reflexivity).
  unfold add_custom_data. destruct (cseg_new d name); cbn [bind]; repeat split; reflexivity.
Qed.
Lemma holds_snoc_old {A} (evs : list (event A)) v : v = content None evs -> holds evs v.
Proof. intros ->. apply content_holds. Qed.

(** C31. After any history every getter returns what the history says. *)
Theorem C31_getters : forall h,
  let m := run empty h in
  holds (flat_map on_vertices h) (vertices m) /\ holds (flat_map on_normals h) (normals m) /\
  holds (flat_map on_uvs h) (uvs m) /\ holds (flat_map on_tangents h) (tangents m) /\
  holds (flat_map on_vertex_triangles h) (vertex_triangles m) /\ holds (flat_map on_normal_triangles h) (normal_triangles m) /\
  holds (flat_map on_uv_triangles h) (uv_triangles m) /\ holds (flat_map on_tangent_triangles h) (tangent_triangles m).
Proof.
  intros h m. destruct (run_content h empty) as (E1 & E2 & E3 & E4 & E5 & E6 & E7 & E8).
  split; [exact (holds_snoc_old _ _ E1)|]. split; [exact (holds_snoc_old _ _ E2)|]. split; [exact (holds_snoc_old _ _ E3)|].
  split; [exact (holds_snoc_old _ _ E4)|]. split; [exact (holds_snoc_old _ _ E5)|]. split; [exact (holds_snoc_old _ _ E6)|].
  split; [exact (holds_snoc_old _ _ E7)|exact (holds_snoc_old _ _ E8)].
Qed.
(** C31. A set call returns what was there before. *)
Theorem C31_replies : forall h,
  let m := run empty h in
  (forall l v, snd (perform m (SetVertices l)) = Old3 v -> holds (flat_map on_vertices h) v) /\
  (forall l v, snd (perform m (SetNormals l)) = Old3 v -> holds (flat_map on_normals h) v) /\
  (forall l v, snd (perform m (SetUvs l)) = Old2 v -> holds (flat_map on_uvs h) v) /\
  (forall l v, snd (perform m (SetTangents l)) = OldT v -> holds (flat_map on_tangents h) v) /\
  (forall l v, snd (perform m (SetVertexTriangles l)) = OldI v -> holds (flat_map on_vertex_triangles h) v) /\
  (forall l v, snd (perform m (SetNormalTriangles l)) = OldI v -> holds (flat_map on_normal_triangles h) v) /\
  (forall l v, snd (perform m (SetUvTriangles l)) = OldI v -> holds (flat_map on_uv_triangles h) v) /\
  (forall l v, snd (perform m (SetTangentTriangles l)) = OldI v -> holds (flat_map on_tangent_triangles h) v).
Proof.
  intros h m. destruct (C31_getters h) as (E1 & E2 & E3 & E4 & E5 & E6 & E7 & E8). fold m in E1, E2, E3, E4, E5, E6, E7, E8.
  repeat split; intros l v H; injection H as <-; assumption.
Qed.
(** The specification determines the value. *)
Theorem C31_specification_unique : forall A (evs : list (event A)) v v', holds evs v -> holds evs v' -> v = v'.
Proof. intros A. exact holds_fun. Qed.
Example C31_case :
  let h := [AppendNormals [pt 1 0 0]; SetVertexTriangles [4; 5]%N; AppendNormals [pt 0 1 0]; SetVertexTriangles [6]%N;
            AppendVertexTriangles [7; 8]%N] in
  normals (run empty h) = Some [pt 1 0 0; pt 0 1 0] /\ vertex_triangles (run empty h) = Some [6; 7; 8]%N /\
  vertices (run empty h) = None /\ snd (perform (run empty h) (SetVertexTriangles [])) = OldI (Some [6; 7; 8]%N).
Proof. repeat split. Qed.
Print Assumptions C31_getters.
Print Assumptions C31_replies.
Print Assumptions C31_specification_unique.

(** C32. The accepted additions of a history, in order. *)
Definition name_accepted (name : list N) : bool := (1 <=? len name)%N && (len name <=? 255)%N.
Definition added (h : list call) : list (list N * cdata) :=
  flat_map (fun c => match c with AddCustomData d name => if name_accepted name then [(name, d)] else [] | _ => [] end) h.
Lemma cseg_new_ok d name : name_accepted name = true -> exists s, cseg_new d name = Ok s /\ c_name s = name /\ c_name_len s = len name /\ c_data s = d.
Proof.
  unfold name_accepted, len. intros H. unfold cseg_new.
  replace (255 <? N.of_nat (length name))%N with false by lia. replace (length name =? 0) with false by lia.
  eexists. split; [reflexivity|]. unfold new_raw. cbn [c_name c_name_len c_data]. split; auto.
  rewrite Nnat.Nat2N.id, firstn_app, Nat.sub_diag, firstn_all, app_nil_r. reflexivity.
Qed.
Lemma cseg_new_bad d name : name_accepted name = false ->
  cseg_new d name = Err (if (255 <? len name)%N then NameTooLong else NoName).
Proof.
  unfold name_accepted, len. intros H. unfold cseg_new. destruct (N.ltb_spec 255 (N.of_nat (length name))); auto.
  replace (length name =? 0) with true by lia. reflexivity.
Qed.
Definition keeps_name (s : cseg) (p : list N * cdata) : Prop := c_name s = fst p /\ c_name_len s = len (fst p) /\ c_data s = snd p.
Lemma run_customs h : forall m l, Forall2 keeps_name (custom_data m) l -> Forall2 keeps_name (custom_data (run m h)) (l ++ added h).
Proof.
  induction h as [|c h IH]; intros m l F; [cbn; now rewrite app_nil_r|].
  change (run m (c :: h)) with (run (fst (perform m c)) h).
  assert (X : added (c :: h) = added [c] ++ added h) by (unfold added; cbn [flat_map]; now rewrite app_nil_r).
  rewrite X, app_assoc. apply IH. clear IH X.
  destruct c; try (cbn [added flat_map]; rewrite ?app_nil_r; cbn [perform set_vertices set_normals set_uvs set_tangents
    set_vertex_triangles set_normal_triangles set_uv_triangles set_tangent_triangles fst];
    unfold append_vertices, append_normals, append_uvs, append_tangents, append_vertex_triangles, append_normal_triangles,
      append_uv_triangles, append_tangent_triangles;
    try match goal with |- context [match ?d with Some _ => _ | None => _ end] => destruct d end; exact F).
  cbn [added flat_map perform]. rewrite app_nil_r. unfold add_custom_data. destruct (name_accepted name) eqn:NA.
  - destruct (cseg_new_ok d name NA) as (s & -> & K1 & K2 & K3). cbn [bind fst add_custom_data_seg with_custom_data custom_data].
    apply Forall2_app; auto. constructor; [repeat split; auto|constructor].
  - rewrite (cseg_new_bad d name NA). cbn [bind fst]. now rewrite app_nil_r.
Qed.
Lemma lookup_loop_spec (name : list N) segs l : Forall2 keeps_name segs l ->
  (exists before d after, l = before ++ (name, d) :: after /\ (forall d', ~ In (name, d') before) /\
     lookup_loop (E:=False) segs name (len name) = Ok (Some d)) \/
  ((forall d, ~ In (name, d) l) /\ lookup_loop (E:=False) segs name (len name) = Ok None).
Proof.
  induction 1 as [|s [n d] segs l (K1 & K2 & K3) _ IH]; cbn [lookup_loop]; [right; auto|]. cbn [fst snd] in *. subst n d. rewrite K2.
  assert (LE : (N.of_nat (length (c_name s)) <? len (c_name s))%N = false) by (unfold len; lia). rewrite LE.
  assert (FS : firstn (N.to_nat (len (c_name s))) (c_name s) = c_name s).
  { unfold len. rewrite Nnat.Nat2N.id. apply firstn_all. }
  rewrite FS.
  assert (D : name = c_name s \/ name <> c_name s) by (destruct (list_eq_dec N.eq_dec name (c_name s)); auto).
  destruct D as [D|D].
  - left. subst name. rewrite N.eqb_refl. assert (Q : list_eqb (c_name s) (c_name s) = true) by now apply list_eqb_eq. rewrite Q.
    exists [], (c_data s), l. split; auto.
  - assert (Q : lookup_loop (E:=False) segs name (len name) =
      (if (len (c_name s) =? len name)%N then if list_eqb name (c_name s) then Ok (Some (c_data s)) else lookup_loop segs name (len name)
       else lookup_loop segs name (len name))).
    { destruct (list_eqb name (c_name s)) eqn:B; [apply list_eqb_eq in B; congruence|]. now destruct (_ =? _)%N. }
    rewrite <- Q. destruct IH as [(b & d & a & -> & NI & ->)|(NI & ->)].
    + left. exists ((c_name s, c_data s) :: b), d, a. split; auto. split; auto. intros d' [E|I]; [congruence|]. eapply NI; eauto.
    + right. split; auto. intros d [E|I]; [congruence|]. eapply NI; eauto.
Qed.
(** C32. After any history a lookup returns the first data added under the name, and
    nothing if none was. It never panics. *)
Theorem C32_lookup : forall h name,
  (exists before d after, added h = before ++ (name, d) :: after /\ (forall d', ~ In (name, d') before) /\
     lookup_custom_data (E:=False) (run empty h) name = Ok (Some d)) \/
  ((forall d, ~ In (name, d) (added h)) /\ lookup_custom_data (E:=False) (run empty h) name = Ok None).
Proof.
  intros h name. pose proof (run_customs h empty [] (Forall2_nil _)) as F. cbn [app] in F. unfold lookup_custom_data.
  fold (len name). destruct (N.ltb_spec 255 (len name)).
  - right. split; auto. intros d I. unfold added in I. apply in_flat_map in I as (c & _ & I). destruct c; try destruct I.
    destruct (name_accepted name0) eqn:NA; [|destruct I]. destruct I as [[= -> ->]|[]]. unfold name_accepted in NA. lia.
  - now apply lookup_loop_spec.
Qed.
(** C32. Names of 1 to 255 bytes are accepted, even if used before; others are
    rejected and leave the mesh as it was. *)
Theorem C32_add : forall m d name,
  (name_accepted name = true /\ snd (perform m (AddCustomData d name)) = Nothing) \/
  (len name = 0%N /\ perform m (AddCustomData d name) = (m, Rejected NoName)) \/
  ((255 < len name)%N /\ perform m (AddCustomData d name) = (m, Rejected NameTooLong)).
Proof.
  intros m d name. cbn [perform]. unfold add_custom_data. destruct (name_accepted name) eqn:NA.
  - left. destruct (cseg_new_ok d name NA) as (s & -> & _). auto.
  - right. rewrite (cseg_new_bad d name NA). cbn [bind]. unfold name_accepted in NA.
    destruct (N.ltb_spec 255 (len name)); [right; auto|left]. split; auto. lia.
Qed.
Example C32_case :
  let a := new_index [1; 2]%N in let b := new_integer [7]%N in
  let h := [AddCustomData a [120]%N; AddCustomData b []; AddCustomData b [120]%N; AddCustomData b [121]%N] in
  added h = [([120]%N, a); ([120]%N, b); ([121]%N, b)] /\
  lookup_custom_data (E:=False) (run empty h) [120]%N = Ok (Some a) /\ lookup_custom_data (E:=False) (run empty h) [121]%N = Ok (Some b) /\
  lookup_custom_data (E:=False) (run empty h) [122]%N = Ok None.
Proof. repeat split. Qed.
Print Assumptions C32_lookup.
Print Assumptions C32_add.
