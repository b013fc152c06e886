(** Editing a mesh with the feature [double_precision]. *)
From Coq Require Import List NArith ZArith Arith Bool Lia ZifyN ZifyNat ZifyBool.
From Verif Require Import Base Floats Utilis Unify CustomData Mesh FileSpec MeshSpec Mesh_proofs File_proofs Unify_proofs UnifyPanic_proofs.
From Verif Require Import FastTrig Double DoubleEdit.
Import ListNotations.
Open Scope res_scope.

Lemma d_reorder_pairs {E} m : d_reorder_data (E:=E) m =
  let* (v, vt) := opt_pair (d_vertices m) (d_vertex_triangles m) in
  let* (n, nt) := opt_pair (d_normals m) (d_normal_triangles m) in
  let* (u, ut) := opt_pair (d_uvs m) (d_uv_triangles m) in
  Ok (mk_dmesh n nt v vt u ut (d_tangents m) (d_tangent_triangles m) (d_custom_data m)).
Proof.
  destruct m as [n nt v vt u ut tg tt cd]. unfold d_reorder_data, opt_pair.
  cbn [d_vertices d_normals d_uvs d_vertex_triangles d_normal_triangles d_uv_triangles d_tangents d_tangent_triangles d_custom_data].
  Ltac d_one d t := destruct d as [d|], t as [t|];
    [destruct (optimize_triangle_indices t d) as [[? ?]| |] | | |]; cbn [bind]; try reflexivity;
    cbn [bind fst d_set_vertices d_set_vertex_triangles d_with_vertices d_with_vertex_triangles d_set_normals d_set_normal_triangles
      d_with_normals d_with_normal_triangles d_vertices d_normals d_uvs d_vertex_triangles d_normal_triangles d_uv_triangles d_tangents d_tangent_triangles d_custom_data].
  d_one v vt; d_one n nt; d_one u ut.
Qed.
Lemma d_reorder_spec {E} m : u32_opt (d_vertex_triangles m) -> u32_opt (d_normal_triangles m) -> u32_opt (d_uv_triangles m) ->
  (reorderable (d_vertices m) (d_vertex_triangles m) /\ reorderable (d_normals m) (d_normal_triangles m) /\
   reorderable (d_uvs m) (d_uv_triangles m) /\
   exists m', d_reorder_data (E:=E) m = Ok m' /\ d_reorder_data (E:=E) m' = Ok m' /\
     reordered (d_vertices m) (d_vertex_triangles m) (d_vertices m') (d_vertex_triangles m') /\
     reordered (d_normals m) (d_normal_triangles m) (d_normals m') (d_normal_triangles m') /\
     reordered (d_uvs m) (d_uv_triangles m) (d_uvs m') (d_uv_triangles m') /\
     d_tangents m' = d_tangents m /\ d_tangent_triangles m' = d_tangent_triangles m /\ d_custom_data m' = d_custom_data m) \/
  (~ (reorderable (d_vertices m) (d_vertex_triangles m) /\ reorderable (d_normals m) (d_normal_triangles m) /\
      reorderable (d_uvs m) (d_uv_triangles m)) /\ d_reorder_data (E:=E) m = Panic).
Proof.
  intros U1 U2 U3. setoid_rewrite d_reorder_pairs.
  destruct (opt_pair_spec (E:=E) (d_vertices m) _ U1) as [(R1 & v & vt & O1 & S1 & A1)|(R1 & O1)].
  2:{ right. split; [tauto|]. now rewrite O1. }
  destruct (opt_pair_spec (E:=E) (d_normals m) _ U2) as [(R2 & n & nt & O2 & S2 & A2)|(R2 & O2)].
  2:{ right. split; [tauto|]. rewrite O1. cbn [bind]. now rewrite O2. }
  destruct (opt_pair_spec (E:=E) (d_uvs m) _ U3) as [(R3 & u & ut & O3 & S3 & A3)|(R3 & O3)].
  2:{ right. split; [tauto|]. rewrite O1. cbn [bind]. rewrite O2. cbn [bind]. now rewrite O3. }
  left. split; auto. split; auto. split; auto.
  exists (mk_dmesh n nt v vt u ut (d_tangents m) (d_tangent_triangles m) (d_custom_data m)).
  cbn [d_vertices d_normals d_uvs d_vertex_triangles d_normal_triangles d_uv_triangles d_tangents d_tangent_triangles d_custom_data].
  rewrite O1, A1. cbn [bind]. rewrite O2, A2. cbn [bind]. rewrite O3, A3. cbn [bind]. auto 12.
Qed.

Definition d_all_shared (m : dmesh) : Prop :=
  shared (d_vertices m) (d_vertex_triangles m) (d_normals m) (d_normal_triangles m) /\
  shared (d_vertices m) (d_vertex_triangles m) (d_uvs m) (d_uv_triangles m) /\
  shared (d_vertices m) (d_vertex_triangles m) (d_tangents m) (d_tangent_triangles m) /\
  shared (d_normals m) (d_normal_triangles m) (d_uvs m) (d_uv_triangles m) /\
  shared (d_normals m) (d_normal_triangles m) (d_tangents m) (d_tangent_triangles m) /\
  shared (d_uvs m) (d_uv_triangles m) (d_tangents m) (d_tangent_triangles m).
Definition d_all_short (m : dmesh) : Prop :=
  short (d_vertex_triangles m) /\ short (d_normal_triangles m) /\ short (d_uv_triangles m) /\ short (d_tangent_triangles m).
Definition d_all_fit (m : dmesh) : Prop := exists n,
  fits n (d_vertices m) (d_vertex_triangles m) /\ fits n (d_normals m) (d_normal_triangles m) /\
  fits n (d_uvs m) (d_uv_triangles m) /\ fits n (d_tangents m) (d_tangent_triangles m).
Definition d_same_buffers (m m' : dmesh) : Prop :=
  buffer (d_vertices m') (d_vertex_triangles m') = buffer (d_vertices m) (d_vertex_triangles m) /\
  buffer (d_normals m') (d_normal_triangles m') = buffer (d_normals m) (d_normal_triangles m) /\
  buffer (d_uvs m') (d_uv_triangles m') = buffer (d_uvs m) (d_uv_triangles m) /\
  buffer (d_tangents m') (d_tangent_triangles m') = buffer (d_tangents m) (d_tangent_triangles m).
Definition d_all_unified (m m' : dmesh) (idx : list N) (n : N) : Prop :=
  unified idx n (d_vertices m) (d_vertex_triangles m) (d_vertices m') (d_vertex_triangles m') /\
  unified idx n (d_normals m) (d_normal_triangles m) (d_normals m') (d_normal_triangles m') /\
  unified idx n (d_uvs m) (d_uv_triangles m) (d_uvs m') (d_uv_triangles m') /\
  unified idx n (d_tangents m) (d_tangent_triangles m) (d_tangents m') (d_tangent_triangles m').
Definition d_combination (m : dmesh) (p q : nat) : Prop :=
  same_at (d_vertices m) (d_vertex_triangles m) p q /\ same_at (d_normals m) (d_normal_triangles m) p q /\
  same_at (d_uvs m) (d_uv_triangles m) p q /\ same_at (d_tangents m) (d_tangent_triangles m) p q.

Lemma d_unify_spec {E} m : d_all_short m ->
  (d_unify_index_data (E:=E) m = Panic /\ ~ d_all_fit m) \/
  (d_unify_index_data (E:=E) m = Ok m /\ d_all_shared m) \/
  (exists m' idx n, d_unify_index_data (E:=E) m = Ok m' /\ idx <> [] /\ first_use 0 idx n /\ d_all_unified m m' idx n /\
     d_same_buffers m m' /\ d_custom_data m' = d_custom_data m /\
     forall p q, p < length idx -> q < length idx -> (nth_error idx p = nth_error idx q <-> d_combination m p q)).
Proof.
  intros (S1 & S2 & S3 & S4). unfold d_unify_index_data.
  destruct (smart_4_spec (E:=E) (d_vertices m) (d_normals m) (d_uvs m) (d_tangents m) _ _ _ _ S1 S2 S3 S4)
    as [(-> & H)|[(-> & H)|(rws & cbs & idx & v & n & u & t & -> & N & NE & K1 & K2 & K3 & K4 & J)]]; cbn [bind].
  - left. auto.
  - right. left. split; auto. destruct H as (H1 & H2 & H3 & H4 & H5 & H6). repeat split; now apply agree_shared.
  - right. right.
    pose proof (keeps_unified _ _ _ _ _ _ N K1) as U1. pose proof (keeps_unified _ _ _ _ _ _ N K2) as U2.
    pose proof (keeps_unified _ _ _ _ _ _ N K3) as U3. pose proof (keeps_unified _ _ _ _ _ _ N K4) as U4.
    pose proof (keeps_buffer _ _ _ _ _ _ N K1) as B1. pose proof (keeps_buffer _ _ _ _ _ _ N K2) as B2.
    pose proof (keeps_buffer _ _ _ _ _ _ N K3) as B3. pose proof (keeps_buffer _ _ _ _ _ _ N K4) as B4.
    eexists _, idx, (len cbs). split; [reflexivity|].
    split. { intros ->. apply numbered_length in N. destruct rws; [congruence|discriminate N]. }
    split; [eapply numbered_first_use; eauto|].
    assert (X : forall p q, p < length idx -> q < length idx -> (nth_error idx p = nth_error idx q <-> d_combination m p q)).
    { intros p q P Q. rewrite (numbered_length _ _ _ N) in P, Q. rewrite (numbered_eq _ _ _ p q N P Q). unfold d_combination.
      destruct (keeps_same_at _ _ _ _ _ p q K1 P Q) as [I1 D1], (keeps_same_at _ _ _ _ _ p q K2 P Q) as [I2 D2],
        (keeps_same_at _ _ _ _ _ p q K3 P Q) as [I3 D3], (keeps_same_at _ _ _ _ _ p q K4 P Q) as [I4 D4]. split; [auto|].
      intros (E1 & E2 & E3 & E4). apply J; auto. intros i. rewrite !in_app_iff. destruct I1, I2, I3, I4. intros [I|[I|[I|I]]]; auto. }
    unfold d_all_unified, d_same_buffers.
    destruct v, n, u, t;
      cbn [d_set_vertices d_set_normals d_set_uvs d_set_tangents d_set_vertex_triangles d_set_normal_triangles d_set_uv_triangles d_set_tangent_triangles
           d_with_vertices d_with_normals d_with_uvs d_with_tangents d_with_vertex_triangles d_with_normal_triangles d_with_uv_triangles d_with_tangent_triangles
           fst snd d_vertices d_normals d_uvs d_tangents d_vertex_triangles d_normal_triangles d_uv_triangles d_tangent_triangles d_custom_data];
      (split; [split; [exact U1|split; [exact U2|split; [exact U3|exact U4]]]|]);
      (split; [split; [exact B1|split; [exact B2|split; [exact B3|exact B4]]]|]); split; auto.
Qed.

Lemma d_unify_again {E} m m' : d_all_short m -> d_unify_index_data (E:=E) m = Ok m' -> d_unify_index_data (E:=E) m' = Ok m'.
Proof.
  intros S H. destruct (d_unify_spec (E:=E) m S) as [(Q & _)|[(Q & _)|(m'' & idx & n & Q & NE & F & (U1 & U2 & U3 & U4) & _)]]; rewrite Q in H.
  - discriminate.
  - apply Ok_inj_u in H. subst m'. auto.
  - apply Ok_inj_u in H. subst m''.
    assert (C : ucount (d_vertices m) (d_vertex_triangles m) + ucount (d_normals m) (d_normal_triangles m) +
                ucount (d_uvs m) (d_uv_triangles m) + ucount (d_tangents m) (d_tangent_triangles m) >= 2 \/ m' = m).
    { unfold d_unify_index_data in Q.
      destruct (smart_merge_data_4 (E:=E) (d_vertices m) (d_normals m) (d_uvs m) (d_tangents m) (d_vertex_triangles m) (d_normal_triangles m)
                  (d_uv_triangles m) (d_tangent_triangles m)) as [[[[[? ?] ?] ?] [i|]]| |] eqn:R; cbn [bind] in Q; try discriminate Q.
      - left. destruct S as (? & ? & ? & ?). eapply smart_4_count; eauto.
      - right. apply Ok_inj_u in Q. auto. }
    destruct C as [C | ->]; [|auto].
    unfold d_unify_index_data. rewrite agree4_none; [reflexivity|..].
    7:{ rewrite (unified_ucount _ _ _ _ _ _ U1), (unified_ucount _ _ _ _ _ _ U2), (unified_ucount _ _ _ _ _ _ U3), (unified_ucount _ _ _ _ _ _ U4); auto. }
    all: intros X Y; apply usable_iff in X, Y; revert X Y; eapply unified_shared; eauto.
Qed.
Lemma d_unify_panic {E} m : full (d_vertices m) -> full (d_normals m) -> full (d_uvs m) -> full (d_tangents m) ->
  d_unify_index_data (E:=E) m = Panic <->
  clash (uses (d_vertices m) (d_vertex_triangles m) ++ uses (d_normals m) (d_normal_triangles m) ++
         uses (d_uvs m) (d_uv_triangles m) ++ uses (d_tangents m) (d_tangent_triangles m)).
Proof.
  intros Fv Fn Fu Ft. unfold d_unify_index_data. rewrite bind_panic; [now apply smart_4_panic|].
  intros [[[[? ?] ?] ?] [?|]]; discriminate.
Qed.
