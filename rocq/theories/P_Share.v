(** Property C22: any subset of a mesh's index arrays that is equal is stored once. *)
From Coq Require Import List NArith ZArith Arith Lia Bool.
From Verif Require Import Base ReadExt Triangles OptTris Floats Utilis Unify OptVertices CustomData Mesh Tmf File FileSpec File_proofs SaveSpec Merge_proofs.
Import ListNotations.
Open Scope res_scope.

(** The index arrays among the segments of a mesh that can be shared: those of the
    vertices, of the normals, of the UVs, and the shared ones. *)
Definition stored_indices (segs : list dseg) : list (list N) :=
  flat_map (fun d => match d with DTriVertex l | DTriNormal l | DTriUV l | DShared _ l => [l] | _ => [] end) segs.

Lemma stored_app a b : stored_indices (a ++ b) = stored_indices a ++ stored_indices b.
Proof. apply flat_map_app. Qed.
Lemma stored_custom l : stored_indices (map DCustom l) = [].
Proof. induction l; auto. Qed.

(** C22. The vertex, normal and UV indices of any mesh are stored without repetition:
    no array is stored twice, each of the mesh's arrays is stored, and nothing else. *)
Theorem C22_each_once : forall m,
  NoDup (stored_indices (merge_segments (tmf_segs m))) /\
  forall l, In l (stored_indices (merge_segments (tmf_segs m))) <->
    vertex_triangles m = Some l \/ normal_triangles m = Some l \/ uv_triangles m = Some l.
Proof.
  intros m. rewrite merge_segments_split, stored_app, stored_custom. cbn [app].
  assert (SY : forall a b, list_eqb a b = list_eqb b a).
  { intros a b. destruct (list_eqb a b) eqn:A, (list_eqb b a) eqn:B; auto.
    - apply list_eqb_eq in A. subst. rewrite <- B. symmetry. now apply list_eqb_eq.
    - apply list_eqb_eq in B. subst. rewrite <- A. now apply list_eqb_eq. }
  assert (RF : forall a, list_eqb a a = true) by (intros; now apply list_eqb_eq).
  assert (NE : forall a b, list_eqb a b = false -> a <> b).
  { intros a b H ->. rewrite RF in H. discriminate. }
  unfold arrays.
  destruct (vertices m), (normals m), (uvs m), (tangents m), (tangent_triangles m),
    (vertex_triangles m) as [a|], (normal_triangles m) as [b|], (uv_triangles m) as [c|];
    cbn [opt_seg app]; unfold merge_segments;
    cbn [length rev app merge_loop is_something merge_all merge as_triangles stored_indices flat_map];
    repeat match goal with
    | |- context [list_eqb ?x ?x] => rewrite (RF x);
      cbn [length rev app merge_loop is_something merge_all merge as_triangles stored_indices flat_map]
    | |- context [list_eqb ?x ?y] =>
      let Q := fresh in destruct (list_eqb x y) eqn:Q; [apply list_eqb_eq in Q; subst|apply NE in Q];
      cbn [length rev app merge_loop is_something merge_all merge as_triangles stored_indices flat_map]
    end;
    (split; [repeat (apply NoDup_nil || (apply NoDup_cons; [cbn; intuition congruence|]))|intros ?; cbn; intuition congruence]).
Qed.
Print Assumptions C22_each_once.
(** The first and the third array equal, the second one different. *)
Example C22_each_once_case :
  let m := mk_mesh None (Some [1; 2]%N) None (Some [3]%N) None (Some [1; 2]%N) None None [] in
  stored_indices (merge_segments (tmf_segs m)) = [[1; 2]%N; [3]%N].
Proof. reflexivity. Qed.
