(** Property C27: exactly when unifying panics. *)
From Coq Require Import List NArith ZArith Arith Lia Bool ZifyN ZifyNat ZifyBool.
From Flocq Require Import IEEE754.BinarySingleNaN.
From Verif Require Import Base Floats Utilis Unify CustomData Mesh MeshSpec P_Mesh UnifyPanic_proofs.
Import ListNotations.
Open Scope res_scope.

(** The attributes that have both data and indices, each as its index array and the number
    of its elements. *)
Definition attribute {A} (data : option (list A)) (indices : option (list N)) : list (list N * N) :=
  match data, indices with
  | Some data, Some indices => [(indices, N.of_nat (length data))]
  | _, _ => []
  end.
Definition attributes (m : mesh) : list (list N * N) :=
  attribute (vertices m) (vertex_triangles m) ++ attribute (normals m) (normal_triangles m) ++
  attribute (uvs m) (uv_triangles m) ++ attribute (tangents m) (tangent_triangles m).
(** No data array is there but empty. *)
Definition no_empty_array (m : mesh) : Prop :=
  vertices m <> Some [] /\ normals m <> Some [] /\ uvs m <> Some [] /\ tangents m <> Some [].

(** C27. Unifying panics exactly if two attributes have different index arrays, and two have
    index arrays of different lengths or one has an index outside its data. *)
Theorem C27_panics_iff : forall m, no_empty_array m ->
  unify_index_data (E:=False) m = Panic <->
  (exists a b, In a (attributes m) /\ In b (attributes m) /\ fst a <> fst b) /\
  ((exists a b, In a (attributes m) /\ In b (attributes m) /\ length (fst a) <> length (fst b)) \/
   (exists a i, In a (attributes m) /\ In i (fst a) /\ (snd a <= i)%N)).
Proof.
  intros m (Fv & Fn & Fu & Ft). rewrite unify_panic by assumption. unfold clash. rewrite not_alike. reflexivity.
Qed.
Print Assumptions C27_panics_iff.
(** So indices outside the data go unnoticed while all the index arrays are equal. *)
Theorem C27_equal_arrays : forall m t, no_empty_array m -> Forall (fun a => fst a = t) (attributes m) ->
  exists m', unify_index_data (E:=False) m = Ok m'.
Proof.
  intros m t N F. destruct (unify_index_data m) as [m'|[]|] eqn:R; [eauto|].
  apply C27_panics_iff in R as [(a & b & A & B & D) _]; auto. rewrite Forall_forall in F. apply F in A, B. congruence.
Qed.
Print Assumptions C27_equal_arrays.

(** A data array that is there but empty is left out if it is one of the first two attributes
    without data or indices, and not if it is the third. So a mesh with vertices, and with
    tangents that are there but empty, panics although it passes verification; with normals
    instead of tangents it does not. *)
Definition empty_tangents : mesh :=
  mk_mesh None None (Some [pt 0 0 0]) (Some [0; 0; 0]%N) None None (Some []) (Some []) [].
Definition empty_normals : mesh :=
  mk_mesh (Some []) (Some []) (Some [pt 0 0 0]) (Some [0; 0; 0]%N) None None None None [].
Theorem C27_empty_array_refuted :
  verify_tmf_mesh empty_tangents = Ok tt /\ unify_index_data (E:=False) empty_tangents = Panic /\
  verify_tmf_mesh empty_normals = Ok tt /\ unify_index_data (E:=False) empty_normals = Ok empty_normals.
Proof. repeat split; vm_compute; reflexivity. Qed.
Print Assumptions C27_empty_array_refuted.

Example C27_panics_case : no_empty_array demo /\
  (exists m', unify_index_data (E:=False) demo = Ok m') /\
  no_empty_array (with_normal_triangles demo (Some [0; 1; 0; 2]%N)) /\
  unify_index_data (E:=False) (with_normal_triangles demo (Some [0; 1; 0; 2]%N)) = Panic.
Proof.
  split; [repeat split; discriminate|]. split; [destruct C27_C28_case as (_ & _ & (m' & R & _) & _); eauto|].
  split; [repeat split; discriminate|]. apply C27_panics_iff; [repeat split; discriminate|].
  cbn [attributes attribute demo demo_of with_normal_triangles vertices normals uvs tangents vertex_triangles normal_triangles uv_triangles tangent_triangles app length].
  split.
  - exists ([3; 1; 3; 2]%N, N.of_nat 4), ([0; 1; 0; 2]%N, N.of_nat 2). split; [cbn; auto|]. split; [cbn; auto|]. discriminate.
  - right. exists ([0; 1; 0; 2]%N, N.of_nat 2), 2%N. split; [cbn; auto|]. split; [cbn; auto|]. cbn. lia.
Qed.
(** Both arrays are equal here, and no index is inside. *)
Example C27_equal_case :
  let m := with_normal_triangles demo (Some [3; 1; 3; 2]%N) in
  no_empty_array m /\ Forall (fun a => fst a = [3; 1; 3; 2]%N) (attributes m) /\ attributes m <> [].
Proof.
  cbn [attributes attribute demo demo_of with_normal_triangles vertices normals uvs tangents vertex_triangles normal_triangles uv_triangles tangent_triangles app length].
  split; [repeat split; discriminate|]. split; [repeat constructor|discriminate].
Qed.
