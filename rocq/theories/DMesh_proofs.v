(** Verification with [double_precision]: as Mesh2_proofs.v. *)
From Coq Require Import List NArith ZArith Arith Bool Lia ZifyN ZifyNat ZifyBool.
From Flocq Require Import IEEE754.BinarySingleNaN.
From Verif Require Import Base Floats Unify CustomData Mesh FileSpec MeshSpec Mesh_proofs File_proofs Mesh2_proofs Double DoubleSave DoubleMesh.
Import ListNotations.
Open Scope res_scope.

Lemma pos_not_lt0_d x : dlt d1 x = true -> dlt x d0 = false.
Proof.
  destruct x as [s|s| |s m e H]; intros L; try (destruct s; vm_compute in L |- *; congruence); try reflexivity.
Qed.
Lemma uv_range_none_d l : uv_range_loop_d l = None.
Proof.
  induction l as [|[u v] l IH]; cbn [uv_range_loop_d]; auto. cbn [fst snd].
  destruct (dlt d1 u) eqn:E1; [rewrite (pos_not_lt0_d u E1)|rewrite ?andb_false_r]; cbn [andb]; auto.
Qed.

Lemma index_problem_fun_d {A} (d : option (list A)) t (mi : dintegrity) o e e' : index_problem mi o d t e -> index_problem mi o d t e' -> e = e'.
Proof.
  intros (i & -> & [(-> & ->)|(l & k & -> & F & ->)]) (i' & [= <-] & [(E & ->)|(l' & k' & E & F' & ->)]); try congruence.
  injection E as <-. apply inside_some in F, F'. congruence.
Qed.
Lemma index_problem_iff_d {A} (d : option (list A)) t (mi : dintegrity) o :
  (exists e, index_problem mi o d t e) <-> ~ indices_at_most d t.
Proof.
  unfold indices_at_most. split.
  - intros (e & i & -> & [(-> & ->)|(l & k & -> & F & ->)]) (l' & E & G); [discriminate|]. injection E as <-.
    apply inside_some in F. apply inside_none in G. congruence.
  - destruct t as [i|]; [|tauto]. intros H. destruct d as [l|].
    + destruct (indices_inside_array i (len l)) as [k|] eqn:E.
      * apply inside_some in E. exists (o k (len l)), i. split; auto. right. eauto.
      * exfalso. apply H. exists l. split; auto. now apply inside_none.
    + exists mi, i. auto.
Qed.

Lemma verify_vertices_spec_d m e : u32_length (d_vertices m) ->
  (verify_vertices_d m = Some e <-> index_problem DVertexArrayMissing DIndexOutsideVertexArray (d_vertices m) (d_vertex_triangles m) e).
Proof.
  intros S. unfold verify_vertices_d, index_problem. destruct (d_vertices m) as [v|]; destruct (d_vertex_triangles m) as [t|].
  - rewrite (len32_small v) by (now apply S). destruct (indices_inside_array t (len v)) as [k|] eqn:E.
    + apply inside_some in E as F. split.
      * intros [= <-]. exists t. split; auto. right. exists v, k. auto.
      * intros (i & [= <-] & [(D & _)|(l & k' & [= <-] & F' & ->)]); [discriminate|]. apply inside_some in F'. congruence.
    + split; [discriminate|]. intros (i & [= <-] & [(D & _)|(l & k' & [= <-] & F' & ->)]); [discriminate|]. apply inside_some in F'. congruence.
  - split; [discriminate|]. intros (i & D & _). discriminate.
  - split; [intros [= <-]; eauto|]. intros (i & [= <-] & [(_ & ->)|(l & k' & D & _)]); [reflexivity|discriminate].
  - split; [discriminate|]. intros (i & D & _). discriminate.
Qed.
Lemma verify_uvs_spec_d m e : u32_length (d_uvs m) ->
  (verify_uvs_d m = Some e <-> index_problem DUVArrayMissing DIndexOutsideUVArray (d_uvs m) (d_uv_triangles m) e).
Proof.
  intros S. unfold verify_uvs_d, index_problem. destruct (d_uvs m) as [v|]; destruct (d_uv_triangles m) as [t|].
  - rewrite uv_range_none_d, (len32_small v) by (now apply S). destruct (indices_inside_array t (len v)) as [k|] eqn:E.
    + apply inside_some in E as F. split.
      * intros [= <-]. exists t. split; auto. right. exists v, k. auto.
      * intros (i & [= <-] & [(D & _)|(l & k' & [= <-] & F' & ->)]); [discriminate|]. apply inside_some in F'. congruence.
    + split; [discriminate|]. intros (i & [= <-] & [(D & _)|(l & k' & [= <-] & F' & ->)]); [discriminate|]. apply inside_some in F'. congruence.
  - rewrite uv_range_none_d. split; [discriminate|]. intros (i & D & _). discriminate.
  - split; [intros [= <-]; eauto|]. intros (i & [= <-] & [(_ & ->)|(l & k' & D & _)]); [reflexivity|discriminate].
  - split; [discriminate|]. intros (i & D & _). discriminate.
Qed.
(** Some normal is off. *)
Definition off_normal_d (m : dmesh) : Prop := exists l n, d_normals m = Some l /\ In n l /\ not_normalized_d n = true.
Lemma verify_normals_spec_d m e : u32_length (d_normals m) ->
  (verify_normals_d m = Some e <->
   (off_normal_d m /\ e = DNormalsNotNormalized) \/
   (~ off_normal_d m /\ index_problem DNormalArrayMissing DIndexOutsideNormalArray (d_normals m) (d_normal_triangles m) e)).
Proof.
  intros S. unfold verify_normals_d. destruct (d_normals m) as [v|] eqn:EN.
  - destruct (existsb not_normalized_d v) eqn:X.
    + apply existsb_exists in X as (n & I & X). assert (O : off_normal_d m) by (exists v, n; auto).
      split; [intros [= <-]; auto|]. intros [(_ & ->)|(NO & _)]; [reflexivity|tauto].
    + assert (O : ~ off_normal_d m).
      { intros (l & n & E & I & Q). assert (existsb not_normalized_d v = true) by (apply existsb_exists; exists n; split; congruence). congruence. }
      transitivity (index_problem DNormalArrayMissing DIndexOutsideNormalArray (Some v) (d_normal_triangles m) e); [|tauto].
      unfold index_problem. destruct (d_normal_triangles m) as [t|].
      * rewrite (len32_small v) by (now apply S). destruct (indices_inside_array t (len v)) as [k|] eqn:E.
        -- apply inside_some in E as F. split.
           ++ intros [= <-]. exists t. split; auto. right. exists v, k. auto.
           ++ intros (i & [= <-] & [(D & _)|(l & k' & [= <-] & F' & ->)]); [discriminate|]. apply inside_some in F'. congruence.
        -- split; [discriminate|]. intros (i & [= <-] & [(D & _)|(l & k' & [= <-] & F' & ->)]); [discriminate|]. apply inside_some in F'. congruence.
      * split; [discriminate|]. intros (i & D & _). discriminate.
  - assert (O : ~ off_normal_d m) by (intros (l & n & E & _); congruence).
    unfold index_problem. destruct (d_normal_triangles m) as [t|].
    + split; [intros [= <-]; right; split; [exact O|exists t; auto]|]. intros [(NO & _)|(_ & i & [= <-] & [(_ & ->)|(l & k' & D & _)])]; [tauto|reflexivity|discriminate].
    + split; [discriminate|]. intros [(NO & _)|(_ & i & D & _)]; [tauto|discriminate].
Qed.

(** The errors behind a verdict. *)
Definition reported_d (r : res dintegrity unit) : list dintegrity :=
  match r with
  | Err (DCompositeError l) => l
  | Err e => [e]
  | _ => []
  end.
Lemma verify_reported_d m : reported_d (verify_tmf_mesh_d m) = somes [verify_vertices_d m; verify_normals_d m; verify_uvs_d m].
Proof.
  unfold verify_tmf_mesh_d.
  assert (X : forall e, In e (somes [verify_vertices_d m; verify_normals_d m; verify_uvs_d m]) -> forall l, e <> DCompositeError l).
  { intros e I l. unfold somes in I. cbn in I. rewrite app_nil_r, !in_app_iff in I. destruct I as [I|[I|I]].
    - unfold verify_vertices_d in I. destruct (d_vertices m), (d_vertex_triangles m); cbn in I; try tauto.
      + destruct (indices_inside_array _ _); cbn in I; [destruct I as [<-|[]]|tauto]. discriminate.
      + destruct I as [<-|[]]. discriminate.
    - unfold verify_normals_d in I. destruct (d_normals m), (d_normal_triangles m); cbn in I; try tauto.
      + destruct (existsb _ _); cbn in I; [destruct I as [<-|[]]; discriminate|].
        destruct (indices_inside_array _ _); cbn in I; [destruct I as [<-|[]]|tauto]. discriminate.
      + destruct (existsb _ _); cbn in I; [destruct I as [<-|[]]; discriminate|tauto].
      + destruct I as [<-|[]]. discriminate.
    - unfold verify_uvs_d in I. destruct (d_uvs m), (d_uv_triangles m); cbn in I; try tauto.
      + rewrite uv_range_none_d in I. destruct (indices_inside_array _ _); cbn in I; [destruct I as [<-|[]]|tauto]. discriminate.
      + rewrite uv_range_none_d in I. destruct I.
      + destruct I as [<-|[]]. discriminate. }
  destruct (somes [verify_vertices_d m; verify_normals_d m; verify_uvs_d m]) as [|e [|e' l]]; auto.
  cbn [reported_d]. specialize (X e (or_introl eq_refl)). destruct e; auto. exfalso. eapply X; eauto.
Qed.
Lemma verify_ok_iff_d m : verify_tmf_mesh_d m = Ok tt <-> reported_d (verify_tmf_mesh_d m) = [].
Proof.
  rewrite verify_reported_d. unfold verify_tmf_mesh_d.
  destruct (somes _) as [|e [|e' l]]; split; intros H; auto; discriminate.
Qed.
Lemma verify_never_panics_d m : verify_tmf_mesh_d m <> Panic.
Proof. unfold verify_tmf_mesh_d. destruct (somes _) as [|e [|e' l]]; discriminate. Qed.
Lemma reported_in_d m e : u32_length (d_vertices m) -> u32_length (d_normals m) -> u32_length (d_uvs m) ->
  (In e (reported_d (verify_tmf_mesh_d m)) <->
   index_problem DVertexArrayMissing DIndexOutsideVertexArray (d_vertices m) (d_vertex_triangles m) e \/
   (off_normal_d m /\ e = DNormalsNotNormalized) \/
   (~ off_normal_d m /\ index_problem DNormalArrayMissing DIndexOutsideNormalArray (d_normals m) (d_normal_triangles m) e) \/
   index_problem DUVArrayMissing DIndexOutsideUVArray (d_uvs m) (d_uv_triangles m) e).
Proof.
  intros S1 S2 S3. rewrite verify_reported_d, somes_in. cbn [In].
  rewrite (verify_vertices_spec_d m e S1), (verify_normals_spec_d m e S2), (verify_uvs_spec_d m e S3). tauto.
Qed.

