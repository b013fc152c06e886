(** Property C89: the printed result of an integrity check says which errors there are. *)
From Coq Require Import List NArith Arith Lia Bool.
From Verif Require Import Base Floats Utilis Unify Mesh MeshSpec Obj ObjSpec VerifyText VerifyTextSpec VerifyText_proofs FloatText P_FloatText.
Import ListNotations.

(** C89. Two integrity errors, with the numbers a u32 can hold and nested in any way, that print
    the same text are the same. *)
Theorem C89_text_tells : forall e e', ranged e -> ranged e' -> status_text std_text e = status_text std_text e' -> e = e'.
Proof. intros e e'. apply tells; [exact C75_print_read|exact std_inside]. Qed.
Print Assumptions C89_text_tells.

Lemma outside_in l n i : indices_inside_array l n = Some i -> In i l.
Proof.
  induction l as [|a l IH]; cbn [indices_inside_array]; [discriminate|]. destruct (n <? a)%N; [|right; auto].
  intros E. injection E as <-. now left.
Qed.
Lemma problem_ranged {A} (d : list A) o l i : u32_indices o -> o = Some l ->
  indices_inside_array l (len32 d) = Some i -> (i < 2 ^ 32)%N /\ (len32 d < 2 ^ 32)%N.
Proof.
  intros U -> I. apply outside_in in I. specialize (U l eq_refl). rewrite Forall_forall in U. split; [auto|].
  unfold len32. apply N.mod_lt. discriminate.
Qed.
Lemma verify_ranged m e : u32_indices (vertex_triangles m) -> u32_indices (normal_triangles m) -> u32_indices (uv_triangles m) ->
  verify_tmf_mesh m = Err e -> ranged e.
Proof.
  intros U1 U2 U3 V.
  assert (A : Forall ranged (somes [verify_vertices m; verify_normals m; verify_uvs m])).
  { assert (G : forall o, (forall e, o = Some e -> ranged e) -> Forall ranged (somes [o])).
    { intros [x|] H; cbn; [constructor; auto|constructor]. }
    change (somes [verify_vertices m; verify_normals m; verify_uvs m]) with (somes ([verify_vertices m] ++ [verify_normals m] ++ [verify_uvs m])).
    unfold somes. rewrite !flat_map_app. apply Forall_app. split; [|apply Forall_app; split]; apply G; intros x E.
    - unfold verify_vertices in E. destruct (vertices m) as [v|], (vertex_triangles m) as [t|] eqn:T; try discriminate E; [|injection E as <-; exact I].
      destruct (indices_inside_array t (len32 v)) as [i|] eqn:O; [|discriminate E]. injection E as <-. refine (problem_ranged v _ t i U1 _ O). auto.
    - unfold verify_normals in E. destruct (normals m) as [v|]; [|destruct (normal_triangles m); [injection E as <-; exact I|discriminate E]].
      destruct (existsb not_normalized v); [injection E as <-; exact I|]. destruct (normal_triangles m) as [t|] eqn:T; [|discriminate E].
      destruct (indices_inside_array t (len32 v)) as [i|] eqn:O; [|discriminate E]. injection E as <-. refine (problem_ranged v _ t i U2 _ O). auto.
    - unfold verify_uvs in E. destruct (uvs m) as [v|]; [|destruct (uv_triangles m); [injection E as <-; exact I|discriminate E]].
      assert (UR : forall x, uv_range_loop v = Some x -> ranged x).
      { clear. induction v as [|a v IH]; cbn [uv_range_loop]; [discriminate|]. intros x. destruct (_ && _)%bool; [intros E; injection E as <-; exact I|auto]. }
      destruct (uv_range_loop v) as [y|]; [injection E as <-; auto|]. destruct (uv_triangles m) as [t|] eqn:T; [|discriminate E].
      destruct (indices_inside_array t (len32 v)) as [i|] eqn:O; [|discriminate E]. injection E as <-. refine (problem_ranged v _ t i U3 _ O). auto. }
  unfold verify_tmf_mesh in V. destruct (somes _) as [|a [|b l]]; [discriminate V|injection V as <-; now inversion A|].
  injection V as <-. change (fold_right (fun e p => ranged e /\ p) True (a :: b :: l)). induction A as [|x y R _ IH]; cbn; auto.
Qed.
(** So the text tells what verification found. *)
Theorem C89_verified_text : forall m m' e e',
  u32_indices (vertex_triangles m) -> u32_indices (normal_triangles m) -> u32_indices (uv_triangles m) ->
  u32_indices (vertex_triangles m') -> u32_indices (normal_triangles m') -> u32_indices (uv_triangles m') ->
  verify_tmf_mesh m = Err e -> verify_tmf_mesh m' = Err e' ->
  status_text std_text e = status_text std_text e' -> e = e'.
Proof. intros m m' e e' A1 A2 A3 B1 B2 B3 E E'. apply C89_text_tells; [exact (verify_ranged m e A1 A2 A3 E)|exact (verify_ranged m' e' B1 B2 B3 E')]. Qed.
Print Assumptions C89_verified_text.

(** A triangle with the index 12 and UV indices without UVs:
    MultipleErrors{,IndexOutsideVertexArray{index:12,length3},UVArrayMissing} *)
Definition faulty (v : vec3) : mesh :=
  mk_mesh None None (Some [v; v; v]) (Some [0; 1; 12]%N) None (Some [0; 1; 2]%N) None None [].
Example C89_case : forall v, exists e, verify_tmf_mesh (faulty v) = Err e /\ u32_indices (vertex_triangles (faulty v)) /\
  u32_indices (normal_triangles (faulty v)) /\ u32_indices (uv_triangles (faulty v)) /\
  status_text std_text e =
    [77; 117; 108; 116; 105; 112; 108; 101; 69; 114; 114; 111; 114; 115; 123; 44; 73; 110; 100; 101; 120; 79; 117; 116; 115; 105; 100; 101; 86; 101; 114; 116; 101; 120; 65; 114; 114; 97; 121; 123; 105; 110; 100; 101; 120; 58; 49; 50; 44; 108; 101; 110; 103; 116; 104; 51; 125; 44; 85; 86; 65; 114; 114; 97; 121; 77; 105; 115; 115; 105; 110; 103; 125]%N.
Proof.
  intros v. eexists. split; [reflexivity|]. split; [|split; [discriminate|split; [|reflexivity]]];
    intros l E; injection E as <-; repeat (apply Forall_cons; [reflexivity|]); apply Forall_nil.
Qed.
