(** Property C79: .obj files in builds with other float and index types, and between them. [F] is
    the float type, [top] the number of values of the index type; [tri] is what triangulating does
    when the feature "triangulation" is on. *)
From Coq Require Import List NArith ZArith Arith Lia Bool ZifyN ZifyNat ZifyBool.
From Verif Require Import Base Floats Utilis Unify CustomData Mesh File FileSpec File_proofs MeshSpec Mesh_proofs Mesh2_proofs Importer Obj ObjSpec P_Split Obj_proofs
  FloatText FloatText_proofs P_FloatText ObjAny ObjAnySpec ObjAny_proofs.
Import ListNotations.
Open Scope res_scope.

(** The file written by one build is read by another with the same float type as the same meshes
    if both index types have the numbers of all elements. *)
Theorem C79_exchange : forall F (ft : any_text F) top top' tri oc l, index_type top -> index_type top' -> any_text_ok ft -> l <> [] ->
  Forall (fun mn => any_exportable (fst mn) /\ line_name (snd mn)) l -> any_numbered top l -> any_numbered top' l ->
  exists text outs, write_obj_any top ft oc l = Ok text /\ read_obj_any top' ft tri text = Ok outs /\ Forall2 any_reimported l outs.
Proof.
  intros F ft top top' tri oc l I I' T NE X (N1 & N2 & N3) (M1 & M2 & M3).
  assert (W : fits_file_a top l (1, 1, 1)%N) by (unfold fits_file_a; cbn [fst snd]; lia).
  assert (W' : fits_file_a top' l (1, 1, 1)%N) by (unfold fits_file_a; cbn [fst snd]; lia).
  destruct (read_written_a top' I' ft tri l T NE X W') as (outs & R & B). do 2 eexists. split; [|split; [exact R|exact B]].
  apply write_obj_texts_a; auto. eapply Forall_impl; [|exact X]. cbv beta. tauto.
Qed.
Print Assumptions C79_exchange.

(** Printing and parsing of the standard library, for both float types. *)
Definition text32 : any_text f32 := mk_any_text (show_float 24 128) (parse_float 24 128).
Definition text64 : any_text f64 := mk_any_text (show_float 53 1024) (parse_float 53 1024).
Theorem C79_numbers_survive : any_text_ok text32 /\ any_text_ok text64.
Proof. split; [exact C75_print_read|exact C75_print_read_double]. Qed.
Print Assumptions C79_numbers_survive.

(** A part of a face stands for exactly one index; a number that the index type does not have
    stands for 1, the first element. *)
Theorem C79_one_number : forall top s, index_type top -> exists n, any_stands_for top s n /\ (n < top)%N /\ forall n', any_stands_for top s n' -> n' = n.
Proof.
  intros top s I. pose proof (top_range top I) as TR. exists (any_index top s). split; [now apply any_index_iff|]. split.
  - destruct (proj1 (any_index_iff top I s _) eq_refl) as [(d & _ & _ & _ & _ & L)|[_ E]]; [exact L|]. rewrite E. lia.
  - intros n' H. symmetry. now apply any_index_iff.
Qed.
Print Assumptions C79_one_number.

Lemma prune_cut {A} top (d : list A) t d' t' : (top <> 0)%N -> in_range d t -> prune_any top d t = (d', t') ->
  exists front, d = front ++ d' /\ t = map (fun i => (i + len front)%N) t'.
Proof.
  intros T R H. unfold prune_any in H. fold (len d) in H.
  destruct (prune_scan t (match t with [] => 0 | _ => len d mod top end)%N) as [m|] eqn:P; injection H as <- <-.
  - exists (firstn (N.to_nat m) d). split; [symmetry; apply firstn_skipn|]. apply prune_scan_some in P as (LE & Q & _).
    assert (ML : (m <= len d)%N). { pose proof (N.mod_le (len d) top T). destruct t; lia. }
    assert (FL : len (firstn (N.to_nat m) d) = m) by (unfold len in *; rewrite firstn_length; lia). rewrite FL, map_map.
    rewrite <- (map_id t) at 1. apply map_ext_in. intros i I. destruct (Q i I). lia.
  - exists []. split; auto. rewrite <- (map_id t) at 1. apply map_ext. intros i. unfold len. cbn. lia.
Qed.
Lemma seen_result {A} top (d : list A) t0 d' t' : (2 <= top)%N -> in_range d t0 ->
  prune_any top d (map (fun i => seen top (i + 1) - 1)%N t0) = (d', t') -> any_seen top (Some d) (Some t0) (Some d') (Some t').
Proof.
  intros T R P t1 E. injection E as <-. split.
  - intros B. assert (M : map (fun i => seen top (i + 1) - 1)%N t0 = t0).
    { rewrite <- (map_id t0) at 2. apply map_ext_in. intros i I. rewrite Forall_forall in B. specialize (B i I). unfold seen.
      destruct (N.ltb_spec (i + 1) top); lia. }
    rewrite M in P. destruct (prune_cut top d t0 d' t') as (f & E1 & E2); auto; [lia|]. exists f, d', t'. subst. auto.
  - intros B. assert (M : map (fun i => seen top (i + 1) - 1)%N t0 = map (fun i => if (i + 1 <? top)%N then i else 0%N) t0).
    { apply map_ext. intros i. unfold seen. destruct (i + 1 <? top)%N; lia. }
    rewrite M in P. assert (Z : In 0%N (map (fun i => if (i + 1 <? top)%N then i else 0%N) t0)).
    { apply Exists_exists in B as (i & I & L). apply in_map_iff. exists i. split; auto. destruct (N.ltb_spec (i + 1) top); [lia|reflexivity]. }
    set (t := map _ t0) in *. unfold prune_any in P. apply (prune_scan_none t (match t with [] => 0 | _ => N.of_nat (length d) mod top end)%N) in Z.
    rewrite Z in P. injection P as <- <-. auto.
Qed.

(** What a build reads from the file with one mesh that another build wrote, whatever their index
    types: an element whose number the reader's type does not have is silently replaced by the
    first one. *)
Theorem C79_large_positions : forall F (ft : any_text F) top top' tri oc m name, index_type top -> index_type top' -> any_text_ok ft ->
  any_exportable m -> line_name name -> any_numbered top [(m, name)] ->
  exists text m' w, write_obj_any top ft oc [(m, name)] = Ok text /\ read_obj_any top' ft tri text = Ok [(m', w)] /\ first_word name w /\
    any_seen top' (a_vertices m) (a_vertex_triangles m) (a_vertices m') (a_vertex_triangles m') /\
    any_seen top' (a_normals m) (a_normal_triangles m) (a_normals m') (a_normal_triangles m') /\
    any_seen top' (a_uvs m) (a_uv_triangles m) (a_uvs m') (a_uv_triangles m').
Proof.
  intros F ft top top' tri oc m name I I' T X NM (N1 & N2 & N3). pose proof (top_range top I) as TR. pose proof (top_range top' I') as TR'.
  assert (W : fits_file_a top [(m, name)] (1, 1, 1)%N) by (unfold fits_file_a; cbn [fst snd]; lia).
  assert (XX : Forall (fun mn => any_exportable (fst mn) /\ line_name (snd mn)) [(m, name)]) by (constructor; auto).
  pose proof (file_texts_ok_a top I ft _ T (1, 1, 1)%N XX W) as LK.
  destruct (fits_file_cons_a top m name [] (1, 1, 1)%N W) as [R _].
  assert (RD : exists s, any_lines top' ft tri ([smooth_text] ++ file_texts_a ft [(m, name)] (1, 1, 1)%N) any_importer_new [] = Ok (s, []) /\
    s = with_faces_a (after_body_a (any_importer_new (F:=F)) m name) (map (fun i => seen top' (i + 1) - 1)%N (or_empty (a_vertex_triangles m)))
          (map (fun i => seen top' (i + 1) - 1)%N (or_empty (a_normal_triangles m)))
          (map (uv_seen top') (uv_numbers (a_uv_triangles m) 1%N (length (or_empty (a_vertex_triangles m)))))).
  { eexists. split; [|reflexivity]. rewrite read_lines_app_a, (read_smooth_a top'). cbn [bind file_texts_a]. rewrite app_nil_r, read_lines_app_a.
    rewrite (read_body_a top') by (auto; intro; auto). cbn [bind]. rewrite (read_wide_faces top' I' ft tri m _ _ _ top X R) by lia. reflexivity. }
  destruct RD as (s & RD & S).
  exists (unlines ([smooth_text] ++ file_texts_a ft [(m, name)] (1, 1, 1)%N)), (any_imported_mesh top' s), (word name).
  split. { apply write_obj_texts_a; auto. }
  split.
  { unfold read_obj_any. rewrite lines_unlines.
    - rewrite RD. cbn [bind app]. unfold any_finish. rewrite S. reflexivity.
    - apply Forall_app. split; [|exact LK]. constructor; [|constructor]. split; [intros Z; cbn in Z; intuition discriminate|discriminate]. }
  split; [apply word_first|]. clear RD LK XX W R N1 N2 N3.
  destruct X as (k & K & (v & vt & V1 & V2 & V3 & V4) & (n & nt & M1 & M2 & M3 & M4) & U).
  unfold any_imported_mesh. destruct (prune_any top' (ai_vertices s) _) as [v1 vt1] eqn:PV. destruct (prune_any top' (ai_normals s) _) as [n1 nt1] eqn:PN.
  destruct (prune_any top' (ai_uvs s) _) as [u1 ut1] eqn:PU. cbn [a_vertices a_normals a_uvs a_vertex_triangles a_normal_triangles a_uv_triangles].
  subst s. cbn [with_faces_a after_body_a ai_vertices ai_normals ai_uvs ai_vertex_triangles ai_normal_triangles ai_uv_triangles any_importer_new fst snd app] in PV, PN, PU.
  rewrite V1, V2 in *. rewrite M1, M2 in *. cbn [or_empty] in PV, PN.
  split; [apply (seen_result top' v vt); [lia|auto|exact PV]|]. split; [apply (seen_result top' n nt); [lia|auto|exact PN]|].
  destruct U as [(u & ut & U1 & U2 & U3 & U4)|U].
  - rewrite U1, U2 in *. cbn [or_empty uv_numbers] in PU. rewrite map_map in PU. apply (seen_result top' u ut); [lia|auto|exact PU].
  - rewrite U. intros t0 E. discriminate E.
Qed.
Print Assumptions C79_large_positions.

(** So a build with 16-bit indices loads a file with 65536 vertices without an error, but with the
    last vertex replaced by the first. *)
Definition many_mesh {F} (z : F) : any_mesh F :=
  mk_any_mesh (Some [(z, z, z)]) (Some [0; 0; 0]%N) (Some (repeat (z, z, z) (N.to_nat 65536))) (Some [0; 1; 65535]%N) None None.
Lemma many_exportable {F} (z : F) : any_exportable (many_mesh z).
Proof.
  exists 1%nat. split; [lia|]. split; [|split; [|now right]]; do 2 eexists; (split; [reflexivity|]); (split; [reflexivity|]); (split; [reflexivity|]).
  - unfold in_range, len. rewrite repeat_length, N2Nat.id. repeat constructor.
  - repeat constructor.
Qed.
Lemma many_numbered {F} (z : F) name : any_numbered (2 ^ 32) [(many_mesh z, name)].
Proof. unfold any_numbered, any_total. cbn [fold_right fst many_mesh a_vertices a_normals a_uvs size]. unfold len. rewrite repeat_length, N2Nat.id. repeat split. Qed.
Theorem C79_short_refuted : forall F (ft : any_text F) (z : F) tri oc, any_text_ok ft ->
  exists m text m' w, any_exportable m /\ a_vertex_triangles m = Some [0; 1; 65535]%N /\ write_obj_any (2 ^ 32) ft oc [(m, [65]%N)] = Ok text /\
    read_obj_any (2 ^ 16) ft tri text = Ok [(m', w)] /\ a_vertices m' = a_vertices m /\ a_vertex_triangles m' = Some [0; 1; 0]%N.
Proof.
  intros F ft z tri oc T. destruct (C79_large_positions F ft (2 ^ 32) (2 ^ 16) tri oc (many_mesh z) [65]%N) as (text & m' & w & E1 & E2 & _ & S & _).
  - right. now left.
  - now left.
  - exact T.
  - apply many_exportable.
  - split; [repeat constructor; lia|]. split; [intros [H|[]]; discriminate H|discriminate].
  - apply many_numbered.
  - exists (many_mesh z), text, m', w. split; [apply many_exportable|]. split; [reflexivity|]. split; [exact E1|]. split; [exact E2|].
    apply (S [0; 1; 65535]%N eq_refl). apply Exists_cons_tl, Exists_cons_tl, Exists_cons_hd. discriminate.
Qed.
Print Assumptions C79_short_refuted.

(** In a checked build a mesh cannot be exported when its vertices have all the numbers of the
    index type: the next free number overflows after the last face was written. *)
Lemma face_loop_ends top off vt : forall i ut nt, match any_face_loop top true off i vt ut nt with Err _ => False | _ => True end.
Proof.
  destruct off as [[a b] c]. induction vt as [|v vt IH]; intros i ut nt; cbn [any_face_loop]; [exact I|].
  assert (AD : forall x y, match add_any (E:=oerr) top true x y with Err _ => False | _ => True end).
  { intros x y. unfold add_any. destruct (x + y <? top)%N; exact I. }
  assert (IX : forall l j, match index (E:=oerr) (A:=N) l j with Err _ => False | _ => True end).
  { intros l j. unfold index. now destruct (get l j). }
  specialize (AD v a) as A1. destruct (add_any top true v a); cbn [bind]; try exact I; [|destruct A1].
  set (UV := match ut with Some _ => _ | None => _ end). assert (A2 : match UV with Err _ => False | _ => True end).
  { unfold UV. destruct ut as [ut|]; [|exact I]. specialize (IX ut i). destruct (index ut i) as [u| |]; cbn [bind]; try exact I; [|destruct IX].
    specialize (AD u b). destruct (add_any top true u b); cbn [bind]; auto. }
  destruct UV; cbn [bind]; try exact I; [|destruct A2].
  set (NV := match nt with Some _ => _ | None => _ end). assert (A3 : match NV with Err _ => False | _ => True end).
  { unfold NV. destruct nt as [nt|]; [|exact I]. specialize (IX nt i). destruct (index nt i) as [u| |]; cbn [bind]; try exact I; [|destruct IX].
    specialize (AD u c). destruct (add_any top true u c); cbn [bind]; auto. }
  destruct NV; cbn [bind]; try exact I; [|destruct A3].
  specialize (IH (i + 1)%N ut nt). destruct (any_face_loop top true (a, b, c) (i + 1) vt ut nt); cbn [bind]; auto.
Qed.
Theorem C79_full_type_panics : forall F (ft : any_text F) top m name, index_type top -> any_exportable m ->
  size (a_vertices m) = (top - 1)%N -> write_obj_any top ft true [(m, name)] = Panic.
Proof.
  intros F ft top m name I (k & K & (v & vt & V1 & V2 & V3 & V4) & (n & nt & M1 & M2 & M3 & M4) & U) S. pose proof (top_range top I) as TR.
  unfold write_obj_any. cbn [any_saves]. unfold any_save. rewrite V2, M2.
  assert (negb (length nt =? length vt) = false) as -> by (rewrite M3, V3, Nat.eqb_refl; reflexivity).
  assert (match a_uv_triangles m with Some l => negb (length l =? length vt) | None => false end = false) as ->.
  { destruct U as [(u & ut & U1 & U2 & U3 & U4)| ->]; [|reflexivity]. now rewrite U2, U3, V3, Nat.eqb_refl. }
  pose proof (face_loop_ends top (1, 1, 1)%N vt 0%N (a_uv_triangles m) (Some nt)) as FE.
  destruct (any_face_loop top true (1, 1, 1)%N 0 vt (a_uv_triangles m) (Some nt)); cbn [bind]; [|destruct FE|reflexivity].
  rewrite V1 in *. cbn [size] in S. cbn [or_empty]. rewrite ulen_len, S, N.mod_small by lia.
  unfold add_any at 1. assert ((1 + (top - 1) <? top)%N = false) as -> by (apply N.ltb_ge; lia). reflexivity.
Qed.
Print Assumptions C79_full_type_panics.

(** A mesh that meets the hypotheses, with every combination of types. *)
Definition any_triangle {F} (a b : F) : any_mesh F :=
  mk_any_mesh (Some [(a, b, a); (b, b, b)]) (Some [1; 1; 1]%N) (Some [(b, b, b); (a, a, a); (a, b, a); (b, a, a)]) (Some [1; 2; 3]%N)
    (Some [(a, b); (b, b)]) (Some [0; 1; 1]%N).
Example C79_case : forall F (a b : F) top, index_type top ->
  any_exportable (any_triangle a b) /\ line_name [65; 32; 66]%N /\ any_numbered top [(any_triangle a b, [65; 32; 66]%N); (any_triangle b a, [67]%N)].
Proof.
  intros F a b top I. pose proof (top_range top I) as TR. split; [|split].
  - exists 1%nat. split; [lia|]. split; [|split; [|left]]; do 2 eexists; (split; [reflexivity|]); (split; [reflexivity|]); (split; [reflexivity|]); repeat constructor.
  - split; [repeat constructor; lia|]. split; [|discriminate]. cbn [In]. intuition discriminate.
  - unfold any_numbered. change (any_total a_vertices [(any_triangle a b, [65; 32; 66]%N); (any_triangle b a, [67]%N)]) with 8%N.
    change (any_total a_normals [(any_triangle a b, [65; 32; 66]%N); (any_triangle b a, [67]%N)]) with 4%N.
    change (any_total a_uvs [(any_triangle a b, [65; 32; 66]%N); (any_triangle b a, [67]%N)]) with 4%N. lia.
Qed.
