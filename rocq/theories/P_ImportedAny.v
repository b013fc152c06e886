(** Properties C50, C57, C58, C59 and C88 in builds with other float and index types. [F] is the float
    type, [top] the number of values of the index type; [tri] tells how angles are computed if the
    feature "triangulation" is on. *)
From Coq Require Import List NArith ZArith Arith Lia Bool ZifyN ZifyNat ZifyBool.
From Flocq Require Import IEEE754.BinarySingleNaN.
From Verif Require Import Base Floats Utilis Unify CustomData Mesh File FileSpec File_proofs MeshSpec Mesh_proofs FastTrig Double DoubleSave DoubleMesh Importer Obj ObjSpec P_Split Obj_proofs
  PolygonSpec Polygon_proofs P_Polygon ImportedSpec Imported_proofs ObjAny ObjAnySpec ObjAny_proofs TriAny TriAny_proofs ImportedAnySpec ImportedAny_proofs
  ObjAny2Spec ObjAny2_proofs P_ObjAny.
Import ListNotations.
Open Scope res_scope.

(** ** Polygons *)
(** The state of the import with more indices. *)
Definition any_more {F} (s : any_importer F) (v n u : list N) : any_importer F :=
  mk_any_importer (ai_vertices s) (ai_normals s) (ai_uvs s) (ai_vertex_triangles s ++ v) (ai_normal_triangles s ++ n) (ai_uv_triangles s ++ u) (ai_name s).
Lemma push_face_polygon_a {F} (g : angles F) s v u n : 4 <= length v -> length u = length v -> length n = length v ->
  any_push_face (polygons (Some g)) s v u n = any_triangulate g s v n u.
Proof.
  intros L LU LN. unfold any_push_face. rewrite LU, LN, Nat.eqb_refl. cbn [andb negb]. destruct v as [|a [|b [|c [|d v]]]]; cbn in L; try lia. reflexivity.
Qed.
(** C50. Whatever the number types and the angles, a face with n corners becomes n - 2 triangles,
    the same in all three index arrays. *)
Theorem C50_triangulates_any : forall F (g : angles F) s v u n, 4 <= length v -> (len v < 2 ^ 64)%N -> length u = length v -> length n = length v ->
  in_range (ai_vertices s) v ->
  exists ts vs us ns, any_push_face (polygons (Some g)) s v u n = Ok (any_more s vs ns us) /\
    clips wrapped_before (corners (length v)) ts /\ picks v (flat ts) vs /\ picks u (flat ts) us /\ picks n (flat ts) ns.
Proof.
  intros F g s v u n L B LU LN R. rewrite push_face_polygon_a by auto.
  destruct (triangulate_ok_a (E:=face_error) g s v n u) as (ts & -> & C); auto; [lia|].
  exists ts, (sel v (flat ts)), (sel u (flat ts)), (sel n (flat ts)). split; [reflexivity|]. split; auto.
  split; [|split]; eapply picked; eauto.
Qed.
Print Assumptions C50_triangulates_any.
(** Five corners lose the first one in double precision too. *)
Theorem C50_pentagon_double_refuted : forall acos s v u n x, acos B754_nan = B754_nan -> length v = 5 -> length u = 5 -> length n = 5 ->
  in_range (ai_vertices s) v -> (forall i, at_pos v 0 i -> at_pos (ai_vertices s) i x) -> finite_vec_d x ->
  exists ts vs us ns, any_push_face (polygons (Some (angles64 acos))) s v u n = Ok (any_more s vs ns us) /\
    picks v (flat ((0, 0, 1)%N :: ts)) vs /\ picks u (flat ((0, 0, 1)%N :: ts)) us /\ picks n (flat ((0, 0, 1)%N :: ts)) ns /\
    length ts = 2 /\ ~ In 0%N (flat ts).
Proof.
  intros acos s v u n x AN L LU LN R X F. rewrite push_face_polygon_a by lia.
  destruct (pentagon_a (E:=face_error) (angles64 acos) s v n u x B754_nan) as (ts & -> & ts' & -> & C); auto.
  { intros q. cbn [g_angle angles64]. rewrite angle_self_d; auto. }
  exists ts', (sel v (flat ((0, 0, 1)%N :: ts'))), (sel u (flat ((0, 0, 1)%N :: ts'))), (sel n (flat ((0, 0, 1)%N :: ts'))). split; [reflexivity|].
  assert (IN : forall y, In y (flat ts') -> (y = 1 \/ y = 2 \/ y = 3 \/ y = 4)%N).
  { intros y I. apply (clips_corners _ _ _ C) in I. cbn in I. intuition auto. }
  assert (P : forall l, length l = 5 -> picks l (flat ((0, 0, 1)%N :: ts')) (sel l (flat ((0, 0, 1)%N :: ts')))).
  { intros l LL. apply sel_picks. apply Forall_forall. intros y I. unfold len. rewrite LL. change (flat ((0, 0, 1)%N :: ts')) with ([0; 0; 1]%N ++ flat ts') in I.
    apply in_app_or in I as [I|I]; [cbn in I; intuition (subst; lia)|]. apply IN in I. lia. }
  split; auto. split; auto. split; auto. split.
  - apply clips_count in C. cbn in C. lia.
  - intros I. apply IN in I. lia.
Qed.
Print Assumptions C50_pentagon_double_refuted.
Example C50_any_case : forall (z : f64) acos, is_finite z = true -> (acos : f64 -> f64) B754_nan = B754_nan ->
  let s := mk_any_importer [(z, z, z); (z, z, z)] [] [] [] [] [] [] in
  in_range (ai_vertices s) [0; 1; 1; 1; 1]%N /\ (forall i, at_pos [0; 1; 1; 1; 1]%N 0 i -> at_pos (ai_vertices s) i (z, z, z)) /\ finite_vec_d (z, z, z).
Proof.
  intros z acos Z A s. split; [repeat constructor|]. split; [|repeat split; exact Z]. intros i I. injection I as <-. reflexivity.
Qed.

(** C58. The import of a face panics exactly when triangulation is on, it has more than three corners
    and one of them is a vertex that was not read yet. *)
Theorem C58_panics_any : forall F (tri : option (angles F)) s v u n, (len v < 2 ^ 64)%N ->
  (any_push_face (polygons tri) s v u n = Panic <->
   tri <> None /\ length u = length v /\ length n = length v /\ 4 <= length v /\ exists i, In i v /\ (len (ai_vertices s) <= i)%N).
Proof.
  intros F tri s v u n B. split.
  - intros H. assert (LL : length u = length v /\ length n = length v).
    { unfold any_push_face in H. destruct (length v =? length u) eqn:E1; [|discriminate H]. destruct (length v =? length n) eqn:E2; [|discriminate H].
      apply Nat.eqb_eq in E1, E2. auto. }
    destruct LL as [LU LN].
    assert (L : 4 <= length v).
    { destruct v as [|a [|b [|c [|d v]]]]; cbn [length]; try lia; exfalso; unfold any_push_face in H; rewrite LU, LN in H; cbn in H; discriminate H. }
    destruct tri as [g|].
    2: { exfalso. unfold any_push_face in H. rewrite LU, LN, Nat.eqb_refl in H. cbn [andb negb] in H. destruct v as [|a [|b [|c [|d v]]]]; discriminate H. }
    split; [discriminate|]. do 3 (split; auto). rewrite push_face_polygon_a in H by auto.
    assert (D : in_range (ai_vertices s) v \/ exists i, In i v /\ (len (ai_vertices s) <= i)%N).
    { clear. unfold in_range. induction v as [|x v [IH|(i & I & J)]]; [left; constructor| |right; exists i; split; [now right|auto]].
      destruct (N.lt_ge_cases x (len (ai_vertices s))); [left; now constructor|right]. exists x. split; [now left|auto]. }
    destruct D as [R|D]; auto. destruct (triangulate_ok_a (E:=face_error) g s v n u) as (ts & T & _); auto; [lia|]. congruence.
  - intros (NT & LU & LN & L & i & I & O). destruct tri as [g|]; [|congruence]. rewrite push_face_polygon_a by auto. eapply triangulate_panics_a; eauto.
Qed.
Print Assumptions C58_panics_any.

(** C57. The import never panics without triangulation, and gives at least one mesh or an error. *)
Theorem C57_import_any : forall F (ft : any_text F) top src, read_obj_any top ft None src <> Panic.
Proof.
  intros F ft top src. unfold read_obj_any. destruct (any_lines top ft None (lines src) any_importer_new []) as [[oi acc]|e|] eqn:E; cbn [bind]; try discriminate.
  now destruct (read_lines_no_panic_a top ft (lines src) any_importer_new []).
Qed.
Print Assumptions C57_import_any.

(** C59. The export refuses exactly the lists with an inconsistent mesh; it does not panic without
    overflow checks or if indices and counts leave room. *)
Theorem C59_export_refuses_any : forall F (ft : any_text F) top oc l, index_type top -> oc = false \/ any_small_file top l ->
  write_obj_any top ft oc l <> Panic /\ ((exists text, write_obj_any top ft oc l = Ok text) <-> Forall (fun mn => any_consistent (fst mn)) l).
Proof.
  intros F ft top oc l I S. assert (FF : file_fits_a top oc l (1, 1, 1)%N).
  { destruct S as [->|[(S1 & S2 & S3) S4]]; [now left|right]. cbn [fst snd]. rewrite !(N.add_comm 1). auto. }
  unfold write_obj_any. destruct (save_objs_spec_a top I ft oc l (1, 1, 1)%N FF) as [[C [t ->]]|[C ->]]; cbn [bind].
  - split; [discriminate|]. split; eauto.
  - split; [discriminate|]. split; [intros [t E]; discriminate E|contradiction].
Qed.
Print Assumptions C59_export_refuses_any.

(** ** C88. Whatever the text and the number types: every mesh has vertices, normals and UVs with index
    arrays of the same number of whole triangles, at least one except perhaps in the last mesh, and a
    name of one word. *)
Lemma import_whole_a {F} (ft : any_text F) top tri src l : index_type top -> read_obj_any top ft (polygons tri) src = Ok l ->
  exists front mn k, l = front ++ [mn] /\ Forall (a_mesh_a top) front /\ whole_a top k (fst mn) /\ one_word (snd mn).
Proof.
  intros I H. unfold read_obj_any in H. destruct (any_lines top ft (polygons tri) (lines src) any_importer_new []) as [[oi acc]|e|] eqn:E; try discriminate H.
  cbn [bind] in H. injection H as <-.
  apply lines_sound_a in E as [[(k & B1 & B2 & B3) W] A]; auto; [|apply lines_no_newline; intros []|apply new_sound_a].
  exists acc, (any_finish top oi), k. split; auto. split; auto. split; [now apply imported_is_a|exact W].
Qed.
Theorem C88_shape_any : forall F (ft : any_text F) top tri src l, index_type top -> read_obj_any top ft (polygons tri) src = Ok l ->
  exists front last, l = front ++ [last] /\
    Forall (fun mn => (exists k, (0 < k)%nat /\ any_imported top k (fst mn)) /\ one_word (snd mn)) front /\
    (exists k, any_imported top k (fst last)) /\ one_word (snd last).
Proof.
  intros F ft top tri src l I H. apply import_whole_a in H as (front & mn & k & -> & FF & W & O); auto. exists front, mn. split; auto.
  split; [|split; eauto using whole_imported_a]. eapply Forall_impl; [|exact FF]. intros a [(j & J & WJ) OA]. eauto using whole_imported_a.
Qed.
Print Assumptions C88_shape_any.

(** So what was imported can always be exported, if a build with overflow checks has room for the
    numbers in the file. *)
Theorem C88_can_be_exported_any : forall F (ft ft' : any_text F) top tri oc src l, index_type top -> read_obj_any top ft (polygons tri) src = Ok l ->
  oc = false \/ any_small_file top l -> exists text, write_obj_any top ft' oc l = Ok text.
Proof.
  intros F ft ft' top tri oc src l I H S. apply (C59_export_refuses_any F ft' top oc l I S).
  assert (C : forall k (m : any_mesh F), any_imported top k m -> any_consistent m).
  { intros k m (v & tv & n & tn & u & tu & -> & [L1 _] & [L2 _] & [L3 _]). unfold any_consistent. cbn [a_vertex_triangles a_normal_triangles a_uv_triangles].
    split; intros t E; injection E as <-; lia. }
  apply C88_shape_any in H as (front & mn & -> & FF & (k & W) & _); auto. apply Forall_app. split; [|repeat constructor; eapply C; eauto].
  eapply Forall_impl; [|exact FF]. intros a [(j & _ & WJ) _]. eapply C; eauto.
Qed.
Print Assumptions C88_can_be_exported_any.

Lemma total_at_least_a {F A} (f : any_mesh F -> option (list A)) mn l : In mn l -> (ObjSpec.size (f (fst mn)) <= any_total f l)%N.
Proof.
  induction l as [|a l IH]; [intros []|]. intros [->|I]; cbn [any_total fold_right]; [lia|]. specialize (IH I). unfold any_total in IH. lia.
Qed.
(** ... and importing that text, by a build with any index type that has the numbers of all elements,
    gives the very same meshes again. *)
Theorem C88_import_again_any : forall F (ft ft' : any_text F) top top' tri tri' oc src l, index_type top -> index_type top' -> any_text_ok ft' ->
  read_obj_any top ft (polygons tri) src = Ok l ->
  Forall (fun mn => any_complete (fst mn) /\ List.last (snd mn) 0%N <> 13%N) l ->
  (forall front m name, l = front ++ [(m, name)] -> a_vertex_triangles m <> Some []) -> any_numbered top l -> any_numbered top' l ->
  exists text, write_obj_any top ft' oc l = Ok text /\ read_obj_any top' ft' (polygons tri') text = Ok l.
Proof.
  intros F ft ft' top top' tri tri' oc src l IT IT' T H C LF NB NB'.
  assert (NE : l <> []). { apply import_whole_a in H as (front & mn & k & -> & _); auto. destruct front; discriminate. }
  assert (A : Forall (a_mesh_a top) l).
  { apply import_whole_a in H as (front & [m name] & k & -> & FF & W & O); auto. apply Forall_app. split; auto. constructor; [|constructor].
    split; [|exact O]. exists k. split; [|exact W]. specialize (LF front m name eq_refl).
    destruct W as (v & tv & n & tn & u & tu & E & [L _] & _). cbn [fst] in E. subst m. cbn [a_vertex_triangles] in LF. destruct tv; [congruence|cbn in L; lia]. }
  assert (CR : forall m v tv n tn u tu, m = mk_any_mesh (Some n) (Some tn) (Some v) (Some tv) (Some u) (Some tu) -> any_complete (F:=F) m ->
    MeshSpec.in_range v tv /\ MeshSpec.in_range n tn /\ MeshSpec.in_range u tu).
  { intros m v tv n tn u tu -> (C1 & C2 & C3). split; [now apply C1|]. split; [now apply C2|now apply C3]. }
  assert (X : Forall (fun mn => any_exportable (fst mn) /\ line_name (snd mn)) l).
  { rewrite Forall_forall in *. intros mn I. destruct (A mn I) as [(k & K & v & tv & n & tn & u & tu & E & [L1 _] & [L2 _] & [L3 _] & _) (O1 & O2 & O3 & O4)].
    destruct (C mn I) as [CM CQ]. destruct (CR _ _ _ _ _ _ _ E CM) as (R1 & R2 & R3). split; [|split; auto].
    exists k. split; auto. rewrite E. cbn [a_vertices a_vertex_triangles a_normals a_normal_triangles a_uvs a_uv_triangles].
    split; [exists v, tv; auto|]. split; [exists n, tn; auto|]. left. exists u, tu. auto. }
  destruct (C79_exchange F ft' top top' (polygons tri') oc l IT IT' T NE X NB NB') as (text & outs & E1 & E2 & F2). exists text. split; auto. rewrite E2. f_equal.
  assert (G : forall l0, incl l0 l -> forall outs0, Forall2 any_reimported l0 outs0 -> outs0 = l0).
  { induction l0 as [|a l0 IH]; intros IN outs0 FF; [inversion FF; reflexivity|]. inversion FF as [|? b ? outs1 RI FF1]; subst. f_equal; [|apply IH; auto; intros z Z; apply IN; now right].
    assert (I : In a l) by (apply IN; now left). rewrite Forall_forall in A, C. destruct (A a I) as [(k & K & v & tv & n & tn & u & tu & E & [L1 _] & [L2 _] & [L3 _] & T1 & T2 & T3) (O1 & O2 & O3 & O4)].
    destruct (C a I) as [CM CQ]. destruct (CR _ _ _ _ _ _ _ E CM) as (R1 & R2 & R3).
    destruct a as [m name], b as [m' name']. cbn [fst snd] in *. destruct RI as (W & FV & FN & FU & _). cbn [fst snd] in *.
    destruct NB as (NB1 & NB2 & NB3). pose proof (total_at_least_a a_vertices _ _ I) as S1. pose proof (total_at_least_a a_normals _ _ I) as S2. pose proof (total_at_least_a a_uvs _ _ I) as S3.
    cbn [fst] in S1, S2, S3. rewrite E in *. cbn [a_vertices a_vertex_triangles a_normals a_normal_triangles a_uvs a_uv_triangles ObjSpec.size] in *.
    specialize (FU ltac:(discriminate)).
    apply (front_cut_same_a top) in FV as [V1 V2]; auto; [|intros ->; cbn in L1; lia|lia].
    apply (front_cut_same_a top) in FN as [N1 N2]; auto; [|intros ->; cbn in L2; lia|lia].
    apply (front_cut_same_a top) in FU as [U1 U2]; auto; [|intros ->; cbn in L3; lia|lia].
    f_equal.
    - destruct m'. cbn in *. congruence.
    - destruct W as (W1 & W2 & [W3|(c & rest & W3 & W4)]); [congruence|]. exfalso.
      assert (In c name) by (rewrite W3; apply in_or_app; right; now left). destruct W4; subst c; auto. }
  apply G; [apply incl_refl|exact F2].
Qed.
Print Assumptions C88_import_again_any.

(** One triangle, whatever the float type and the value of the numbers. *)
Definition one_object : list N := [111; 32; 97; 10; 118; 32; 48; 32; 48; 32; 48; 10; 118; 110; 32; 48; 32; 48; 32; 49; 10; 118; 116; 32; 48; 32; 48; 10; 102; 32; 49; 47; 49; 47; 49; 32; 49; 47; 49; 47; 49; 32; 49; 47; 49; 47; 49; 10]%N.
Example C88_any_case : forall F (z : F) top, index_type top ->
  let ft := mk_any_text (fun _ => []) (fun _ => Some z) in
  let l := [(mk_any_mesh (Some [(z, z, z)]) (Some [0; 0; 0]%N) (Some [(z, z, z)]) (Some [0; 0; 0]%N) (Some [(z, z)]) (Some [0; 0; 0]%N), [97]%N)] in
  read_obj_any top ft (polygons None) one_object = Ok l /\ any_small_file top l /\
  Forall (fun mn => any_complete (fst mn) /\ List.last (snd mn) 0%N <> 13%N) l /\ any_numbered top l.
Proof.
  intros F z top I ft l. destruct I as [->|[->| ->]].
  all: split; [reflexivity|].
  all: split; [split; [repeat split|]; constructor; [split; [|split]; intros t E; injection E as <-; repeat constructor|constructor]|].
  all: split; [|repeat split].
  all: constructor; [|constructor]; split; [|discriminate]; split; [|split]; intros d t E1 E2; injection E1 as <-; injection E2 as <-; repeat constructor.
Qed.
