(** Property C88: what every imported OBJ text gives, exported again or saved as TMF. *)
From Coq Require Import List NArith ZArith Arith Lia Bool Reals ZifyN ZifyNat ZifyBool.
From Flocq Require Import IEEE754.BinarySingleNaN.
From Verif Require Import Base UnalignedRW ReadExt Floats Utilis Vertices Uv Normals Unify CustomData Mesh Tmf File FileSpec SaveSpec MeshSpec
  ValueSpec VertexSpec CheckedSpec PrepareSpec ImportedSpec Importer Obj ObjSpec Save_proofs Panic_proofs Mesh_proofs Prepare_proofs Imported_proofs
  P_Save P_Vertices P_Mesh P_Checked P_Default P_Prepare P_Obj.
Import ListNotations.
Open Scope res_scope.

(** C88. Whatever the text, however floats are parsed, with and without triangulation: if the
    import succeeds, every mesh has vertices, normals and UVs with index arrays of the same
    number of whole triangles, at least one except perhaps in the last mesh, and a name of one word. *)
Lemma import_whole ft tri src l : read_from_obj ft tri src = Ok l ->
  exists front mn k, l = front ++ [mn] /\ Forall a_mesh front /\ whole k (fst mn) /\ one_word (snd mn).
Proof.
  intros H. unfold read_from_obj in H. destruct (read_lines ft tri (lines src) importer_new []) as [[oi acc]|e|] eqn:E; try discriminate H.
  cbn [bind] in H. injection H as <-.
  apply lines_sound in E as [[(k & B1 & B2 & B3) W] A]; [|apply lines_no_newline; intros []|apply new_sound|constructor].
  exists acc, (importer_finish oi), k. split; auto. split; auto. split; [now apply imported_is|exact W].
Qed.
Theorem C88_shape : forall ft tri src l, read_from_obj ft tri src = Ok l ->
  exists front last, l = front ++ [last] /\
    Forall (fun mn => (exists k, (0 < k)%nat /\ imported k (fst mn)) /\ one_word (snd mn)) front /\
    (exists k, imported k (fst last)) /\ one_word (snd last).
Proof.
  intros ft tri src l H. apply import_whole in H as (front & mn & k & -> & F & W & O). exists front, mn. split; auto.
  split; [|split; eauto using whole_imported]. eapply Forall_impl; [|exact F]. intros a [(j & J & WJ) OA]. eauto using whole_imported.
Qed.
Print Assumptions C88_shape.

(** So what was imported can always be exported; a build with overflow checks needs room for the
    numbers in the file. *)
Lemma imported_consistent k m : imported k m -> consistent m.
Proof.
  intros (v & tv & n & tn & u & tu & -> & [L1 _] & [L2 _] & [L3 _]). unfold consistent. cbn [vertex_triangles normal_triangles uv_triangles].
  split; intros l E; injection E as <-; lia.
Qed.
Theorem C88_can_be_exported : forall ft ft' tri oc src l, read_from_obj ft tri src = Ok l -> oc = false \/ small_file l ->
  exists text, write_obj ft' oc l = Ok text.
Proof.
  intros ft ft' tri oc src l H S. apply (C59_export_refuses ft' oc l S).
  apply C88_shape in H as (front & mn & -> & F & (k & W) & _). apply Forall_app. split; [|repeat constructor; eapply imported_consistent; eauto].
  eapply Forall_impl; [|exact F]. intros a [(j & _ & WJ) _]. eapply imported_consistent; eauto.
Qed.
Print Assumptions C88_can_be_exported.

Lemma complete_ranges m v tv n tn u tu : m = mk_mesh (Some n) (Some tn) (Some v) (Some tv) (Some u) (Some tu) None None [] -> complete m ->
  MeshSpec.in_range v tv /\ MeshSpec.in_range n tn /\ MeshSpec.in_range u tu.
Proof.
  intros -> (C1 & C2 & C3). destruct (C30_buffer_exists (mk_mesh (Some n) (Some tn) (Some v) (Some tv) (Some u) (Some tu) None None [])) as (B1 & B2 & B3).
  apply B1 in C1 as (a & b & E1 & E2 & R1). apply B2 in C2 as (c & d & E3 & E4 & R2). apply B3 in C3 as (e & f & E5 & E6 & R3).
  injection E1 as <-. injection E2 as <-. injection E3 as <-. injection E4 as <-. injection E5 as <-. injection E6 as <-. auto.
Qed.
Lemma total_at_least {A} (f : mesh -> option (list A)) mn l : In mn l -> (ObjSpec.size (f (fst mn)) <= total f l)%N.
Proof.
  induction l as [|a l IH]; [intros []|]. intros [->|I]; cbn [total fold_right]; [lia|]. specialize (IH I). unfold total in IH. lia.
Qed.
(** ... and importing that text gives the very same meshes again, if all indices are in range,
    the last mesh has a face too, and no name ends with a carriage return. *)
Theorem C88_import_again : forall ft ft' tri tri' oc src l, text_ok ft' -> read_from_obj ft tri src = Ok l ->
  Forall (fun mn => complete (fst mn) /\ List.last (snd mn) 0%N <> 13%N) l ->
  (forall front m name, l = front ++ [(m, name)] -> vertex_triangles m <> Some []) -> numbered l ->
  exists text, write_obj ft' oc l = Ok text /\ read_from_obj ft' tri' text = Ok l.
Proof.
  intros ft ft' tri tri' oc src l T H C LF NB. pose proof (C57_at_least_one _ _ _ _ H) as NE.
  assert (A : Forall a_mesh l).
  { apply import_whole in H as (front & [m name] & k & -> & F & W & O). apply Forall_app. split; auto. constructor; [|constructor].
    split; [|exact O]. exists k. split; [|exact W]. specialize (LF front m name eq_refl).
    destruct W as (v & tv & n & tn & u & tu & E & [L _] & _). cbn [fst] in E. subst m. cbn [vertex_triangles] in LF. destruct tv; [congruence|cbn in L; lia]. }
  assert (X : Forall (fun mn => exportable (fst mn) /\ line_name (snd mn)) l).
  { rewrite Forall_forall in *. intros mn I. destruct (A mn I) as [(k & K & v & tv & n & tn & u & tu & E & [L1 _] & [L2 _] & [L3 _] & _) (O1 & O2 & O3 & O4)].
    destruct (C mn I) as [CM CR]. destruct (complete_ranges _ _ _ _ _ _ _ E CM) as (R1 & R2 & R3). split; [|split; auto].
    exists k. split; auto. rewrite E. cbn [vertices vertex_triangles normals normal_triangles uvs uv_triangles].
    split; [exists v, tv; auto|]. split; [exists n, tn; auto|]. left. exists u, tu. auto. }
  destruct (C44_roundtrip ft' tri' oc l T NE X NB) as (text & outs & E1 & E2 & F2). exists text. split; auto. rewrite E2. f_equal.
  assert (G : forall l0, incl l0 l -> forall outs0, Forall2 reimported l0 outs0 -> outs0 = l0).
  { induction l0 as [|a l0 IH]; intros IN outs0 FF; [inversion FF; reflexivity|]. inversion FF as [|? b ? outs1 RI FF1]; subst. f_equal; [|apply IH; auto; intros z Z; apply IN; now right].
    assert (I : In a l) by (apply IN; now left). rewrite Forall_forall in A, C. destruct (A a I) as [(k & K & v & tv & n & tn & u & tu & E & [L1 _] & [L2 _] & [L3 _] & T1 & T2 & T3) (O1 & O2 & O3 & O4)].
    destruct (C a I) as [CM CR]. destruct (complete_ranges _ _ _ _ _ _ _ E CM) as (R1 & R2 & R3).
    destruct a as [m name], b as [m' name']. cbn [fst snd] in *. destruct RI as (W & FV & FN & FU & _ & Q1 & Q2 & Q3). cbn [fst snd] in *.
    destruct NB as (NB1 & NB2 & NB3). pose proof (total_at_least vertices _ _ I) as S1. pose proof (total_at_least normals _ _ I) as S2. pose proof (total_at_least uvs _ _ I) as S3.
    cbn [fst] in S1, S2, S3. rewrite E in *. cbn [vertices vertex_triangles normals normal_triangles uvs uv_triangles ObjSpec.size] in *.
    specialize (FU ltac:(discriminate)).
    apply front_cut_same in FV as [V1 V2]; auto; [|intros ->; cbn in L1; lia|lia].
    apply front_cut_same in FN as [N1 N2]; auto; [|intros ->; cbn in L2; lia|lia].
    apply front_cut_same in FU as [U1 U2]; auto; [|intros ->; cbn in L3; lia|lia].
    f_equal.
    - destruct m'. cbn in *. congruence.
    - destruct W as (W1 & W2 & [W3|(c & rest & W3 & W4)]); [congruence|]. exfalso.
      assert (In c name) by (rewrite W3; apply in_or_app; right; now left). destruct W4; subst c; auto. }
  apply G; [apply incl_refl|exact F2].
Qed.
Print Assumptions C88_import_again.

(** Converting OBJ to TMF: what was imported can be reordered and unified, saved with the default
    settings and loaded, and every corner of every triangle is as in C87. *)
Theorem C88_to_tmf : forall ft tri src lm lm' oc oc' l l1,
  read_from_obj ft tri src = Ok l ->
  log2_ok lm -> log2_standard lm -> asin_ok lm -> sin_cos_ok lm' -> (len l < 2 ^ 32)%N ->
  Forall (fun mn => complete (fst mn) /\ storable (fst mn) /\ vertex_triangles (fst mn) <> Some [] /\ (len (snd mn) < 65536)%N /\ usual_vertices (fst mn)) l ->
  Forall2 (fun a b => (exists calls, prepare calls (fst a) = Ok (fst b)) /\ snd b = snd a) l l1 ->
  Forall (fun mn => (segment_count lm true (fst mn) < 65536)%N) l1 ->
  exists out l', saved lm oc (default_precision lm) l1 = Ok out /\ read_tmf lm' oc' out = Ok l' /\
    map snd l' = map snd l /\
    Forall2 (fun a b =>
      arrays (fun u u' : vec2 => texel_near (fst u) (fst u') /\ texel_near (snd u) (snd u')) (get_uv_buffer (fst a)) (get_uv_buffer (fst b)) /\
      arrays turned_little (get_normal_buffer (fst a)) (get_normal_buffer (fst b)) /\
      (forall B s, Forall (bounded B) (vlist (vertices (fst a))) -> (B <= 2 ^ 50)%R ->
        shortest_edge (vertices (fst a)) (vertex_triangles (fst a)) s -> (/ 2 ^ 20 <= s)%R -> (B <= 100000 * s)%R ->
        arrays (moved_among (vlist (vertices (fst a))) B (s * val (flit 1 10))) (get_vertex_buffer (fst a)) (get_vertex_buffer (fst b)))) l l'.
Proof.
  intros ft tri src lm lm' oc oc' l l1 H LG LS AS SC LL F PR SG.
  destruct (C87_prepared_save lm lm' oc oc' l l1 LG LS AS SC LL) as (out & l' & S & R & N & Q); auto.
  - assert (A : Forall (fun mn => (exists k, whole k (fst mn)) /\ one_word (snd mn)) l).
    { apply import_whole in H as (front & mn & k & -> & FF & W & O). apply Forall_app.
      split; [|constructor; [split; [exists k; exact W|exact O]|constructor]].
      eapply Forall_impl; [|exact FF]. intros a [(j & _ & WJ) OA]. split; [exists j; exact WJ|exact OA]. }
    rewrite Forall_forall in *. intros mn I. destruct (F mn I) as (CM & ST & VT & LN & UV). destruct (A mn I) as [(k & v & tv & n & tn & u & tu & E & [L1 _] & [L2 _] & [L3 _] & _) (O1 & _)].
    destruct (complete_ranges _ _ _ _ _ _ _ E CM) as (R1 & R2 & R3). split; [exact ST|]. split.
    + exists (3 * k)%nat. rewrite E in *. cbn [vertex_triangles] in VT. split; [destruct tv; [congruence|cbn in L1; lia]|].
      split; [|split; [|split]]; intros d0 i0 E1 E2; cbn in E1, E2; try discriminate E2; injection E1 as <-; injection E2 as <-; auto.
    + split; [split; auto|]. split; [exact UV|]. rewrite E. constructor.
  - exists out, l'. split; auto. split; auto. split; auto. eapply Image_proofs.F2_impl; [|exact Q]. cbv beta. tauto.
Qed.
Print Assumptions C88_to_tmf.

(** Two objects of one triangle each. Whatever the numbers stand for, the import gives two
    meshes that can be imported again. *)
Definition two_objects : list N := [111; 32; 97; 10; 118; 32; 48; 32; 48; 32; 48; 10; 118; 32; 49; 32; 48; 32; 48; 10; 118; 32; 48; 32; 49; 32; 48; 10; 118; 110; 32; 48; 32; 48; 32; 49; 10; 118; 116; 32; 48; 32; 48; 10; 102; 32; 49; 47; 49; 47; 49; 32; 50; 47; 49; 47; 49; 32; 51; 47; 49; 47; 49; 10; 111; 32; 98; 10; 118; 32; 48; 32; 48; 32; 48; 10; 118; 32; 49; 32; 48; 32; 48; 10; 118; 32; 48; 32; 49; 32; 48; 10; 118; 110; 32; 48; 32; 48; 32; 49; 10; 118; 116; 32; 48; 32; 48; 10; 102; 32; 52; 47; 50; 47; 50; 32; 53; 47; 50; 47; 50; 32; 54; 47; 50; 47; 50; 10]%N.
Definition numbers (zero one : f32) : float_text :=
  mk_float_text (fun _ => []) (fun s => match s with [49%N] => Some one | _ => Some zero end).
Definition one_triangle (zero one : f32) : mesh :=
  mk_mesh (Some [(zero, zero, one)]) (Some [0; 0; 0]%N) (Some [(zero, zero, zero); (one, zero, zero); (zero, one, zero)]) (Some [0; 1; 2]%N)
    (Some [(zero, zero)]) (Some [0; 0; 0]%N) None None [].
Definition two_meshes (zero one : f32) : list (mesh * list N) := [(one_triangle zero one, [97]%N); (one_triangle zero one, [98]%N)].
Example C88_case : forall zero one,
  read_from_obj (numbers zero one) None two_objects = Ok (two_meshes zero one) /\ small_file (two_meshes zero one) /\
  Forall (fun mn => complete (fst mn) /\ List.last (snd mn) 0%N <> 13%N) (two_meshes zero one) /\ numbered (two_meshes zero one) /\
  (forall front m name, two_meshes zero one = front ++ [(m, name)] -> vertex_triangles m <> Some []).
Proof.
  intros zero one. split; [reflexivity|]. split.
  { split; [repeat split|]. repeat (apply Forall_cons; [split; [|split]; intros t E; injection E as <-; repeat (apply Forall_cons; [reflexivity|]); apply Forall_nil|]). apply Forall_nil. }
  split.
  { repeat (apply Forall_cons; [split; [repeat split; discriminate|discriminate]|]). apply Forall_nil. }
  split; [repeat split|]. intros front m name E. change (two_meshes zero one) with ([(one_triangle zero one, [97%N])] ++ [(one_triangle zero one, [98%N])]) in E.
  apply app_inj_tail in E as [_ E]. injection E as <- _. discriminate.
Qed.
Example C88_tmf_case :
  Forall (fun mn => complete (fst mn) /\ storable (fst mn) /\ vertex_triangles (fst mn) <> Some [] /\ (len (snd mn) < 65536)%N /\ usual_vertices (fst mn))
    (two_meshes f0 leg) /\ (len (two_meshes f0 leg) < 2 ^ 32)%N /\
  Forall2 (fun a b => (exists calls, prepare calls (fst a) = Ok (fst b)) /\ snd b = snd a) (two_meshes f0 leg) (two_meshes f0 leg) /\
  Forall (fun mn => (segment_count ieee_libm true (fst mn) < 65536)%N) (two_meshes f0 leg).
Proof.
  destruct C80_case as (_ & _ & _ & _ & _ & C). apply Forall_cons_iff in C as [[U _] _]. cbn [fst] in U.
  assert (S : storable (one_triangle f0 leg)) by (unfold one_triangle; storable_tac).
  split; [|split; [reflexivity|split]].
  - repeat (apply Forall_cons; [split; [repeat split; discriminate|split; [exact S|split; [discriminate|split; [reflexivity|exact U]]]]|]). apply Forall_nil.
  - repeat (apply Forall2_cons; [split; [exists []; reflexivity|reflexivity]|]). apply Forall2_nil.
  - repeat (apply Forall_cons; [eapply N.le_lt_trans; [apply C54_few_segments, storable_any, S|vm_compute; reflexivity]|]). apply Forall_nil.
Qed.

(** A name that ends with a carriage return is changed by the second import: the line end takes it. *)
Definition object_cr : list N := [111; 32; 97; 13; 13; 10; 118; 32; 48; 32; 48; 32; 48; 10; 118; 110; 32; 48; 32; 48; 32; 48; 10; 118; 116; 32; 48; 32; 48; 10; 102; 32; 49; 47; 49; 47; 49; 32; 49; 47; 49; 47; 49; 32; 49; 47; 49; 47; 49; 10]%N.
Theorem C88_name_refuted : exists m text m', read_from_obj demo_text None object_cr = Ok [(m, [97; 13]%N)] /\ complete m /\
  write_obj demo_text true [(m, [97; 13]%N)] = Ok text /\ read_from_obj demo_text None text = Ok [(m', [97]%N)].
Proof.
  eexists _, _, _. split; [vm_compute; reflexivity|]. split; [repeat split; discriminate|].
  split; [vm_compute; reflexivity|]. vm_compute. reflexivity.
Qed.
Print Assumptions C88_name_refuted.
(** A last object without faces is given the data of the objects before it, and each further
    import adds to that. *)
Definition bare_object : list N := [111; 32; 97; 10; 118; 32; 48; 32; 48; 32; 48; 10; 118; 110; 32; 48; 32; 48; 32; 48; 10; 118; 116; 32; 48; 32; 48; 10; 102; 32; 49; 47; 49; 47; 49; 32; 49; 47; 49; 47; 49; 32; 49; 47; 49; 47; 49; 10; 111; 32; 98; 10]%N.
Theorem C88_no_faces_refuted : exists m1 m2 text m1' m2', read_from_obj demo_text None bare_object = Ok [(m1, [97]%N); (m2, [98]%N)] /\
  complete m1 /\ complete m2 /\ option_map (@length vec3) (vertices m2) = Some 1%nat /\
  write_obj demo_text true [(m1, [97]%N); (m2, [98]%N)] = Ok text /\
  read_from_obj demo_text None text = Ok [(m1', [97]%N); (m2', [98]%N)] /\ option_map (@length vec3) (vertices m2') = Some 2%nat.
Proof.
  eexists _, _, _, _, _. split; [vm_compute; reflexivity|]. split; [repeat split; discriminate|]. split; [repeat split; discriminate|].
  split; [reflexivity|]. split; [vm_compute; reflexivity|]. split; [vm_compute; reflexivity|]. reflexivity.
Qed.
Print Assumptions C88_no_faces_refuted.
