(** C44, C45, C46, C57 and C59: exporting to and importing from .obj text.
    [float_text] stands for the standard library's printing and parsing of floats;
    [text_ok] says that parsing undoes printing. [tri] is the platform's acos when the
    feature "triangulation" is on. *)
From Coq Require Import List NArith ZArith Arith Lia Bool.
From Flocq Require Import IEEE754.BinarySingleNaN.
From Flocq Require IEEE754.Binary IEEE754.Bits.
From Verif Require Import Base Floats Utilis CustomData Mesh File FileSpec MeshSpec Mesh_proofs Importer Obj ObjSpec P_Split Obj_proofs Obj2_proofs.
Import ListNotations.
Open Scope res_scope.

(** ** C44 *)
Theorem C44_roundtrip : forall ft tri oc l, text_ok ft -> l <> [] ->
  Forall (fun mn => exportable (fst mn) /\ line_name (snd mn)) l -> numbered l ->
  exists text outs, write_obj ft oc l = Ok text /\ read_from_obj ft tri text = Ok outs /\ Forall2 reimported l outs.
Proof.
  intros ft tri oc l T NE X (N1 & N2 & N3).
  assert (F : fits_file l (1, 1, 1)%N) by (unfold fits_file; cbn [fst snd]; lia).
  destruct (read_written ft tri l T NE X F) as (outs & R & B). do 2 eexists. split; [|split; [exact R|exact B]].
  apply write_obj_texts; auto. eapply Forall_impl; [|exact X]. cbv beta. tauto.
Qed.

Lemma front_cut_buffer {A} (d : option (list A)) t d' t' : front_cut d t d' t' -> buffer d' t' = buffer d t.
Proof.
  intros (front & d1 & t1 & -> & -> & -> & ->).
  assert (G : forall b, buffer (Some d1) (Some t1) = Some b <-> buffer (Some (front ++ d1)) (Some (map (fun i => (i + len front)%N) t1)) = Some b).
  { intros b. rewrite !buffer_iff. assert (S : forall b t, looks_up d1 t b <-> looks_up (front ++ d1) (map (fun i => (i + len front)%N) t) b).
    { intros b' t. split.
      - intros L. induction L as [|i x t b' Q L IH]; cbn [map]; constructor; auto.
        unfold len. rewrite nth_error_app2 by lia. rewrite <- Q. f_equal. lia.
      - revert b'. induction t as [|i t IH]; intros b' L; inversion L as [|? x ? ? Q L']; subst; constructor.
        + unfold len in Q. rewrite nth_error_app2 in Q by lia. rewrite <- Q. f_equal. lia.
        + now apply IH. }
    split; intros (v & t & E1 & E2 & L); injection E1 as <-; injection E2 as <-; do 2 eexists; (split; [reflexivity|]); (split; [reflexivity|]); now apply S. }
  destruct (buffer (Some d1) (Some t1)) as [b|] eqn:E1, (buffer (Some (front ++ d1)) _) as [b'|] eqn:E2; auto.
  - symmetry. apply G. reflexivity.
  - pose proof (proj1 (G b) eq_refl). discriminate.
  - pose proof (proj2 (G b') eq_refl). discriminate.
Qed.
(** As many meshes, with the same names and buffers. *)
Definition same_buffers (a b : mesh * list N) : Prop :=
  snd b = snd a /\ get_vertex_buffer (fst b) = get_vertex_buffer (fst a) /\ get_normal_buffer (fst b) = get_normal_buffer (fst a) /\
  (uv_triangles (fst a) <> None -> get_uv_buffer (fst b) = get_uv_buffer (fst a)) /\
  get_vertex_buffer (fst b) <> None /\ get_normal_buffer (fst b) <> None.
Lemma word_itself name w : ~ In 32%N name -> ~ In 47%N name -> first_word name w -> w = name.
Proof.
  intros S1 S2 (_ & _ & [E|(c & rest & E & C)]); [auto|]. subst name. exfalso.
  destruct C as [->| ->]; [apply S1|apply S2]; apply in_or_app; right; now left.
Qed.
Lemma indexed_buffer {A} (d : option (list A)) t k : indexed d t k -> buffer d t <> None.
Proof.
  intros (d0 & t0 & -> & -> & _ & R) E. apply in_range_looks_up in R as [b B].
  assert (buffer (Some d0) (Some t0) = Some b) by (apply buffer_iff; eauto). congruence.
Qed.
Theorem C44_same_buffers : forall ft tri oc l, text_ok ft -> l <> [] ->
  Forall (fun mn => exportable (fst mn) /\ line_name (snd mn) /\ ~ In 32%N (snd mn) /\ ~ In 47%N (snd mn)) l -> numbered l ->
  exists text outs, write_obj ft oc l = Ok text /\ read_from_obj ft tri text = Ok outs /\ length outs = length l /\ Forall2 same_buffers l outs.
Proof.
  intros ft tri oc l T NE X NB. destruct (C44_roundtrip ft tri oc l T NE) as (text & outs & E1 & E2 & F); auto.
  { eapply Forall_impl; [|exact X]. cbv beta. tauto. }
  exists text, outs. split; auto. split; auto. split; [clear - F; induction F; cbn [length]; lia|].
  clear - X F. induction F as [|[m name] [m' name'] l outs (R1 & R2 & R3 & R4 & _) F IH]; constructor; inversion X as [|? ? (X1 & X2 & X3 & X4) X']; subst; auto.
  unfold same_buffers, get_vertex_buffer, get_normal_buffer, get_uv_buffer. cbn [fst snd] in *.
  rewrite (front_cut_buffer _ _ _ _ R2), (front_cut_buffer _ _ _ _ R3). destruct X1 as (k & K & XV & XN & _).
  split; [now apply word_itself|]. split; auto. split; auto. split; [intros U; now apply front_cut_buffer, R4|].
  split; eapply indexed_buffer; eauto.
Qed.
(** One mesh, by the functions for one mesh. *)
Theorem C44_one : forall ft tri oc m name, text_ok ft -> exportable m -> line_name name -> numbered [(m, name)] ->
  exists text out, write_obj_one ft oc m name = Ok text /\ read_from_obj_one ft tri text = Ok out /\ reimported (m, name) out.
Proof.
  intros ft tri oc m name T X L NB. destruct (C44_roundtrip ft tri oc [(m, name)] T) as (text & outs & E1 & E2 & F); auto; [discriminate|].
  inversion F as [|? out ? ? R F']; subst. inversion F'; subst. exists text, out. split; auto. split; auto.
  unfold read_from_obj_one. rewrite E2. reflexivity.
Qed.

(** What the round trip does not cover. Faces without normals are written, but the
    import refuses them. *)
Theorem C44_no_normals_refused : forall ft tri oc m name k, text_ok ft -> line_name name -> (0 < k)%nat -> numbered [(m, name)] ->
  indexed (vertices m) (vertex_triangles m) (3 * k) -> normal_triangles m = None ->
  (indexed (uvs m) (uv_triangles m) (3 * k) \/ uv_triangles m = None) ->
  exists text e, write_obj_one ft oc m name = Ok text /\ read_from_obj ft tri text = Err e.
Proof.
  intros. destruct (bare_face_refused ft tri oc m name k) as (text & E1 & E2); auto. eauto.
Qed.
(** An empty list of meshes is read back as one mesh. *)
Theorem C44_empty_list : forall ft tri oc, exists text m, write_obj ft oc [] = Ok text /\ read_from_obj ft tri text = Ok [(m, [])].
Proof. intros. do 2 eexists. split; [reflexivity|]. reflexivity. Qed.

(** A way to print floats that meets [text_ok]: the decimal digits of the bits. *)
Definition demo_bits (x : f32) : N := Z.to_N (Bits.bits_of_b32 (Binary.BSN2B 24 128 Bits.default_nan_pl32 x)).
Definition demo_text : float_text :=
  mk_float_text (fun x => show_u32 (demo_bits x)) (fun s => option_map (fun n => Binary.B2BSN 24 128 (Bits.b32_of_bits (Z.of_N n))) (parse_u32 s)).
Lemma demo_text_ok : text_ok demo_text.
Proof.
  intros x. unfold demo_text. cbn [t_show t_parse]. unfold demo_bits.
  assert (B : (0 <= Bits.bits_of_b32 (Binary.BSN2B 24 128 Bits.default_nan_pl32 x) < 2 ^ 32)%Z).
  { apply (Bits.bits_of_binary_float_range 23 8 eq_refl eq_refl). }
  assert (L : (Z.to_N (Bits.bits_of_b32 (Binary.BSN2B 24 128 Bits.default_nan_pl32 x)) < 2 ^ 32)%N) by lia.
  destruct (show_u32_numeral _ L) as [P D]. apply parse_u32_iff in P. rewrite P. split; [|now apply digits_plain].
  cbn [option_map]. f_equal. rewrite Z2N.id by lia. unfold Bits.b32_of_bits, Bits.bits_of_b32.
  rewrite Bits.binary_float_of_bits_of_binary_float by reflexivity. apply Binary.B2BSN_BSN2B.
Qed.
Definition demo_mesh (u : option (list N)) : mesh :=
  mk_mesh (Some [pt 0 0 1; pt 0 1 0]) (Some [1; 1; 0]%N) (Some [pt 0 0 0; pt 1 0 0; pt 0 1 0; pt 5 5 5]) (Some [1; 2; 3]%N)
          (Some [(f0, f0)]) u None None [].
Definition demo_name : list N := [97; 98]%N.
Definition demo_cut : list N := [99; 32; 100]%N.
Definition demo_list : list (mesh * list N) := [(demo_mesh (Some [0; 0; 0]%N), demo_name); (demo_mesh None, demo_cut)].
Lemma demo_exportable u : u = Some [0; 0; 0]%N \/ u = None -> exportable (demo_mesh u).
Proof.
  intros U. exists 1%nat. split; [lia|]. split; [|split].
  - do 2 eexists. split; [reflexivity|]. split; [reflexivity|]. split; [reflexivity|]. repeat constructor.
  - do 2 eexists. split; [reflexivity|]. split; [reflexivity|]. split; [reflexivity|]. repeat constructor.
  - destruct U as [->| ->]; [left|now right]. do 2 eexists. split; [reflexivity|]. split; [reflexivity|]. split; [reflexivity|]. repeat constructor.
Qed.
Lemma demo_line_name l : Forall (fun b => (32 <= b <= 126)%N) l -> line_name l.
Proof.
  intros F. split; [|apply visible_line; exact F]. apply utf8_ascii. eapply Forall_impl; [|exact F]. cbv beta. lia.
Qed.
Ltac ascii := apply demo_line_name; repeat (apply Forall_cons; [lia|]); apply Forall_nil.
Example C44_case : text_ok demo_text /\ Forall (fun mn => exportable (fst mn) /\ line_name (snd mn)) demo_list /\ numbered demo_list /\
  exists text a b, write_obj demo_text true demo_list = Ok text /\ read_from_obj demo_text None text = Ok [(a, [97; 98]%N); (b, [99]%N)] /\
    option_map (@length vec3) (vertices b) = Some 3 /\ vertex_triangles b = Some [0; 1; 2]%N /\ normal_triangles b = Some [1; 1; 0]%N.
Proof.
  split; [apply demo_text_ok|]. split.
  { repeat (apply Forall_cons; [split; [apply demo_exportable; auto|ascii]|]). apply Forall_nil. }
  split; [repeat split; reflexivity|]. do 3 eexists. split; [vm_compute; reflexivity|]. split; [vm_compute; reflexivity|].
  split; [reflexivity|]. split; reflexivity.
Qed.
Example C44_no_normals_case : exists m, indexed (vertices m) (vertex_triangles m) 3 /\ normal_triangles m = None /\ uv_triangles m = None /\ numbered [(m, demo_name)].
Proof.
  exists (mk_mesh None None (Some [pt 0 0 0]) (Some [0; 0; 0]%N) None None None None []).
  split; [do 2 eexists; split; [reflexivity|]; split; [reflexivity|]; split; [reflexivity|]; repeat constructor|]. repeat split.
Qed.
(** Neither is an index array that ends within a triangle. *)
Theorem C44_partial_triangle_refuted : exists m text e, consistent m /\ write_obj_one demo_text false m demo_name = Ok text /\
  get_vertex_buffer m <> None /\ get_normal_buffer m <> None /\ get_uv_buffer m <> None /\ read_from_obj demo_text None text = Err e.
Proof.
  exists (mk_mesh (Some [pt 0 0 1]) (Some [0; 0; 0; 0]%N) (Some [pt 0 0 0]) (Some [0; 0; 0; 0]%N) (Some [(f0, f0)]) (Some [0; 0; 0; 0]%N) None None []).
  do 2 eexists. split; [split; intros l E; injection E as <-; reflexivity|]. split; [vm_compute; reflexivity|].
  split; [discriminate|]. split; [discriminate|]. split; [discriminate|]. vm_compute. reflexivity.
Qed.
Print Assumptions C44_roundtrip.
Print Assumptions C44_same_buffers.
Print Assumptions C44_one.
Print Assumptions C44_no_normals_refused.
Print Assumptions C44_empty_list.
Print Assumptions C44_partial_triangle_refuted.
Print Assumptions C44_case.

(** ** C45. A mesh without faces before another mesh: the import gives one mesh, and
    its indices point into the data of both. *)
Lemma no_faces_written ft oc c off name : point_cloud c -> save_obj ft oc c off name = Ok (unlines (body_texts ft c name), (0, 0, 0)%N).
Proof.
  intros (C1 & C2 & C3). unfold save_obj. rewrite C1, C2, C3. rewrite <- body_bytes. now rewrite <- !app_assoc.
Qed.
Theorem C45_cloud_shifts : forall ft tri oc c cname m mname, text_ok ft -> point_cloud c -> exportable m ->
  line_name cname -> line_name mname -> numbered [(c, cname); (m, mname)] ->
  exists text m' name', write_obj ft oc [(c, cname); (m, mname)] = Ok text /\ read_from_obj ft tri text = Ok [(m', name')] /\ first_word mname name' /\
    front_cut (Some (or_empty (vertices c) ++ or_empty (vertices m))) (vertex_triangles m) (vertices m') (vertex_triangles m') /\
    front_cut (Some (or_empty (normals c) ++ or_empty (normals m))) (normal_triangles m) (normals m') (normal_triangles m').
Proof.
  intros ft tri oc c cname m mname T C X L1 L2 (N1 & N2 & N3). rewrite !total_cons in *.
  change (total vertices []) with 0%N in *. change (total normals []) with 0%N in *. change (total uvs []) with 0%N in *.
  assert (R : room m (1, 1, 1)%N) by (unfold room; cbn [fst snd]; lia).
  exists (unlines ([smooth_text] ++ body_texts ft c cname ++ body_texts ft m mname ++ face_lines m (1, 1, 1)%N)).
  set (s := with_faces (after_body (after_body importer_new c cname) m mname) (or_empty (vertex_triangles m)) (or_empty (normal_triangles m))
              (uv_indices m 0 (length (or_empty (vertex_triangles m))))).
  exists (imported_mesh s), (word mname). split; [|split; [|split; [apply word_first|]]].
  - unfold write_obj. cbn [save_objs]. rewrite no_faces_written by auto. cbn [bind]. rewrite !add32_ok by (unfold fits32; lia). cbn [bind].
    change (1 + 0)%N with 1%N. rewrite save_obj_texts by auto. cbn [bind]. rewrite !add32_ok by (unfold fits32; lia). cbn [bind].
    rewrite !unlines_app, app_nil_r. reflexivity.
  - unfold read_from_obj. rewrite lines_unlines.
    2: { apply Forall_app. split; [constructor; [|constructor]; split; [intros I; cbn in I; intuition discriminate|discriminate]|].
         apply Forall_app. split; [now apply body_texts_ok|]. apply Forall_app. split; [now apply body_texts_ok|now apply face_lines_ok]. }
    rewrite read_lines_app, read_smooth. cbn [bind]. rewrite read_lines_app, read_body by (auto; intro; auto). cbn [bind].
    rewrite read_lines_app, read_body by (auto; intro; auto). cbn [bind]. rewrite read_face_lines by auto. cbn [bind].
    cbn [fst snd]. change (1 - 1)%N with 0%N.
    assert (Z : forall l, map (fun i => i + 0)%N l = l) by (intros l; rewrite <- map_id; apply map_ext; intros; lia). rewrite !Z.
    reflexivity.
  - destruct X as (k & K & (v & vt & V1 & V2 & V3 & V4) & (n & nt & M1 & M2 & M3 & M4) & U).
    unfold imported_mesh, s, with_faces, after_body. cbn [i_vertices i_normals i_uvs i_vertex_triangles i_normal_triangles i_uv_triangles importer_new app].
    rewrite V1, V2, M1, M2 in *. cbn [or_empty size] in *.
    destruct (fast_prune (or_empty (vertices c) ++ v) vt) as [v1 vt1] eqn:PV. destruct (fast_prune (or_empty (normals c) ++ n) nt) as [n1 nt1] eqn:PN.
    destruct (fast_prune (or_empty (uvs c) ++ _) _) as [u1 ut1].
    assert (G : forall A (p d : list A) t, in_range d t -> in_range (p ++ d) t).
    { intros A p d t I. eapply Forall_impl; [|exact I]. cbv beta. unfold len. rewrite app_length. intros; lia. }
    split.
    + apply C47_prune_suffix in PV as (_ & _ & f & E1 & E2); [|unfold len in *; rewrite app_length, Nat2N.inj_add, <- (size_or_empty (vertices c)) in *; unfold len in *; lia|now apply G].
      exists f, v1, vt1. rewrite E1, E2. auto.
    + apply C47_prune_suffix in PN as (_ & _ & f & E1 & E2); [|unfold len in *; rewrite app_length, Nat2N.inj_add, <- (size_or_empty (normals c)) in *; unfold len in *; lia|now apply G].
      exists f, n1, nt1. rewrite E1, E2. auto.
Qed.
(** So the documented use, a list of any meshes, goes wrong: the second mesh comes back
    with other positions. *)
Definition cloud : mesh := mk_mesh None None (Some [pt 9 9 9]) None None None None None [].
Theorem C45_refuted : forall ft tri oc, text_ok ft -> exists l text m m' name, Forall (fun mn => consistent (fst mn)) l /\ In m (map fst l) /\
  write_obj ft oc l = Ok text /\ read_from_obj ft tri text = Ok [(m', name)] /\
  get_vertex_buffer m = Some [pt 1 0 0; pt 0 1 0; pt 5 5 5] /\ get_vertex_buffer m' = Some [pt 0 0 0; pt 1 0 0; pt 0 1 0].
Proof.
  intros ft tri oc T. destruct (C45_cloud_shifts ft tri oc cloud demo_name (demo_mesh None) demo_name) as (text & m' & name & E1 & E2 & _ & FC & _); auto.
  { repeat split. } { apply demo_exportable; auto. } { ascii. } { ascii. } { repeat split; reflexivity. }
  exists [(cloud, demo_name); (demo_mesh None, demo_name)], text, (demo_mesh None), m', name. split.
  { constructor; [split; reflexivity|]. constructor; [|constructor]. split; intros l E; [injection E as <-; reflexivity|discriminate]. }
  split; [right; now left|]. split; auto. split; auto. split; [reflexivity|]. unfold get_vertex_buffer. rewrite (front_cut_buffer _ _ _ _ FC). reflexivity.
Qed.
Example C45_case : point_cloud cloud /\ vertices cloud <> None /\ exportable (demo_mesh None) /\ numbered [(cloud, demo_name); (demo_mesh None, demo_name)].
Proof. split; [repeat split|]. split; [discriminate|]. split; [apply demo_exportable; auto|]. repeat split; reflexivity. Qed.
Print Assumptions C45_cloud_shifts.
Print Assumptions C45_refuted.

(** ** C46. Every text of an index stands for exactly one number, and the corners of a
    face before the first zero are what is read. *)
Theorem C46_one_number : forall s, exists n, stands_for s n /\ (n < 2 ^ 32)%N /\ forall n', stands_for s n' -> n' = n.
Proof.
  intros s. exists (parse_index s). assert (S : stands_for s (parse_index s)) by now apply parse_index_iff. split; auto. split.
  - destruct S as [(d & _ & _ & _ & _ & L)|[_ ->]]; [exact L|reflexivity].
  - intros n' H. apply parse_index_iff in H. auto.
Qed.
Theorem C46_face_line : forall ft tri cs nums good oi, Forall corner_plain cs -> Forall2 corner_numbers cs nums -> up_to_zero nums good ->
  (length good = 3 ->
    parse_line ft tri (face_line cs) oi =
      Ok (mk_importer (i_vertices oi) (i_normals oi) (i_uvs oi) (i_vertex_triangles oi ++ map (fun c => fst (fst c) - 1)%N good)
            (i_normal_triangles oi ++ map (fun c => snd c - 1)%N good) (i_uv_triangles oi ++ map (fun c => snd (fst c) - 1)%N good) (i_name oi), None)) /\
  (length good < 3 -> exists e, parse_line ft tri (face_line cs) oi = Err e) /\
  (3 < length good -> exists e, parse_line ft None (face_line cs) oi = Err e).
Proof.
  intros ft tri cs nums good oi P F U. split; [|split]; intros L.
  - rewrite (parse_face_line ft tri cs nums good oi P F U), push_face_3 by auto. reflexivity.
  - rewrite (parse_face_line ft tri cs nums good oi P F U), push_face_few by (now rewrite map_length). eexists; reflexivity.
  - rewrite (parse_face_line ft None cs nums good oi P F U), push_face_many by (now rewrite map_length). eexists; reflexivity.
Qed.
(** The same for a whole file with one line. *)
Theorem C46_face_file : forall ft tri cs nums good, Forall corner_plain cs -> Forall2 corner_numbers cs nums -> up_to_zero nums good ->
  (length good = 3 ->
    exists m, read_from_obj ft tri (face_line cs) = Ok [(m, [])] /\ vertex_triangles m = Some (map (fun c => fst (fst c) - 1)%N good) /\
      uv_triangles m = Some (map (fun c => snd (fst c) - 1)%N good) /\ normal_triangles m = Some (map (fun c => snd c - 1)%N good)) /\
  (length good < 3 -> exists e, read_from_obj ft tri (face_line cs) = Err e).
Proof.
  intros ft tri cs nums good P F U.
  assert (LN : lines (face_line cs) = [face_line cs]).
  { assert (V : Forall visible (face_line cs)). { rewrite face_line_join. apply join_visible; [apply kw_plain|now apply corner_seps_ok]. }
    assert (G : forall l acc, Forall visible l -> acc ++ l <> [] -> lines_from acc l = [acc ++ l]).
    { induction l as [|c l IH]; intros acc V' NE; cbn [lines_from].
      - rewrite app_nil_r in *. destruct acc; [congruence|reflexivity].
      - inversion V' as [|? ? V1 V2]; subst. unfold visible in V1. destruct (N.eqb_spec c 10); [lia|].
        rewrite IH, <- app_assoc; auto. rewrite <- app_assoc. intros E. apply app_eq_nil in E as [_ E]. discriminate E. }
    unfold lines. rewrite G; auto. discriminate. }
  unfold read_from_obj. rewrite LN. cbn [read_lines]. destruct (C46_face_line ft tri cs nums good importer_new P F U) as (A & B & _). split; intros L.
  - rewrite (A L). cbn [bind app]. eexists. split; [reflexivity|].
    unfold imported_mesh. cbn [i_vertices i_normals i_uvs i_vertex_triangles i_normal_triangles i_uv_triangles importer_new app].
    assert (Z : forall D (l : list N), fast_prune (@nil D) l = ([], l)).
    { intros D l. unfold fast_prune. cbn [length]. change (N.of_nat 0 mod two32)%N with 0%N.
      assert (S : forall l, prune_scan l 0 = Some 0%N \/ prune_scan l 0 = None).
      { induction l0 as [|i l0 IH]; cbn [prune_scan]; auto. destruct (i =? 0)%N; auto. rewrite N.min_0_l. auto. }
      assert (M : match l with [] => 0%N | _ => 0%N end = 0%N) by now destruct l. rewrite M.
      destruct (S l) as [-> | ->]; [|reflexivity]. f_equal. rewrite <- (map_id l) at 2. apply map_ext. intros. lia. }
    rewrite !Z. cbn. auto.
  - destruct (B L) as [e ->]. eexists. reflexivity.
Qed.
(** "-1", "x" and "" stand for 1, "+7" and "007" for 7, "4294967296" for 1. *)
Lemma stands_for_by s n : parse_index s = n -> stands_for s n.
Proof. apply parse_index_iff. Qed.
Example C46_texts : stands_for [45; 49]%N 1 /\ stands_for [120]%N 1 /\ stands_for [] 1 /\ stands_for [43; 55]%N 7 /\ stands_for [48; 48; 55]%N 7 /\
  stands_for [52; 50; 57; 52; 57; 54; 55; 50; 57; 54]%N 1 /\ stands_for [48]%N 0.
Proof. repeat split; apply stands_for_by; reflexivity. Qed.
(** "f 1/1/1 2/2/2 -1//3 0/1/1": three corners are read. *)
Example C46_case : exists cs nums good, Forall corner_plain cs /\ Forall2 corner_numbers cs nums /\ up_to_zero nums good /\ length cs = 4 /\
  good = [(1, 1, 1); (2, 2, 2); (1, 1, 3)]%N.
Proof.
  exists [([49], [49], [49]); ([50], [50], [50]); ([45; 49], [], [51]); ([48], [49], [49])]%N, [(1, 1, 1); (2, 2, 2); (1, 1, 3); (0, 1, 1)]%N, [(1, 1, 1); (2, 2, 2); (1, 1, 3)]%N.
  split; [unfold corner_plain, plain; repeat (apply Forall_cons; [cbn [fst snd]; repeat split; repeat (apply Forall_cons; [lia|]); apply Forall_nil|]); apply Forall_nil|].
  split; [unfold corner_numbers; repeat (apply Forall2_cons; [cbn [fst snd]; repeat split; apply stands_for_by; reflexivity|]); apply Forall2_nil|].
  split; [|split; reflexivity]. exists [(0, 1, 1)]%N. split; [reflexivity|]. split.
  - unfold nonzero. repeat (apply Forall_cons; [cbn [fst snd]; lia|]). apply Forall_nil.
  - right. do 2 eexists. split; [reflexivity|]. unfold nonzero. cbn [fst snd]. lia.
Qed.
Print Assumptions C46_one_number.
Print Assumptions C46_face_line.
Print Assumptions C46_face_file.

(** ** C57. Whatever the text, the import does not panic when triangulation is off. *)
Theorem C57_import_no_panic : forall ft src, read_from_obj ft None src <> Panic /\ read_from_obj_one ft None src <> Panic.
Proof.
  assert (G : forall ft src, read_from_obj ft None src <> Panic).
  { intros ft src. unfold read_from_obj. destruct (read_lines ft None (lines src) importer_new []) as [[oi acc]|e|] eqn:E; cbn [bind]; try discriminate.
    now destruct (read_lines_no_panic ft (lines src) importer_new []). }
  intros ft src. split; auto. unfold read_from_obj_one. pose proof (G ft src) as H. destruct (read_from_obj ft None src) as [l|e|]; cbn [bind]; try discriminate.
  - destruct l as [|m [|? ?]]; discriminate.
  - congruence.
Qed.
(** It gives at least one mesh, or an error. *)
Theorem C57_at_least_one : forall ft tri src l, read_from_obj ft tri src = Ok l -> l <> [].
Proof.
  intros ft tri src l H. unfold read_from_obj in H. destruct (read_lines ft tri (lines src) importer_new []) as [[oi acc]|e|]; cbn [bind] in H; try discriminate H.
  injection H as <-. now destruct acc.
Qed.
Print Assumptions C57_import_no_panic.
Print Assumptions C57_at_least_one.

(** ** C59. The export refuses exactly the lists with an inconsistent mesh. In a build
    without overflow checks this holds for all lists, with them for all whose indices
    and counts leave room; it does not panic. *)
Theorem C59_export_refuses : forall ft oc l, oc = false \/ small_file l ->
  write_obj ft oc l <> Panic /\ ((exists text, write_obj ft oc l = Ok text) <-> Forall (fun mn => consistent (fst mn)) l).
Proof.
  intros ft oc l S. assert (F : file_fits oc l (1, 1, 1)%N).
  { destruct S as [->|[(S1 & S2 & S3) S4]]; [now left|right]. cbn [fst snd]. rewrite !(N.add_comm 1). auto. }
  unfold write_obj. destruct (save_objs_spec ft oc l (1, 1, 1)%N F) as [[C [t ->]]|[C ->]]; cbn [bind].
  - split; [discriminate|]. split; eauto.
  - split; [discriminate|]. split; [intros [t E]; discriminate E|contradiction].
Qed.
(** With overflow checks an index of 2^32 - 1 panics; without, it is written as 0. *)
Theorem C59_large_index : forall ft, let m := mk_mesh None None None (Some [4294967295]%N) None None None None [] in
  write_obj ft true [(m, [97]%N)] = Panic /\
  exists before after, write_obj ft false [(m, [97]%N)] = Ok (before ++ [102; 32; 48]%N ++ after).
Proof.
  intros ft m. split; [reflexivity|]. exists [115; 32; 49; 10; 111; 32; 97; 10]%N, [32]%N. reflexivity.
Qed.
Example C59_case : small_file demo_list /\ Forall (fun mn => consistent (fst mn)) demo_list /\
  ~ consistent (mk_mesh (Some [pt 0 0 1]) (Some [0]%N) (Some [pt 0 0 0]) (Some [0; 0; 0]%N) None None None None []).
Proof.
  split; [|split].
  - split; [repeat split; reflexivity|]. repeat (apply Forall_cons; [repeat split; intros l E; try discriminate E; injection E as <-; repeat constructor|]). apply Forall_nil.
  - repeat (apply Forall_cons; [split; intros l E; try discriminate E; injection E as <-; reflexivity|]). apply Forall_nil.
  - intros [C _]. specialize (C _ eq_refl). discriminate C.
Qed.
Print Assumptions C59_export_refuses.
Print Assumptions C59_large_index.
