(** More lemmas about the .obj model: meshes that the round trip does not cover. *)
From Coq Require Import List NArith ZArith Arith Lia Bool.
From Verif Require Import Base Floats Utilis Unify CustomData Mesh File FileSpec File_proofs MeshSpec Mesh_proofs Importer Obj ObjSpec P_Split Obj_proofs.
Import ListNotations.
Open Scope res_scope.

Lemma lines_unlines_app ls t : Forall line_ok ls -> lines (unlines ls ++ t) = ls ++ lines t.
Proof.
  unfold lines, unlines. induction ls as [|l ls IH]; intros F; [reflexivity|]. inversion F as [|? ? [L1 L2] F']; subst.
  cbn [map concat]. unfold nl at 1. rewrite <- !app_assoc. cbn [app]. rewrite lines_from_line by auto. cbn [app]. rewrite drop_cr_same by auto.
  now rewrite IH.
Qed.

(** ** The face loop never fails on arrays of equal length *)
Definition add_fits (oc : bool) (off : N) (l : list N) : Prop := oc = false \/ Forall (fun i => fits32 (i + off)) l.
Lemma add32_fits {E} oc off l i : add_fits oc off l -> In i l -> exists x, add32 (E:=E) oc i off = Ok x.
Proof.
  unfold add_fits, add32, fits32. intros [->|F] I; [destruct (_ <? _)%N; eauto|]. rewrite Forall_forall in F. specialize (F i I). cbv beta in F.
  unfold two32. destruct (N.ltb_spec (i + off) (2 ^ 32))%N; [eauto|]. lia.
Qed.
Lemma index_some {E A} (l : list A) i : (i < len l)%N -> exists x, index (E:=E) l i = Ok x /\ In x l.
Proof.
  unfold index, len. intros L. rewrite get_nth. destruct (nth_error l (N.to_nat i)) as [x|] eqn:H.
  - exists x. split; auto. eapply nth_error_In; eauto.
  - apply nth_error_None in H. lia.
Qed.
Lemma face_loop_some oc off_v off_u off_n ut nt : (forall us, ut = Some us -> add_fits oc off_u us) -> (forall ns, nt = Some ns -> add_fits oc off_n ns) ->
  forall vt i, add_fits oc off_v vt ->
  (forall us, ut = Some us -> (i + len vt <= len us)%N) -> (forall ns, nt = Some ns -> (i + len vt <= len ns)%N) ->
  exists t, face_loop oc (off_v, off_u, off_n) i vt ut nt = Ok t.
Proof.
  intros FU FN. induction vt as [|v vt IH]; intros i FV LU LN; [eexists; reflexivity|]. cbn [face_loop].
  assert (FV' : add_fits oc off_v vt) by (destruct FV as [|F]; [now left|right; now inversion F]).
  assert (C : len (v :: vt) = (1 + len vt)%N) by (unfold len; cbn [length]; lia). rewrite C in *.
  destruct (add32_fits (E:=oerr) oc off_v (v :: vt) v FV (or_introl eq_refl)) as [x ->]. cbn [bind].
  destruct (IH (i + 1)%N FV') as [t T]; [intros; rewrite <- N.add_assoc; auto..|].
  assert (U : exists u, match ut with
      | Some ut => let* u := index ut i in let* u := add32 oc u off_u in Ok (slash ++ show_u32 u)
      | None => Ok (match nt with Some _ => slash | None => [] end) end = Ok (E:=oerr) u).
  { destruct ut as [us|]; [|eauto]. specialize (LU us eq_refl). destruct (index_some (E:=oerr) us i) as (a & -> & I); [lia|]. cbn [bind].
    destruct (add32_fits (E:=oerr) oc off_u us a (FU us eq_refl) I) as [b ->]. cbn [bind]. eauto. }
  destruct U as [u ->]. cbn [bind].
  assert (W : exists n, match nt with
      | Some nt => let* n := index nt i in let* n := add32 oc n off_n in Ok (slash ++ show_u32 n)
      | None => Ok [] end = Ok (E:=oerr) n).
  { destruct nt as [ns|]; [|eauto]. specialize (LN ns eq_refl). destruct (index_some (E:=oerr) ns i) as (a & -> & I); [lia|]. cbn [bind].
    destruct (add32_fits (E:=oerr) oc off_n ns a (FN ns eq_refl) I) as [b ->]. cbn [bind]. eauto. }
  destruct W as [n ->]. cbn [bind]. rewrite T. cbn [bind]. eauto.
Qed.

(** ** Export *)
Definition mesh_fits (oc : bool) (off : N * N * N) (m : mesh) : Prop :=
  (forall l, vertex_triangles m = Some l -> add_fits oc (fst (fst off)) l) /\ (forall l, uv_triangles m = Some l -> add_fits oc (snd (fst off)) l) /\
  (forall l, normal_triangles m = Some l -> add_fits oc (snd off) l).
Lemma consistent_dec m : consistent m \/ ~ consistent m.
Proof.
  unfold consistent, same_length.
  assert (G : forall (t : list N) o, (forall l : list N, o = Some l -> length l = length t) \/ ~ (forall l : list N, o = Some l -> length l = length t)).
  { intros t [l|]; [|left; intros; discriminate]. destruct (Nat.eq_dec (length l) (length t)) as [E|E].
    - left. intros l' H. now injection H as <-.
    - right. intros H. auto. }
  destruct (vertex_triangles m) as [t|].
  - destruct (G t (normal_triangles m)), (G t (uv_triangles m)); tauto.
  - destruct (normal_triangles m), (uv_triangles m); auto; right; intros [H1 H2]; discriminate.
Qed.
Lemma save_obj_ok ft oc m off name : mesh_fits oc off m -> consistent m ->
  exists text c, save_obj ft oc m off name = Ok (text, c) /\
    (fst (fst c) <= size (vertices m) /\ snd (fst c) <= size (uvs m) /\ snd c <= size (normals m))%N.
Proof.
  intros (F1 & F2 & F3) C. unfold consistent in C. unfold save_obj. destruct (vertex_triangles m) as [vt|].
  - destruct C as [C1 C2].
    assert (match normal_triangles m with Some l => negb (length l =? length vt) | None => false end = false) as ->.
    { destruct (normal_triangles m); auto. rewrite (C1 l eq_refl), Nat.eqb_refl. reflexivity. }
    assert (match uv_triangles m with Some l => negb (length l =? length vt) | None => false end = false) as ->.
    { destruct (uv_triangles m); auto. rewrite (C2 l eq_refl), Nat.eqb_refl. reflexivity. }
    destruct off as [[ov ou] on]. cbn [fst snd] in *.
    destruct (face_loop_some oc ov ou on (uv_triangles m) (normal_triangles m) F2 F3 vt 0 (F1 vt eq_refl)) as [t ->].
    + intros us E. unfold len. rewrite (C2 us E). lia.
    + intros us E. unfold len. rewrite (C1 us E). lia.
    + cbn [bind]. do 2 eexists. split; [reflexivity|]. cbn [fst snd]. rewrite !ulen_len, !size_or_empty. unfold two32.
      repeat split; apply N.mod_le; lia.
  - destruct C as [-> ->]. do 2 eexists. split; [reflexivity|]. cbn. lia.
Qed.
Lemma save_obj_bad ft oc m off name : ~ consistent m -> save_obj ft oc m off name = Err OMesh.
Proof.
  intros C. unfold consistent, same_length in C. unfold save_obj. destruct (vertex_triangles m) as [vt|].
  - destruct (match normal_triangles m with Some l => negb (length l =? length vt) | None => false end) eqn:E1; [reflexivity|].
    destruct (match uv_triangles m with Some l => negb (length l =? length vt) | None => false end) eqn:E2; [reflexivity|].
    destruct C. split; intros l E.
    + rewrite E in E1. apply negb_false_iff, Nat.eqb_eq in E1. exact E1.
    + rewrite E in E2. apply negb_false_iff, Nat.eqb_eq in E2. exact E2.
  - destruct (normal_triangles m), (uv_triangles m); auto. destruct C. auto.
Qed.
(** Positions up to which the file may have got. *)
Definition off_le (off : N * N * N) (a b c : N) : Prop := (fst (fst off) <= a /\ snd (fst off) <= b /\ snd off <= c)%N.
Definition file_fits (oc : bool) (l : list (mesh * list N)) (off : N * N * N) : Prop :=
  oc = false \/
  ((fst (fst off) + total vertices l < 2 ^ 32)%N /\ (snd (fst off) + total uvs l < 2 ^ 32)%N /\ (snd off + total normals l < 2 ^ 32)%N /\
   Forall (fun mn => small_indices (fst (fst off) + total vertices l) (vertex_triangles (fst mn)) /\
     small_indices (snd off + total normals l) (normal_triangles (fst mn)) /\ small_indices (snd (fst off) + total uvs l) (uv_triangles (fst mn))) l).
Lemma total_cons {A} (f : mesh -> option (list A)) m name l : total f ((m, name) :: l) = (size (f m) + total f l)%N.
Proof. reflexivity. Qed.
Lemma small_less b b' o : (b' <= b)%N -> small_indices b o -> small_indices b' o.
Proof. intros L H l E. eapply Forall_impl; [|apply H, E]. cbv beta. intros; lia. Qed.
Lemma small_add_fits oc b o l : oc = false \/ small_indices b o -> o = Some l -> add_fits oc b l.
Proof. intros [->|H] E; [now left|right]. eapply Forall_impl; [|apply H, E]. auto. Qed.
Lemma save_objs_spec ft oc l : forall off, file_fits oc l off ->
  (Forall (fun mn => consistent (fst mn)) l /\ exists text, save_objs ft oc l off = Ok text) \/
  (~ Forall (fun mn => consistent (fst mn)) l /\ save_objs ft oc l off = Err OMesh).
Proof.
  induction l as [|[m name] l IH]; intros off F; [left; split; [constructor|eexists; reflexivity]|]. cbn [save_objs].
  destruct (consistent_dec m) as [C|C].
  2: { right. rewrite save_obj_bad by auto. split; [|reflexivity]. intros X. now inversion X. }
  assert (MF : mesh_fits oc off m).
  { unfold mesh_fits. destruct F as [->|(_ & _ & _ & F)]; [repeat split; now left|]. inversion F as [|? ? (G1 & G2 & G3) F']; subst. cbn [fst] in *.
    repeat split; intros t E; eapply small_add_fits; eauto; right; (eapply small_less; [|eauto]); lia. }
  destruct (save_obj_ok ft oc m off name MF C) as (text & [[cv cu] cn] & -> & L1 & L2 & L3). cbn [fst snd] in *. cbn [bind].
  destruct off as [[ov ou] on]. cbn [fst snd] in *.
  assert (A : forall o c s, (c <= s)%N -> oc = false \/ (o + s < 2 ^ 32)%N -> exists x, add32 (E:=oerr) oc o c = Ok x /\ (oc = false \/ x <= o + s)%N).
  { intros o c s L [->|H]; unfold add32, two32; destruct (N.ltb_spec (o + c) (2 ^ 32))%N; try (eexists; split; [reflexivity|]; auto).
    - right. lia.
    - lia. }
  assert (T : oc = false \/ (ov + size (vertices m) < 2 ^ 32 /\ ou + size (uvs m) < 2 ^ 32 /\ on + size (normals m) < 2 ^ 32)%N).
  { destruct F as [->|(F1 & F2 & F3 & _)]; [now left|right]. rewrite !total_cons in *. cbn [fst snd] in *. lia. }
  destruct (A ov cv _ L1) as (xv & -> & B1); [tauto|]. destruct (A ou cu _ L2) as (xu & -> & B2); [tauto|]. destruct (A on cn _ L3) as (xn & -> & B3); [tauto|].
  cbn [bind]. destruct (IH (xv, xu, xn)) as [[G [t ->]]|[G ->]].
  - unfold file_fits in *. destruct F as [->|(F1 & F2 & F3 & F4)]; [now left|].
    destruct B1 as [->|B1]; [now left|]. destruct B2 as [->|B2]; [now left|]. destruct B3 as [->|B3]; [now left|]. right.
    rewrite !total_cons in *. cbn [fst snd] in *. split; [lia|]. split; [lia|]. split; [lia|]. inversion F4 as [|? ? F5 F6]; subst.
    eapply Forall_impl; [|exact F6]. cbv beta. intros mn (H1 & H2 & H3). repeat split; (eapply small_less; [|eauto]); lia.
  - left. split; [constructor; auto|]. cbn [bind]. eauto.
  - right. split; [intros X; inversion X; auto|reflexivity].
Qed.

(** ** Import does not panic without triangulation *)
Lemma next_part_no_panic parts : next_part parts <> Panic.
Proof. now destruct parts. Qed.
Lemma parse_float_no_panic ft s : parse_float_type ft s <> Panic.
Proof. unfold parse_float_type. now destruct (t_parse ft s). Qed.
Ltac no_panic :=
  repeat match goal with
  | |- (let* _ := next_part ?p in _) <> Panic => destruct p; cbn [next_part bind]
  | |- (let* _ := parse_float_type ?ft ?s in _) <> Panic =>
    let E := fresh in destruct (parse_float_type ft s) eqn:E; cbn [bind]; [| |now destruct (parse_float_no_panic ft s)]
  end; try discriminate.
Lemma load_vec3_no_panic ft parts : load_vec3 ft parts <> Panic.
Proof. unfold load_vec3. no_panic. Qed.
Lemma load_vec2_no_panic ft parts : load_vec2 ft parts <> Panic.
Proof. unfold load_vec2. no_panic. Qed.
Lemma load_face_no_panic parts oi : load_face None parts oi <> Panic.
Proof.
  unfold load_face. destruct (load_corners _ _ _ _ _) as [[v u] n]. unfold push_face.
  destruct (negb _); [discriminate|]. destruct v as [|? [|? [|? [|? ?]]]]; discriminate.
Qed.
Lemma parse_line_no_panic ft line oi : parse_line ft None line oi <> Panic.
Proof.
  unfold parse_line. destruct (negb _); [discriminate|]. destruct (split line) as [|beg parts]; [discriminate|]. cbn [next_part bind].
  repeat match goal with |- (if ?b then _ else _) <> Panic => destruct b end.
  - destruct (load_vec3 ft parts) eqn:E; cbn; try discriminate. now destruct (load_vec3_no_panic ft parts).
  - destruct (load_vec3 ft parts) eqn:E; cbn; try discriminate. now destruct (load_vec3_no_panic ft parts).
  - destruct (load_vec2 ft parts) eqn:E; cbn; try discriminate. now destruct (load_vec2_no_panic ft parts).
  - destruct (load_face None parts oi) eqn:E; cbn; try discriminate. now destruct (load_face_no_panic parts oi).
  - destruct parts; discriminate.
  - discriminate.
Qed.
Lemma read_lines_no_panic ft ls : forall oi acc, read_lines ft None ls oi acc <> Panic.
Proof.
  induction ls as [|l ls IH]; intros oi acc; cbn [read_lines]; [discriminate|].
  destruct (parse_line ft None l oi) as [[oi' o]|e|] eqn:E; cbn [bind]; [apply IH|discriminate|now destruct (parse_line_no_panic ft l oi)].
Qed.

(** ** Face lines *)
Definition corner_seps (c : list N * list N * list N) : list (N * list N) := [(32%N, fst (fst c)); (47%N, snd (fst c)); (47%N, snd c)].
Lemma face_line_join cs : face_line cs = join kw_f (concat (map corner_seps cs)).
Proof.
  unfold face_line, join. f_equal. induction cs as [|c cs IH]; [reflexivity|]. cbn [map concat]. rewrite IH, map_app, concat_app. f_equal.
  destruct c as [[p q] r]. cbn [map concat corner_seps fst snd app]. now rewrite app_nil_r.
Qed.
Lemma corner_seps_ok cs : Forall corner_plain cs -> parts_ok (concat (map corner_seps cs)).
Proof.
  induction 1 as [|c cs (P & Q & R) F IH]; [constructor|]. cbn [map concat]. apply Forall_app. split; auto.
  unfold corner_seps, sep. repeat (apply Forall_cons; [cbn [fst snd]; auto|]). apply Forall_nil.
Qed.
Definition nonzerob (n : N * N * N) : bool := (negb (fst (fst n) <? 1) && negb (snd (fst n) <? 1) && negb (snd n <? 1))%N.
Lemma nonzerob_spec n : nonzerob n = true <-> nonzero n.
Proof.
  unfold nonzerob, nonzero. rewrite !andb_true_iff, !negb_true_iff, !N.ltb_ge. lia.
Qed.
Lemma load_corners_numbers cs nums good : Forall2 corner_numbers cs nums -> up_to_zero nums good -> forall f v u n, length cs <= f ->
  load_corners f (map snd (concat (map corner_seps cs))) v u n =
    (v ++ map (fun c => fst (fst c) - 1)%N good, u ++ map (fun c => snd (fst c) - 1)%N good, n ++ map (fun c => snd c - 1)%N good).
Proof.
  intros F. revert good. induction F as [|c [[a b] d] cs nums (C1 & C2 & C3) F IH]; intros good (rest & E & G & R) f v u n L.
  - symmetry in E. apply app_eq_nil in E as [-> ->]. cbn [map concat app]. rewrite load_corners_end, !app_nil_r. reflexivity.
  - cbn [length] in L. destruct f as [|f]; [lia|]. cbn [map concat corner_seps app snd]. cbn [load_corners].
    unfold load_indices. cbn [next_part bind]. cbn [fst snd] in *. apply parse_index_iff in C1, C2, C3. rewrite C1, C2, C3.
    destruct ((a <? 1) || (b <? 1) || (d <? 1))%N eqn:Z.
    + assert (~ nonzero (a, b, d)). { rewrite <- nonzerob_spec. unfold nonzerob. cbn [fst snd]. rewrite <- !negb_orb, Z. discriminate. }
      destruct good as [|g good].
      * cbn [map]. now rewrite !app_nil_r.
      * injection E as <- E. inversion G; contradiction.
    + assert (NZ : nonzero (a, b, d)). { rewrite <- nonzerob_spec. unfold nonzerob. cbn [fst snd]. now rewrite <- !negb_orb, Z. }
      destruct good as [|g good].
      * destruct R as [->|(z & t & -> & Q)]; [discriminate E|]. injection E as <- E. contradiction.
      * injection E as <- E. inversion G; subst. rewrite (IH good) by (try (exists rest; auto); lia). cbn [map fst snd]. now rewrite <- !app_assoc.
Qed.
Lemma parse_face_line ft tri cs nums good oi : Forall corner_plain cs -> Forall2 corner_numbers cs nums -> up_to_zero nums good ->
  parse_line ft tri (face_line cs) oi =
    (let* oi := map_err (fun _ => OFace) (push_face tri oi (map (fun c => fst (fst c) - 1)%N good) (map (fun c => snd (fst c) - 1)%N good) (map (fun c => snd c - 1)%N good)) in
     Ok (oi, None)).
Proof.
  intros P F U. rewrite face_line_join, parse_join; [|apply kw_plain|now apply corner_seps_ok]. cbv zeta.
  change (list_eqb kw_f kw_v) with false. change (list_eqb kw_f kw_vn) with false. change (list_eqb kw_f kw_vt) with false. change (list_eqb kw_f kw_f) with true.
  unfold load_face. rewrite (load_corners_numbers cs nums good F U); [reflexivity|].
  rewrite map_length. clear. induction cs as [|c cs IH]; [cbn; lia|]. cbn [map concat]. rewrite app_length. cbn [length corner_seps]. lia.
Qed.
Lemma push_face_3 tri oi (good : list (N * N * N)) : length good = 3 ->
  push_face tri oi (map (fun c => fst (fst c) - 1)%N good) (map (fun c => snd (fst c) - 1)%N good) (map (fun c => snd c - 1)%N good) =
  Ok (with_faces oi (map (fun c => fst (fst c) - 1)%N good) (map (fun c => snd c - 1)%N good) (map (fun c => snd (fst c) - 1)%N good)).
Proof.
  intros L. destruct good as [|a [|b [|c [|]]]]; try discriminate L. apply push_face3.
Qed.
Lemma push_face_few tri oi v u n : length v < 3 -> push_face tri oi v u n = Err BadFace.
Proof.
  intros L. unfold push_face. destruct (negb _); [reflexivity|]. destruct v as [|? [|? [|? ?]]]; try reflexivity. cbn in L. lia.
Qed.
Lemma push_face_many oi v u n : 3 < length v -> push_face None oi v u n = Err BadFace.
Proof.
  intros L. unfold push_face. destruct (negb _); [reflexivity|]. destruct v as [|? [|? [|? [|? ?]]]]; try reflexivity; cbn in L; lia.
Qed.

Lemma load_corners_step f a b c rest v u n : fits32 (a + 1) -> fits32 (b + 1) -> fits32 (c + 1) ->
  load_corners (S f) (show_u32 (a + 1) :: show_u32 (b + 1) :: show_u32 (c + 1) :: rest) v u n = load_corners f rest (v ++ [a]) (u ++ [b]) (n ++ [c]).
Proof.
  intros A B C. cbn [load_corners]. unfold load_indices. cbn [next_part bind]. rewrite !parse_index_show by auto.
  assert (Z : forall i, (i + 1 <? 1)%N = false) by (intros; apply N.ltb_ge; lia). rewrite !Z. cbn [orb]. now rewrite !N.add_sub.
Qed.
(** ** Faces without normals are refused on import *)
Lemma bare_face_refused ft tri oc m name k : text_ok ft -> line_name name -> (0 < k)%nat -> numbered [(m, name)] ->
  indexed (vertices m) (vertex_triangles m) (3 * k) -> normal_triangles m = None ->
  (indexed (uvs m) (uv_triangles m) (3 * k) \/ uv_triangles m = None) ->
  exists text, write_obj_one ft oc m name = Ok text /\ read_from_obj ft tri text = Err OFace.
Proof.
  intros T W K NB (v & vt & V1 & V2 & V3 & V4) NN U. pose proof NB as (VS & _ & US). unfold total in VS, US. cbn [fold_right fst] in VS, US. unfold write_obj_one, write_obj, save_objs, save_obj. rewrite V2, NN.
  assert (match uv_triangles m with Some l => negb (length l =? length vt) | None => false end = false) as ->.
  { destruct U as [(u & ut & U1 & U2 & U3 & U4)| ->]; [|reflexivity]. now rewrite U2, U3, V3, Nat.eqb_refl. }
  rewrite V1 in VS. cbn [size] in VS.
  assert (FV : forall i, In i vt -> fits32 (i + 1)). { intros i I. unfold in_range in V4. rewrite Forall_forall in V4. specialize (V4 i I). unfold fits32. lia. }
  assert (FV' : add_fits oc 1 vt) by (right; apply Forall_forall; exact FV).
  assert (FU : forall us, uv_triangles m = Some us -> length us = length vt /\ forall i, In i us -> fits32 (i + 1)).
  { intros us E. destruct U as [(u & ut & U1 & U2 & U3 & U4)|U]; [|congruence]. assert (us = ut) by congruence. subst us. split; [congruence|].
    rewrite U1 in US. cbn [size] in US. intros i I. unfold in_range in U4. rewrite Forall_forall in U4. specialize (U4 i I). unfold fits32. lia. }
  assert (FU' : forall us, uv_triangles m = Some us -> add_fits oc 1 us) by (intros us E; right; apply Forall_forall; now apply FU).
  assert (G : exists parts t, face_loop oc (1, 1, 1)%N 0 vt (uv_triangles m) None = Ok (join kw_f parts ++ nl ++ t) /\ parts_ok parts /\
    forall s, load_face tri (map snd parts) s = Err OFace).
  { destruct vt as [|a [|b [|c vt]]]; try (cbn [length] in V3; lia).
    assert (T3 : exists t, face_loop oc (1, 1, 1)%N 3 vt (uv_triangles m) None = Ok t).
    { apply face_loop_some; auto; try discriminate.
      - destruct FV' as [|FV']; [now left|right]. repeat (match goal with H : Forall _ (_ :: _) |- _ => inversion H; clear H; subst end). auto.
      - intros us E. destruct (FU us E) as [LU _]. unfold len. rewrite LU. cbn [length]. lia. }
    destruct T3 as [t T3]. cbn [face_loop]. change (0 + 1 + 1 + 1)%N with 3%N.
    change (0 + 1 + 1 =? 0)%N with false.
    assert (A1 : fits32 (a + 1)) by (apply FV; now left). assert (A2 : fits32 (b + 1)) by (apply FV; right; now left).
    assert (A3 : fits32 (c + 1)) by (apply FV; right; right; now left).
    rewrite !add32_ok by auto. cbn [bind]. rewrite T3.
    destruct (uv_triangles m) as [us|] eqn:EU.
    - destruct (FU us eq_refl) as [LU FU3]. destruct us as [|x [|y [|z us]]]; try discriminate LU.
      change (0 + 1)%N with 1%N. change (1 + 1)%N with 2%N.
      change (index (E:=oerr) (x :: y :: z :: us) 0) with (Ok (E:=oerr) x). change (index (E:=oerr) (x :: y :: z :: us) 1) with (Ok (E:=oerr) y).
      change (index (E:=oerr) (x :: y :: z :: us) 2) with (Ok (E:=oerr) z). cbn [bind].
      assert (B1 : fits32 (x + 1)) by (apply FU3; now left). assert (B2 : fits32 (y + 1)) by (apply FU3; right; now left).
      assert (B3 : fits32 (z + 1)) by (apply FU3; right; right; now left).
      rewrite !add32_ok by auto. cbn [bind].
      exists [(32%N, show_u32 (a + 1)); (47%N, show_u32 (x + 1)); (32%N, show_u32 (b + 1)); (47%N, show_u32 (y + 1)); (32%N, show_u32 (c + 1)); (47%N, show_u32 (z + 1))], t.
      split; [|split].
      + f_equal. unfold join. change (0 mod 3 =? 0)%N with true. change (1 mod 3 =? 0)%N with false. change (2 mod 3 =? 0)%N with false.
        change (0 mod 3 =? 2)%N with false. change (1 mod 3 =? 2)%N with false. change (2 mod 3 =? 2)%N with true. cbv iota.
        cbn [map concat fst snd]. unfold sp, slash. repeat progress (rewrite <- ?app_assoc; cbn [app]). reflexivity.
      + unfold parts_ok, sep. repeat (apply Forall_cons; [cbn [fst snd]; split; [auto|now apply show_plain]|]). apply Forall_nil.
      + intros s. unfold load_face. cbn [map snd length]. rewrite !load_corners_step by auto. rewrite load_corners_end. reflexivity.
    - cbn [bind]. exists [(32%N, show_u32 (a + 1)); (32%N, show_u32 (b + 1)); (32%N, show_u32 (c + 1))], t.
      split; [|split].
      + f_equal. unfold join. change (0 mod 3 =? 0)%N with true. change ((0 + 1) mod 3 =? 0)%N with false. change ((0 + 1 + 1) mod 3 =? 0)%N with false.
        change (0 mod 3 =? 2)%N with false. change ((0 + 1) mod 3 =? 2)%N with false. change ((0 + 1 + 1) mod 3 =? 2)%N with true. cbv iota.
        cbn [map concat fst snd]. unfold sp, slash. repeat progress (rewrite <- ?app_assoc; cbn [app]). reflexivity.
      + unfold parts_ok, sep. repeat (apply Forall_cons; [cbn [fst snd]; split; [auto|now apply show_plain]|]). apply Forall_nil.
      + intros s. unfold load_face. cbn [map snd length]. rewrite !load_corners_step by auto. rewrite load_corners_end. reflexivity. }
  destruct G as (parts & t & -> & P & R). cbn [bind].
  destruct NB as (S1 & S2 & S3). rewrite !total_cons in *. change (total vertices []) with 0%N in *. change (total normals []) with 0%N in *. change (total uvs []) with 0%N in *.
  rewrite !ulen_len, !size_or_empty. unfold two32. rewrite !N.mod_small by lia. rewrite !add32_ok by (unfold fits32; lia). cbn [bind].
  eexists. split; [reflexivity|]. rewrite (app_assoc (kw_o ++ sp ++ name ++ nl)), body_bytes, app_nil_r.
  replace ([115; 32; 49]%N ++ nl ++ unlines (body_texts ft m name) ++ join kw_f parts ++ nl ++ t)
    with (unlines ([smooth_text] ++ body_texts ft m name ++ [join kw_f parts]) ++ t).
  2: { rewrite !unlines_app. unfold unlines at 1 3. cbn [map concat]. unfold smooth_text. repeat progress (rewrite <- ?app_assoc; cbn [app]). reflexivity. }
  unfold read_from_obj. rewrite lines_unlines_app.
  2: { apply Forall_app. split; [constructor; [|constructor]; split; [intros I; cbn in I; intuition discriminate|discriminate]|].
       apply Forall_app. split; [now apply body_texts_ok|]. constructor; [|constructor]. apply visible_line, join_visible; [apply kw_plain|auto]. }
  rewrite <- !app_assoc. rewrite read_lines_app, read_smooth. cbn [bind]. rewrite read_lines_app, read_body by (auto; intro; auto). cbn [bind].
  cbn [app read_lines]. rewrite parse_join; [|apply kw_plain|auto]. cbv zeta.
  change (list_eqb kw_f kw_v) with false. change (list_eqb kw_f kw_vn) with false. change (list_eqb kw_f kw_vt) with false. change (list_eqb kw_f kw_f) with true.
  rewrite R. reflexivity.
Qed.
