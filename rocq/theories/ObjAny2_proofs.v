(** Lemmas about the .obj model for all number types: exporting, and panics while importing. *)
From Coq Require Import List NArith ZArith Arith Lia Bool ZifyN ZifyNat ZifyBool.
From Verif Require Import Base Floats Utilis Unify CustomData Mesh FileSpec MeshSpec File File_proofs Mesh_proofs Mesh2_proofs
  Importer Obj ObjSpec Obj_proofs Obj2_proofs ObjAny ObjAnySpec ObjAny_proofs ObjAny2Spec.
Import ListNotations.
Open Scope res_scope.

Section Any.
Context {Fl : Type} (top : N) (TOP : index_type top).
Implicit Types (ft : any_text Fl) (m : any_mesh Fl) (oi : any_importer Fl).
Definition add_fits_a (oc : bool) (off : N) (l : list N) : Prop := oc = false \/ Forall (fun i => fits32_a top (i + off)) l.
Lemma add32_fits_a {E} oc off l i : add_fits_a oc off l -> In i l -> exists x, add_any (E:=E) top oc i off = Ok x.
Proof.
  unfold add_fits_a, add_any, fits32_a. intros [->|F] I; [destruct (_ <? _)%N; eauto|]. rewrite Forall_forall in F. specialize (F i I). cbv beta in F.
  destruct (N.ltb_spec (i + off) (top))%N; [eauto|]. lia.
Qed.
Lemma face_loop_some_a oc off_v off_u off_n ut nt : (forall us, ut = Some us -> add_fits_a oc off_u us) -> (forall ns, nt = Some ns -> add_fits_a oc off_n ns) ->
  forall vt i, add_fits_a oc off_v vt ->
  (forall us, ut = Some us -> (i + len vt <= len us)%N) -> (forall ns, nt = Some ns -> (i + len vt <= len ns)%N) ->
  exists t, any_face_loop top oc (off_v, off_u, off_n) i vt ut nt = Ok t.
Proof.
  intros FU FN. induction vt as [|v vt IH]; intros i FV LU LN; [eexists; reflexivity|]. cbn [any_face_loop].
  assert (FV' : add_fits_a oc off_v vt) by (destruct FV as [|F]; [now left|right; now inversion F]).
  assert (C : len (v :: vt) = (1 + len vt)%N) by (unfold len; cbn [length]; lia). rewrite C in *.
  destruct (add32_fits_a (E:=oerr) oc off_v (v :: vt) v FV (or_introl eq_refl)) as [x ->]. cbn [bind].
  destruct (IH (i + 1)%N FV') as [t T]; [intros; rewrite <- N.add_assoc; auto..|].
  assert (U : exists u, match ut with
      | Some ut => let* u := index ut i in let* u := add_any top oc u off_u in Ok (slash ++ show_any u)
      | None => Ok (match nt with Some _ => slash | None => [] end) end = Ok (E:=oerr) u).
  { destruct ut as [us|]; [|eauto]. specialize (LU us eq_refl). destruct (index_some (E:=oerr) us i) as (a & -> & I); [lia|]. cbn [bind].
    destruct (add32_fits_a (E:=oerr) oc off_u us a (FU us eq_refl) I) as [b ->]. cbn [bind]. eauto. }
  destruct U as [u ->]. cbn [bind].
  assert (W : exists n, match nt with
      | Some nt => let* n := index nt i in let* n := add_any top oc n off_n in Ok (slash ++ show_any n)
      | None => Ok [] end = Ok (E:=oerr) n).
  { destruct nt as [ns|]; [|eauto]. specialize (LN ns eq_refl). destruct (index_some (E:=oerr) ns i) as (a & -> & I); [lia|]. cbn [bind].
    destruct (add32_fits_a (E:=oerr) oc off_n ns a (FN ns eq_refl) I) as [b ->]. cbn [bind]. eauto. }
  destruct W as [n ->]. cbn [bind]. rewrite T. cbn [bind]. eauto.
Qed.

(** ** Export *)
Definition mesh_fits_a (oc : bool) (off : N * N * N) (m : any_mesh Fl) : Prop :=
  (forall l, a_vertex_triangles m = Some l -> add_fits_a oc (fst (fst off)) l) /\ (forall l, a_uv_triangles m = Some l -> add_fits_a oc (snd (fst off)) l) /\
  (forall l, a_normal_triangles m = Some l -> add_fits_a oc (snd off) l).
Lemma consistent_dec_a m : any_consistent m \/ ~ any_consistent m.
Proof.
  unfold any_consistent, same_length.
  assert (G : forall (t : list N) o, (forall l : list N, o = Some l -> length l = length t) \/ ~ (forall l : list N, o = Some l -> length l = length t)).
  { intros t [l|]; [|left; intros; discriminate]. destruct (Nat.eq_dec (length l) (length t)) as [E|E].
    - left. intros l' H. now injection H as <-.
    - right. intros H. auto. }
  destruct (a_vertex_triangles m) as [t|].
  - destruct (G t (a_normal_triangles m)), (G t (a_uv_triangles m)); tauto.
  - destruct (a_normal_triangles m), (a_uv_triangles m); auto; right; intros [H1 H2]; discriminate.
Qed.
Lemma save_obj_ok_a ft oc m off name : mesh_fits_a oc off m -> any_consistent m ->
  exists text c, any_save top ft oc m off name = Ok (text, c) /\
    (fst (fst c) <= size (a_vertices m) /\ snd (fst c) <= size (a_uvs m) /\ snd c <= size (a_normals m))%N.
Proof.
  intros (F1 & F2 & F3) C. unfold any_consistent in C. unfold any_save. destruct (a_vertex_triangles m) as [vt|].
  - destruct C as [C1 C2].
    assert (match a_normal_triangles m with Some l => negb (length l =? length vt) | None => false end = false) as ->.
    { destruct (a_normal_triangles m); auto. rewrite (C1 l eq_refl), Nat.eqb_refl. reflexivity. }
    assert (match a_uv_triangles m with Some l => negb (length l =? length vt) | None => false end = false) as ->.
    { destruct (a_uv_triangles m); auto. rewrite (C2 l eq_refl), Nat.eqb_refl. reflexivity. }
    destruct off as [[ov ou] on]. cbn [fst snd] in *.
    destruct (face_loop_some_a oc ov ou on (a_uv_triangles m) (a_normal_triangles m) F2 F3 vt 0 (F1 vt eq_refl)) as [t ->].
    + intros us E. unfold len. rewrite (C2 us E). lia.
    + intros us E. unfold len. rewrite (C1 us E). lia.
    + cbn [bind]. do 2 eexists. split; [reflexivity|]. cbn [fst snd]. rewrite !ulen_len, !size_or_empty. pose proof (top_range top TOP).
      repeat split; apply N.mod_le; lia.
  - destruct C as [-> ->]. do 2 eexists. split; [reflexivity|]. cbn. lia.
Qed.
Lemma save_obj_bad_a ft oc m off name : ~ any_consistent m -> any_save top ft oc m off name = Err OMesh.
Proof.
  intros C. unfold any_consistent, same_length in C. unfold any_save. destruct (a_vertex_triangles m) as [vt|].
  - destruct (match a_normal_triangles m with Some l => negb (length l =? length vt) | None => false end) eqn:E1; [reflexivity|].
    destruct (match a_uv_triangles m with Some l => negb (length l =? length vt) | None => false end) eqn:E2; [reflexivity|].
    destruct C. split; intros l E.
    + rewrite E in E1. apply negb_false_iff, Nat.eqb_eq in E1. exact E1.
    + rewrite E in E2. apply negb_false_iff, Nat.eqb_eq in E2. exact E2.
  - destruct (a_normal_triangles m), (a_uv_triangles m); auto. destruct C. auto.
Qed.
(** Positions up to which the file may have got. *)
Definition off_le_a (off : N * N * N) (a b c : N) : Prop := (fst (fst off) <= a /\ snd (fst off) <= b /\ snd off <= c)%N.
Definition file_fits_a (oc : bool) (l : list (any_mesh Fl * list N)) (off : N * N * N) : Prop :=
  oc = false \/
  ((fst (fst off) + any_total a_vertices l < top)%N /\ (snd (fst off) + any_total a_uvs l < top)%N /\ (snd off + any_total a_normals l < top)%N /\
   Forall (fun mn => any_small_indices top (fst (fst off) + any_total a_vertices l) (a_vertex_triangles (fst mn)) /\
     any_small_indices top (snd off + any_total a_normals l) (a_normal_triangles (fst mn)) /\ any_small_indices top (snd (fst off) + any_total a_uvs l) (a_uv_triangles (fst mn))) l).
Lemma total_cons_a {A} (f : any_mesh Fl -> option (list A)) m name l : any_total f ((m, name) :: l) = (size (f m) + any_total f l)%N.
Proof. reflexivity. Qed.
Lemma small_less_a b b' o : (b' <= b)%N -> any_small_indices top b o -> any_small_indices top b' o.
Proof. intros L H l E. eapply Forall_impl; [|apply H, E]. cbv beta. intros; lia. Qed.
Lemma small_add_fits_a oc b o l : oc = false \/ any_small_indices top b o -> o = Some l -> add_fits_a oc b l.
Proof. intros [->|H] E; [now left|right]. eapply Forall_impl; [|apply H, E]. auto. Qed.
Lemma save_objs_spec_a ft oc l : forall off, file_fits_a oc l off ->
  (Forall (fun mn => any_consistent (fst mn)) l /\ exists text, any_saves top ft oc l off = Ok text) \/
  (~ Forall (fun mn => any_consistent (fst mn)) l /\ any_saves top ft oc l off = Err OMesh).
Proof.
  induction l as [|[m name] l IH]; intros off F; [left; split; [constructor|eexists; reflexivity]|]. cbn [any_saves].
  destruct (consistent_dec_a m) as [C|C].
  2: { right. rewrite save_obj_bad_a by auto. split; [|reflexivity]. intros X. now inversion X. }
  assert (MF : mesh_fits_a oc off m).
  { unfold mesh_fits_a. destruct F as [->|(_ & _ & _ & F)]; [repeat split; now left|]. inversion F as [|? ? (G1 & G2 & G3) F']; subst. cbn [fst] in *.
    repeat split; intros t E; eapply small_add_fits_a; eauto; right; (eapply small_less_a; [|eauto]); lia. }
  destruct (save_obj_ok_a ft oc m off name MF C) as (text & [[cv cu] cn] & -> & L1 & L2 & L3). cbn [fst snd] in *. cbn [bind].
  destruct off as [[ov ou] on]. cbn [fst snd] in *.
  assert (A : forall o c s, (c <= s)%N -> oc = false \/ (o + s < top)%N -> exists x, add_any (E:=oerr) top oc o c = Ok x /\ (oc = false \/ x <= o + s)%N).
  { intros o c s L [->|H]; unfold add_any; destruct (N.ltb_spec (o + c) (top))%N; try (eexists; split; [reflexivity|]; auto).
    - right. lia.
    - lia. }
  assert (T : oc = false \/ (ov + size (a_vertices m) < top /\ ou + size (a_uvs m) < top /\ on + size (a_normals m) < top)%N).
  { destruct F as [->|(F1 & F2 & F3 & _)]; [now left|right]. rewrite !total_cons_a in *. cbn [fst snd] in *. lia. }
  destruct (A ov cv _ L1) as (xv & -> & B1); [tauto|]. destruct (A ou cu _ L2) as (xu & -> & B2); [tauto|]. destruct (A on cn _ L3) as (xn & -> & B3); [tauto|].
  cbn [bind]. destruct (IH (xv, xu, xn)) as [[G [t ->]]|[G ->]].
  - unfold file_fits_a in *. destruct F as [->|(F1 & F2 & F3 & F4)]; [now left|].
    destruct B1 as [->|B1]; [now left|]. destruct B2 as [->|B2]; [now left|]. destruct B3 as [->|B3]; [now left|]. right.
    rewrite !total_cons_a in *. cbn [fst snd] in *. split; [lia|]. split; [lia|]. split; [lia|]. inversion F4 as [|? ? F5 F6]; subst.
    eapply Forall_impl; [|exact F6]. cbv beta. intros mn (H1 & H2 & H3). repeat split; (eapply small_less_a; [|eauto]); lia.
  - left. split; [constructor; auto|]. cbn [bind]. eauto.
  - right. split; [intros X; inversion X; auto|reflexivity].
Qed.

(** ** Import does not panic without triangulation *)
Lemma next_part_no_panic_a parts : next_part parts <> Panic.
Proof. now destruct parts. Qed.
Lemma parse_float_no_panic_a ft s : any_float ft s <> Panic.
Proof. unfold any_float. now destruct (a_parse ft s). Qed.
Ltac no_panic_a :=
  repeat match goal with
  | |- (let* _ := next_part ?p in _) <> Panic => destruct p; cbn [next_part bind]
  | |- (let* _ := any_float ?ft ?s in _) <> Panic =>
    let E := fresh in destruct (any_float ft s) eqn:E; cbn [bind]; [| |now destruct (parse_float_no_panic_a ft s)]
  end; try discriminate.
Lemma load_vec3_no_panic_a ft parts : any_vec3 ft parts <> Panic.
Proof. unfold any_vec3. no_panic_a. Qed.
Lemma load_vec2_no_panic_a ft parts : any_vec2 ft parts <> Panic.
Proof. unfold any_vec2. no_panic_a. Qed.
Lemma load_face_no_panic_a parts oi : any_face top None parts oi <> Panic.
Proof.
  unfold any_face. destruct (any_corners top _ _ _ _ _) as [[v u] n]. unfold any_push_face.
  destruct (negb _); [discriminate|]. destruct v as [|? [|? [|? [|? ?]]]]; discriminate.
Qed.
Lemma parse_line_no_panic_a ft line oi : any_line top ft None line oi <> Panic.
Proof.
  unfold any_line. destruct (negb _); [discriminate|]. destruct (split line) as [|beg parts]; [discriminate|]. cbn [next_part bind].
  repeat match goal with |- (if ?b then _ else _) <> Panic => destruct b end.
  - destruct (any_vec3 ft parts) eqn:E; cbn; try discriminate. now destruct (load_vec3_no_panic_a ft parts).
  - destruct (any_vec3 ft parts) eqn:E; cbn; try discriminate. now destruct (load_vec3_no_panic_a ft parts).
  - destruct (any_vec2 ft parts) eqn:E; cbn; try discriminate. now destruct (load_vec2_no_panic_a ft parts).
  - destruct (any_face top None parts oi) eqn:E; cbn; try discriminate. now destruct (load_face_no_panic_a parts oi).
  - destruct parts; discriminate.
  - discriminate.
Qed.
Lemma read_lines_no_panic_a ft ls : forall oi acc, any_lines top ft None ls oi acc <> Panic.
Proof.
  induction ls as [|l ls IH]; intros oi acc; cbn [any_lines]; [discriminate|].
  destruct (any_line top ft None l oi) as [[oi' o]|e|] eqn:E; cbn [bind]; [apply IH|discriminate|now destruct (parse_line_no_panic_a ft l oi)].
Qed.
End Any.
