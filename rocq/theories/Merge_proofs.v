(** Merging and splitting segments does not change the mesh they build. *)
From Coq Require Import List NArith ZArith Arith Lia Bool.
From Verif Require Import Base ReadExt Triangles OptTris Floats Utilis Unify OptVertices
  CustomData Mesh Tmf File FileSpec File_proofs SaveSpec.
Import ListNotations.
Open Scope res_scope.

Definition build (l : list dseg) (m : mesh) : mesh := fold_left apply l m.

(** ** Merging *)

Lemma merge_inert a o : as_triangles o = None -> merge a o = (a, o).
Proof. intros H. unfold merge. now rewrite H. Qed.

Definition fixed (d : dseg) : Prop := forall o, merge d o = (d, o).
Lemma merge_all_fixed d l : fixed d -> merge_all d l = (d, l).
Proof.
  intros H. induction l as [|o l IH]; [reflexivity|]. cbn [merge_all]. rewrite H.
  now rewrite IH.
Qed.
Lemma fixed_other d :
  match d with DShared _ _ | DTriVertex _ | DTriNormal _ | DTriUV _ => False | _ => True end -> fixed d.
Proof. intros H o. unfold merge. destruct (as_triangles o) as [[l k]|]; auto. destruct d; tauto. Qed.

Lemma merge_loop_fixed fuel d st :
  is_something d = true -> fixed d -> merge_loop (S fuel) (d :: st) = d :: merge_loop fuel st.
Proof.
  intros H1 H2. cbn [merge_loop]. rewrite H1, merge_all_fixed by auto. now rewrite rev_involutive.
Qed.

Lemma merge_loop_customs cs fuel st :
  merge_loop (length cs + fuel) (map DCustom cs ++ st) = map DCustom cs ++ merge_loop fuel st.
Proof.
  induction cs as [|c cs IH]; [reflexivity|]. cbn [length map app plus].
  rewrite merge_loop_fixed; [now rewrite IH|reflexivity|now apply fixed_other].
Qed.

(** The eight arrays. *)
Definition arrays (m : mesh) : list dseg :=
  opt_seg DVertex (vertices m) ++ opt_seg DNormal (normals m) ++ opt_seg DUV (uvs m) ++
  opt_seg DTriVertex (vertex_triangles m) ++ opt_seg DTriNormal (normal_triangles m) ++
  opt_seg DTriUV (uv_triangles m) ++ opt_seg DTangent (tangents m) ++
  opt_seg DTriTangent (tangent_triangles m).

Lemma merge_segments_split m :
  merge_segments (tmf_segs m) = map DCustom (rev (custom_data m)) ++ merge_segments (arrays m).
Proof.
  unfold merge_segments.
  assert (E : tmf_segs m = arrays m ++ map DCustom (custom_data m)).
  { unfold tmf_segs, arrays. now rewrite <- !app_assoc. }
  rewrite E, rev_app_distr, <- map_rev, app_length, map_length, Nat.add_comm.
  rewrite <- (rev_length (custom_data m)). apply merge_loop_customs.
Qed.

Lemma merge_eq (k : N) (a b : list N) self other :
  as_triangles other = Some (b, k) ->
  forall mask, (self = DShared mask a \/ (self = DTriVertex a /\ mask = MASK_VERTEX) \/
    (self = DTriNormal a /\ mask = MASK_NORMAL) \/ (self = DTriUV a /\ mask = MASK_UV)) ->
  merge self other = if list_eqb a b then (DShared (N.lor mask k) a, DNothing) else (self, other).
Proof.
  intros H mask [->|[[-> ->]|[[-> ->]|[-> ->]]]]; unfold merge; rewrite H; reflexivity.
Qed.

(** Segments that take no part in merging, at the bottom of the stack. *)
Definition inert (d : dseg) : Prop := as_triangles d = None /\ fixed d /\ is_something d = true.
Lemma merge_all_inert I : Forall inert I -> forall d l,
  merge_all d (I ++ l) = (fst (merge_all d l), I ++ snd (merge_all d l)).
Proof.
  induction 1 as [|o I (H1 & _) _ IH]; intros d l; cbn [app merge_all].
  - now destruct (merge_all d l).
  - rewrite merge_inert by auto. rewrite IH. reflexivity.
Qed.
Lemma merge_loop_inert I : Forall inert I -> forall fuel, length I <= fuel -> merge_loop fuel I = I.
Proof.
  induction 1 as [|o I (H1 & H2 & H3) _ IH]; intros fuel Hf.
  - now destruct fuel.
  - cbn [length] in Hf. destruct fuel as [|fuel]; [lia|].
    rewrite merge_loop_fixed by auto. now rewrite IH by lia.
Qed.
(** One step, with the stack written as mergeable segments over inert ones. *)
Lemma merge_loop_step fuel d l I : Forall inert I ->
  merge_loop (S fuel) (d :: l ++ I) =
  if is_something d then
    fst (merge_all d (rev l)) :: merge_loop fuel (rev (snd (merge_all d (rev l))) ++ I)
  else merge_loop fuel (l ++ I).
Proof.
  intros H. cbn [merge_loop]. destruct (is_something d); auto.
  rewrite rev_app_distr, merge_all_inert by (now apply Forall_rev).
  now rewrite rev_app_distr, rev_involutive.
Qed.

Ltac merge_cases :=
  repeat match goal with
  | |- context [list_eqb ?a ?b] =>
    let Q := fresh in destruct (list_eqb a b) eqn:Q;
    [apply list_eqb_eq in Q; first [subst a|subst b|idtac]
    |]; cbn [app rev merge_all merge as_triangles is_something fst snd]
  end.

(** The effect of the three mergeable index arrays. *)
Lemma build_tris (ut nt vt : option (list N)) I fuel m :
  Forall inert I ->
  length (opt_seg DTriUV ut ++ opt_seg DTriNormal nt ++ opt_seg DTriVertex vt) + length I <= fuel ->
  build (merge_loop fuel (opt_seg DTriUV ut ++ opt_seg DTriNormal nt ++ opt_seg DTriVertex vt ++ I)) m =
  build I (build (opt_seg DTriUV ut ++ opt_seg DTriNormal nt ++ opt_seg DTriVertex vt) m).
Proof.
  intros HI Hf.
  assert (Done : forall f, length I <= f -> merge_loop f ([] ++ I) = I) by (intros; now apply merge_loop_inert).
  destruct ut as [ut|], nt as [nt|], vt as [vt|]; cbn [opt_seg app length plus] in *;
  repeat (destruct fuel as [|fuel]; [exfalso; lia|]);
  repeat (match goal with
  | |- context [merge_loop (S ?f) (?a :: ?b :: ?c :: I)] =>
      change (merge_loop (S f) (a :: b :: c :: I)) with (merge_loop (S f) (a :: [b; c] ++ I))
  | |- context [merge_loop (S ?f) (?a :: ?b :: I)] =>
      change (merge_loop (S f) (a :: b :: I)) with (merge_loop (S f) (a :: [b] ++ I))
  | |- context [merge_loop (S ?f) (?a :: I)] =>
      change (merge_loop (S f) (a :: I)) with (merge_loop (S f) (a :: [] ++ I))
  end; rewrite (merge_loop_step _ _ _ I HI);
  cbn [app rev merge_all merge as_triangles is_something fst snd]; merge_cases);
  rewrite ?merge_loop_inert by (auto; lia);
  rewrite ?Done by lia; cbn [build fold_left];
  destruct m as [xn xnt xv xvt xu xut xt xtt xcd]; try reflexivity;
  try (destruct xnt, xvt, xut; reflexivity).
Qed.

Lemma build_arrays m c :
  build (merge_segments (arrays m)) (with_custom_data empty c) = with_custom_data m c.
Proof.
  destruct m as [n nt v vt u ut t tt cd]. unfold arrays.
  cbn [vertices normals uvs vertex_triangles normal_triangles uv_triangles tangents tangent_triangles].
  set (I := opt_seg DUV u ++ opt_seg DNormal n ++ opt_seg DVertex v).
  assert (HI : Forall inert I).
  { subst I. rewrite !Forall_app. repeat split; [destruct u|destruct n|destruct v]; constructor;
      try constructor; try reflexivity; split; auto; now apply fixed_other. }
  set (L := opt_seg DVertex v ++ opt_seg DNormal n ++ opt_seg DUV u ++ _).
  assert (R : rev L = opt_seg DTriTangent tt ++ opt_seg DTangent t ++
    (opt_seg DTriUV ut ++ opt_seg DTriNormal nt ++ opt_seg DTriVertex vt ++ I)).
  { subst L I. rewrite !rev_app_distr, <- !app_assoc.
    assert (RO : forall A (f : A -> dseg) o, rev (opt_seg f o) = opt_seg f o) by (now intros A f [x|]).
    now rewrite !RO. }
  unfold merge_segments. rewrite <- (rev_length L), R. rewrite !app_length.
  set (a := opt_seg DTriTangent tt). set (b := opt_seg DTangent t).
  set (st := opt_seg DTriUV ut ++ opt_seg DTriNormal nt ++ opt_seg DTriVertex vt ++ I).
  assert (E : forall f, merge_loop (length a + (length b + f)) (a ++ b ++ st) = a ++ b ++ merge_loop f st).
  { intros f. subst a b. destruct tt, t; cbn [opt_seg length app plus];
      repeat (rewrite merge_loop_fixed by (auto; now apply fixed_other)); reflexivity. }
  rewrite E. unfold build. rewrite !fold_left_app. fold (build a (with_custom_data empty c)).
  set (m1 := fold_left apply b _).
  match goal with |- fold_left apply ?x m1 = _ => fold (build x m1) end.
  subst st. rewrite build_tris; [|auto|rewrite !app_length; lia].
  subst m1 a b I. destruct t, tt, ut, nt, vt, u, n, v; reflexivity.
Qed.

Lemma build_customs cs m :
  build (map DCustom cs) m = with_custom_data m (custom_data m ++ cs).
Proof.
  revert m. induction cs as [|c cs IH]; intros m; cbn [map build fold_left].
  - rewrite app_nil_r. now destruct m.
  - unfold build in IH. rewrite IH. cbn [apply add_custom_data_seg]. unfold with_custom_data. cbn.
    now rewrite <- app_assoc.
Qed.

(** Storing equal index arrays once is invisible. *)
Lemma build_merged m :
  build (merge_segments (tmf_segs m)) empty = with_custom_data m (rev (custom_data m)).
Proof.
  rewrite merge_segments_split. unfold build. rewrite fold_left_app.
  fold (build (map DCustom (rev (custom_data m))) empty). rewrite build_customs.
  cbn [custom_data empty app]. apply build_arrays.
Qed.

(** Unmerged segments build the mesh itself. *)
Lemma build_unmerged m : build (tmf_segs m) empty = m.
Proof.
  assert (E : tmf_segs m = arrays m ++ map DCustom (custom_data m)).
  { unfold tmf_segs, arrays. now rewrite <- !app_assoc. }
  rewrite E. unfold build. rewrite fold_left_app.
  fold (build (arrays m) empty).
  replace (build (arrays m) empty) with (with_custom_data m []).
  - fold (build (map DCustom (custom_data m)) (with_custom_data m [])). rewrite build_customs.
    now destruct m.
  - destruct m as [[n|] [nt|] [v|] [vt|] [u|] [ut|] [t|] [tt|] cd]; reflexivity.
Qed.

(** ** Splitting *)

Lemma split_at_app {E A} (l : list A) i a b : split_at (E:=E) l i = Ok (a, b) -> l = a ++ b.
Proof.
  unfold split_at. destruct (i <=? length l); [|discriminate]. intros [= <- <-]. now rewrite firstn_skipn.
Qed.

Lemma opt_tris_concat oc fuel : forall tris segs,
  opt_tris_fuel oc fuel tris = Ok segs -> concat segs = tris /\ segs <> [].
Proof.
  induction fuel as [|fuel IH]; intros tris segs H; [discriminate|]. cbn [opt_tris_fuel] in H.
  assert (G : forall b, (let* (s1, s2) := split_at tris b in
       let* r_1 := opt_tris_fuel oc fuel s1 in
       let* r_2 := opt_tris_fuel oc fuel s2 in Ok (r_1 ++ r_2)) = Ok segs -> concat segs = tris /\ segs <> []).
  { intros b K. destruct (split_at tris b) as [[s1 s2]| |] eqn:S; try discriminate. cbn [bind] in K.
    apply split_at_app in S. subst tris.
    destruct (opt_tris_fuel oc fuel s1) as [r1| |] eqn:E1; try discriminate. cbn [bind] in K.
    destruct (opt_tris_fuel oc fuel s2) as [r2| |] eqn:E2; try discriminate. cbn [bind] in K.
    injection K as <-. apply IH in E1 as [<- N1]. apply IH in E2 as [<- N2].
    split; [apply concat_app|]. destruct r1; [congruence|discriminate]. }
  destruct (scan_max oc tris 0 0 (max_or 1 tris) (isize_min, 0)) as [b| |]; try discriminate. cbn [bind] in H.
  destruct (0 <? fst b)%Z; [now apply (G (snd b))|].
  destruct (scan_min oc tris 0 (two32 - 1) (min_or 1 tris) (isize_min, 0)) as [b'| |]; try discriminate.
  cbn [bind] in H. destruct (0 <? fst b')%Z; [now apply (G (snd b'))|].
  injection H as <-. split; [apply app_nil_r|discriminate].
Qed.

Lemma opt_vertices_concat lm oc fuel : forall vs segs,
  opt_vertices_fuel lm oc fuel vs = Ok segs -> concat segs = vs /\ segs <> [].
Proof.
  induction fuel as [|fuel IH]; intros vs segs H; [discriminate|]. cbn [opt_vertices_fuel] in H.
  destruct (find_best_vertex_split lm oc vs split_edge) as [[b|]| |]; try discriminate; cbn [bind] in H.
  - destruct (split_at vs b) as [[s1 s2]| |] eqn:S; try discriminate. cbn [bind] in H.
    apply split_at_app in S. subst vs.
    destruct (opt_vertices_fuel lm oc fuel s1) as [r1| |] eqn:E1; try discriminate. cbn [bind] in H.
    destruct (opt_vertices_fuel lm oc fuel s2) as [r2| |] eqn:E2; try discriminate. cbn [bind] in H.
    injection H as <-. apply IH in E1 as [<- N1]. apply IH in E2 as [<- N2].
    split; [apply concat_app|]. destruct r1; [congruence|discriminate].
  - injection H as <-. split; [apply app_nil_r|discriminate].
Qed.

(** A constructor of array segments: applying the pieces is applying the array. *)
Lemma build_pieces {A} (mk : list A -> dseg) :
  (forall m a b, apply (apply m (mk a)) (mk b) = apply m (mk (a ++ b))) ->
  forall segs m, segs <> [] -> build (map mk segs) m = apply m (mk (concat segs)).
Proof.
  intros H. induction segs as [|a segs IH]; intros m Hn; [congruence|]. cbn [map build fold_left concat].
  destruct segs as [|b segs]; [cbn; now rewrite app_nil_r|].
  fold (build (map mk (b :: segs)) (apply m (mk a))). rewrite IH by discriminate. apply H.
Qed.

Lemma apply_apply_vertex m a b : apply (apply m (DVertex a)) (DVertex b) = apply m (DVertex (a ++ b)).
Proof. destruct m as [n nt [v|] vt u ut t tt cd]; cbn; unfold with_vertices; cbn; rewrite <- ?app_assoc; reflexivity. Qed.
Lemma apply_apply_trivertex m a b : apply (apply m (DTriVertex a)) (DTriVertex b) = apply m (DTriVertex (a ++ b)).
Proof. destruct m as [n nt v [vt|] u ut t tt cd]; cbn; unfold with_vertex_triangles; cbn; rewrite <- ?app_assoc; reflexivity. Qed.
Lemma apply_apply_trinormal m a b : apply (apply m (DTriNormal a)) (DTriNormal b) = apply m (DTriNormal (a ++ b)).
Proof. destruct m as [n [nt|] v vt u ut t tt cd]; cbn; unfold with_normal_triangles; cbn; rewrite <- ?app_assoc; reflexivity. Qed.
Lemma apply_apply_triuv m a b : apply (apply m (DTriUV a)) (DTriUV b) = apply m (DTriUV (a ++ b)).
Proof. destruct m as [n nt v vt u [ut|] t tt cd]; cbn; unfold with_uv_triangles; cbn; rewrite <- ?app_assoc; reflexivity. Qed.
Lemma apply_apply_tritangent m a b : apply (apply m (DTriTangent a)) (DTriTangent b) = apply m (DTriTangent (a ++ b)).
Proof. destruct m as [n nt v vt u ut t [tt|] cd]; cbn; unfold with_tangent_triangles; cbn; rewrite <- ?app_assoc; reflexivity. Qed.
Lemma append_vn m a b :
  append_vertex_triangles (append_normal_triangles m a) b = append_normal_triangles (append_vertex_triangles m b) a.
Proof. destruct m as [n [nt|] v [vt|] u ut t tt cd]; reflexivity. Qed.
Lemma append_vu m a b :
  append_vertex_triangles (append_uv_triangles m a) b = append_uv_triangles (append_vertex_triangles m b) a.
Proof. destruct m as [n nt v [vt|] u [ut|] t tt cd]; reflexivity. Qed.
Lemma append_nu m a b :
  append_normal_triangles (append_uv_triangles m a) b = append_uv_triangles (append_normal_triangles m b) a.
Proof. destruct m as [n [nt|] v vt u [ut|] t tt cd]; reflexivity. Qed.
Lemma apply_apply_shared k m a b : apply (apply m (DShared k a)) (DShared k b) = apply m (DShared k (a ++ b)).
Proof.
  pose proof (fun m => apply_apply_trivertex m a b) as V. pose proof (fun m => apply_apply_trinormal m a b) as N.
  pose proof (fun m => apply_apply_triuv m a b) as U. cbn [apply] in V, N, U.
  cbn [apply]. destruct (has_mask k MASK_VERTEX), (has_mask k MASK_NORMAL), (has_mask k MASK_UV); cbv iota;
    rewrite ?append_vu, ?append_vn, ?append_nu, ?V, ?N, ?U; try reflexivity.
Qed.

Lemma build_optimized lm oc d l m :
  optimize lm oc d = Ok l -> build l m = apply m d.
Proof.
  intros H. destruct d; cbn [optimize] in H;
  try (injection H as <-; reflexivity).
  - destruct (opt_vertices lm oc l0) as [o| |] eqn:O; try discriminate. injection H as <-.
    apply opt_vertices_concat in O as [<- O]. apply build_pieces; auto. apply apply_apply_vertex.
  - destruct (opt_tris oc l0) as [o| |] eqn:O; try discriminate. injection H as <-.
    apply opt_tris_concat in O as [<- O]. apply build_pieces; auto. apply apply_apply_trivertex.
  - destruct (opt_tris oc l0) as [o| |] eqn:O; try discriminate. injection H as <-.
    apply opt_tris_concat in O as [<- O]. apply build_pieces; auto. apply apply_apply_trinormal.
  - destruct (opt_tris oc l0) as [o| |] eqn:O; try discriminate. injection H as <-.
    apply opt_tris_concat in O as [<- O]. apply build_pieces; auto. apply apply_apply_triuv.
  - destruct (opt_tris oc l0) as [o| |] eqn:O; try discriminate. injection H as <-.
    apply opt_tris_concat in O as [<- O]. apply build_pieces; auto. apply apply_apply_tritangent.
  - destruct (opt_tris oc l0) as [o| |] eqn:O; try discriminate. injection H as <-.
    apply opt_tris_concat in O as [<- O]. apply build_pieces; auto. apply apply_apply_shared.
Qed.

Lemma build_optimize_all lm oc segs : forall l m,
  optimize_all lm oc segs = Ok l -> build l m = build segs m.
Proof.
  induction segs as [|s segs IH]; intros l m H; cbn [optimize_all] in H.
  - injection H as <-. reflexivity.
  - destruct (optimize lm oc s) as [a| |] eqn:A; try discriminate. cbn [map_err bind] in H.
    destruct (optimize_all lm oc segs) as [b| |] eqn:B; try discriminate. injection H as <-.
    unfold build. rewrite fold_left_app. fold (build a m). rewrite (build_optimized lm oc s a m A).
    cbn [fold_left]. fold (build b (apply m s)). now apply IH.
Qed.

(** ** The segments made from a mesh, whatever the array splits *)

Definition sub_ok (P : dseg -> Prop) : Prop :=
  (forall a b, P (DVertex (a ++ b)) -> P (DVertex a) /\ P (DVertex b)) /\
  (forall a b, P (DTriVertex (a ++ b)) -> P (DTriVertex a) /\ P (DTriVertex b)) /\
  (forall a b, P (DTriNormal (a ++ b)) -> P (DTriNormal a) /\ P (DTriNormal b)) /\
  (forall a b, P (DTriUV (a ++ b)) -> P (DTriUV a) /\ P (DTriUV b)) /\
  (forall a b, P (DTriTangent (a ++ b)) -> P (DTriTangent a) /\ P (DTriTangent b)) /\
  (forall k a b, P (DShared k (a ++ b)) -> P (DShared k a) /\ P (DShared k b)).

Lemma pieces_all {A} (P : dseg -> Prop) (mk : list A -> dseg) :
  (forall a b, P (mk (a ++ b)) -> P (mk a) /\ P (mk b)) ->
  forall segs, P (mk (concat segs)) -> Forall P (map mk segs).
Proof.
  intros H. induction segs as [|a segs IH]; cbn [map concat]; intros K; constructor.
  - now apply H in K.
  - apply IH. now apply H in K.
Qed.

Lemma optimized_all (P : dseg -> Prop) lm oc d l :
  sub_ok P -> P d -> optimize lm oc d = Ok l -> Forall P l.
Proof.
  intros (S1 & S2 & S3 & S4 & S5 & S6) HP H. destruct d; cbn [optimize] in H;
  try (injection H as <-; repeat constructor; assumption).
  - destruct (opt_vertices lm oc l0) as [o| |] eqn:O; try discriminate. injection H as <-.
    apply opt_vertices_concat in O as [<- O]. now apply pieces_all.
  - destruct (opt_tris oc l0) as [o| |] eqn:O; try discriminate. injection H as <-.
    apply opt_tris_concat in O as [<- O]. now apply pieces_all.
  - destruct (opt_tris oc l0) as [o| |] eqn:O; try discriminate. injection H as <-.
    apply opt_tris_concat in O as [<- O]. now apply pieces_all.
  - destruct (opt_tris oc l0) as [o| |] eqn:O; try discriminate. injection H as <-.
    apply opt_tris_concat in O as [<- O]. now apply pieces_all.
  - destruct (opt_tris oc l0) as [o| |] eqn:O; try discriminate. injection H as <-.
    apply opt_tris_concat in O as [<- O]. now apply pieces_all.
  - destruct (opt_tris oc l0) as [o| |] eqn:O; try discriminate. injection H as <-.
    apply opt_tris_concat in O as [<- O]. apply pieces_all; auto.
Qed.

Lemma optimize_all_all (P : dseg -> Prop) lm oc segs : forall l,
  sub_ok P -> Forall P segs -> optimize_all lm oc segs = Ok l -> Forall P l.
Proof.
  induction segs as [|s segs IH]; intros l HS HP H; cbn [optimize_all] in H.
  - injection H as <-. constructor.
  - apply Forall_cons_iff in HP as [HP1 HP2].
    destruct (optimize lm oc s) as [a| |] eqn:A; try discriminate. cbn [map_err bind] in H.
    destruct (optimize_all lm oc segs) as [b| |] eqn:B; try discriminate. injection H as <-.
    apply Forall_app. split; [eapply optimized_all; eauto|eapply IH; eauto].
Qed.

(** Merging only produces shared segments whose list was in an index segment. *)
Lemma merge_all_keeps (P : dseg -> Prop) others : forall seg seg' others',
  P DNothing ->
  (forall l, (P (DTriVertex l) \/ P (DTriNormal l) \/ P (DTriUV l) \/ (exists k, P (DShared k l))) -> forall k, (0 < k < 8)%N -> P (DShared k l)) ->
  (forall k l, P (DShared k l) -> (0 < k < 8)%N) ->
  P seg -> Forall P others -> merge_all seg others = (seg', others') ->
  P seg' /\ Forall P others'.
Proof.
  induction others as [|o others IH]; intros seg seg' others' H0 HS HK H1 H2 E; cbn [merge_all] in E.
  - injection E as <- <-. auto.
  - apply Forall_cons_iff in H2 as [Ho H2].
    destruct (merge seg o) as [s1 o1] eqn:M. destruct (merge_all s1 others) as [s2 t2] eqn:MA.
    injection E as <- <-.
    assert (P s1 /\ P o1) as [P1 P2].
    { unfold merge in M. destruct (as_triangles o) as [[l k]|] eqn:AT; [|injection M as <- <-; auto].
      assert (Kk : k = 1%N \/ k = 2%N).
      { destruct o; cbn in AT; try discriminate; injection AT as <- <-; auto. }
      assert (LK : forall kind, (0 < kind < 8)%N -> (0 < N.lor kind k < 8)%N).
      { intros kind Hk. assert (kind = 1 \/ kind = 2 \/ kind = 3 \/ kind = 4 \/ kind = 5 \/ kind = 6 \/ kind = 7)%N as D by lia.
        destruct Kk as [-> | ->]; destruct D as [-> | [-> | [-> | [-> | [-> | [-> | ->]]]]]]; cbn; lia. }
      destruct seg; cbv beta iota zeta in M; try (injection M as <- <-; auto);
      match type of M with context [list_eqb ?a ?b] => destruct (list_eqb a b) end;
        apply pair_equal_spec in M as [<- <-]; auto; (split; [|auto]); (apply HS; [eauto 6|apply LK]);
        solve [eapply HK; eassumption|unfold MASK_VERTEX, MASK_NORMAL, MASK_UV; lia]. }
    destruct (IH _ _ _ H0 HS HK P1 H2 MA). auto.
Qed.

Lemma merge_loop_keeps (P : dseg -> Prop) fuel : forall st,
  P DNothing ->
  (forall l, (P (DTriVertex l) \/ P (DTriNormal l) \/ P (DTriUV l) \/ (exists k, P (DShared k l))) -> forall k, (0 < k < 8)%N -> P (DShared k l)) ->
  (forall k l, P (DShared k l) -> (0 < k < 8)%N) ->
  Forall P st -> Forall (fun d => P d /\ is_something d = true) (merge_loop fuel st).
Proof.
  induction fuel as [|fuel IH]; intros st H0 HS HK HP; [constructor|]. cbn [merge_loop].
  destruct st as [|d rest]; [constructor|]. apply Forall_cons_iff in HP as [Hd HP].
  destruct (is_something d) eqn:D; [|auto].
  destruct (merge_all d (rev rest)) as [seg others] eqn:M.
  assert (SS : is_something seg = true).
  { clear -M D. revert d seg others M D. induction (rev rest) as [|o l IHl]; intros d seg others M D; cbn [merge_all] in M.
    - injection M as <- <-. auto.
    - destruct (merge d o) as [s1 o1] eqn:MM. destruct (merge_all s1 l) as [s2 t2] eqn:MA. injection M as <- <-.
      eapply IHl; [exact MA|]. unfold merge in MM. destruct (as_triangles o) as [[l' k]|]; [|injection MM as <- <-; auto].
      destruct d; cbn in MM; try (injection MM as <- <-; auto);
        match type of MM with context [list_eqb ?a ?b] => destruct (list_eqb a b) end; injection MM as <- <-; auto. }
  apply (merge_all_keeps P) in M as [M1 M2]; auto; [|now apply Forall_rev].
  constructor; auto. apply IH; auto. now apply Forall_rev.
Qed.
