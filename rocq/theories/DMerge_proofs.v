(** Merging and splitting segments does not change the mesh they build, in a program built with
    the feature [double_precision] (the same as Merge_proofs.v). *)
From Coq Require Import List NArith ZArith Arith Lia Bool.
From Verif Require Import Base ReadExt Triangles OptTris Floats Utilis Unify OptVertices
  CustomData Mesh Tmf File FileSpec File_proofs SaveSpec Merge_proofs Double DoubleSave.
Import ListNotations.
Open Scope res_scope.

Definition with_custom_data_d (m : dmesh) (c : list dcseg) : dmesh :=
  mk_dmesh (d_normals m) (d_normal_triangles m) (d_vertices m) (d_vertex_triangles m) (d_uvs m) (d_uv_triangles m)
    (d_tangents m) (d_tangent_triangles m) c.
Definition build_d (l : list xseg) (m : dmesh) : dmesh := fold_left apply_d l m.

(** ** Merging *)

Lemma merge_inert_d a o : as_triangles_d o = None -> merge_d a o = (a, o).
Proof. intros H. unfold merge_d. now rewrite H. Qed.

Definition fixed_d (d : xseg) : Prop := forall o, merge_d d o = (d, o).
Lemma merge_all_fixed_d d l : fixed_d d -> merge_all_d d l = (d, l).
Proof.
  intros H. induction l as [|o l IH]; [reflexivity|]. cbn [merge_all_d]. rewrite H.
  now rewrite IH.
Qed.
Lemma fixed_other_d d :
  match d with XShared _ _ | XTriVertex _ | XTriNormal _ | XTriUV _ => False | _ => True end -> fixed_d d.
Proof. intros H o. unfold merge_d. destruct (as_triangles_d o) as [[l k]|]; auto. destruct d; tauto. Qed.

Lemma merge_loop_fixed_d fuel d st :
  is_something_d d = true -> fixed_d d -> merge_loop_d (S fuel) (d :: st) = d :: merge_loop_d fuel st.
Proof.
  intros H1 H2. cbn [merge_loop_d]. rewrite H1, merge_all_fixed_d by auto. now rewrite rev_involutive.
Qed.

Lemma merge_loop_customs_d cs fuel st :
  merge_loop_d (length cs + fuel) (map XCustom cs ++ st) = map XCustom cs ++ merge_loop_d fuel st.
Proof.
  induction cs as [|c cs IH]; [reflexivity|]. cbn [length map app plus].
  rewrite merge_loop_fixed_d; [now rewrite IH|reflexivity|now apply fixed_other_d].
Qed.

(** The eight arrays_d. *)
Definition arrays_d (m : dmesh) : list xseg :=
  opt_seg_d XVertex (d_vertices m) ++ opt_seg_d XNormal (d_normals m) ++ opt_seg_d XUV (d_uvs m) ++
  opt_seg_d XTriVertex (d_vertex_triangles m) ++ opt_seg_d XTriNormal (d_normal_triangles m) ++
  opt_seg_d XTriUV (d_uv_triangles m) ++ opt_seg_d XTangent (d_tangents m) ++
  opt_seg_d XTriTangent (d_tangent_triangles m).

Lemma merge_segments_split_d m :
  merge_segments_d (tmf_segs_d m) = map XCustom (rev (d_custom_data m)) ++ merge_segments_d (arrays_d m).
Proof.
  unfold merge_segments_d.
  assert (E : tmf_segs_d m = arrays_d m ++ map XCustom (d_custom_data m)).
  { unfold tmf_segs_d, arrays_d. now rewrite <- !app_assoc. }
  rewrite E, rev_app_distr, <- map_rev, app_length, map_length, Nat.add_comm.
  rewrite <- (rev_length (d_custom_data m)). apply merge_loop_customs_d.
Qed.

Lemma merge_eq_d (k : N) (a b : list N) self other :
  as_triangles_d other = Some (b, k) ->
  forall mask, (self = XShared mask a \/ (self = XTriVertex a /\ mask = MASK_VERTEX) \/
    (self = XTriNormal a /\ mask = MASK_NORMAL) \/ (self = XTriUV a /\ mask = MASK_UV)) ->
  merge_d self other = if list_eqb a b then (XShared (N.lor mask k) a, XNothing) else (self, other).
Proof.
  intros H mask [->|[[-> ->]|[[-> ->]|[-> ->]]]]; unfold merge_d; rewrite H; reflexivity.
Qed.

(** Segments that take no part in merging, at the bottom of the stack. *)
Definition inert_d (d : xseg) : Prop := as_triangles_d d = None /\ fixed_d d /\ is_something_d d = true.
Lemma merge_all_inert_d I : Forall inert_d I -> forall d l,
  merge_all_d d (I ++ l) = (fst (merge_all_d d l), I ++ snd (merge_all_d d l)).
Proof.
  induction 1 as [|o I (H1 & _) _ IH]; intros d l; cbn [app merge_all_d].
  - now destruct (merge_all_d d l).
  - rewrite merge_inert_d by auto. rewrite IH. reflexivity.
Qed.
Lemma merge_loop_inert_d I : Forall inert_d I -> forall fuel, length I <= fuel -> merge_loop_d fuel I = I.
Proof.
  induction 1 as [|o I (H1 & H2 & H3) _ IH]; intros fuel Hf.
  - now destruct fuel.
  - cbn [length] in Hf. destruct fuel as [|fuel]; [lia|].
    rewrite merge_loop_fixed_d by auto. now rewrite IH by lia.
Qed.
(** One step, with the stack written as mergeable segments over inert_d ones. *)
Lemma merge_loop_step_d fuel d l I : Forall inert_d I ->
  merge_loop_d (S fuel) (d :: l ++ I) =
  if is_something_d d then
    fst (merge_all_d d (rev l)) :: merge_loop_d fuel (rev (snd (merge_all_d d (rev l))) ++ I)
  else merge_loop_d fuel (l ++ I).
Proof.
  intros H. cbn [merge_loop_d]. destruct (is_something_d d); auto.
  rewrite rev_app_distr, merge_all_inert_d by (now apply Forall_rev).
  now rewrite rev_app_distr, rev_involutive.
Qed.

Ltac merge_cases :=
  repeat match goal with
  | |- context [list_eqb ?a ?b] =>
    let Q := fresh in destruct (list_eqb a b) eqn:Q;
    [apply list_eqb_eq in Q; first [subst a|subst b|idtac]
    |]; cbn [app rev merge_all_d merge_d as_triangles_d is_something_d fst snd]
  end.

(** The effect of the three mergeable index arrays_d. *)
Lemma build_tris_d (ut nt vt : option (list N)) I fuel m :
  Forall inert_d I ->
  length (opt_seg_d XTriUV ut ++ opt_seg_d XTriNormal nt ++ opt_seg_d XTriVertex vt) + length I <= fuel ->
  build_d (merge_loop_d fuel (opt_seg_d XTriUV ut ++ opt_seg_d XTriNormal nt ++ opt_seg_d XTriVertex vt ++ I)) m =
  build_d I (build_d (opt_seg_d XTriUV ut ++ opt_seg_d XTriNormal nt ++ opt_seg_d XTriVertex vt) m).
Proof.
  intros HI Hf.
  assert (Done : forall f, length I <= f -> merge_loop_d f ([] ++ I) = I) by (intros; now apply merge_loop_inert_d).
  destruct ut as [ut|], nt as [nt|], vt as [vt|]; cbn [opt_seg_d app length plus] in *;
  repeat (destruct fuel as [|fuel]; [exfalso; lia|]);
  repeat (match goal with
  | |- context [merge_loop_d (S ?f) (?a :: ?b :: ?c :: I)] =>
      change (merge_loop_d (S f) (a :: b :: c :: I)) with (merge_loop_d (S f) (a :: [b; c] ++ I))
  | |- context [merge_loop_d (S ?f) (?a :: ?b :: I)] =>
      change (merge_loop_d (S f) (a :: b :: I)) with (merge_loop_d (S f) (a :: [b] ++ I))
  | |- context [merge_loop_d (S ?f) (?a :: I)] =>
      change (merge_loop_d (S f) (a :: I)) with (merge_loop_d (S f) (a :: [] ++ I))
  end; rewrite (merge_loop_step_d _ _ _ I HI);
  cbn [app rev merge_all_d merge_d as_triangles_d is_something_d fst snd]; merge_cases);
  rewrite ?merge_loop_inert_d by (auto; lia);
  rewrite ?Done by lia; cbn [build_d fold_left];
  destruct m as [xn xnt xv xvt xu xut xt xtt xcd]; try reflexivity;
  try (destruct xnt, xvt, xut; reflexivity).
Qed.

Lemma build_arrays_d m c :
  build_d (merge_segments_d (arrays_d m)) (with_custom_data_d d_empty c) = with_custom_data_d m c.
Proof.
  destruct m as [n nt v vt u ut t tt cd]. unfold arrays_d.
  cbn [d_vertices d_normals d_uvs d_vertex_triangles d_normal_triangles d_uv_triangles d_tangents d_tangent_triangles].
  set (I := opt_seg_d XUV u ++ opt_seg_d XNormal n ++ opt_seg_d XVertex v).
  assert (HI : Forall inert_d I).
  { subst I. rewrite !Forall_app. repeat split; [destruct u|destruct n|destruct v]; constructor;
      try constructor; try reflexivity; split; auto; now apply fixed_other_d. }
  set (L := opt_seg_d XVertex v ++ opt_seg_d XNormal n ++ opt_seg_d XUV u ++ _).
  assert (R : rev L = opt_seg_d XTriTangent tt ++ opt_seg_d XTangent t ++
    (opt_seg_d XTriUV ut ++ opt_seg_d XTriNormal nt ++ opt_seg_d XTriVertex vt ++ I)).
  { subst L I. rewrite !rev_app_distr, <- !app_assoc.
    assert (RO : forall A (f : A -> xseg) o, rev (opt_seg_d f o) = opt_seg_d f o) by (now intros A f [x|]).
    now rewrite !RO. }
  unfold merge_segments_d. rewrite <- (rev_length L), R. rewrite !app_length.
  set (a := opt_seg_d XTriTangent tt). set (b := opt_seg_d XTangent t).
  set (st := opt_seg_d XTriUV ut ++ opt_seg_d XTriNormal nt ++ opt_seg_d XTriVertex vt ++ I).
  assert (E : forall f, merge_loop_d (length a + (length b + f)) (a ++ b ++ st) = a ++ b ++ merge_loop_d f st).
  { intros f. subst a b. destruct tt, t; cbn [opt_seg_d length app plus];
      repeat (rewrite merge_loop_fixed_d by (auto; now apply fixed_other_d)); reflexivity. }
  rewrite E. unfold build_d. rewrite !fold_left_app. fold (build_d a (with_custom_data_d d_empty c)).
  set (m1 := fold_left apply_d b _).
  match goal with |- fold_left apply_d ?x m1 = _ => fold (build_d x m1) end.
  subst st. rewrite build_tris_d; [|auto|rewrite !app_length; lia].
  subst m1 a b I. destruct t, tt, ut, nt, vt, u, n, v; reflexivity.
Qed.

Lemma build_customs_d cs m :
  build_d (map XCustom cs) m = with_custom_data_d m (d_custom_data m ++ cs).
Proof.
  revert m. induction cs as [|c cs IH]; intros m; cbn [map build_d fold_left].
  - rewrite app_nil_r. now destruct m.
  - unfold build_d in IH. rewrite IH. cbn [apply_d]. unfold with_custom_data_d. cbn.
    now rewrite <- app_assoc.
Qed.

(** Storing equal index arrays_d once is invisible. *)
Lemma build_merged_d m :
  build_d (merge_segments_d (tmf_segs_d m)) d_empty = with_custom_data_d m (rev (d_custom_data m)).
Proof.
  rewrite merge_segments_split_d. unfold build_d. rewrite fold_left_app.
  fold (build_d (map XCustom (rev (d_custom_data m))) d_empty). rewrite build_customs_d.
  cbn [d_custom_data d_empty app]. apply build_arrays_d.
Qed.

(** Unmerged segments build_d the dmesh itself. *)
Lemma build_unmerged_d m : build_d (tmf_segs_d m) d_empty = m.
Proof.
  assert (E : tmf_segs_d m = arrays_d m ++ map XCustom (d_custom_data m)).
  { unfold tmf_segs_d, arrays_d. now rewrite <- !app_assoc. }
  rewrite E. unfold build_d. rewrite fold_left_app.
  fold (build_d (arrays_d m) d_empty).
  replace (build_d (arrays_d m) d_empty) with (with_custom_data_d m []).
  - fold (build_d (map XCustom (d_custom_data m)) (with_custom_data_d m [])). rewrite build_customs_d.
    now destruct m.
  - destruct m as [[n|] [nt|] [v|] [vt|] [u|] [ut|] [t|] [tt|] cd]; reflexivity.
Qed.

(** ** Splitting *)

Lemma opt_vertices_concat_d lm oc fuel : forall vs segs,
  opt_vertices_fuel_d lm oc fuel vs = Ok segs -> concat segs = vs /\ segs <> [].
Proof.
  induction fuel as [|fuel IH]; intros vs segs H; [discriminate|]. cbn [opt_vertices_fuel_d] in H.
  destruct (find_best_vertex_split_d lm oc vs split_edge_d) as [[b|]| |]; try discriminate; cbn [bind] in H.
  - destruct (split_at vs b) as [[s1 s2]| |] eqn:S; try discriminate. cbn [bind] in H.
    apply split_at_app in S. subst vs.
    destruct (opt_vertices_fuel_d lm oc fuel s1) as [r1| |] eqn:E1; try discriminate. cbn [bind] in H.
    destruct (opt_vertices_fuel_d lm oc fuel s2) as [r2| |] eqn:E2; try discriminate. cbn [bind] in H.
    injection H as <-. apply IH in E1 as [<- N1]. apply IH in E2 as [<- N2].
    split; [apply concat_app|]. destruct r1; [congruence|discriminate].
  - injection H as <-. split; [apply app_nil_r|discriminate].
Qed.

(** A constructor of array segments: applying the pieces is applying the array. *)
Lemma build_pieces_d {A} (mk : list A -> xseg) :
  (forall m a b, apply_d (apply_d m (mk a)) (mk b) = apply_d m (mk (a ++ b))) ->
  forall segs m, segs <> [] -> build_d (map mk segs) m = apply_d m (mk (concat segs)).
Proof.
  intros H. induction segs as [|a segs IH]; intros m Hn; [congruence|]. cbn [map build_d fold_left concat].
  destruct segs as [|b segs]; [cbn; now rewrite app_nil_r|].
  fold (build_d (map mk (b :: segs)) (apply_d m (mk a))). rewrite IH by discriminate. apply H.
Qed.

Lemma apply_apply_vertex_d m a b : apply_d (apply_d m (XVertex a)) (XVertex b) = apply_d m (XVertex (a ++ b)).
Proof. destruct m as [n nt [v|] vt u ut t tt cd]; cbn; unfold append_vertex_triangles_d, append_normal_triangles_d, append_uv_triangles_d, extend; cbn; rewrite <- ?app_assoc; reflexivity. Qed.
Lemma apply_apply_trivertex_d m a b : apply_d (apply_d m (XTriVertex a)) (XTriVertex b) = apply_d m (XTriVertex (a ++ b)).
Proof. destruct m as [n nt v [vt|] u ut t tt cd]; cbn; unfold append_vertex_triangles_d, append_normal_triangles_d, append_uv_triangles_d, extend; cbn; rewrite <- ?app_assoc; reflexivity. Qed.
Lemma apply_apply_trinormal_d m a b : apply_d (apply_d m (XTriNormal a)) (XTriNormal b) = apply_d m (XTriNormal (a ++ b)).
Proof. destruct m as [n [nt|] v vt u ut t tt cd]; cbn; unfold append_vertex_triangles_d, append_normal_triangles_d, append_uv_triangles_d, extend; cbn; rewrite <- ?app_assoc; reflexivity. Qed.
Lemma apply_apply_triuv_d m a b : apply_d (apply_d m (XTriUV a)) (XTriUV b) = apply_d m (XTriUV (a ++ b)).
Proof. destruct m as [n nt v vt u [ut|] t tt cd]; cbn; unfold append_vertex_triangles_d, append_normal_triangles_d, append_uv_triangles_d, extend; cbn; rewrite <- ?app_assoc; reflexivity. Qed.
Lemma apply_apply_tritangent_d m a b : apply_d (apply_d m (XTriTangent a)) (XTriTangent b) = apply_d m (XTriTangent (a ++ b)).
Proof. destruct m as [n nt v vt u ut t [tt|] cd]; cbn; unfold append_vertex_triangles_d, append_normal_triangles_d, append_uv_triangles_d, extend; cbn; rewrite <- ?app_assoc; reflexivity. Qed.
Lemma append_vn_d m a b :
  append_vertex_triangles_d (append_normal_triangles_d m a) b = append_normal_triangles_d (append_vertex_triangles_d m b) a.
Proof. destruct m as [n [nt|] v [vt|] u ut t tt cd]; reflexivity. Qed.
Lemma append_vu_d m a b :
  append_vertex_triangles_d (append_uv_triangles_d m a) b = append_uv_triangles_d (append_vertex_triangles_d m b) a.
Proof. destruct m as [n nt v [vt|] u [ut|] t tt cd]; reflexivity. Qed.
Lemma append_nu_d m a b :
  append_normal_triangles_d (append_uv_triangles_d m a) b = append_uv_triangles_d (append_normal_triangles_d m b) a.
Proof. destruct m as [n [nt|] v vt u [ut|] t tt cd]; reflexivity. Qed.
Lemma apply_apply_shared_d k m a b : apply_d (apply_d m (XShared k a)) (XShared k b) = apply_d m (XShared k (a ++ b)).
Proof.
  pose proof (fun m => apply_apply_trivertex_d m a b) as V. pose proof (fun m => apply_apply_trinormal_d m a b) as N.
  pose proof (fun m => apply_apply_triuv_d m a b) as U. cbn [apply_d] in V, N, U.
  cbn [apply_d]. destruct (has_mask k MASK_VERTEX), (has_mask k MASK_NORMAL), (has_mask k MASK_UV); cbv iota;
    rewrite ?append_vu_d, ?append_vn_d, ?append_nu_d, ?V, ?N, ?U; try reflexivity.
Qed.

Lemma build_optimized_d lm oc d l m :
  optimize_d lm oc d = Ok l -> build_d l m = apply_d m d.
Proof.
  intros H. destruct d; cbn [optimize_d] in H;
  try (injection H as <-; reflexivity).
  - destruct (opt_vertices_d lm oc l0) as [o| |] eqn:O; try discriminate. injection H as <-.
    apply opt_vertices_concat_d in O as [<- O]. apply build_pieces_d; auto. apply apply_apply_vertex_d.
  - destruct (opt_tris oc l0) as [o| |] eqn:O; try discriminate. injection H as <-.
    apply opt_tris_concat in O as [<- O]. apply build_pieces_d; auto. apply apply_apply_trivertex_d.
  - destruct (opt_tris oc l0) as [o| |] eqn:O; try discriminate. injection H as <-.
    apply opt_tris_concat in O as [<- O]. apply build_pieces_d; auto. apply apply_apply_trinormal_d.
  - destruct (opt_tris oc l0) as [o| |] eqn:O; try discriminate. injection H as <-.
    apply opt_tris_concat in O as [<- O]. apply build_pieces_d; auto. apply apply_apply_triuv_d.
  - destruct (opt_tris oc l0) as [o| |] eqn:O; try discriminate. injection H as <-.
    apply opt_tris_concat in O as [<- O]. apply build_pieces_d; auto. apply apply_apply_tritangent_d.
  - destruct (opt_tris oc l0) as [o| |] eqn:O; try discriminate. injection H as <-.
    apply opt_tris_concat in O as [<- O]. apply build_pieces_d; auto. apply apply_apply_shared_d.
Qed.

Lemma build_optimize_all_d lm oc segs : forall l m,
  optimize_all_d lm oc segs = Ok l -> build_d l m = build_d segs m.
Proof.
  induction segs as [|s segs IH]; intros l m H; cbn [optimize_all_d] in H.
  - injection H as <-. reflexivity.
  - destruct (optimize_d lm oc s) as [a| |] eqn:A; try discriminate. cbn [map_err bind] in H.
    destruct (optimize_all_d lm oc segs) as [b| |] eqn:B; try discriminate. injection H as <-.
    unfold build_d. rewrite fold_left_app. fold (build_d a m). rewrite (build_optimized_d lm oc s a m A).
    cbn [fold_left]. fold (build_d b (apply_d m s)). now apply IH.
Qed.

(** ** The segments made from a dmesh, whatever the array splits *)

Definition sub_ok_d (P : xseg -> Prop) : Prop :=
  (forall a b, P (XVertex (a ++ b)) -> P (XVertex a) /\ P (XVertex b)) /\
  (forall a b, P (XTriVertex (a ++ b)) -> P (XTriVertex a) /\ P (XTriVertex b)) /\
  (forall a b, P (XTriNormal (a ++ b)) -> P (XTriNormal a) /\ P (XTriNormal b)) /\
  (forall a b, P (XTriUV (a ++ b)) -> P (XTriUV a) /\ P (XTriUV b)) /\
  (forall a b, P (XTriTangent (a ++ b)) -> P (XTriTangent a) /\ P (XTriTangent b)) /\
  (forall k a b, P (XShared k (a ++ b)) -> P (XShared k a) /\ P (XShared k b)).

Lemma pieces_all_d {A} (P : xseg -> Prop) (mk : list A -> xseg) :
  (forall a b, P (mk (a ++ b)) -> P (mk a) /\ P (mk b)) ->
  forall segs, P (mk (concat segs)) -> Forall P (map mk segs).
Proof.
  intros H. induction segs as [|a segs IH]; cbn [map concat]; intros K; constructor.
  - now apply H in K.
  - apply IH. now apply H in K.
Qed.

Lemma optimized_all_d (P : xseg -> Prop) lm oc d l :
  sub_ok_d P -> P d -> optimize_d lm oc d = Ok l -> Forall P l.
Proof.
  intros (S1 & S2 & S3 & S4 & S5 & S6) HP H. destruct d; cbn [optimize_d] in H;
  try (injection H as <-; repeat constructor; assumption).
  - destruct (opt_vertices_d lm oc l0) as [o| |] eqn:O; try discriminate. injection H as <-.
    apply opt_vertices_concat_d in O as [<- O]. now apply pieces_all_d.
  - destruct (opt_tris oc l0) as [o| |] eqn:O; try discriminate. injection H as <-.
    apply opt_tris_concat in O as [<- O]. now apply pieces_all_d.
  - destruct (opt_tris oc l0) as [o| |] eqn:O; try discriminate. injection H as <-.
    apply opt_tris_concat in O as [<- O]. now apply pieces_all_d.
  - destruct (opt_tris oc l0) as [o| |] eqn:O; try discriminate. injection H as <-.
    apply opt_tris_concat in O as [<- O]. now apply pieces_all_d.
  - destruct (opt_tris oc l0) as [o| |] eqn:O; try discriminate. injection H as <-.
    apply opt_tris_concat in O as [<- O]. now apply pieces_all_d.
  - destruct (opt_tris oc l0) as [o| |] eqn:O; try discriminate. injection H as <-.
    apply opt_tris_concat in O as [<- O]. apply pieces_all_d; auto.
Qed.

Lemma optimize_all_all_d (P : xseg -> Prop) lm oc segs : forall l,
  sub_ok_d P -> Forall P segs -> optimize_all_d lm oc segs = Ok l -> Forall P l.
Proof.
  induction segs as [|s segs IH]; intros l HS HP H; cbn [optimize_all_d] in H.
  - injection H as <-. constructor.
  - apply Forall_cons_iff in HP as [HP1 HP2].
    destruct (optimize_d lm oc s) as [a| |] eqn:A; try discriminate. cbn [map_err bind] in H.
    destruct (optimize_all_d lm oc segs) as [b| |] eqn:B; try discriminate. injection H as <-.
    apply Forall_app. split; [eapply optimized_all_d; eauto|eapply IH; eauto].
Qed.

(** Merging only produces shared segments whose list was in an index segment. *)
Lemma merge_all_keeps_d (P : xseg -> Prop) others : forall seg seg' others',
  P XNothing ->
  (forall l, (P (XTriVertex l) \/ P (XTriNormal l) \/ P (XTriUV l) \/ (exists k, P (XShared k l))) -> forall k, (0 < k < 8)%N -> P (XShared k l)) ->
  (forall k l, P (XShared k l) -> (0 < k < 8)%N) ->
  P seg -> Forall P others -> merge_all_d seg others = (seg', others') ->
  P seg' /\ Forall P others'.
Proof.
  induction others as [|o others IH]; intros seg seg' others' H0 HS HK H1 H2 E; cbn [merge_all_d] in E.
  - injection E as <- <-. auto.
  - apply Forall_cons_iff in H2 as [Ho H2].
    destruct (merge_d seg o) as [s1 o1] eqn:M. destruct (merge_all_d s1 others) as [s2 t2] eqn:MA.
    injection E as <- <-.
    assert (P s1 /\ P o1) as [P1 P2].
    { unfold merge_d in M. destruct (as_triangles_d o) as [[l k]|] eqn:AT; [|injection M as <- <-; auto].
      assert (Kk : k = 1%N \/ k = 2%N).
      { destruct o; cbn in AT; try discriminate; injection AT as <- <-; auto. }
      assert (LK : forall kind, (0 < kind < 8)%N -> (0 < N.lor kind k < 8)%N).
      { intros kind Hk. assert (kind = 1 \/ kind = 2 \/ kind = 3 \/ kind = 4 \/ kind = 5 \/ kind = 6 \/ kind = 7)%N as D by lia.
        destruct Kk as [-> | ->]; destruct D as [-> | [-> | [-> | [-> | [-> | [-> | ->]]]]]]; cbn; lia. }
      destruct seg; cbv beta iota zeta in M; try (injection M as <- <-; auto);
      match type of M with context [list_eqb ?a ?b] => destruct (list_eqb a b) end;
        apply pair_equal_spec in M as [<- <-]; auto; (split; [|auto]); (apply HS; [eauto 6|apply LK]);
        solve [eapply HK; eassumption|unfold MASK_VERTEX, MASK_NORMAL, MASK_UV; lia]. }
    destruct (IH _ _ _ H0 HS HK P1 H2 MA). auto.
Qed.

Lemma merge_loop_keeps_d (P : xseg -> Prop) fuel : forall st,
  P XNothing ->
  (forall l, (P (XTriVertex l) \/ P (XTriNormal l) \/ P (XTriUV l) \/ (exists k, P (XShared k l))) -> forall k, (0 < k < 8)%N -> P (XShared k l)) ->
  (forall k l, P (XShared k l) -> (0 < k < 8)%N) ->
  Forall P st -> Forall (fun d => P d /\ is_something_d d = true) (merge_loop_d fuel st).
Proof.
  induction fuel as [|fuel IH]; intros st H0 HS HK HP; [constructor|]. cbn [merge_loop_d].
  destruct st as [|d rest]; [constructor|]. apply Forall_cons_iff in HP as [Hd HP].
  destruct (is_something_d d) eqn:D; [|auto].
  destruct (merge_all_d d (rev rest)) as [seg others] eqn:M.
  assert (SS : is_something_d seg = true).
  { clear -M D. revert d seg others M D. induction (rev rest) as [|o l IHl]; intros d seg others M D; cbn [merge_all_d] in M.
    - injection M as <- <-. auto.
    - destruct (merge_d d o) as [s1 o1] eqn:MM. destruct (merge_all_d s1 l) as [s2 t2] eqn:MA. injection M as <- <-.
      eapply IHl; [exact MA|]. unfold merge_d in MM. destruct (as_triangles_d o) as [[l' k]|]; [|injection MM as <- <-; auto].
      destruct d; cbn in MM; try (injection MM as <- <-; auto);
        match type of MM with context [list_eqb ?a ?b] => destruct (list_eqb a b) end; injection MM as <- <-; auto. }
  apply (merge_all_keeps_d P) in M as [M1 M2]; auto; [|now apply Forall_rev].
  constructor; auto. apply IH; auto. now apply Forall_rev.
Qed.
