From Coq Require Import List NArith ZArith Arith Lia Bool FunctionalExtensionality.
From Verif Require Import Base BitSpec BitLemmas UnalignedRW UnalignedRW_proofs ReadExt ByteLemmas Triangles
  TriSpec Triangles_proofs OptTris OptTris_proofs Floats Utilis Unify Vertices Uv Normals CustomData Mesh Tmf File FileSpec
  Parse_proofs File_proofs NoPanic_proofs ValueSpec PlatformSpec Platform_proofs IndexWidth IndexSpec.
Import ListNotations.
Open Scope res_scope.

(** ** 32 bits is the model of the other files *)
Lemma add_min_32 oc i m : add_min_w 32 oc i m = add_min oc i m.
Proof. reflexivity. Qed.
Lemma triangles_32 oc ctx src : read_triangles_w 32 oc ctx src = read_triangles oc ctx src.
Proof. reflexivity. Qed.
Lemma read_tmf_32 lm oc src : read_tmf_w 32 lm oc src = read_tmf lm oc src.
Proof. reflexivity. Qed.
Lemma read_tmf_one_32 lm oc src : read_tmf_one_w 32 lm oc src = read_tmf_one lm oc src.
Proof. reflexivity. Qed.
Lemma write_tmf_32 lm oc p l : write_tmf_w 32 lm oc p l = write_tmf lm oc p l.
Proof. reflexivity. Qed.
Lemma verify_32 m : verify_tmf_mesh_w 32 m = verify_tmf_mesh m.
Proof. reflexivity. Qed.

(** ** Loading with two widths *)
Lemma max_or_largest_aux l : forall x, fold_left N.max l x = N.max x (largest l).
Proof. induction l as [|y l IH]; intros x; cbn; [lia|]. rewrite IH. fold (largest l). lia. Qed.
Lemma max_or_largest l : max_or 0 l = largest l.
Proof. destruct l as [|x l]; [reflexivity|]. cbn. rewrite max_or_largest_aux. reflexivity. Qed.

Section Two.
Variables (v w : nat).
Hypothesis VW : w <= v.
Lemma cut_mod s : cut w (s mod imod v) = (s mod imod w)%N.
Proof.
  unfold cut, imod. replace v with (w + (v - w)) by lia. rewrite Nat2N.inj_add, N.pow_add_r.
  rewrite N.mod_mul_r by (apply N.pow_nonzero; discriminate).
  rewrite N.mul_comm, N.mod_add by (apply N.pow_nonzero; discriminate).
  apply N.mod_mod. apply N.pow_nonzero; discriminate.
Qed.
Definition cutl (l l' : list N) : Prop := l' = map (cut w) l.
Lemma so_add oc i m : same_outcome (fun a b => b = cut w a) (add_min_w v oc i m) (add_min_w w oc i m).
Proof. unfold add_min_w. destruct (add64 oc i m); cbn; auto. now rewrite cut_mod. Qed.
Lemma so_id {E A B} (S : B -> B -> Prop) (m : res E A) (k k' : A -> res E B) :
  (forall a, same_outcome S (k a) (k' a)) -> same_outcome S (bind m k) (bind m k').
Proof. destruct m; cbn; auto. Qed.

Lemma so_pairs oc n : forall r p m acc acc', cutl acc acc' ->
  same_outcome (fun x y => cutl (fst x) (fst y) /\ snd x = snd y)
    (read_tri_pairs_w v oc n r p m acc) (read_tri_pairs_w w oc n r p m acc').
Proof.
  induction n as [|n IH]; intros r p m acc acc' C; cbn [read_tri_pairs_w]; [split; auto|].
  apply so_id. intros [q r1]. eapply so_bind; [apply so_add|]. intros a a' ->.
  eapply so_bind; [apply so_add|]. intros b b' ->. apply IH. unfold cutl in *. subst acc'. now rewrite map_app.
Qed.
Lemma so_triangles oc ctx src : same_outcome cutl (read_triangles_w v oc ctx src) (read_triangles_w w oc ctx src).
Proof.
  unfold read_triangles_w. apply so_id. intros [p s1]. apply so_id. intros [n s2]. apply so_id. intros [m s3].
  destruct (_ <? _)%N; [reflexivity|]. cbv zeta. eapply so_bind; [apply so_pairs; reflexivity|].
  intros [l r] [l' r'] [C E]. cbn [fst snd] in *. subst r'. destruct (_ =? _)%N; [exact C|].
  apply so_id. intros [i r2]. eapply so_bind; [apply so_add|]. intros a a' ->. cbn. unfold cutl in *. subst l'. now rewrite map_app.
Qed.

Definition cutc (c c' : cells) : Prop := c' = map (option_map (cut w)) c.
Lemma so_set c c' i x : cutc c c' -> same_outcome cutc (set_cell c i x) (set_cell c' i (cut w x)).
Proof.
  intros ->. revert i. induction c as [|o c IH]; intros i; [reflexivity|]. destruct i as [|i]; cbn; [reflexivity|].
  eapply so_bind; [apply IH|]. intros a b ->. reflexivity.
Qed.
Lemma so_default_pairs oc n : forall i r p m c c', cutc c c' ->
  same_outcome (fun x y => cutc (fst x) (fst y) /\ snd x = snd y)
    (default_tri_pairs_w v oc n i r p m c) (default_tri_pairs_w w oc n i r p m c').
Proof.
  induction n as [|n IH]; intros i r p m c c' C; cbn [default_tri_pairs_w]; [split; auto|].
  apply so_id. intros [q r1]. eapply so_bind; [apply so_add|]. intros a a' ->.
  eapply so_bind; [apply so_set; exact C|]. intros d d' D.
  eapply so_bind; [apply so_add|]. intros b b' ->.
  eapply so_bind; [apply so_set; exact D|]. intros f f' F. now apply IH.
Qed.
Lemma written_cut c c' : cutc c c' -> written c' = option_map (map (cut w)) (written c).
Proof.
  intros ->. induction c as [|[x|] c IH]; cbn; auto. rewrite IH. destruct (written c); reflexivity.
Qed.
Lemma so_default oc ctx src : same_outcome cutl (read_default_triangles_w v oc ctx src) (read_default_triangles_w w oc ctx src).
Proof.
  unfold read_default_triangles_w. eapply so_bind with (R := cutc).
  2:{ intros c c' C. rewrite (written_cut c c' C). destruct (written c); cbn; auto. reflexivity. }
  unfold read_default_cells_w. apply so_id. intros [p s1]. apply so_id. intros [n s2]. apply so_id. intros [m s3].
  destruct (_ <? _)%N; [reflexivity|]. cbv zeta.
  assert (N0 : cutc (repeat None (N.to_nat n + 0)) (repeat None (N.to_nat n + 0))).
  { unfold cutc. induction (N.to_nat n + 0); cbn; congruence. }
  eapply so_bind with (R := cutc).
  2:{ intros c c' ->. unfold cutc. cbn [same_outcome]. unfold cutc. now rewrite firstn_map. }
  destruct (p =? 0)%N.
  - cbn [same_outcome]. unfold cutc. rewrite !map_map. apply map_ext. intros _. cbn [option_map]. unfold cut.
    rewrite N.mod_0_l; [reflexivity|]. apply N.pow_nonzero; discriminate.
  - eapply so_bind; [apply so_default_pairs; exact N0|]. intros [c r] [c' r'] [C E]. cbn [fst snd] in *. subst r'.
    destruct (_ =? _)%N; [exact C|]. apply so_id. intros [i r2]. eapply so_bind; [apply so_add|]. intros a a' ->.
    now apply so_set.
Qed.

Definition cut_dseg (d d' : dseg) : Prop :=
  match d with
  | DTriVertex l => d' = DTriVertex (map (cut w) l)
  | DTriNormal l => d' = DTriNormal (map (cut w) l)
  | DTriUV l => d' = DTriUV (map (cut w) l)
  | DTriTangent l => d' = DTriTangent (map (cut w) l)
  | DShared k l => d' = DShared k (map (cut w) l)
  | DCustom s => exists s', d' = DCustom s' /\ cut_custom w s s'
  | _ => d' = d
  end.
Lemma so_decode_w lm oc ctx s : same_outcome cut_dseg (decode_w v lm oc ctx s) (decode_w w lm oc ctx s).
Proof.
  assert (T : same_outcome cutl (decode_triangle_data_w v oc ctx s) (decode_triangle_data_w w oc ctx s)).
  { unfold decode_triangle_data_w. destruct (e_comp s); try reflexivity. apply so_default. }
  unfold decode_w.
  destruct (e_type s); try reflexivity;
    try (eapply so_bind; [exact T|]; intros l l' ->; reflexivity);
    try (apply so_id; intros l; reflexivity).
  - eapply so_bind with (R := cut_custom w).
    2:{ intros a b C. cbn. eauto. }
    unfold cseg_read_w. apply so_id. intros [n s1]. apply so_id. intros [nm s2].
    destruct k.
    + eapply so_bind with (R := fun d d' => exists l, d = new_index l /\ d' = new_index (map (cut w) l)).
      { eapply so_bind; [apply so_triangles|]. intros l l' ->. cbn. eauto. }
      intros d d' (l & -> & ->). cbn. repeat split; auto. cbn. unfold new_index. now rewrite <- max_or_largest.
    + eapply so_bind with (R := fun d d' => exists l, d = new_integer l /\ d' = new_integer (map (cut w) l)).
      { eapply so_bind; [apply so_triangles|]. intros l l' ->. cbn. eauto. }
      intros d d' (l & -> & ->). cbn. repeat split; auto. cbn. unfold new_integer. now rewrite <- max_or_largest.
    + destruct (read_custom_float s2) as [d|e|] eqn:E; cbn [bind same_outcome]; auto. repeat split. cbn.
      unfold read_custom_float in E.
      repeat match type of E with
      | bind ?m _ = _ => destruct m as [[]|?|]; cbn [bind] in E; try discriminate E
      | (if ?b then _ else _) = _ => destruct b; try discriminate E
      end. 
      all: try (injection E as <-; reflexivity).
      all: match type of E with bind ?m _ = _ => destruct m as [|?|]; cbn [bind] in E; try discriminate E end; injection E as <-; reflexivity.
    + destruct (read_custom_color oc s2) as [d|e|] eqn:E; cbn [bind same_outcome]; auto. repeat split. cbn.
      unfold read_custom_color in E.
      destruct (io (read_u64 s2)) as [[n1 s3]|e|]; cbn [bind] in E; try discriminate E.
      destruct (io (read_u8 s3)) as [[n2 s4]|e|]; cbn [bind] in E; try discriminate E.
      destruct (negb _); try discriminate E.
      destruct (shl64 _ _ _); cbn [bind] in E; try discriminate E.
      destruct (read_color_loop _ _ _ _ _ _); cbn [bind] in E; try discriminate E. injection E as <-. reflexivity.
  - destruct (e_data s) as [|kd dt]; [reflexivity|]. destruct (e_comp s); try reflexivity.
    eapply so_bind; [apply so_default|]. intros x y ->. reflexivity.
Qed.

Lemma apply_cut d d' m m' nm : cut_dseg d d' -> cut_mesh w (m, nm) (m', nm) ->
  cut_mesh w (apply m d, nm) (apply m' d', nm).
Proof.
  intros D [N1 V1 N2 U1 TT1 T1 T2 T3 T4 C]. cbn [fst snd] in *.
  destruct m, m'; cbn [Mesh.normals Mesh.normal_triangles Mesh.vertices Mesh.vertex_triangles Mesh.uvs Mesh.uv_triangles Mesh.tangents
    Mesh.tangent_triangles Mesh.custom_data] in *. subst.
  destruct d; cbn [cut_dseg] in D;
    try match type of D with exists _, _ => destruct D as (s' & D & DC) end; subst d'; cbn [apply].
  all: unfold append_vertices, append_uvs, append_normals, append_tangents, append_vertex_triangles, append_normal_triangles, append_uv_triangles,
     append_tangent_triangles, add_custom_data_seg, set_vertices, set_uvs, set_normals, set_tangents, set_vertex_triangles, set_normal_triangles,
     set_uv_triangles, set_tangent_triangles;
     repeat match goal with |- context [has_mask ?a ?b] => destruct (has_mask a b) end;
     cbn [Mesh.normals Mesh.normal_triangles Mesh.vertices Mesh.vertex_triangles Mesh.uvs Mesh.uv_triangles Mesh.tangents
      Mesh.tangent_triangles Mesh.custom_data with_vertices with_normals with_tangents with_uvs with_vertex_triangles with_normal_triangles with_uv_triangles
      with_tangent_triangles with_custom_data fst snd cut_array option_map];
     repeat (match goal with |- context [match ?x with Some _ => _ | None => _ end] => is_var x; destruct x end;
     cbn [Mesh.normals Mesh.normal_triangles Mesh.vertices Mesh.vertex_triangles Mesh.uvs Mesh.uv_triangles Mesh.tangents
      Mesh.tangent_triangles Mesh.custom_data with_vertices with_normals with_tangents with_uvs with_vertex_triangles with_normal_triangles with_uv_triangles
      with_tangent_triangles with_custom_data fst snd cut_array option_map]);
     constructor; cbn; rewrite ?map_app; auto.
  apply Forall2_app; auto.
Qed.
Lemma fold_cut ds ds' nm : Forall2 cut_dseg ds ds' -> forall m m', cut_mesh w (m, nm) (m', nm) ->
  cut_mesh w (fold_left apply ds m, nm) (fold_left apply ds' m', nm).
Proof.
  induction 1 as [|d d' ds ds' D F IH]; intros m m' H; cbn [fold_left]; auto. apply IH. now apply apply_cut.
Qed.
Lemma so_mesh_w lm oc ctx src :
  same_outcome (fun x y => cut_mesh w (fst x) (fst y) /\ snd x = snd y) (import_mesh_w v lm oc ctx src) (import_mesh_w w lm oc ctx src).
Proof.
  unfold import_mesh_w. apply so_id. intros [name s1]. apply so_id. intros [n s2]. apply so_id. intros [l s3].
  apply so_bind with (R := Forall2 cut_dseg).
  - apply so_join. induction l as [|e l IH]; cbn [map]; constructor; auto. apply so_decode_w.
  - intros ds ds' F. cbn [same_outcome fst snd]. split; [|auto]. apply fold_cut; auto. constructor; cbn; auto.
Qed.
Lemma so_meshes_w lm oc ctx n : forall src,
  same_outcome (fun x y => Forall2 (cut_mesh w) (fst x) (fst y)) (import_meshes_w v lm oc ctx n src) (import_meshes_w w lm oc ctx n src).
Proof.
  induction n as [|n IH]; intros src; cbn [import_meshes_w]; [constructor|].
  eapply so_bind; [apply so_mesh_w|]. intros [m s1] [m' s1'] (A & B). cbn [fst snd] in *. subst s1'.
  eapply so_bind; [apply IH|]. intros [l s] [l' s'] F. cbn [fst] in *. now constructor.
Qed.
Lemma so_read_w lm oc src : same_outcome (Forall2 (cut_mesh w)) (read_tmf_w v lm oc src) (read_tmf_w w lm oc src).
Proof.
  unfold read_tmf_w, import_w.
  apply so_bind with (R := fun x y => Forall2 (cut_mesh w) (fst x) (fst y)).
  2:{ intros [l s] [l' s'] F. exact F. }
  apply so_id. intros [h s]. apply so_id. intros [n s1]. apply so_meshes_w.
Qed.
Lemma so_read_one_w lm oc src : same_outcome (cut_mesh w) (read_tmf_one_w v lm oc src) (read_tmf_one_w w lm oc src).
Proof.
  unfold read_tmf_one_w. eapply so_bind; [apply so_read_w|]. intros l l' F.
  destruct F as [|a a' l l' A F]; [reflexivity|]. destruct F; [exact A|reflexivity].
Qed.
End Two.

(** ** Indices that fit *)
Lemma cut_fits w l : fits_all w l -> map (cut w) l = l.
Proof.
  intros F. rewrite <- (map_id l) at 2. apply map_ext_in. intros i I. unfold fits_all in F. rewrite Forall_forall in F.
  unfold cut. apply N.mod_small. auto.
Qed.
Lemma cut_fits_opt w o : fits_opt w o -> cut_array w o = o.
Proof. destruct o; cbn; auto. intros F. now rewrite cut_fits. Qed.

(** ** Splitting does not depend on the start value *)
Lemma scan_min_start {E} oc tris total best M M' :
  Forall (fun i => (i <= M)%N) tris -> Forall (fun i => (i <= M')%N) tris ->
  @scan_min E oc tris 0 M total best = scan_min oc tris 0 M' total best.
Proof.
  intros A B. destruct tris as [|x t]; [reflexivity|]. apply Forall_inv in A. apply Forall_inv in B.
  cbn [scan_min]. rewrite !N.min_r by auto. reflexivity.
Qed.
Lemma fits_split {E} w tris i a b : fits_all w tris -> @split_at E N tris i = Ok (a, b) -> fits_all w a /\ fits_all w b.
Proof.
  intros F. unfold split_at. destruct (_ <=? _); [|discriminate]. intros [= <- <-]. split; [now apply Forall_firstn|now apply Forall_skipn].
Qed.
Lemma opt_tris_same v w oc fuel : forall tris, fits_all v tris -> fits_all w tris ->
  opt_tris_fuel_w v oc fuel tris = opt_tris_fuel_w w oc fuel tris.
Proof.
  induction fuel as [|fuel IH]; intros tris A B; cbn [opt_tris_fuel_w]; [reflexivity|].
  assert (K : forall i, (let* (s1, s2) := split_at tris i in
      let* r_1 := opt_tris_fuel_w v oc fuel s1 in
      let* r_2 := opt_tris_fuel_w v oc fuel s2 in Ok (r_1 ++ r_2)) =
      (let* (s1, s2) := split_at tris i in
      let* r_1 := opt_tris_fuel_w w oc fuel s1 in
      let* r_2 := opt_tris_fuel_w w oc fuel s2 in Ok (r_1 ++ r_2))).
  { intros i. destruct (split_at tris i) as [[a b]|e|] eqn:S; try reflexivity. cbn [bind].
    destruct (fits_split _ _ _ _ _ A S) as [A1 A2]. destruct (fits_split _ _ _ _ _ B S) as [B1 B2].
    rewrite (IH a), (IH b) by auto. reflexivity. }
  destruct (scan_max _ _ _ _ _ _) as [b|e|]; try reflexivity. cbn [bind]. destruct (_ <? _)%Z; [apply K|].
  rewrite (scan_min_start oc tris _ _ (imod v - 1) (imod w - 1)).
  - destruct (scan_min _ _ _ _ _ _) as [b'|e|]; try reflexivity. cbn [bind]. destruct (_ <? _)%Z; [apply K|]. reflexivity.
  - eapply Forall_impl; [|exact A]. intros i I. unfold imod. cbv beta in I. lia.
  - eapply Forall_impl; [|exact B]. intros i I. unfold imod. cbv beta in I. lia.
Qed.

(** The index array of a segment fits. *)
Definition dfits (w : nat) (d : dseg) : Prop :=
  match d with
  | DTriVertex l | DTriNormal l | DTriUV l | DTriTangent l | DShared _ l => fits_all w l
  | _ => True
  end.
Lemma optimize_same v w lm oc d : dfits v d -> dfits w d -> optimize_w v lm oc d = optimize_w w lm oc d.
Proof.
  destruct d; cbn [dfits optimize_w]; intros A B; try reflexivity; unfold opt_tris_w; now rewrite (opt_tris_same v w).
Qed.
Lemma optimize_all_same v w lm oc l : Forall (dfits v) l -> Forall (dfits w) l -> optimize_all_w v lm oc l = optimize_all_w w lm oc l.
Proof.
  induction l as [|d l IH]; intros A B; [reflexivity|]. apply Forall_cons_iff in A as [A1 A2]. apply Forall_cons_iff in B as [B1 B2].
  cbn [optimize_all_w]. rewrite (optimize_same v w) by auto. now rewrite IH.
Qed.
Lemma merge_fits w a b : dfits w a -> dfits w b -> dfits w (fst (merge a b)) /\ dfits w (snd (merge a b)).
Proof.
  intros A B. unfold merge. destruct (as_triangles b) as [[l k]|]; [|auto].
  destruct a; cbn [fst snd]; auto; destruct (list_eqb _ _); cbn [fst snd]; auto; split; auto; exact I.
Qed.
Lemma merge_all_fits w l : forall a, dfits w a -> Forall (dfits w) l ->
  dfits w (fst (merge_all a l)) /\ Forall (dfits w) (snd (merge_all a l)).
Proof.
  induction l as [|o l IH]; intros a A B; cbn [merge_all]; [auto|]. apply Forall_cons_iff in B as [B1 B2].
  pose proof (merge_fits w a o A B1) as [M1 M2]. destruct (merge a o) as [a' o']. cbn [fst snd] in *.
  pose proof (IH a' M1 B2) as [I1 I2]. destruct (merge_all a' l) as [a'' l']. cbn [fst snd] in *. auto.
Qed.
Lemma merge_loop_fits w fuel : forall l, Forall (dfits w) l -> Forall (dfits w) (merge_loop fuel l).
Proof.
  induction fuel as [|fuel IH]; intros l F; cbn [merge_loop]; [constructor|]. destruct F as [|d l D F]; [constructor|].
  destruct (is_something d); [|auto].
  pose proof (merge_all_fits w (rev l) d D (Forall_rev F)) as [I1 I2]. destruct (merge_all d (rev l)) as [a'' l']. cbn [fst snd] in *.
  constructor; auto. apply IH. now apply Forall_rev.
Qed.
Lemma opt_seg_fits w (f : list N -> dseg) o : (forall l, fits_all w l -> dfits w (f l)) -> fits_opt w o -> Forall (dfits w) (opt_seg f o).
Proof. destruct o; cbn; auto. Qed.
Lemma segs_fit w m : indices_fit w m -> Forall (dfits w) (merge_segments (tmf_segs m)).
Proof.
  intros [A B C D E]. unfold merge_segments. apply merge_loop_fits, Forall_rev. unfold tmf_segs. rewrite !Forall_app.
  repeat split; try (apply opt_seg_fits; auto; fail); try (match goal with |- Forall _ (opt_seg _ ?o) => destruct o; cbn; repeat constructor end).
  generalize (custom_data m). clear. intros cl. induction cl; cbn; auto. constructor; auto. exact I.
Qed.
Lemma write_meshes_same v w lm oc p l : Forall (fun x => indices_fit v (fst x)) l -> Forall (fun x => indices_fit w (fst x)) l ->
  write_meshes_w v lm oc p l = write_meshes_w w lm oc p l.
Proof.
  induction l as [|[m nm] l IH]; intros A B; [reflexivity|]. apply Forall_cons_iff in A as [A1 A2]. apply Forall_cons_iff in B as [B1 B2].
  cbn [write_meshes_w fst] in *. unfold write_mesh_w. rewrite (optimize_all_same v w) by now apply segs_fit. now rewrite IH.
Qed.
Lemma write_same v w lm oc p l : Forall (fun x => indices_fit v (fst x)) l -> Forall (fun x => indices_fit w (fst x)) l ->
  write_tmf_w v lm oc p l = write_tmf_w w lm oc p l.
Proof. intros A B. unfold write_tmf_w. now rewrite (write_meshes_same v w). Qed.
