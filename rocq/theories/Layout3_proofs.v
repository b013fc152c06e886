(** The order of the segments of a mesh. *)
From Coq Require Import List NArith ZArith Arith Lia Bool.
From Verif Require Import Base BitSpec BitLemmas UnalignedRW UnalignedRW_proofs ReadExt ByteLemmas Triangles TriSpec Floats Utilis Unify Vertices Uv Normals CustomData Mesh Tmf File FileSpec File_proofs NoPanic_proofs
  LayoutSpec Layout_proofs Layout2_proofs.
Import ListNotations.
Open Scope res_scope.

Definition dparts (d : dseg) : list N :=
  match d with
  | DNothing => [] | DVertex _ => [1] | DNormal _ => [3] | DUV _ => [5] | DTangent _ => [9]
  | DTriVertex _ => [2] | DTriNormal _ => [4] | DTriUV _ => [6] | DTriTangent _ => [10] | DShared _ _ => [2; 4; 6] | DCustom _ => [0]
  end%N.
Lemma code_of k : match section_from_u8 k with
  | SInvalid => True | SVertex => k = 1 | SVertexTri => k = 2 | SNormal => k = 3 | SNormalTri => k = 4 | SUv => k = 5 | SUvTri => k = 6
  | STangent => k = 9 | STangentTri => k = 10 | SShared => k = 25
  | SCustom c => k = match c with KIndex => 15 | KFloat => 16 | KColor => 23 | KInteger => 24 end
  end%N.
Proof. destruct k as [|k]; [exact I|]. do 5 (destruct k as [k|k|]; try exact I; try reflexivity). Qed.
Lemma decode_parts lm oc ctx s d : decode lm oc ctx (eseg_at s) = Ok d -> forall p, In p (dparts d) -> In p (parts (r_kind s)).
Proof.
  unfold decode, eseg_at. cbn [e_type e_comp e_data]. unfold section_from_u16. destruct (N.ltb_spec 255 (r_kind s)) as [|K]; [intros [= <-]; contradiction|].
  pose proof (code_of (r_kind s)) as S. set (k := r_kind s) in *. clearbody k.
  destruct (section_from_u8 k) as [| | | | | | | | |ck|]; try subst k.
  - intros [= <-]. contradiction.
  - destruct (read_tmf_vertices _); cbn [bind]; try discriminate. intros [= <-] p P. exact P.
  - destruct (decode_triangle_data _ _ _); cbn [bind]; try discriminate. intros [= <-] p P. exact P.
  - destruct (read_normal_array _ _ _); cbn [bind]; try discriminate. intros [= <-] p P. exact P.
  - destruct (decode_triangle_data _ _ _); cbn [bind]; try discriminate. intros [= <-] p P. exact P.
  - destruct (read_uvs _ _); cbn [bind]; try discriminate. intros [= <-] p P. exact P.
  - destruct (decode_triangle_data _ _ _); cbn [bind]; try discriminate. intros [= <-] p P. exact P.
  - destruct (read_tangents _ _); cbn [bind]; try discriminate. intros [= <-] p P. exact P.
  - destruct (decode_triangle_data _ _ _); cbn [bind]; try discriminate. intros [= <-] p P. exact P.
  - destruct (cseg_read _ _ _ _); cbn [bind]; try discriminate. intros [= <-]. destruct ck; intros p P; exact P.
  - destruct (r_payload s); cbn [bind]; try discriminate. destruct (comp_of _); cbn [bind]; try discriminate. destruct (read_default_triangles _ _ _); cbn [bind]; try discriminate.
    intros [= <-] p P. exact P.
Qed.
Lemma apply_swap m a b : (forall p, In p (dparts a) -> ~ In p (dparts b)) -> apply (apply m a) b = apply (apply m b) a.
Proof.
  intros D. destruct a, b; try reflexivity;
    try (exfalso; match type of D with forall p, In p (dparts ?x) -> _ => apply (D (hd 0%N (dparts x))) end; cbn; tauto);
    try (exfalso; apply (D 2%N); cbn; tauto); try (exfalso; apply (D 4%N); cbn; tauto); try (exfalso; apply (D 6%N); cbn; tauto);
    cbn [apply]; repeat match goal with |- context [has_mask ?m ?x] => destruct (has_mask m x) end;
    destruct m as [ns nts vs vts us uts ts tts cd];
    unfold append_vertices, append_normals, append_uvs, append_tangents, append_vertex_triangles, append_normal_triangles, append_uv_triangles,
      append_tangent_triangles, add_custom_data_seg; cbn;
    repeat match goal with |- context [match ?o with Some _ => _ | None => _ end] => is_var o; destruct o; cbn end; reflexivity.
Qed.

Section Order.
Variables (lm : libm) (oc : bool) (ctx : import_ctx).
Definition dec (s : raw_seg) : res ierr dseg := decode lm oc ctx (eseg_at s).
Lemma collect_Ok {E A} (l : list (res E A)) ds : collect l = Ok ds <-> Forall2 (fun r d => r = Ok d) l ds.
Proof.
  revert ds. induction l as [|r l IH]; intros ds; cbn [collect].
  - split; [intros [= <-]; constructor|intros F; inversion F; reflexivity].
  - destruct r as [a| |]; cbn [bind].
    + destruct (collect l) as [ds'| |] eqn:E1; cbn [bind].
      * split; [intros [= <-]; constructor; auto; now apply IH|]. intros F. inversion F as [|? ? ? ? E2 F2]; subst. injection E2 as ->.
        apply IH in F2. injection F2 as ->. reflexivity.
      * split; [discriminate|]. intros F. inversion F as [|? ? ? ? E2 F2]; subst. apply IH in F2. discriminate.
      * split; [discriminate|]. intros F. inversion F as [|? ? ? ? E2 F2]; subst. apply IH in F2. discriminate.
    + split; [discriminate|]. intros F. inversion F. discriminate.
    + split; [discriminate|]. intros F. inversion F. discriminate.
Qed.
Lemma join_Ok {A} (l : list (res ierr A)) ds : join_collect l = Ok ds <-> Forall2 (fun r d => r = Ok d) l ds.
Proof.
  unfold join_collect. destruct (existsb is_panic l) eqn:P; [|apply collect_Ok]. split; [discriminate|]. intros F. exfalso.
  apply existsb_exists in P as (r & I & P). induction F as [|x d l ds E F IH]; [contradiction|]. destruct I as [-> |I]; [subst r; discriminate|auto].
Qed.
Lemma join_Panic {A} (l : list (res ierr A)) : join_collect l = Panic <-> In Panic l.
Proof.
  unfold join_collect. destruct (existsb is_panic l) eqn:P.
  - split; auto. intros _. apply existsb_exists in P as (r & I & P). destruct r; try discriminate. exact I.
  - assert (N : ~ In Panic l).
    { intros I. assert (existsb is_panic l = true) by (apply existsb_exists; exists Panic; auto). congruence. }
    split; [|tauto]. intros C. exfalso. clear P. induction l as [|x l IH]; [discriminate|]. cbn [collect] in C.
    destruct x; cbn [bind] in C; try discriminate; [|apply N; now left].
    destruct (collect l); try discriminate. apply IH; auto. intros I. apply N. now right.
Qed.
Lemma rearranged_In l l' : rearranged l l' -> forall s, In s l <-> In s l'.
Proof.
  induction 1 as [l|l s t r I|l m r A IH1 B IH2]; intros x; [tauto| |rewrite IH1; apply IH2].
  rewrite !in_app_iff. cbn. tauto.
Qed.
Lemma rearranged_length l l' : rearranged l l' -> length l = length l'.
Proof. induction 1; [reflexivity|rewrite !app_length; reflexivity|congruence]. Qed.
Lemma rearranged_sym l l' : rearranged l l' -> rearranged l' l.
Proof.
  induction 1; [constructor|apply re_swap|eapply re_trans; eauto]. intros p A B. exact (H p B A).
Qed.
Lemma swap_fold l l' : rearranged l l' -> forall ds, Forall2 (fun s d => dec s = Ok d) l ds ->
  exists ds', Forall2 (fun s d => dec s = Ok d) l' ds' /\ forall m, fold_left apply ds m = fold_left apply ds' m.
Proof.
  induction 1 as [l|l s t r I|l m r A IH1 B IH2]; intros ds F.
  - exists ds. auto.
  - apply Forall2_app_inv_l in F as (d1 & d2 & F1 & F2 & ->). inversion F2 as [|? a ? d3 E1 F3]; subst. inversion F3 as [|? b ? d4 E2 F4]; subst.
    exists (d1 ++ b :: a :: d4). split; [apply Forall2_app; auto|]. intros m. rewrite !fold_left_app. cbn [fold_left]. f_equal.
    apply apply_swap. intros p P1 P2. apply (I p); eapply decode_parts; eauto.
  - destruct (IH1 ds F) as (d1 & F1 & E1). destruct (IH2 d1 F1) as (d2 & F2 & E2). exists d2. split; auto. intros m'. rewrite E1. apply E2.
Qed.
Lemma Forall2_map_l {A B C} (f : A -> B) (P : B -> C -> Prop) l l' : Forall2 P (map f l) l' <-> Forall2 (fun a c => P (f a) c) l l'.
Proof.
  split.
  - revert l'. induction l as [|a l IH]; intros l' F; inversion F; subst; constructor; auto.
  - induction 1; constructor; auto.
Qed.
Lemma load_order name l l' : rearranged l l' -> forall x, load_at lm oc ctx (name, l) = Ok x -> load_at lm oc ctx (name, l') = Ok x.
Proof.
  intros R x. unfold load_at. cbn [fst snd]. rewrite !map_map. destruct (join_collect (map _ l)) as [ds| |] eqn:E; try discriminate. cbn [bind]. intros [= <-].
  apply join_Ok in E. rewrite Forall2_map_l in E. destruct (swap_fold l l' R ds E) as (ds' & F & EQ).
  assert (J : join_collect (map (fun x => decode lm oc ctx (eseg_at x)) l') = Ok ds') by (apply join_Ok, Forall2_map_l; exact F).
  rewrite J. cbn [bind]. now rewrite EQ.
Qed.
Lemma load_order_panic name l l' : rearranged l l' -> load_at lm oc ctx (name, l) = Panic -> load_at lm oc ctx (name, l') = Panic.
Proof.
  intros R. unfold load_at. cbn [fst snd]. rewrite !map_map. destruct (join_collect (map _ l)) as [ds| |] eqn:E; try discriminate. intros _.
  apply join_Panic, in_map_iff in E as (s & E & I). assert (J : join_collect (map (fun x => decode lm oc ctx (eseg_at x)) l') = Panic).
  { apply join_Panic, in_map_iff. exists s. split; auto. now apply (rearranged_In l l' R). }
  now rewrite J.
Qed.
End Order.

(** Where a panic comes from. *)
Definition panic_mesh (oc : bool) (raw : raw_mesh) : Prop := exists s, In s (snd raw) /\ panic_payload oc (r_kind s) (r_payload s).
Lemma mesh_panics lm oc ctx src : ctx_ok ctx -> bytes_ok src -> import_mesh lm oc ctx src = Panic ->
  exists raw rest, mesh_at ctx raw src rest /\ panic_mesh oc raw.
Proof.
  intros Hc Hs. unfold import_mesh. pose proof (outc_string_at False src Hs) as S. destruct (io (read_string src)) as [[name s1]|e|]; try discriminate; [|contradiction].
  destruct S as (H1 & Hn & E1). cbn [fst snd bind] in *. pose proof (outc_read_le False 2 s1 H1) as A. change (N.of_nat 2) with 2%N in A.
  change (read_le 2) with read_u16 in A. destruct (io (read_u16 s1)) as [[n s2]|e|]; try discriminate; [|contradiction].
  destruct A as (H2 & E2 & L2). cbn [fst snd bind] in *.
  pose proof (outc_segments_at False ctx (N.to_nat n) s2 Hc H2) as B.
  destruct (read_segments ctx (N.to_nat n) s2) as [[l' s3]|e|]; try discriminate; [|contradiction].
  destruct B as (H3 & l & Ln & E3 & F & P & X). cbn [fst snd bind] in *. subst l'.
  destruct (join_collect _) as [ds|e|] eqn:J; cbn [bind]; try discriminate. intros _.
  exists (name, l), s3. split; [eapply mesh_at_intro; eauto|]. apply join_Panic in J. rewrite map_map in J. apply in_map_iff in J as (s & E & I1).
  exists s. split; [exact I1|]. destruct (N.ltb_spec (r_kind s) 256) as [K|K].
  - rewrite eseg_at_of in E by exact K. rewrite Forall_forall in P. pose proof (outc_decode lm oc ctx s K (P s I1)) as O. rewrite E in O. exact O.
  - unfold decode, eseg_at, section_from_u16 in E. cbn [e_type] in E. destruct (N.ltb_spec 255 (r_kind s)); [discriminate|lia].
Qed.
Lemma meshes_panic lm oc ctx n : forall src, ctx_ok ctx -> bytes_ok src -> import_meshes lm oc ctx n src = Panic ->
  exists ms raw rest, src = concat (map (mesh_bytes (framing (minor_of ctx))) (ms ++ [raw])) ++ rest /\ Forall (storable (minor_of ctx)) (ms ++ [raw]) /\
    length ms < n /\ panic_mesh oc raw.
Proof.
  induction n as [|n IH]; intros src Hc Hs; cbn [import_meshes]; [discriminate|].
  destruct (import_mesh lm oc ctx src) as [[m s1]|e|] eqn:EM; cbn [bind]; try discriminate.
  - destruct (mesh_held lm oc ctx src m s1 Hc Hs EM) as (H1 & raw & (E & S & _) & X).
    destruct (import_meshes lm oc ctx n s1) as [[l1 s2]|e|] eqn:ES; cbn [bind]; try discriminate. intros _.
    destruct (IH s1 Hc H1 ES) as (ms & raw' & rest & E2 & F & L & X2). exists (raw :: ms), raw', rest. cbn [app map concat length]. rewrite <- app_assoc, <- E2.
    split; [exact E|]. split; [constructor; auto|]. split; [lia|auto].
  - intros _. destruct (mesh_panics lm oc ctx src Hc Hs EM) as (raw & rest & (E & S & _) & X). exists [], raw, rest. cbn [app map concat length].
    rewrite app_nil_r. split; [exact E|]. split; [constructor; auto|]. split; [lia|auto].
Qed.
Lemma file_panics lm oc src : bytes_ok src -> read_tmf lm oc src = Panic ->
  exists n ms raw, starts_with src n (ms ++ [raw]) /\ (len ms < n)%N /\ panic_mesh oc raw.
Proof.
  intros Hs. unfold read_tmf, import. destruct (read_tmf_header src) as [[h s4]|e|] eqn:EH; cbn [bind]; try discriminate.
  - destruct (header_at src h s4 Hs EH) as (H4 & E4 & L4).
    pose proof (outc_read_le False 4 s4 H4) as A5. change (N.of_nat 4) with 4%N in A5. change (read_le 4) with read_u32 in A5.
    destruct (read_u32 s4) as [[n s5]|e|]; cbn [io map_err bind outc fst snd] in *; try discriminate; [|contradiction]. destruct A5 as (H5 & E5 & L5).
    destruct (import_meshes lm oc (init_header h) (N.to_nat n) s5) as [[l' s6]|e|] eqn:EM; cbn [bind]; try discriminate. intros _.
    destruct (meshes_panic lm oc _ _ s5 (init_header_ok _) H5 EM) as (ms & raw & rest & E & F & L & X).
    destruct (framing_of h _ eq_refl) as [FR ST].
    exists n, ms, raw. split; [|split; [unfold len; lia|exact X]].
    exists (h_major h), (h_minor h), (h_min_major h), (h_min_minor h), rest. rewrite <- FR, <- E, lend_le, <- E5. split; [exact E4|].
    split; [exact L4|]. split; [exact L5|]. eapply Forall_impl; [|exact F]. intros m. apply ST.
  - exfalso. revert EH. unfold read_tmf_header. pose proof (outc_read_exact False 3 src) as X.
    destruct (read_exact 3 src) as [[mg s0]|e|]; cbn [io map_err bind] in *; try discriminate; [|contradiction].
    destruct (negb _); [discriminate|].
    assert (U : forall s, read_u16 s = Panic -> False).
    { intros s. unfold read_u16, read_le. pose proof (outc_read_exact False 2 s) as Y. destruct (read_exact 2 s) as [[? ?]|e|]; cbn [bind]; try discriminate. contradiction. }
    destruct (read_u16 s0) as [[v1 s1]|e|] eqn:E1; cbn [io map_err bind]; try discriminate; [|now apply U in E1].
    destruct (read_u16 s1) as [[v2 s2]|e|] eqn:E2; cbn [io map_err bind]; try discriminate; [|now apply U in E2].
    destruct (read_u16 s2) as [[v3 s3]|e|] eqn:E3; cbn [io map_err bind]; try discriminate; [|now apply U in E3].
    destruct (read_u16 s3) as [[v4 s4]|e|] eqn:E4; cbn [io map_err bind]; try discriminate; [|now apply U in E4].
    match goal with |- context [if ?b then _ else _] => destruct b end; discriminate.
Qed.
