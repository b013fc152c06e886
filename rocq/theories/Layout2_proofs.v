(** Reading what a file holds. *)
From Coq Require Import List NArith ZArith Arith Lia Bool.
From Verif Require Import Base BitSpec BitLemmas UnalignedRW UnalignedRW_proofs ReadExt ByteLemmas Triangles TriSpec Triangles_proofs
  Floats Unify CustomData Mesh Tmf File FileSpec Parse_proofs File_proofs NoPanic_proofs LayoutSpec Layout_proofs.
Import ListNotations.
Open Scope res_scope.

Lemma eseg_framed ctx s rest : ctx_ok ctx -> storable_seg (minor_of ctx) s ->
  eseg_read ctx (framing (minor_of ctx) s ++ rest) = Ok (eseg_at s, rest).
Proof.
  intros Hc (H1 & H2 & H3). destruct (comp_ok _ H2) as [C1 C2]. destruct Hc as [-> | ->].
  - change (minor_of new_ctx) with 2%N in *. cbn in H1. rewrite eseg_at_of by exact H1. apply eseg_read_new. split; auto.
  - change (minor_of old_ctx) with 1%N in *. change (framing 1) with old_seg_bytes. cbn in H1.
    unfold old_seg_bytes, len in *. rewrite !lend_le, <- !app_assoc.
    unfold eseg_read. cbn [segment_type_width segment_length_width old_ctx seg_type_read seg_len_read].
    rewrite read_u16_w by auto. cbn [io map_err bind].
    rewrite read_u64_w by (unfold two64; lia). cbn [io map_err bind].
    replace (MAX_SEG_SIZE <? N.of_nat (length (r_payload s)))%N with false by (symmetry; apply N.ltb_ge; exact H3).
    cbn [app]. rewrite read_u8_byte by auto. cbn [io map_err bind].
    rewrite C1. cbn [bind]. rewrite read_exact_app by auto. reflexivity.
Qed.
Lemma segments_framed ctx l rest : ctx_ok ctx -> Forall (storable_seg (minor_of ctx)) l ->
  read_segments ctx (length l) (concat (map (framing (minor_of ctx)) l) ++ rest) = Ok (map eseg_at l, rest).
Proof.
  intros HC. induction 1 as [|s l Hs _ IH]; [reflexivity|].
  cbn [length read_segments map concat]. rewrite <- app_assoc, eseg_framed by auto. cbn [bind]. rewrite IH. reflexivity.
Qed.
(** What loading a mesh does once its segments are framed. *)
Definition load_at (lm : libm) (oc : bool) (ctx : import_ctx) (m : raw_mesh) : res ierr (mesh * list N) :=
  let* d := join_collect (map (decode lm oc ctx) (map eseg_at (snd m))) in
  Ok (fold_left apply d empty, fst m).
Lemma mesh_framed lm oc ctx m rest : ctx_ok ctx -> storable (minor_of ctx) m ->
  import_mesh lm oc ctx (mesh_bytes (framing (minor_of ctx)) m ++ rest) = let* x := load_at lm oc ctx m in Ok (x, rest).
Proof.
  intros HC (H1 & H2 & H3). unfold import_mesh, mesh_bytes. rewrite <- !app_assoc.
  rewrite read_string_w by auto. cbn [io map_err bind].
  rewrite lend_le, read_u16_w by auto. cbn [io map_err bind].
  unfold len. rewrite Nat2N.id. rewrite segments_framed by auto. cbn [bind].
  unfold load_at. destruct (join_collect _); reflexivity.
Qed.
Lemma meshes_framed lm oc ctx ms rest : ctx_ok ctx -> Forall (storable (minor_of ctx)) ms ->
  import_meshes lm oc ctx (length ms) (concat (map (mesh_bytes (framing (minor_of ctx))) ms) ++ rest)
    = let* l := collect (map (load_at lm oc ctx) ms) in Ok (l, rest).
Proof.
  intros HC. induction 1 as [|m ms Hm _ IH]; [reflexivity|].
  cbn [length import_meshes map concat collect]. rewrite <- app_assoc. rewrite mesh_framed by auto.
  destruct (load_at lm oc ctx m); cbn [bind]; auto. rewrite IH. destruct (collect _); reflexivity.
Qed.
Definition too_new (c d : N) : bool := ((0 <? c) || ((c =? 0) && (2 <? d)))%N.
Lemma read_file lm oc a b c d ms rest : file_fits a b c d ms ->
  read_tmf lm oc (file_of a b c d ms rest) =
  if too_new c d then Err ENewerVersionRequired
  else collect (map (load_at lm oc (init_header (mk_header a b c d))) ms).
Proof.
  intros (H1 & H2 & H3). inversion H1 as [|? ? A H4]; subst. inversion H4 as [|? ? B H5]; subst. inversion H5 as [|? ? C H6]; subst.
  inversion H6 as [|? ? D _]; subst. unfold read_tmf, import, file_of. rewrite read_header_w by auto. fold (too_new c d).
  destruct (too_new c d); [reflexivity|]. cbn [bind]. rewrite lend_le, read_u32_w by auto. cbn [io map_err bind]. unfold len. rewrite Nat2N.id.
  destruct (framing_of (mk_header a b c d) _ eq_refl) as [FR ST]. cbn [h_min_minor] in *. rewrite <- FR.
  rewrite meshes_framed; [|apply init_header_ok|eapply Forall_impl; [|exact H3]; intros m; apply ST].
  destruct (collect _); reflexivity.
Qed.
Lemma collect_app {E A} (l1 l2 : list (res E A)) : collect (l1 ++ l2) = let* a := collect l1 in let* b := collect l2 in Ok (a ++ b).
Proof.
  induction l1 as [|x l1 IH]; cbn [app collect bind]; [now destruct (collect l2)|]. destruct x; cbn [bind]; auto. rewrite IH.
  destruct (collect l1); cbn [bind]; auto. now destruct (collect l2).
Qed.

(** The same bytes hold the same meshes. *)
Lemma app_same {A} (a b x y : list A) : length a = length b -> a ++ x = b ++ y -> a = b /\ x = y.
Proof.
  revert b. induction a as [|h a IH]; destruct b as [|h' b]; cbn; intros L E; try discriminate; auto.
  injection E as -> E. injection L as L. destruct (IH b L E) as [-> ->]. auto.
Qed.
Lemma lend_length n v : length (lend n v) = n. Proof. unfold lend. now rewrite map_length, seq_length. Qed.
Lemma lend_app_inj n v w x y : (v < 256 ^ N.of_nat n)%N -> (w < 256 ^ N.of_nat n)%N -> lend n v ++ x = lend n w ++ y -> v = w /\ x = y.
Proof.
  intros V W E. apply app_same in E as [E ->]; [|now rewrite !lend_length]. split; [|reflexivity].
  rewrite !lend_le in E. rewrite <- (of_le_bytes_le n v), <- (of_le_bytes_le n w) by auto. now rewrite E.
Qed.
Lemma seg_inj d s t x y : storable_seg d s -> storable_seg d t -> framing d s ++ x = framing d t ++ y -> s = t /\ x = y.
Proof.
  destruct s as [k c p], t as [k' c' p']. unfold storable_seg, framing. cbn [r_kind r_comp r_payload]. intros (A & _ & B) (A' & _ & B').
  assert (P : forall a b : list N, length a = N.to_nat (len a) /\ (len a = len b -> length a = length b)) by (unfold len; intros; split; lia).
  destruct (d <? 2)%N; unfold seg_bytes, old_seg_bytes; cbn [r_kind r_comp r_payload]; rewrite <- !app_assoc; intros E.
  - apply lend_app_inj in E as [-> E]; [|exact A|exact A']. apply lend_app_inj in E as [EL E]; [|cbn; lia|cbn; lia].
    apply (app_same [c] [c']) in E as [EC E]; [injection EC as ->|reflexivity]. apply app_same in E as [-> ->]; [auto|]. now apply P.
  - apply (app_same [k] [k']) in E as [EK E]; [injection EK as ->|reflexivity].
    apply lend_app_inj in E as [EL E]; [|cbn; lia|cbn; lia].
    apply (app_same [c] [c']) in E as [EC E]; [injection EC as ->|reflexivity]. apply app_same in E as [-> ->]; [auto|]. now apply P.
Qed.
Lemma segs_inj d l : forall l' x y, Forall (storable_seg d) l -> Forall (storable_seg d) l' -> length l = length l' ->
  concat (map (framing d) l) ++ x = concat (map (framing d) l') ++ y -> l = l' /\ x = y.
Proof.
  induction l as [|s l IH]; intros [|t l'] x y F F' L E; try discriminate L; [auto|]. cbn [map concat] in E. rewrite <- !app_assoc in E.
  inversion F; inversion F'; subst. apply seg_inj in E as [-> E]; auto. injection L as L. apply IH in E as [-> ->]; auto.
Qed.
Lemma mesh_inj d m m' x y : storable d m -> storable d m' -> mesh_bytes (framing d) m ++ x = mesh_bytes (framing d) m' ++ y -> m = m' /\ x = y.
Proof.
  destruct m as [n l], m' as [n' l']. intros ([_ A] & B & C) ([_ A'] & B' & C'). unfold mesh_bytes. cbn [fst snd] in *. rewrite <- !app_assoc. intros E.
  apply lend_app_inj in E as [EL E]; [|exact A|exact A']. apply app_same in E as [-> E]; [|unfold len in EL; lia].
  apply lend_app_inj in E as [EL2 E]; [|exact B|exact B']. apply segs_inj in E as [-> ->]; auto. unfold len in EL2. lia.
Qed.
Lemma meshes_inj d ms : forall ms' x y, Forall (storable d) ms -> Forall (storable d) ms' -> length ms <= length ms' ->
  concat (map (mesh_bytes (framing d)) ms) ++ x = concat (map (mesh_bytes (framing d)) ms') ++ y -> exists more, ms' = ms ++ more.
Proof.
  induction ms as [|m ms IH]; intros ms' x y F F' L E; [now exists ms'|]. destruct ms' as [|m' ms']; [cbn in L; lia|].
  cbn [map concat] in E. rewrite <- !app_assoc in E. inversion F; inversion F'; subst. apply mesh_inj in E as [-> E]; auto.
  cbn in L. apply IH in E as [more ->]; [now exists more|auto|auto|lia].
Qed.
Lemma starts_inj src n n' ms ms' : starts_with src n ms -> starts_with src n' ms' -> length ms <= length ms' -> n = n' /\ exists more, ms' = ms ++ more.
Proof.
  intros (a & b & c & d & x & E & F & N1 & S) (a' & b' & c' & d' & x' & E' & F' & N' & S') L. rewrite E in E'. clear E. rename E' into E.
  inversion F as [|? ? A F2]; subst. inversion F2 as [|? ? B F3]; subst. inversion F3 as [|? ? C F4]; subst. inversion F4 as [|? ? D _]; subst.
  inversion F' as [|? ? A' F2']; subst. inversion F2' as [|? ? B' F3']; subst. inversion F3' as [|? ? C' F4']; subst. inversion F4' as [|? ? D' _]; subst.
  unfold header_bytes in E. rewrite <- !app_assoc in E. apply app_same in E as [_ E]; [|reflexivity].
  apply lend_app_inj in E as [-> E]; [|exact A|exact A']. apply lend_app_inj in E as [-> E]; [|exact B|exact B'].
  apply lend_app_inj in E as [-> E]; [|exact C|exact C']. apply lend_app_inj in E as [-> E]; [|exact D|exact D'].
  apply lend_app_inj in E as [-> E]; [|exact N1|exact N']. split; [reflexivity|]. eapply meshes_inj; eauto.
Qed.

(** Every loaded file holds meshes. *)
Lemma mesh_held lm oc ctx src m rest : ctx_ok ctx -> bytes_ok src -> import_mesh lm oc ctx src = Ok (m, rest) ->
  bytes_ok rest /\ exists raw, mesh_at ctx raw src rest /\ snd m = fst raw.
Proof.
  intros Hc Hs. unfold import_mesh. pose proof (outc_string_at True src Hs) as S. destruct (io (read_string src)) as [[name s1]|e|]; try discriminate.
  destruct S as (H1 & Hn & E1). cbn [fst snd bind] in *. pose proof (outc_read_le True 2 s1 H1) as A. change (N.of_nat 2) with 2%N in A.
  change (read_le 2) with read_u16 in A. destruct (io (read_u16 s1)) as [[n s2]|e|]; try discriminate. destruct A as (H2 & E2 & L2). cbn [fst snd bind] in *.
  pose proof (outc_segments_at True ctx (N.to_nat n) s2 Hc H2) as B. destruct (read_segments ctx (N.to_nat n) s2) as [[l' s3]|e|]; try discriminate.
  destruct B as (H3 & l & Ln & E3 & F & P & X). cbn [fst snd bind] in *. destruct (join_collect _) as [ds|e|]; cbn [bind]; try discriminate.
  intros [= <- <-]. split; [exact H3|]. exists (name, l). split; [|reflexivity]. eapply mesh_at_intro; eauto.
Qed.
Lemma meshes_held lm oc ctx n : forall src l rest, ctx_ok ctx -> bytes_ok src -> import_meshes lm oc ctx n src = Ok (l, rest) ->
  exists ms, src = concat (map (mesh_bytes (framing (minor_of ctx))) ms) ++ rest /\ Forall (storable (minor_of ctx)) ms /\ length ms = n /\
    Forall2 (fun m raw => snd m = fst raw) l ms.
Proof.
  induction n as [|n IH]; intros src l rest Hc Hs; cbn [import_meshes].
  - intros [= <- <-]. exists []. auto.
  - destruct (import_mesh lm oc ctx src) as [[m s1]|e|] eqn:EM; try discriminate. cbn [bind].
    destruct (mesh_held lm oc ctx src m s1 Hc Hs EM) as (H1 & raw & (E & S & _) & X).
    destruct (import_meshes lm oc ctx n s1) as [[l1 s2]|e|] eqn:ES; try discriminate. cbn [bind]. intros [= <- <-].
    destruct (IH s1 l1 s2 Hc H1 ES) as (ms & E2 & F & L & X2). exists (raw :: ms). cbn [map concat length]. rewrite <- app_assoc, <- E2.
    split; [exact E|]. split; [constructor; auto|]. split; [lia|]. constructor; auto.
Qed.
Lemma file_held lm oc src l : bytes_ok src -> read_tmf lm oc src = Ok l ->
  exists a b c d ms rest, src = file_of a b c d ms rest /\ file_fits a b c d ms /\ Forall2 (fun m raw => snd m = fst raw) l ms.
Proof.
  intros Hs. unfold read_tmf, import. destruct (read_tmf_header src) as [[h s4]|e|] eqn:EH; try discriminate. cbn [bind].
  destruct (header_at src h s4 Hs EH) as (H4 & E4 & L4).
  pose proof (outc_read_le True 4 s4 H4) as A5. change (N.of_nat 4) with 4%N in A5. change (read_le 4) with read_u32 in A5.
  destruct (read_u32 s4) as [[n s5]|e|]; try discriminate. cbn [io map_err bind outc fst snd] in *. destruct A5 as (H5 & E5 & L5).
  destruct (import_meshes lm oc (init_header h) (N.to_nat n) s5) as [[l' s6]|e|] eqn:EM; try discriminate. cbn [bind]. intros [= <-].
  destruct (meshes_held lm oc _ _ s5 l' s6 (init_header_ok _) H5 EM) as (ms & E & F & L & X).
  destruct (framing_of h _ eq_refl) as [FR ST].
  exists (h_major h), (h_minor h), (h_min_major h), (h_min_minor h), ms, s6. unfold file_of. rewrite <- FR, <- E.
  assert (EN : len ms = n) by (unfold len; lia). rewrite EN, lend_le, <- E5. split; [exact E4|]. split; [|exact X].
  split; [exact L4|]. split; [rewrite EN; exact L5|]. eapply Forall_impl; [|exact F]. intros m. apply ST.
Qed.
