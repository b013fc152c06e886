(** Proofs of the statements of P_File.v. *)
From Coq Require Import List NArith ZArith Arith Lia Bool ZifyN ZifyNat ZifyBool.
From Verif Require Import Base BitSpec BitLemmas UnalignedRW UnalignedRW_proofs ReadExt ByteLemmas Triangles
  TriSpec Triangles_proofs Floats Utilis Unify Vertices Uv Normals CustomData Mesh Tmf File FileSpec
  Parse_proofs File_proofs NoPanic_proofs Async Async_proofs.
Import ListNotations.
Open Scope res_scope.
Ltac Zify.zify_post_hook ::= Z.div_mod_to_equations.

(** *** C11 *)
Lemma section_code_ok s : section_from_u8 (section_code s) = s /\ (section_code s < 256)%N.
Proof. destruct s as [| | | | | | | | |[]|]; split; reflexivity. Qed.
Lemma compression_code_ok c : In (compression_code c) comp_codes /\ comp_of (compression_code c) = c.
Proof. unfold comp_codes. destruct c; cbn; split; auto. Qed.

Lemma segment_layout s :
  (N.of_nat (length (e_data s)) <= 2 ^ 31)%N ->
  concat (eseg_chunks s)
  = seg_bytes (mk_raw (section_code (e_type s)) (compression_code (e_comp s)) (e_data s)).
Proof.
  intros H. unfold eseg_chunks, seg_bytes, len. cbn [concat r_kind r_comp r_payload].
  rewrite lend_le, app_nil_r, N.mod_small; [reflexivity|]. apply section_code_ok.
Qed.

Lemma segments_roundtrip segs rest :
  Forall (fun s => (N.of_nat (length (e_data s)) <= 2 ^ 31)%N) segs ->
  read_segments new_ctx (length segs) (concat (map (fun s => concat (eseg_chunks s)) segs) ++ rest)
  = Ok (segs, rest).
Proof.
  induction 1 as [|s l H _ IH]; [reflexivity|]. cbn [length read_segments map concat].
  rewrite <- app_assoc, segment_layout by auto. rewrite eseg_read_new.
  - cbn [bind]. rewrite IH. cbn [bind]. unfold eseg_of. cbn [r_kind r_comp r_payload].
    rewrite (proj1 (section_code_ok _)), (proj2 (compression_code_ok _)). now destruct s.
  - split; [apply section_code_ok|]. split; [apply compression_code_ok|]. exact H.
Qed.

Lemma too_long_new kind n rest :
  (kind < 256)%N -> (2 ^ 31 < n < 2 ^ 32)%N ->
  eseg_read new_ctx ([kind] ++ lend 4 n ++ rest) = Err ESegmentTooLong.
Proof.
  intros Hk Hn. rewrite lend_le. unfold eseg_read. cbn [segment_type_width segment_length_width new_ctx seg_type_read seg_len_read app].
  rewrite read_u8_byte by auto. cbn [bind io map_err]. rewrite read_u32_w by (unfold two32; lia).
  cbn [bind io map_err]. rewrite max_seg. destruct (N.ltb_spec (2 ^ 31) n); [auto|lia].
Qed.
Lemma too_long_old kind n rest :
  (kind < 65536)%N -> (2 ^ 31 < n < 2 ^ 64)%N ->
  eseg_read old_ctx (lend 2 kind ++ lend 8 n ++ rest) = Err ESegmentTooLong.
Proof.
  intros Hk Hn. rewrite !lend_le. unfold eseg_read. cbn [segment_type_width segment_length_width old_ctx seg_type_read seg_len_read].
  rewrite read_u16_w by auto. cbn [bind io map_err]. rewrite read_u64_w by (unfold two64; lia).
  cbn [bind io map_err]. rewrite max_seg. destruct (N.ltb_spec (2 ^ 31) n); [auto|lia].
Qed.

Lemma compression_default c :
  compression_from_u8 c = Err (ECompressionTypeUnknown c) \/ exists x, compression_from_u8 c = Ok x.
Proof.
  destruct c as [|c]; [right; eexists; reflexivity|].
  do 8 (destruct c as [c|c|]; try (left; reflexivity); try (right; eexists; reflexivity)).
Qed.
Lemma compression_unknown c : ~ In c comp_codes -> compression_from_u8 c = Err (ECompressionTypeUnknown c).
Proof.
  intros H. destruct (compression_default c) as [|[x E]]; auto. apply comp_ok_inv in E. tauto.
Qed.
Lemma unknown_compression kind c n rest :
  (kind < 256)%N -> (c < 256)%N -> (n <= 2 ^ 31)%N -> ~ In c comp_codes ->
  eseg_read new_ctx ([kind] ++ lend 4 n ++ [c] ++ rest) = Err (ECompressionTypeUnknown c).
Proof.
  intros Hk Hc Hn HC. rewrite lend_le. unfold eseg_read. cbn [segment_type_width segment_length_width new_ctx seg_type_read seg_len_read app].
  rewrite read_u8_byte by auto. cbn [bind io map_err]. rewrite read_u32_w by (unfold two32; lia).
  cbn [bind io map_err]. rewrite max_seg. destruct (N.ltb_spec (2 ^ 31) n); [lia|].
  rewrite read_u8_byte by auto. cbn [bind io map_err]. now rewrite compression_unknown.
Qed.

(** *** C12 *)
Lemma read_tmf_new lm oc ms : file_ok ms ->
  read_tmf lm oc (file_bytes ms) = collect (map (load_raw lm oc new_ctx) ms).
Proof.
  intros H. unfold read_tmf. pose proof (import_new lm oc ms [] H) as E. rewrite app_nil_r in E.
  rewrite E. destruct (collect _); reflexivity.
Qed.

Lemma unknown_ignored lm oc ms : file_ok ms ->
  read_tmf lm oc (file_bytes ms) = read_tmf lm oc (file_bytes (map strip ms)).
Proof.
  intros H. rewrite !read_tmf_new by auto using file_strip_ok. rewrite map_map. f_equal.
  apply map_ext. intros. apply load_strip.
Qed.

Lemma filter_all_out {A} (f : A -> bool) l : forallb (fun x => negb (f x)) l = true -> filter f l = [].
Proof.
  induction l as [|a l IH]; cbn; auto. intros H. apply andb_prop in H as [H1 H2].
  destruct (f a); [discriminate|auto].
Qed.

Lemma unknown_inserted lm oc before after name l1 l2 extra :
  file_ok (before ++ (name, l1 ++ extra ++ l2) :: after) ->
  forallb (fun s => negb (known s)) extra = true ->
  read_tmf lm oc (file_bytes (before ++ (name, l1 ++ extra ++ l2) :: after)) =
  read_tmf lm oc (file_bytes (before ++ (name, l1 ++ l2) :: after)).
Proof.
  intros H He.
  assert (H' : file_ok (before ++ (name, l1 ++ l2) :: after)).
  { destruct H as [H1 H2]. split; [unfold len in *; rewrite app_length in *; cbn in *; exact H1|].
    apply Forall_app in H2 as [H2 H3]. apply Forall_app. split; auto.
    apply Forall_cons_iff in H3 as [(A & B & C) H4]. constructor; auto.
    split; auto. cbn [snd] in *. unfold len in *. rewrite !app_length in *.
    rewrite !Forall_app in *. split; [lia|tauto]. }
  rewrite unknown_ignored by auto. rewrite (unknown_ignored _ _ _ H'). do 2 f_equal.
  rewrite !map_app. cbn [map]. do 2 f_equal. unfold strip. cbn [fst snd]. f_equal.
  rewrite !filter_app, (filter_all_out known extra) by auto. reflexivity.
Qed.

(** *** C13 *)
Lemma read_short n src e : read_le n src = Err e -> (N.of_nat (length src) < n)%N /\ e = UnexpectedEof.
Proof.
  unfold read_le, read_exact. destruct (N.ltb_spec (N.of_nat (length src)) n); [|discriminate].
  cbn. intros [= <-]. auto.
Qed.

Lemma meshes_err lm oc h n src e : bytes_ok src ->
  import_meshes lm oc (init_header h) n src = Err e -> later e.
Proof.
  intros H E. pose proof (outc_meshes lm oc (init_header h) n src (init_header_ok h) H) as O.
  rewrite E in O. exact O.
Qed.

(** Everything about the header, as one case analysis. *)
Lemma header_cases src : bytes_ok src ->
  (length src < 3 /\ read_tmf_header src = Err (EIO UnexpectedEof)) \/
  (exists a rest, src = a ++ rest /\ length a = 3 /\ a <> [84; 77; 70]%N /\
     read_tmf_header src = Err ENotTMFFile) \/
  (exists rest, src = [84; 77; 70]%N ++ rest /\ length rest < 8 /\
     read_tmf_header src = Err (EIO UnexpectedEof)) \/
  (exists a b c d rest, (a < 65536 /\ b < 65536 /\ c < 65536 /\ d < 65536)%N /\
     src = header_bytes a b c d ++ rest).
Proof.
  intros Hs. unfold read_tmf_header.
  destruct (read_exact 3 src) as [[m s0]|e|] eqn:E0; cbn [io map_err bind].
  - apply read_exact_inv in E0 as [-> L0]. destruct (list_eqb m magic) eqn:EM.
    2:{ right. left. exists m, s0. cbn [negb]. split; auto. split; [lia|]. split; auto.
        intros ->. discriminate. }
    apply list_eqb_eq in EM. subst m. cbn [negb]. right. right.
    apply bytes_ok_app in Hs as [_ Hs].
    pose proof (outc_read_le False 2 s0 Hs) as A. change (N.of_nat 2) with 2%N in A. change (read_le 2) with read_u16 in A.
    destruct (read_u16 s0) as [[v1 s1]|e|] eqn:E1; cbn [io map_err outc bind] in A |- *; [|left|contradiction].
    2:{ exists s0. split; auto. apply read_short in E1. destruct E1. subst e. split; [lia|auto]. }
    destruct A as (H1 & B1 & C1). cbn [fst snd] in *.
    pose proof (outc_read_le False 2 s1 H1) as A. change (N.of_nat 2) with 2%N in A. change (read_le 2) with read_u16 in A.
    destruct (read_u16 s1) as [[v2 s2]|e|] eqn:E2; cbn [io map_err outc bind] in A |- *; [|left|contradiction].
    2:{ exists s0. split; auto. apply read_short in E2. destruct E2. subst e s0. rewrite app_length, le_bytes_length. split; [lia|auto]. }
    destruct A as (H2 & B2 & C2). cbn [fst snd] in *.
    pose proof (outc_read_le False 2 s2 H2) as A. change (N.of_nat 2) with 2%N in A. change (read_le 2) with read_u16 in A.
    destruct (read_u16 s2) as [[v3 s3]|e|] eqn:E3; cbn [io map_err outc bind] in A |- *; [|left|contradiction].
    2:{ exists s0. split; auto. apply read_short in E3. destruct E3. subst e s0 s1. rewrite !app_length, !le_bytes_length. split; [lia|auto]. }
    destruct A as (H3 & B3 & C3). cbn [fst snd] in *.
    pose proof (outc_read_le False 2 s3 H3) as A. change (N.of_nat 2) with 2%N in A. change (read_le 2) with read_u16 in A.
    destruct (read_u16 s3) as [[v4 s4]|e|] eqn:E4; cbn [io map_err outc bind] in A |- *; [|left|contradiction].
    2:{ exists s0. split; auto. apply read_short in E4. destruct E4. subst e s0 s1 s2. rewrite !app_length, !le_bytes_length. split; [lia|auto]. }
    destruct A as (H4 & B4 & C4). cbn [fst snd] in *.
    right. exists v1, v2, v3, v4, s4. split; [auto|]. unfold header_bytes. rewrite !lend_le, <- !app_assoc.
    rewrite B1, B2, B3, B4. reflexivity.
  - left. unfold read_exact in E0. destruct (N.ltb_spec (N.of_nat (length src)) 3); [|discriminate].
    injection E0 as <-. split; [lia|auto].
  - unfold read_exact in E0. destruct (_ <? _)%N; discriminate.
Qed.

Lemma import_after lm oc a b c d rest :
  (a < 65536 /\ b < 65536 /\ c < 65536 /\ d < 65536)%N ->
  import lm oc (header_bytes a b c d ++ rest) =
  if ((0 <? c) || ((c =? 0) && (2 <? d)))%N then Err ENewerVersionRequired
  else let* (n, s) := io (read_u32 rest) in
       import_meshes lm oc (init_header (mk_header a b c d)) (N.to_nat n) s.
Proof.
  intros (A & B & C & D). unfold import. rewrite read_header_w by auto. destruct (_ || _)%bool; reflexivity.
Qed.

Lemma rest_later lm oc a b c d rest e :
  bytes_ok rest ->
  (let* (n, s) := io (read_u32 rest) in
   import_meshes lm oc (init_header (mk_header a b c d)) (N.to_nat n) s) = Err e -> later e.
Proof.
  intros Hs. pose proof (outc_read_le False 4 rest Hs) as A.
  change (N.of_nat 4) with 4%N in A. change (read_le 4) with read_u32 in A.
  destruct (read_u32 rest) as [[n s]|e'|]; cbn [io map_err bind outc] in A |- *.
  - intros E. eapply meshes_err; [|exact E]. tauto.
  - intros [= <-]. exact I.
  - contradiction.
Qed.

Lemma read_tmf_err lm oc src e : read_tmf lm oc src = Err e <-> import lm oc src = Err e.
Proof. unfold read_tmf. destruct (import lm oc src) as [[? ?]| |]; cbn; split; congruence. Qed.

Lemma not_tmf_iff lm oc src : bytes_ok src ->
  (read_tmf lm oc src = Err ENotTMFFile <->
   exists a rest, src = a ++ rest /\ length a = 3 /\ a <> [84; 77; 70]%N).
Proof.
  intros Hs. rewrite read_tmf_err. destruct (header_cases src Hs) as [[L E]|[H|[H|H]]].
  - unfold import. rewrite E. cbn. split; [discriminate|]. intros (a & r & -> & La & _).
    rewrite app_length in L. lia.
  - destruct H as (a & r & -> & L & N & E). unfold import. rewrite E. cbn. split; auto. intros _. eauto.
  - destruct H as (r & -> & L & E). unfold import. rewrite E. cbn [bind]. split; [discriminate|].
    intros (a & r' & E' & La & N). destruct a as [|x [|y [|z [|? ?]]]]; try discriminate.
    cbn in E'. injection E' as <- <- <- _. congruence.
  - destruct H as (a & b & c & d & r & B & ->). rewrite import_after by auto. split.
    + destruct (_ || _)%bool; [discriminate|]. intros E. apply rest_later in E; [contradiction|].
      apply bytes_ok_app in Hs. tauto.
    + intros (x & r' & E' & La & N). destruct x as [|x [|y [|z [|? ?]]]]; try discriminate.
      unfold header_bytes in E'. cbn in E'. injection E' as <- <- <- _. congruence.
Qed.

Lemma newer_iff lm oc src : bytes_ok src ->
  (read_tmf lm oc src = Err ENewerVersionRequired <->
   exists a b c d rest, (a < 65536 /\ b < 65536 /\ c < 65536 /\ d < 65536)%N /\
     src = header_bytes a b c d ++ rest /\ (0 < c \/ (c = 0 /\ 2 < d))%N).
Proof.
  intros Hs. rewrite read_tmf_err. split.
  - intros E. destruct (header_cases src Hs) as [[L E']|[H|[H|H]]].
    + unfold import in E. rewrite E' in E. discriminate.
    + destruct H as (a & r & -> & L & N & E'). unfold import in E. rewrite E' in E. discriminate.
    + destruct H as (r & -> & L & E'). unfold import in E. rewrite E' in E. discriminate.
    + destruct H as (a & b & c & d & r & B & ->). rewrite import_after in E by auto.
      exists a, b, c, d, r. split; auto. split; auto.
      destruct ((0 <? c) || ((c =? 0) && (2 <? d)))%N eqn:X; [lia|].
      apply rest_later in E; [contradiction|]. apply bytes_ok_app in Hs. tauto.
  - intros (a & b & c & d & r & B & -> & N). rewrite import_after by auto.
    replace ((0 <? c) || ((c =? 0) && (2 <? d)))%N with true; [auto|]. lia.
Qed.

Lemma short_header lm oc src :
  (length src < 3 \/ (firstn 3 src = [84; 77; 70]%N /\ length src < 11)) ->
  read_tmf lm oc src = Err (EIO UnexpectedEof).
Proof.
  intros H. apply read_tmf_err. unfold import.
  assert (E : read_tmf_header src = Err (EIO UnexpectedEof)); [|now rewrite E].
  unfold read_tmf_header. destruct H as [H|[H1 H2]].
  { rewrite read_exact_short by lia. reflexivity. }
  destruct src as [|x [|y [|z src]]]; try discriminate. cbn in H1. injection H1 as -> -> ->.
  change (84%N :: 77%N :: 70%N :: src) with ([84; 77; 70]%N ++ src).
  rewrite read_exact_app by reflexivity. cbn [io map_err bind].
  change (list_eqb [84; 77; 70]%N magic) with true. cbn [negb]. cbn in H2.
  unfold read_u16, read_le.
  do 4 (match goal with |- context [read_exact 2 ?s] =>
    destruct (read_exact 2 s) as [[? ?]|?|] eqn:EE; cbn [io map_err bind];
    [apply read_exact_inv in EE as [-> ?]; rewrite ?app_length in H2
    |unfold read_exact in EE; destruct (_ <? _)%N; congruence
    |unfold read_exact in EE; destruct (_ <? _)%N; congruence] end).
  lia.
Qed.

Lemma accepted lm oc a b d rest :
  (a < 65536)%N -> (b < 65536)%N -> (d <= 2)%N ->
  read_tmf lm oc (header_bytes a b 0 d ++ rest) =
  read_tmf lm oc (header_bytes 0 d 0 (if d =? 2 then 2 else 0)%N ++ rest).
Proof.
  intros Ha Hb Hd. unfold read_tmf. rewrite !import_after by (destruct (d =? 2)%N; lia).
  replace ((0 <? 0) || ((0 =? 0) && (2 <? d)))%N with false by lia.
  replace ((0 <? 0) || ((0 =? 0) && (2 <? (if d =? 2 then 2 else 0))))%N with false by (destruct (d =? 2)%N; reflexivity).
  unfold init_header. cbn [h_min_minor].
  replace (1 <? (if d =? 2 then 2 else 0))%N with (1 <? d)%N; [reflexivity|].
  destruct (N.eqb_spec d 2); [subst; reflexivity|]. lia.
Qed.

(** *** C14 *)
Lemma collect_old lm oc old new : Forall2 same_raw_mesh old new ->
  collect (map (load_raw lm oc old_ctx) old) = collect (map (load_raw lm oc new_ctx) new).
Proof.
  induction 1 as [|a b l l' H _ IH]; cbn [map collect]; auto. now rewrite (load_old lm oc a b H), IH.
Qed.
Lemma old_files lm oc major minor min_minor old new :
  (major < 65536)%N -> (minor < 65536)%N -> (min_minor < 2)%N ->
  file_ok old -> file_ok new -> Forall2 same_raw_mesh old new ->
  read_tmf lm oc (old_file_bytes major minor min_minor old) = read_tmf lm oc (file_bytes new).
Proof.
  intros A B C D E F. rewrite read_tmf_new by auto. unfold read_tmf.
  pose proof (import_old lm oc major minor min_minor old [] A B C D) as X. rewrite app_nil_r in X.
  rewrite X, (collect_old lm oc old new F).
  destruct (collect (map (load_raw lm oc new_ctx) new)); reflexivity.
Qed.

(** *** C15 *)
Lemma truncation lm oc src ms :
  read_tmf lm oc src = Ok ms ->
  exists used rest, src = used ++ rest /\
    (forall more, read_tmf lm oc (used ++ more) = Ok ms) /\
    (forall p q, used = p ++ q -> q <> [] -> read_tmf lm oc p = Err (EIO UnexpectedEof)).
Proof.
  unfold read_tmf. destruct (import lm oc src) as [[l rest]| |] eqn:E; try discriminate.
  cbn. intros [= <-]. destruct (streams_import lm oc _ _ _ E) as (u & -> & A & B).
  exists u, rest. split; auto. split.
  - intros more. now rewrite A.
  - intros p q Hp Hq. now rewrite (B p q).
Qed.

(** *** C17 *)
Lemma panic_in_frame oc ctx src : ctx_ok ctx -> panic_in oc ctx src ->
  exists s pre post, frameable s /\ panic_payload oc (r_kind s) (r_payload s) /\
    (src = pre ++ seg_bytes s ++ post \/ src = pre ++ old_seg_bytes s ++ post).
Proof.
  intros Hc (s & pre & post & E & F & P). exists s, pre, post. split; auto. split; auto.
  destruct Hc as [-> | ->]; cbn in E; auto.
Qed.
Lemma panics_only lm oc src :
  bytes_ok src -> read_tmf lm oc src = Panic ->
  exists s pre post, frameable s /\ panic_payload oc (r_kind s) (r_payload s) /\
    (src = pre ++ seg_bytes s ++ post \/ src = pre ++ old_seg_bytes s ++ post).
Proof.
  intros Hs E. assert (E' : import lm oc src = Panic).
  { unfold read_tmf in E. destruct (import lm oc src) as [[? ?]| |]; auto; discriminate. }
  destruct (header_cases src Hs) as [[L H]|[H|[H|H]]].
  - unfold import in E'. rewrite H in E'. discriminate.
  - destruct H as (a & r & -> & L & N & H). unfold import in E'. rewrite H in E'. discriminate.
  - destruct H as (r & -> & L & H). unfold import in E'. rewrite H in E'. discriminate.
  - destruct H as (a & b & c & d & r & B & ->). rewrite import_after in E' by auto.
    destruct (_ || _)%bool; [discriminate|]. apply bytes_ok_app in Hs as [_ Hs].
    pose proof (outc_read_le False 4 r Hs) as A.
    change (N.of_nat 4) with 4%N in A. change (read_le 4) with read_u32 in A.
    destruct (read_u32 r) as [[n s]|e|]; cbn [io map_err bind outc fst snd] in *; try discriminate; [|contradiction].
    destruct A as (Hs' & -> & _).
    pose proof (outc_meshes lm oc _ (N.to_nat n) s (init_header_ok (mk_header a b c d)) Hs') as O.
    rewrite E' in O. cbn in O.
    eapply panic_in_frame; [apply (init_header_ok (mk_header a b c d))|].
    now do 2 apply panic_in_suffix.
Qed.

Lemma one_seg_file lm oc name s d :
  name_ok name -> frameable s -> decode lm oc new_ctx (eseg_of s) = d -> is_panic d = true ->
  read_tmf lm oc (file_bytes [(name, [s])]) = Panic.
Proof.
  intros Hn Hs Hd Hp. rewrite read_tmf_new.
  - cbn [map collect]. unfold load_raw, join_collect. cbn [snd map existsb]. rewrite Hd, Hp. reflexivity.
  - split; [reflexivity|]. constructor; auto. split; auto. split; [reflexivity|]. constructor; auto.
Qed.

Lemma lend_length n v : length (lend n v) = n.
Proof. now rewrite lend_le, le_bytes_length. Qed.

Lemma colour_frame count w bits : (len bits < 2 ^ 30)%N ->
  frameable (mk_raw 23 0 ([0]%N ++ lend 8 count ++ [w] ++ bits)).
Proof.
  intros H. split; [reflexivity|]. split; [left; reflexivity|]. cbn [r_payload].
  unfold len in *. rewrite !app_length, lend_length. cbn [length]. lia.
Qed.

Lemma read_custom_start oc kind src :
  cseg_read oc new_ctx kind ([0]%N ++ src) =
  let* d := match kind with
    | KIndex => let* l := read_triangles oc new_ctx src in Ok (new_index l)
    | KInteger => let* l := read_triangles oc new_ctx src in Ok (new_integer l)
    | KFloat => read_custom_float src
    | KColor => read_custom_color oc src
    end in Ok (new_raw d [] 0).
Proof.
  unfold cseg_read. cbn [app]. rewrite read_u8_byte by reflexivity. cbn [io map_err bind].
  change src with ([] ++ src) at 1. rewrite read_exact_app by reflexivity. reflexivity.
Qed.

Lemma colour_count_panics lm oc name count w bits :
  name_ok name -> (2 ^ 59 <= count < 2 ^ 64)%N -> (w < 256)%N -> (len bits < 2 ^ 30)%N ->
  read_tmf lm oc (file_bytes [(name, [mk_raw 23 0 ([0]%N ++ lend 8 count ++ [w] ++ bits)])]) = Panic.
Proof.
  intros Hn Hc Hw Hb. eapply one_seg_file; auto; [now apply colour_frame|].
  unfold eseg_of, decode. cbn [r_kind r_comp r_payload e_type e_data section_from_u8].
  rewrite read_custom_start, lend_le. unfold read_custom_color. rewrite read_u64_w by (unfold two64; lia).
  cbn [io map_err bind app]. rewrite read_u8_byte by auto. cbn [io map_err bind].
  unfold color_alloc_ok. destruct (N.ltb_spec (count * 16) (2 ^ 63)); [lia|]. reflexivity.
Qed.
Lemma colour_width_panics lm name count w bits :
  name_ok name -> (count < 2 ^ 59)%N -> (64 <= w < 256)%N -> (len bits < 2 ^ 30)%N ->
  read_tmf lm true (file_bytes [(name, [mk_raw 23 0 ([0]%N ++ lend 8 count ++ [w] ++ bits)])]) = Panic.
Proof.
  intros Hn Hc Hw Hb. eapply one_seg_file; auto; [now apply colour_frame|].
  unfold eseg_of, decode. cbn [r_kind r_comp r_payload e_type e_data section_from_u8].
  rewrite read_custom_start, lend_le. unfold read_custom_color. rewrite read_u64_w by (unfold two64; lia).
  cbn [io map_err bind app]. rewrite read_u8_byte by lia. cbn [io map_err bind].
  unfold color_alloc_ok. destruct (N.ltb_spec (count * 16) (2 ^ 63)); [|lia]. cbn [negb].
  unfold shl64. destruct (Nat.ltb_spec (N.to_nat w) 64); [lia|]. reflexivity.
Qed.

(** *** C18 *)
Lemma big_index (k : N -> N -> N -> list N -> res ierr (list N)) ctx w n rest :
  (w < 256)%N -> (2 ^ 31 < n < 2 ^ 64)%N ->
  (forall m s, exists e, k w n m s = Err e) ->
  exists e, (let* (p, s) := io (read_u8 ([w] ++ lend 8 n ++ rest)) in
             let* (l, s) := io (read_u64 s) in
             let* (m, s) := io (read_triangle_min ctx s) in k p l m s) = Err e.
Proof.
  intros Hw Hn Hk. rewrite lend_le. cbn [app]. rewrite read_u8_byte by auto. cbn [io map_err bind].
  rewrite read_u64_w by (unfold two64; lia). cbn [io map_err bind].
  destruct (read_triangle_min ctx rest) as [[m s]|e|] eqn:E; cbn [io map_err bind]; eauto.
  unfold read_triangle_min in E. destruct (should_read_min_index ctx); [|discriminate].
  destruct (read_le_total _ _ E).
Qed.

Lemma big_triangles oc ctx w n rest :
  (w < 256)%N -> (2 ^ 31 < n < 2 ^ 64)%N -> exists e, read_triangles oc ctx ([w] ++ lend 8 n ++ rest) = Err e.
Proof.
  intros Hw Hn. rewrite read_triangles_spec. apply (big_index (fun precision length min src =>
    if (MAX_SEG_SIZE <? length)%N then Err ESegmentTooLong
    else tri_body oc (N.to_nat precision) length min src)); auto.
  intros m s. rewrite max_seg. destruct (N.ltb_spec (2 ^ 31) n); [eauto|lia].
Qed.
Lemma big_default oc ctx w n rest :
  (w < 256)%N -> (2 ^ 31 < n < 2 ^ 64)%N -> exists e, read_default_triangles oc ctx ([w] ++ lend 8 n ++ rest) = Err e.
Proof.
  intros Hw Hn. rewrite read_default_spec. apply (big_index (fun precision length min src =>
    if (MAX_SEG_SIZE <? length)%N then Err ESegmentTooLong
    else if (precision =? 0)%N then Ok (repeat 0%N (N.to_nat length))
    else tri_body oc (N.to_nat precision) length min src)); auto.
  intros m s. rewrite max_seg. destruct (N.ltb_spec (2 ^ 31) n); [eauto|lia].
Qed.

Lemma big_custom oc ctx kind name src :
  (len name < 256)%N ->
  (exists e, match kind with
    | KIndex => let* l := read_triangles oc ctx src in Ok (new_index l)
    | KInteger => let* l := read_triangles oc ctx src in Ok (new_integer l)
    | KFloat => read_custom_float src
    | KColor => read_custom_color oc src
    end = Err e) ->
  exists e, cseg_read oc ctx kind ([len name] ++ name ++ src) = Err e.
Proof.
  intros Hn [e He]. unfold cseg_read. cbn [app]. rewrite read_u8_byte by auto. cbn [io map_err bind].
  rewrite read_exact_app by reflexivity. cbn [io map_err bind]. rewrite He. cbn [bind]. eauto.
Qed.

Lemma big_vertices n rest : (2 ^ 31 < n < 2 ^ 64)%N -> exists e, read_tmf_vertices (lend 8 n ++ rest) = Err e.
Proof.
  intros Hn. unfold read_tmf_vertices. rewrite lend_le, read_u64_w by (unfold two64; lia). cbn [io map_err bind].
  unfold read_f64_as_f32, read_f64, read_prec.
  do 6 (match goal with |- context [read_u64 ?s] =>
    destruct (read_u64 s) as [[? ?]|?|] eqn:EE; cbn [io map_err bind]; eauto;
    [|destruct (read_le_total _ _ EE)]; clear EE end).
  do 3 (match goal with |- context [read_u8 ?s] =>
    let p := fresh "p" in
    destruct (read_u8 s) as [[p ?]|?|] eqn:EE; cbn [io map_err bind]; eauto;
    [|destruct (read_le_total _ _ EE)]; clear EE; destruct (64 <=? p)%N; cbn [bind]; eauto end).
  rewrite max_seg. destruct (N.ltb_spec (2 ^ 31) n); [eauto|lia].
Qed.

Lemma declared_refused lm oc s n :
  declares (r_kind s) (r_payload s) n -> (2 ^ 31 < n < 2 ^ 64)%N ->
  forall ctx, exists e, decode lm oc ctx (eseg_of s) = Err e.
Proof.
  destruct s as [k c p]. cbn [r_kind r_payload]. intros H Hn ctx.
  unfold eseg_of, decode, decode_triangle_data. cbn [r_kind r_comp r_payload e_type e_comp e_data].
  destruct H as [kind n rest K|kind w n rest K Hw|mask w n rest Hw|kind name w n rest K Hl Hw|name n rest Hl].
  - destruct K as [<-|[<-|[<-|[]]]]; cbn [section_from_u8].
    + destruct (big_vertices n rest Hn) as [e ->]. cbn. eauto.
    + unfold read_normal_array. rewrite lend_le, read_u64_w by (unfold two64; lia). cbn [io map_err bind].
      rewrite max_seg. destruct (N.ltb_spec (2 ^ 31) n); [cbn; eauto|lia].
    + unfold read_tangents. rewrite lend_le, read_u64_w by (unfold two64; lia). cbn [io map_err bind].
      rewrite max_seg. destruct (N.ltb_spec (2 ^ 31) n); [cbn; eauto|lia].
  - assert (T : forall f : list N -> dseg, exists e,
      (let* l := match comp_of c with
        | CNone => read_default_triangles oc ctx ([w] ++ lend 8 n ++ rest)
        | CSequence | COmmited => Err (EUnsuportedCompressionType (compression_code COmmited))
        | CUnalignedLZZ => Err (EUnsuportedCompressionType (compression_code CUnalignedLZZ))
        end in Ok (f l)) = Err e).
    { intros f. destruct (comp_of c); try (eexists; reflexivity).
      destruct (big_default oc ctx w n rest Hw Hn) as [e E]. rewrite E. eexists; reflexivity. }
    destruct K as [<-|[<-|[<-|[<-|[<-|[]]]]]]; cbn [section_from_u8]; auto.
    unfold read_uvs. rewrite lend_le. cbn [app]. rewrite read_u8_byte by auto. cbn [io map_err bind].
    rewrite read_u64_w by (unfold two64; lia). cbn [io map_err bind].
    rewrite max_seg. destruct (N.ltb_spec (2 ^ 31) n); [cbn; eauto|lia].
  - cbn [section_from_u8 app]. destruct (comp_of c); eauto.
    destruct (big_default oc ctx w n rest Hw Hn) as [e E]. cbn [app] in E. rewrite E. cbn. eauto.
  - destruct (big_triangles oc ctx w n rest Hw Hn) as [e E].
    destruct K as [<-|[<-|[]]]; cbn [section_from_u8].
    + destruct (big_custom oc ctx KIndex name ([w] ++ lend 8 n ++ rest) Hl) as [e' E'];
        [rewrite E; cbn; eauto|]. rewrite E'. cbn. eauto.
    + destruct (big_custom oc ctx KInteger name ([w] ++ lend 8 n ++ rest) Hl) as [e' E'];
        [rewrite E; cbn; eauto|]. rewrite E'. cbn. eauto.
  - cbn [section_from_u8].
    destruct (big_custom oc ctx KFloat name (lend 8 n ++ rest) Hl) as [e' E'].
    + unfold read_custom_float. rewrite lend_le, read_u64_w by (unfold two64; lia). cbn [io map_err bind].
      rewrite max_seg. destruct (N.ltb_spec (2 ^ 31) n); [eauto|lia].
    + rewrite E'. cbn. eauto.
Qed.

Lemma collect_err {E A} (l : list (res E A)) x e : In x l -> x = Err e -> forall r, collect l <> Ok r.
Proof.
  induction l as [|y l IH]; [contradiction|]. intros [-> | Hin] Hx r; cbn [collect].
  - rewrite Hx. discriminate.
  - destruct y; try discriminate. cbn. destruct (collect l) as [r'| |] eqn:C; try discriminate.
    exfalso. now apply (IH Hin Hx r').
Qed.

Lemma declared_file_refused lm oc ms m s n rest :
  file_ok ms -> In m ms -> In s (snd m) -> declares (r_kind s) (r_payload s) n -> (2 ^ 31 < n < 2 ^ 64)%N ->
  forall r, import lm oc (file_bytes ms ++ rest) <> Ok r.
Proof.
  intros Hf Hm Hs Hd Hn r. rewrite import_new by auto.
  destruct (collect (map (load_raw lm oc new_ctx) ms)) as [l| |] eqn:C; try discriminate. exfalso.
  assert (X : exists x, load_raw lm oc new_ctx m = Ok x).
  { clear -C Hm. revert l C. induction ms as [|a ms IH]; [contradiction|]. intros l C. cbn in C.
    destruct (load_raw lm oc new_ctx a) eqn:E; try discriminate. cbn in C.
    destruct (collect (map (load_raw lm oc new_ctx) ms)) eqn:C'; try discriminate.
    destruct Hm as [<-|Hm]; eauto. }
  destruct X as [x X]. unfold load_raw, join_collect in X.
  destruct (existsb is_panic _); [discriminate|].
  destruct (declared_refused lm oc s n Hd Hn new_ctx) as [e E].
  destruct (collect (map (decode lm oc new_ctx) (map eseg_of (snd m)))) eqn:C'; try discriminate.
  eapply collect_err; [|exact E|exact C']. apply in_map, in_map, Hs.
Qed.

Lemma color_loop_zero oc n r mk acc : exists l,
  read_color_loop oc n r 0 mk acc = Ok (acc ++ l) /\ length l = n.
Proof.
  revert acc. induction n as [|n IH]; intros acc; cbn [read_color_loop].
  - exists []. now rewrite app_nil_r.
  - cbn [read2_unaligned Nat.eqb io map_err bind fst snd].
    destruct (IH (acc ++ [(mk 0%N, mk 0%N, mk 0%N, mk 0%N)])) as (l & E & L).
    exists ((mk 0%N, mk 0%N, mk 0%N, mk 0%N) :: l). rewrite E, <- app_assoc. cbn. auto.
Qed.

Lemma colour_unbounded lm oc ctx count :
  (count < 2 ^ 59)%N ->
  exists s l prec, decode lm oc ctx (eseg_of (mk_raw 23 0 ([1; 99]%N ++ lend 8 count ++ [0]%N)))
    = Ok (DCustom s) /\ c_data s = CColor l prec /\ N.of_nat (length l) = count.
Proof.
  intros Hc. unfold eseg_of, decode. cbn [r_kind r_comp r_payload e_type e_data section_from_u8].
  unfold cseg_read. cbn [app]. rewrite read_u8_byte by reflexivity. cbn [io map_err bind].
  change (99%N :: lend 8 count ++ [0]%N) with ([99]%N ++ lend 8 count ++ [0]%N).
  rewrite read_exact_app by reflexivity. cbn [io map_err bind]. unfold read_custom_color.
  rewrite lend_le, read_u64_w by (unfold two64; lia). cbn [io map_err bind].
  rewrite read_u8_byte by reflexivity. cbn [io map_err bind]. unfold color_alloc_ok.
  destruct (N.ltb_spec (count * 16) (2 ^ 63)); [|lia]. cbn [negb N.to_nat].
  rewrite shl64_ok by lia. cbn [bind].
  match goal with |- context [read_color_loop oc ?n ?r 0 ?mk []] =>
    destruct (color_loop_zero oc n r mk []) as (l & E & L) end.
  rewrite E. cbn [bind app]. do 3 eexists. split; [reflexivity|]. cbn [new_raw c_data].
  split; [reflexivity|]. rewrite L. now rewrite N2Nat.id.
Qed.

(** *** C23, C24 *)
Lemma read_tmf_later lm oc src e : bytes_ok src -> read_tmf lm oc src = Err e -> e <> ENoMeshes /\ e <> ETooManyMeshes.
Proof.
  intros Hs. rewrite read_tmf_err. intros E. destruct (header_cases src Hs) as [[L H]|[H|[H|H]]].
  - unfold import in E. rewrite H in E. injection E as <-. split; discriminate.
  - destruct H as (a & r & -> & L & N & H). unfold import in E. rewrite H in E. injection E as <-. split; discriminate.
  - destruct H as (r & -> & L & H). unfold import in E. rewrite H in E. injection E as <-. split; discriminate.
  - destruct H as (a & b & c & d & r & B & ->). rewrite import_after in E by auto.
    destruct (_ || _)%bool; [injection E as <-; split; discriminate|].
    apply rest_later in E; [|apply bytes_ok_app in Hs; tauto].
    destruct e; cbn in E; try contradiction; split; discriminate.
Qed.

Lemma one_mesh lm oc src : bytes_ok src ->
  (forall m, read_tmf_one lm oc src = Ok m <-> read_tmf lm oc src = Ok [m]) /\
  (read_tmf_one lm oc src = Err ENoMeshes <-> read_tmf lm oc src = Ok []) /\
  (read_tmf_one lm oc src = Err ETooManyMeshes <->
     exists a b l, read_tmf lm oc src = Ok (a :: b :: l)) /\
  (forall e, read_tmf lm oc src = Err e -> read_tmf_one lm oc src = Err e) /\
  (read_tmf lm oc src = Panic <-> read_tmf_one lm oc src = Panic).
Proof.
  intros Hs. unfold read_tmf_one. destruct (read_tmf lm oc src) as [[|a [|b l]]|e|] eqn:E; cbn [bind].
  - split; [split; discriminate|]. split; [tauto|]. split; [split; [discriminate|intros (? & ? & ? & ?); discriminate]|].
    split; [discriminate|]. split; discriminate.
  - split; [intros; split; congruence|]. split; [split; discriminate|].
    split; [split; [discriminate|intros (? & ? & ? & ?); discriminate]|]. split; [discriminate|]. split; discriminate.
  - split; [split; discriminate|]. split; [split; discriminate|]. split; [split; eauto|].
    split; [discriminate|]. split; discriminate.
  - destruct (read_tmf_later lm oc src e Hs E). split; [split; discriminate|].
    split; [split; congruence|]. split; [split; [congruence|intros (? & ? & ? & ?); discriminate]|].
    split; [intros ? [= ->]; reflexivity|]. split; discriminate.
  - split; [split; discriminate|]. split; [split; discriminate|].
    split; [split; [discriminate|intros (? & ? & ? & ?); discriminate]|]. split; [discriminate|tauto].
Qed.

Lemma completion_order lm oc src r : aimport lm oc src r <-> r = import lm oc src.
Proof.
  split; [apply aimport_det|]. intros ->. destruct (aimport_exists lm oc src) as [r H].
  now rewrite <- (aimport_det _ _ _ _ H).
Qed.
Lemma runs_finish lm oc ctx s :
  (exists t r, asteps lm oc ctx s t /\ afinal ctx t r) /\
  (forall t, astep lm oc ctx s t -> work t < work s) /\
  ((forall t, ~ astep lm oc ctx s t) -> exists r, afinal ctx s r).
Proof.
  split; [apply acomplete|]. split.
  - intros t H. apply astep_work in H. lia.
  - intros H. destruct (aprogress lm oc ctx s) as [?|[t Ht]]; auto. destruct (H t Ht).
Qed.
