(** Reading framed segments, meshes and files. *)
From Coq Require Import List NArith ZArith Arith Lia Bool ZifyN ZifyNat ZifyBool.
From Verif Require Import Base UnalignedRW ReadExt ByteLemmas Triangles TriSpec Triangles_proofs
  Floats Utilis Unify CustomData Mesh Tmf File FileSpec Parse_proofs.
Import ListNotations.
Open Scope res_scope.
Ltac Zify.zify_post_hook ::= Z.div_mod_to_equations.

Lemma lend_le n v : lend n v = le_bytes n v.
Proof.
  revert v. induction n as [|n IH]; intros v; [reflexivity|].
  unfold lend. cbn [seq map le_bytes]. f_equal.
  - now rewrite N.div_1_r.
  - rewrite <- seq_shift, map_map, <- IH. unfold lend. apply map_ext. intros i.
    rewrite Nat2N.inj_succ, N.pow_succ_r', N.div_div by (try apply N.pow_nonzero; lia). reflexivity.
Qed.

Lemma utf8_valid_complete l : utf8 l -> utf8_valid l = true.
Proof.
  induction 1 as [|a t Ha _ IH|a b t Ha Hb _ IH|a b c t Hab Hc _ IH|a b c d t Hab Hc Hd _ IH];
    cbn [utf8_valid]; auto.
  - replace (a <? 128)%N with true by lia. auto.
  - replace (a <? 128)%N with false by lia. unfold cont, in_range.
    replace ((0xC2 <=? a) && (a <=? 0xDF))%N with true by lia. rewrite IH. lia.
  - replace (a <? 128)%N with false by lia. unfold cont, in_range.
    replace ((0xC2 <=? a) && (a <=? 0xDF))%N with false by lia.
    replace ((0xE0 <=? a) && (a <=? 0xEF))%N with true by lia. rewrite IH.
    destruct (N.eqb_spec a 0xE0), (N.eqb_spec a 0xED); lia.
  - replace (a <? 128)%N with false by lia. unfold cont, in_range.
    replace ((0xC2 <=? a) && (a <=? 0xDF))%N with false by lia.
    replace ((0xE0 <=? a) && (a <=? 0xEF))%N with false by lia.
    replace ((0xF0 <=? a) && (a <=? 0xF4))%N with true by lia. rewrite IH.
    destruct (N.eqb_spec a 0xF0), (N.eqb_spec a 0xF4); lia.
Qed.

Lemma utf8_valid_sound l : utf8_valid l = true -> utf8 l.
Proof.
  assert (G : forall n l, length l <= n -> utf8_valid l = true -> utf8 l).
  { induction n as [|n IH]; intros [|a t] Hl H; try exact utf8_nil; [cbn in Hl; lia|].
    cbn [length] in Hl. cbn [utf8_valid] in H. unfold cont, in_range in H.
    destruct (N.ltb_spec a 0x80).
    { apply utf8_1; [lia|]. apply IH; [lia|auto]. }
    destruct ((0xC2 <=? a) && (a <=? 0xDF))%N eqn:E1.
    { destruct t as [|b t]; [discriminate|]. apply andb_prop in H as [H1 H2].
      apply utf8_2; try lia. apply IH; [cbn in Hl; lia|auto]. }
    destruct ((0xE0 <=? a) && (a <=? 0xEF))%N eqn:E2.
    { destruct t as [|b [|c t]]; try discriminate. apply andb_prop in H as [H1 H2].
      apply utf8_3; [|lia|apply IH; [cbn in Hl; lia|auto]].
      destruct (N.eqb_spec a 0xE0), (N.eqb_spec a 0xED); lia. }
    destruct ((0xF0 <=? a) && (a <=? 0xF4))%N eqn:E3; [|discriminate].
    destruct t as [|b [|c [|d t]]]; try discriminate. apply andb_prop in H as [H1 H2].
    apply utf8_4; [|lia|lia|apply IH; [cbn in Hl; lia|auto]].
    destruct (N.eqb_spec a 0xF0), (N.eqb_spec a 0xF4); lia. }
  intros. now apply (G (length l)).
Qed.

Lemma list_eqb_eq a b : list_eqb a b = true <-> a = b.
Proof.
  revert b. induction a as [|x a IH]; intros [|y b]; cbn; try (split; [discriminate|congruence]); [tauto|].
  rewrite andb_true_iff, N.eqb_eq, IH. split; [intros [-> ->]; auto|intros [= -> ->]; auto].
Qed.

(** ** Framing *)

Definition comp_of (b : N) : compression :=
  match compression_from_u8 b with Ok c => c | _ => CNone end.
(** The model's view of a raw segment. *)
Definition eseg_of (s : raw_seg) : eseg :=
  mk_eseg (section_from_u8 (r_kind s)) (comp_of (r_comp s)) (r_payload s).

Lemma comp_ok b : In b comp_codes -> compression_from_u8 b = Ok (comp_of b) /\ (b < 256)%N.
Proof. intros [<-|[<-|[<-|[<-|[]]]]]; split; reflexivity. Qed.

Lemma comp_ok_inv b c : compression_from_u8 b = Ok c -> In b comp_codes /\ c = comp_of b.
Proof.
  unfold comp_of. intros H. rewrite H. split; auto. unfold comp_codes.
  destruct (in_dec N.eq_dec b [0;1;2;255]%N) as [|n]; auto. exfalso.
  assert (b <> 0 /\ b <> 1 /\ b <> 2 /\ b <> 255)%N as (A & B & C & D) by (cbn in n; intuition).
  unfold compression_from_u8 in H.
  destruct b as [|b]; [congruence|]. do 8 (destruct b as [b|b|]; try congruence).
Qed.

Lemma eseg_read_new s rest :
  frameable s -> eseg_read new_ctx (seg_bytes s ++ rest) = Ok (eseg_of s, rest).
Proof.
  intros (H1 & H2 & H3). unfold seg_bytes, len in *. rewrite lend_le, <- !app_assoc. cbn [app].
  unfold eseg_read. cbn [segment_type_width segment_length_width new_ctx seg_type_read seg_len_read].
  rewrite read_u8_byte by auto. cbn [io map_err bind].
  rewrite read_u32_w by (unfold two32; lia). cbn [io map_err bind].
  replace (MAX_SEG_SIZE <? N.of_nat (length (r_payload s)))%N with false
    by (symmetry; apply N.ltb_ge; exact H3).
  destruct (comp_ok _ H2) as [C1 C2]. rewrite read_u8_byte by auto. cbn [io map_err bind].
  rewrite C1. cbn [bind]. rewrite read_exact_app by auto. reflexivity.
Qed.

Lemma section_u16 k : (k < 256)%N -> section_from_u16 k = section_from_u8 k.
Proof. intros. unfold section_from_u16. destruct (N.ltb_spec 255 k); [lia|auto]. Qed.

Lemma eseg_read_old s rest :
  frameable s -> eseg_read old_ctx (old_seg_bytes s ++ rest) = Ok (eseg_of s, rest).
Proof.
  intros (H1 & H2 & H3). unfold old_seg_bytes, len in *. rewrite !lend_le, <- !app_assoc.
  unfold eseg_read. cbn [segment_type_width segment_length_width old_ctx seg_type_read seg_len_read].
  rewrite read_u16_w by lia. cbn [io map_err bind]. rewrite section_u16 by auto.
  rewrite read_u64_w by (unfold two64; lia). cbn [io map_err bind].
  replace (MAX_SEG_SIZE <? N.of_nat (length (r_payload s)))%N with false
    by (symmetry; apply N.ltb_ge; exact H3).
  destruct (comp_ok _ H2) as [C1 C2]. cbn [app]. rewrite read_u8_byte by auto. cbn [io map_err bind].
  rewrite C1. cbn [bind]. rewrite read_exact_app by auto. reflexivity.
Qed.

Definition frame_ok (ctx : import_ctx) (frame : raw_seg -> list N) : Prop :=
  forall s rest, frameable s -> eseg_read ctx (frame s ++ rest) = Ok (eseg_of s, rest).
Lemma frame_new : frame_ok new_ctx seg_bytes.
Proof. exact eseg_read_new. Qed.
Lemma frame_old : frame_ok old_ctx old_seg_bytes.
Proof. exact eseg_read_old. Qed.

Lemma read_segments_ok ctx frame l rest :
  frame_ok ctx frame -> Forall frameable l ->
  read_segments ctx (length l) (concat (map frame l) ++ rest) = Ok (map eseg_of l, rest).
Proof.
  intros HF. induction 1 as [|s l Hs _ IH]; [reflexivity|].
  cbn [length read_segments map concat]. rewrite <- app_assoc, HF by auto. cbn [bind].
  rewrite IH. reflexivity.
Qed.

Lemma read_string_w name rest :
  name_ok name -> read_string (lend 2 (len name) ++ name ++ rest) = Ok (name, rest).
Proof.
  intros [H1 H2]. unfold read_string. rewrite lend_le, read_u16_w by auto. cbn [bind].
  rewrite read_exact_app by reflexivity. cbn [bind]. now rewrite utf8_valid_complete.
Qed.

(** What loading a mesh does once its segments are framed. *)
Definition load_raw (lm : libm) (oc : bool) (ctx : import_ctx) (m : raw_mesh) : res ierr (mesh * list N) :=
  let* d := join_collect (map (decode lm oc ctx) (map eseg_of (snd m))) in
  Ok (fold_left apply d empty, fst m).

Lemma import_mesh_ok lm oc ctx frame m rest :
  frame_ok ctx frame -> mesh_ok m ->
  import_mesh lm oc ctx (mesh_bytes frame m ++ rest)
    = let* x := load_raw lm oc ctx m in Ok (x, rest).
Proof.
  intros HF (H1 & H2 & H3). unfold import_mesh, mesh_bytes. rewrite <- !app_assoc.
  rewrite read_string_w by auto. cbn [io map_err bind].
  rewrite lend_le, read_u16_w by auto. cbn [io map_err bind].
  unfold len. rewrite Nat2N.id. rewrite (read_segments_ok ctx frame) by auto. cbn [bind].
  unfold load_raw. destruct (join_collect _); reflexivity.
Qed.

Lemma import_meshes_ok lm oc ctx frame ms rest :
  frame_ok ctx frame -> Forall mesh_ok ms ->
  import_meshes lm oc ctx (length ms) (concat (map (mesh_bytes frame) ms) ++ rest)
    = let* l := collect (map (load_raw lm oc ctx) ms) in Ok (l, rest).
Proof.
  intros HF. induction 1 as [|m ms Hm _ IH]; [reflexivity|].
  cbn [length import_meshes map concat collect]. rewrite <- app_assoc.
  rewrite (import_mesh_ok lm oc ctx frame) by auto.
  destruct (load_raw lm oc ctx m); cbn [bind]; auto.
  rewrite IH. destruct (collect _); reflexivity.
Qed.

Lemma read_header_w a b c d rest :
  (a < 65536)%N -> (b < 65536)%N -> (c < 65536)%N -> (d < 65536)%N ->
  read_tmf_header (header_bytes a b c d ++ rest) =
  if ((0 <? c) || ((c =? 0) && (2 <? d)))%N then Err ENewerVersionRequired
  else Ok (mk_header a b c d, rest).
Proof.
  intros Ha Hb Hc Hd. unfold header_bytes. rewrite !lend_le, <- !app_assoc.
  unfold read_tmf_header. rewrite read_exact_app by reflexivity. cbn [io map_err bind].
  change (list_eqb [84; 77; 70]%N magic) with true. cbn [negb].
  do 4 (rewrite read_u16_w by auto; cbn [io map_err bind]).
  reflexivity.
Qed.

Lemma import_new lm oc ms rest :
  file_ok ms ->
  import lm oc (file_bytes ms ++ rest) =
    let* l := collect (map (load_raw lm oc new_ctx) ms) in Ok (l, rest).
Proof.
  intros [H1 H2]. unfold import, file_bytes. rewrite <- !app_assoc.
  rewrite read_header_w by lia. cbn [bind N.ltb N.eqb N.compare orb andb Pos.compare Pos.compare_cont].
  rewrite lend_le, read_u32_w by auto. cbn [io map_err bind]. unfold len. rewrite Nat2N.id.
  apply (import_meshes_ok lm oc new_ctx seg_bytes); auto. apply frame_new.
Qed.

Lemma import_old lm oc major minor mm ms rest :
  (major < 65536)%N -> (minor < 65536)%N -> (mm < 2)%N -> file_ok ms ->
  import lm oc (old_file_bytes major minor mm ms ++ rest) =
    let* l := collect (map (load_raw lm oc old_ctx) ms) in Ok (l, rest).
Proof.
  intros Ha Hb Hm [H1 H2]. unfold import, old_file_bytes. rewrite <- !app_assoc.
  rewrite read_header_w by lia.
  replace ((0 <? 0) || ((0 =? 0) && (2 <? mm)))%N with false by lia. cbn [bind].
  rewrite lend_le, read_u32_w by auto. cbn [io map_err bind]. unfold len. rewrite Nat2N.id.
  unfold init_header. cbn [h_min_minor]. replace (1 <? mm)%N with false by lia.
  apply (import_meshes_ok lm oc old_ctx old_seg_bytes); auto. apply frame_old.
Qed.

(** ** Unknown kinds *)

Lemma section_known k : existsb (N.eqb k) known_kinds = false -> section_from_u8 k = SInvalid.
Proof.
  intros H. unfold known_kinds in H. cbn [existsb] in H.
  repeat (apply orb_false_iff in H as [? H]).
  repeat match goal with E : (_ =? _)%N = false |- _ => apply N.eqb_neq in E end.
  unfold section_from_u8.
  destruct k as [|k]; [reflexivity|]. do 5 (destruct k as [k|k|]; try reflexivity; try congruence).
Qed.

Lemma decode_unknown lm oc ctx s : known s = false -> decode lm oc ctx (eseg_of s) = Ok DNothing.
Proof.
  intros H. unfold decode, eseg_of. cbn [e_type]. unfold known in H. now rewrite section_known.
Qed.

Lemma collect_skip lm oc ctx l : forall acc,
  (let* d := collect (map (decode lm oc ctx) (map eseg_of l)) in Ok (fold_left apply d acc)) =
  (let* d := collect (map (decode lm oc ctx) (map eseg_of (filter known l))) in
   Ok (fold_left apply d acc)).
Proof.
  induction l as [|s l IH]; intros acc; [reflexivity|].
  cbn [map collect filter]. destruct (known s) eqn:K.
  - cbn [map collect]. destruct (decode lm oc ctx (eseg_of s)) as [d| |]; cbn [bind]; auto.
    specialize (IH (apply acc d)).
    destruct (collect (map _ (map eseg_of l))), (collect (map _ (map eseg_of (filter known l))));
      cbn [bind fold_left] in *; congruence.
  - rewrite (decode_unknown lm oc ctx s K). cbn [bind].
    specialize (IH acc).
    destruct (collect (map _ (map eseg_of l))), (collect (map _ (map eseg_of (filter known l))));
      cbn [bind fold_left apply] in *; congruence.
Qed.

Lemma panic_skip lm oc ctx l :
  existsb is_panic (map (decode lm oc ctx) (map eseg_of l)) =
  existsb is_panic (map (decode lm oc ctx) (map eseg_of (filter known l))).
Proof.
  induction l as [|s l IH]; [reflexivity|].
  cbn [map existsb filter]. destruct (known s) eqn:K; cbn [map existsb].
  - now rewrite IH.
  - rewrite (decode_unknown lm oc ctx s K). cbn. exact IH.
Qed.

Definition strip (m : raw_mesh) : raw_mesh := (fst m, filter known (snd m)).

Lemma load_strip lm oc ctx m : load_raw lm oc ctx m = load_raw lm oc ctx (strip m).
Proof.
  unfold load_raw, join_collect, strip. cbn [fst snd]. rewrite <- panic_skip.
  destruct (existsb is_panic _); auto.
  pose proof (collect_skip lm oc ctx (snd m) empty) as H.
  destruct (collect (map _ (map eseg_of (snd m)))), (collect (map _ (map eseg_of (filter known (snd m)))));
    cbn [bind] in *; congruence.
Qed.

Lemma filter_len {A} (f : A -> bool) l : length (filter f l) <= length l.
Proof. induction l as [|a l IH]; cbn; [lia|destruct (f a); cbn; lia]. Qed.

Lemma strip_ok m : mesh_ok m -> mesh_ok (strip m).
Proof.
  intros (H1 & H2 & H3). split; [exact H1|]. cbn [strip snd]. split.
  - unfold len in *. pose proof (filter_len known (snd m)). lia.
  - rewrite Forall_forall in *. intros x Hx. apply filter_In in Hx. apply H3. tauto.
Qed.

Lemma file_strip_ok ms : file_ok ms -> file_ok (map strip ms).
Proof.
  intros [H1 H2]. split; [unfold len in *; now rewrite map_length|].
  rewrite Forall_map. eapply Forall_impl; [|exact H2]. apply strip_ok.
Qed.

(** ** Old files *)

Lemma read_index_old {A} (k : N -> N -> N -> list N -> res ierr A) old new :
  old_index old new ->
  (let* (p, s) := io (read_u8 old) in
   let* (l, s) := io (read_u64 s) in
   let* (m, s) := io (read_triangle_min old_ctx s) in k p l m s) =
  (let* (p, s) := io (read_u8 new) in
   let* (l, s) := io (read_u64 s) in
   let* (m, s) := io (read_triangle_min new_ctx s) in k p l m s).
Proof.
  intros (w & count & bits & -> & -> & Hc). rewrite lend_le. cbn [app].
  unfold read_u8, read_u64, read_le.
  change (w :: count ++ bits) with ([w] ++ count ++ bits).
  change (w :: count ++ le_bytes 8 0 ++ bits) with ([w] ++ count ++ le_bytes 8 0 ++ bits).
  rewrite !read_exact_app by reflexivity. cbn [io map_err bind].
  rewrite !read_exact_app by (rewrite Hc; reflexivity). cbn [io map_err bind].
  unfold read_triangle_min. cbn [should_read_min_index old_ctx new_ctx io map_err bind].
  rewrite read_u64_w by reflexivity. reflexivity.
Qed.

Lemma read_triangles_old oc old new :
  old_index old new -> read_triangles oc old_ctx old = read_triangles oc new_ctx new.
Proof. intros. rewrite !read_triangles_spec. now apply read_index_old. Qed.
Lemma read_default_old oc old new :
  old_index old new -> read_default_triangles oc old_ctx old = read_default_triangles oc new_ctx new.
Proof. intros. rewrite !read_default_spec. now apply read_index_old. Qed.

Lemma cseg_read_old oc k name o n :
  (k = KIndex \/ k = KInteger) -> old_index o n ->
  cseg_read oc old_ctx k (len name :: name ++ o) = cseg_read oc new_ctx k (len name :: name ++ n).
Proof.
  intros Hk H. unfold cseg_read, read_u8, read_le.
  change (len name :: name ++ o) with ([len name] ++ name ++ o).
  change (len name :: name ++ n) with ([len name] ++ name ++ n).
  rewrite !read_exact_app by reflexivity. cbn [io map_err bind of_le_bytes].
  rewrite N.mul_0_r, N.add_0_r. rewrite !read_exact_app by reflexivity. cbn [io map_err bind].
  rewrite (read_triangles_old oc o n H). destruct Hk as [-> | ->]; reflexivity.
Qed.

Lemma decode_old lm oc a b :
  same_segment a b -> decode lm oc old_ctx (eseg_of a) = decode lm oc new_ctx (eseg_of b).
Proof.
  destruct a as [k c pa], b as [k' c' pb]. intros (E1 & E2 & E3).
  cbn [r_kind r_comp r_payload] in *. subst k' c'. unfold same_payload in E3.
  unfold decode, eseg_of, decode_triangle_data. cbn [e_type e_comp e_data r_kind r_comp r_payload].
  destruct (existsb (N.eqb k) [2; 4; 6; 10]%N) eqn:K1.
  { cbn [existsb] in K1. rewrite (read_default_old oc pa pb E3).
    repeat (apply orb_prop in K1 as [K1|K1]; [apply N.eqb_eq in K1; subst k; reflexivity|]).
    discriminate. }
  destruct (N.eqb_spec k 25) as [->|K2].
  { destruct E3 as (mask & o & n & -> & -> & H). cbn [section_from_u8].
    rewrite (read_default_old oc o n H). reflexivity. }
  destruct (existsb (N.eqb k) [15; 24]%N) eqn:K3.
  { destruct E3 as (name & o & n & -> & -> & H). cbn [existsb] in K3.
    repeat (apply orb_prop in K3 as [K3|K3]; [apply N.eqb_eq in K3; subst k; cbn [section_from_u8];
      rewrite (cseg_read_old oc _ name o n) by auto; reflexivity|]).
    discriminate. }
  subst pb. cbn [existsb] in K1, K3.
  apply orb_false_iff in K1 as [A1 K1]. apply orb_false_iff in K1 as [A2 K1].
  apply orb_false_iff in K1 as [A3 K1]. apply orb_false_iff in K1 as [A4 _].
  apply orb_false_iff in K3 as [A5 K3]. apply orb_false_iff in K3 as [A6 _].
  apply N.eqb_neq in A1, A2, A3, A4, A5, A6.
  destruct (section_from_u8 k) eqn:S; try reflexivity;
    try (exfalso; revert S; unfold section_from_u8;
         (destruct k as [|k]; [discriminate|]); do 5 (try (destruct k as [k|k|]; try discriminate; try congruence)); fail).
  match goal with x : ckind |- _ => destruct x end; try reflexivity;
    exfalso; revert S; unfold section_from_u8;
         (destruct k as [|k]; [discriminate|]); do 5 (try (destruct k as [k|k|]; try discriminate; try congruence)).
Qed.

Lemma load_old lm oc a b :
  same_raw_mesh a b -> load_raw lm oc old_ctx a = load_raw lm oc new_ctx b.
Proof.
  destruct a as [n l], b as [n' l']. intros [E F]. cbn [fst snd] in *. subst n'.
  unfold load_raw. cbn [fst snd].
  replace (map (decode lm oc old_ctx) (map eseg_of l)) with (map (decode lm oc new_ctx) (map eseg_of l')); auto.
  induction F as [|a b l l' H _ IH]; cbn [map]; auto. rewrite IH. f_equal. symmetry. now apply decode_old.
Qed.
