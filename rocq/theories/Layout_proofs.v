(** Reading, mesh by mesh. *)
From Coq Require Import List NArith ZArith Arith Lia Bool.
From Verif Require Import Base BitSpec BitLemmas UnalignedRW UnalignedRW_proofs ReadExt ByteLemmas Triangles TriSpec Triangles_proofs Floats Unify CustomData Mesh Tmf File FileSpec
  Parse_proofs File_proofs NoPanic_proofs LayoutSpec.
Import ListNotations.
Open Scope res_scope.

Definition minor_of (ctx : import_ctx) : N := match segment_type_width ctx with TypeU8 => 2 | TypeU16 => 1 end.
Definition eseg_at (s : raw_seg) : eseg := mk_eseg (section_from_u16 (r_kind s)) (comp_of (r_comp s)) (r_payload s).
Lemma eseg_at_of s : (r_kind s < 256)%N -> eseg_at s = eseg_of s.
Proof. intros H. unfold eseg_at, eseg_of, section_from_u16. destruct (N.ltb_spec 255 (r_kind s)); [lia|reflexivity]. Qed.

Lemma outc_eseg_at bad ctx src : ctx_ok ctx -> bytes_ok src ->
  outc bad (fun x => bytes_ok (snd x) /\ exists s, src = framing (minor_of ctx) s ++ snd x /\ storable_seg (minor_of ctx) s /\
     bytes_ok (r_payload s) /\ fst x = eseg_at s) (eseg_read ctx src).
Proof.
  intros Hc Hs. unfold eseg_read.
  assert (T : outc bad (fun x => bytes_ok (snd x) /\ exists k, fst x = section_from_u16 k /\
                src = match segment_type_width ctx with TypeU8 => le_bytes 1 k | TypeU16 => le_bytes 2 k end
                      ++ snd x /\ (k < if minor_of ctx <? 2 then 65536 else 256)%N)
              (io (seg_type_read (segment_type_width ctx) src))).
  { destruct Hc as [-> | ->]; unfold minor_of; cbn [segment_type_width new_ctx old_ctx seg_type_read].
    - pose proof (outc_read_le bad 1 src Hs) as A. change (N.of_nat 1) with 1%N in A.
      change (read_le 1) with read_u8 in A. destruct (read_u8 src) as [[v r]|e|]; cbn [io map_err bind outc fst snd] in *; auto.
      destruct A as (A & B & C). split; auto. exists v. assert (v < 256)%N by exact C.
      unfold section_from_u16. destruct (N.ltb_spec 255 v); [lia|]. auto.
    - pose proof (outc_read_le bad 2 src Hs) as A. change (N.of_nat 2) with 2%N in A.
      change (read_le 2) with read_u16 in A. destruct (read_u16 src) as [[v r]|e|]; cbn [io map_err bind outc fst snd] in *; auto.
      destruct A as (A & B & C). split; auto. exists v. auto. }
  eapply outc_bind; [exact T|]. clear T. intros [ty s0] (H0 & k & E0 & B0 & K0). cbn [fst snd] in *.
  assert (L : outc bad (fun x => bytes_ok (snd x) /\ s0 =
                match segment_length_width ctx with LenU32 => le_bytes 4 (fst x) | LenU64 => le_bytes 8 (fst x) end
                ++ snd x) (io (seg_len_read (segment_length_width ctx) s0))).
  { destruct (segment_length_width ctx); cbn [seg_len_read].
    - eapply outc_weaken; [exact (outc_read_le bad 4 s0 H0)|]. intros [v r] (A & B & C). auto.
    - eapply outc_weaken; [exact (outc_read_le bad 8 s0 H0)|]. intros [v r] (A & B & C). auto. }
  eapply outc_bind; [exact L|]. clear L. intros [n s1] (H1 & B1). cbn [fst snd] in *.
  destruct (N.ltb_spec MAX_SEG_SIZE n) as [|L]; [exact I|]. rewrite max_seg in L.
  eapply outc_bind; [apply outc_u8; auto|]. intros [c s2] (H2 & B2 & C2). cbn [fst snd] in *.
  eapply outc_bind with (Q := fun x => In c comp_codes /\ x = comp_of c).
  { destruct (compression_from_u8 c) as [x|e|] eqn:E; cbn.
    - now apply comp_ok_inv.
    - unfold compression_from_u8 in E. destruct c as [|c]; [discriminate|].
      repeat (destruct c as [c|c|]; try discriminate; try (injection E as <-; exact I)).
    - unfold compression_from_u8 in E. destruct c as [|c]; [discriminate|].
      repeat (destruct c as [c|c|]; try discriminate). }
  intros x [Hx ->]. eapply outc_bind; [apply outc_read_exact|]. intros [d s3] [B3 L3]. cbn [outc fst snd] in *.
  assert (bytes_ok d /\ bytes_ok s3) as [Hd H3] by (rewrite B3 in H2; now apply bytes_ok_app).
  split; auto. exists (mk_raw k c d). unfold storable_seg, eseg_at. cbn [r_kind r_comp r_payload].
  change (len d) with (N.of_nat (length d)). rewrite L3. rewrite E0. split; [|auto].
  destruct Hc as [-> | ->]; unfold minor_of in *; cbn [segment_type_width segment_length_width new_ctx old_ctx] in *;
    unfold framing; cbn [N.ltb N.compare Pos.compare Pos.compare_cont]; unfold seg_bytes, old_seg_bytes;
      cbn [r_kind r_comp r_payload]; change (len d) with (N.of_nat (length d)); rewrite L3, !lend_le, B0, B1, B2, B3, <- !app_assoc; [|reflexivity].
  cbn [le_bytes]. rewrite (N.mod_small k) by exact K0. reflexivity.
Qed.

Lemma outc_segments_at bad ctx n : forall src, ctx_ok ctx -> bytes_ok src ->
  outc bad (fun x => bytes_ok (snd x) /\ exists l, length l = n /\ src = concat (map (framing (minor_of ctx)) l) ++ snd x /\
     Forall (storable_seg (minor_of ctx)) l /\ Forall (fun s => bytes_ok (r_payload s)) l /\ fst x = map eseg_at l) (read_segments ctx n src).
Proof.
  induction n as [|n IH]; intros src Hc Hs; cbn [read_segments].
  - cbn. split; auto. exists []. auto.
  - eapply outc_bind; [apply outc_eseg_at; auto|]. intros [e s1] (H1 & s & E & F & P & X). cbn [fst snd] in *. subst e.
    eapply outc_bind; [apply IH; auto|]. intros [l' s2] (H2 & l & Ln & E2 & HF & HP & X2). cbn [fst snd outc] in *. subst l'.
    split; auto. exists (s :: l). cbn [length map concat]. rewrite <- app_assoc, <- E2. auto 10.
Qed.

Lemma outc_string_at bad src : bytes_ok src ->
  outc bad (fun x => bytes_ok (snd x) /\ name_ok (fst x) /\ src = lend 2 (len (fst x)) ++ fst x ++ snd x) (io (read_string src)).
Proof.
  intros Hs. unfold read_string. pose proof (outc_read_le bad 2 src Hs) as A.
  change (N.of_nat 2) with 2%N in A. change (read_le 2) with read_u16 in A.
  destruct (read_u16 src) as [[n s1]|e|]; cbn [io map_err bind outc fst snd] in A |- *; auto.
  destruct A as (H1 & E1 & L1). pose proof (outc_read_exact bad n s1) as B.
  destruct (read_exact n s1) as [[nm s2]|e|]; cbn [io map_err bind outc fst snd] in B |- *; auto.
  destruct B as [E2 L2]. destruct (utf8_valid nm) eqn:U; cbn [io map_err bind outc fst snd]; [|exact I].
  assert (EL : len nm = n) by (unfold len; lia).
  split; [rewrite E2 in H1; apply bytes_ok_app in H1; tauto|]. split; [split; [now apply utf8_valid_sound|rewrite EL; exact L1]|].
  rewrite EL, lend_le, <- E2. exact E1.
Qed.

(** A mesh: its name and segments. *)
Definition mesh_at (ctx : import_ctx) (raw : raw_mesh) (src rest : list N) : Prop :=
  src = mesh_bytes (framing (minor_of ctx)) raw ++ rest /\ storable (minor_of ctx) raw /\ Forall (fun s => bytes_ok (r_payload s)) (snd raw).
Lemma mesh_at_intro ctx name n l src s1 s2 s3 : src = lend 2 (len name) ++ name ++ s1 -> s1 = le_bytes 2 n ++ s2 -> (n < 65536)%N ->
  name_ok name -> length l = N.to_nat n -> s2 = concat (map (framing (minor_of ctx)) l) ++ s3 ->
  Forall (storable_seg (minor_of ctx)) l -> Forall (fun s => bytes_ok (r_payload s)) l -> mesh_at ctx (name, l) src s3.
Proof.
  intros -> -> Ln Hn Le -> F P. assert (EL : len l = n) by (unfold len; lia). split; [|split; [|exact P]].
  - unfold mesh_bytes. cbn [fst snd]. rewrite EL, (lend_le 2 n), <- !app_assoc. reflexivity.
  - split; [exact Hn|]. cbn [snd]. rewrite EL. auto.
Qed.

(** The header. *)
Lemma framing_of d ctx : ctx = init_header d -> framing (minor_of ctx) = framing (h_min_minor d) /\
  (forall m, storable (minor_of ctx) m <-> storable (h_min_minor d) m).
Proof.
  intros ->. unfold init_header, minor_of, framing, storable, storable_seg. cbn [segment_type_width].
  destruct (N.ltb_spec 1 (h_min_minor d)), (N.ltb_spec (h_min_minor d) 2); try lia; cbn; split; reflexivity || tauto.
Qed.

Lemma header_at src h rest : bytes_ok src -> read_tmf_header src = Ok (h, rest) ->
  bytes_ok rest /\ src = header_bytes (h_major h) (h_minor h) (h_min_major h) (h_min_minor h) ++ rest /\
  Forall (fun v => v < 65536)%N [h_major h; h_minor h; h_min_major h; h_min_minor h].
Proof.
  intros Hs. unfold read_tmf_header.
  destruct (read_exact 3 src) as [[mg s0]|e|] eqn:E0; try discriminate. cbn [io map_err bind].
  apply read_exact_inv in E0 as [E0 _]. assert (H0 : bytes_ok s0) by (rewrite E0 in Hs; apply bytes_ok_app in Hs; tauto).
  destruct (list_eqb mg magic) eqn:EM; cbn [negb]; [|discriminate].
  assert (EMG : mg = magic) by now apply list_eqb_eq.
  assert (U16 : forall s, bytes_ok s -> match read_u16 s with Ok (v, r) => bytes_ok r /\ s = lend 2 v ++ r /\ (v < 65536)%N | _ => True end).
  { intros s H. pose proof (outc_read_le True 2 s H) as A. change (N.of_nat 2) with 2%N in A.
    change (read_le 2) with read_u16 in A. destruct (read_u16 s) as [[v r]|e|]; cbn [io map_err bind outc fst snd] in A; auto.
    rewrite lend_le. exact A. }
  pose proof (U16 s0 H0) as A1. destruct (read_u16 s0) as [[v1 s1]|e|]; try discriminate. cbn [io map_err bind]. destruct A1 as (A1 & F1 & L1).
  pose proof (U16 s1 A1) as A2. destruct (read_u16 s1) as [[v2 s2]|e|]; try discriminate. cbn [io map_err bind]. destruct A2 as (A2 & F2 & L2).
  pose proof (U16 s2 A2) as A3. destruct (read_u16 s2) as [[v3 s3]|e|]; try discriminate. cbn [io map_err bind]. destruct A3 as (A3 & F3 & L3).
  pose proof (U16 s3 A3) as A4. destruct (read_u16 s3) as [[v4 s4]|e|]; try discriminate. cbn [io map_err bind]. destruct A4 as (A4 & F4 & L4).
  match goal with |- context [if ?b then _ else _] => destruct b end; [discriminate|]. intros [= <- <-]. cbn [h_major h_minor h_min_major h_min_minor].
  split; [exact A4|]. split; [|auto]. unfold header_bytes. rewrite <- !app_assoc, <- F4, <- F3, <- F2, <- F1. rewrite EMG in E0. exact E0.
Qed.
