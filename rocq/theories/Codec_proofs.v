(** What the float array codecs write and what their readers make of it, exactly:
    every reader recovers the codes of the writer modulo the field width. *)
From Coq Require Import List NArith ZArith Arith Lia Bool ZifyN ZifyNat ZifyBool.
From Verif Require Import Base BitSpec BitLemmas UnalignedRW BitIOSpec UnalignedRW_proofs
  ReadExt ByteLemmas Triangles TriSpec Triangles_proofs Floats Floats_proofs Utilis Vertices Uv Normals CustomData.
Import ListNotations.
Open Scope res_scope.
Ltac Zify.zify_post_hook ::= Z.div_mod_to_equations.

(** ** Reading one or two fields off known bits *)

Definition low (w : nat) (v : N) : N := (v mod 2 ^ N.of_nat w)%N.

Lemma firstn_bits_app w v l : firstn w (bits w v ++ l) = bits w v.
Proof.
  rewrite firstn_app, bits_length, Nat.sub_diag, firstn_O, app_nil_r.
  apply firstn_all2. rewrite bits_length. lia.
Qed.
Lemma skipn_bits_app w v l : skipn w (bits w v ++ l) = l.
Proof.
  rewrite skipn_app, bits_length, Nat.sub_diag, skipn_all2 by (rewrite bits_length; lia). reflexivity.
Qed.

Lemma read_one r w v rest :
  rok r -> w < 64 -> rbits r = bits w v ++ rest ->
  exists r', read_unaligned r w = Ok (low w v, r') /\ rok r' /\ rbits r' = rest.
Proof.
  intros Hr Hw Hb. destruct (read_unaligned_spec r w Hr Hw) as [A _].
  destruct A as (r' & E & O & B). { rewrite Hb, app_length, bits_length. lia. }
  exists r'. split; [|split]; auto.
  - now rewrite E, Hb, firstn_bits_app, of_bits_bits.
  - now rewrite B, Hb, skipn_bits_app.
Qed.

Lemma read_two oc r w a b rest :
  rok r -> w < 64 -> w <> 32 -> rbits r = bits w a ++ bits w b ++ rest ->
  exists r', read2_unaligned oc r w = Ok ((low w a, low w b), r') /\ rok r' /\ rbits r' = rest.
Proof.
  intros Hr Hw H32 Hb. destruct (read2_spec oc r w Hr Hw H32) as [A _].
  destruct A as (r' & E & O & B). { rewrite Hb, !app_length, !bits_length. lia. }
  exists r'. split; [|split]; auto.
  - now rewrite E, Hb, skipn_bits_app, !firstn_bits_app, !of_bits_bits.
  - now rewrite B, Hb, skipn_add, !skipn_bits_app.
Qed.

Lemma read_bool r b rest :
  rok r -> rbits r = bits (fst (bit b)) (snd (bit b)) ++ rest ->
  exists r', read_bit r = Ok (b, r') /\ rok r' /\ rbits r' = rest.
Proof.
  intros Hr Hb. destruct (read_bit_spec r Hr) as [A _]. apply A. rewrite Hb. now destruct b.
Qed.

Lemma sat_cast_lt mx x : (mx < two64)%N -> (sat_cast mx x < two64)%N.
Proof.
  intros H. unfold sat_cast. destruct x; try lia.
  - destruct s; [reflexivity|auto].
Qed.
Lemma u64_lt x : (u64_of_f32 x < two64)%N.
Proof. apply sat_cast_lt. reflexivity. Qed.

Lemma field_bits_cons f l : field_bits (f :: l) = bits (fst f) (snd f) ++ field_bits l.
Proof. reflexivity. Qed.

Lemma firstn_repeat {A} (x : A) n m : n <= m -> firstn n (repeat x m) = repeat x n.
Proof. revert m; induction n; intros [|m] H; cbn; auto; [lia|]. f_equal. apply IHn. lia. Qed.

Lemma Forall_flat_map {A B} (P : B -> Prop) (f : A -> list B) l :
  (forall a, In a l -> Forall P (f a)) -> Forall P (flat_map f l).
Proof.
  induction l as [|a l IH]; intros H; cbn; [constructor|]. apply Forall_app. split.
  - apply H. now left.
  - apply IH. intros. apply H. now right.
Qed.

Lemma packs_ok p l : packs p l -> bytes_ok p.
Proof. intros [H _]. exact H. Qed.

Lemma packs_bits p l rest : packs p l -> exists pad, bits_of_bytes (p ++ rest) = l ++ pad.
Proof.
  intros (_ & _ & pad & H). unfold bits_of_bytes in *. rewrite flat_map_app, H.
  eexists. rewrite <- app_assoc. reflexivity.
Qed.

Lemma small_byte n : n < 256 -> bytes_ok [N.of_nat n].
Proof. intros. repeat constructor. unfold byte_ok. lia. Qed.

Lemma len64 {A} (l : list A) : (N.of_nat (length l) <= 2 ^ 31)%N -> (N.of_nat (length l) < two64)%N.
Proof. intros. eapply N.le_lt_trans; [eassumption|reflexivity]. Qed.
Lemma len_seg {A} (l : list A) : (N.of_nat (length l) <= 2 ^ 31)%N -> (MAX_SEG_SIZE <? N.of_nat (length l))%N = false.
Proof. intros. apply N.ltb_ge. exact H. Qed.

Lemma read_u8_cons p s : (p < 256)%N -> read_u8 (p :: s) = Ok (p, s).
Proof. apply read_u8_byte. Qed.

(** ** Texture coordinates *)

Definition uv_fields (p : nat) (mul : f32) (uvs : list vec2) : list (nat * N) :=
  flat_map (fun uv => [(p, uv_code mul (fst uv)); (p, uv_code mul (snd uv))]) uvs.

Lemma save_uvs_spec oc uvs p mul sink :
  bytes_ok sink -> p <= 64 -> mask_f32 (E:=ioerr) oc p = Ok mul ->
  exists payload,
    save_uvs oc uvs p sink
      = Ok (sink ++ [N.of_nat p] ++ le_bytes 8 (N.of_nat (length uvs)) ++ payload) /\
    packs payload (field_bits (uv_fields p mul uvs)).
Proof.
  intros Hs Hp Hm. unfold save_uvs. rewrite Hm. cbn [bind].
  destruct (writer_packs_sink oc ((sink ++ [N.of_nat p]) ++ le_bytes 8 (N.of_nat (length uvs)))
              (uv_fields p mul uvs)) as (w & pl & E & F & P).
  - rewrite !bytes_ok_app. repeat split; auto using le_bytes_ok. apply small_byte. lia.
  - apply Forall_flat_map. intros a _.
    repeat (apply Forall_cons; [cbn [fst snd]; split; [exact Hp|apply u64_lt]|]). apply Forall_nil.
  - unfold uv_fields in E. rewrite E. cbn [bind]. rewrite F. exists pl. split; auto.
    now rewrite <- !app_assoc.
Qed.

Definition uv_image (p : nat) (mul div : f32) (uv : vec2) : vec2 :=
  (uv_value div (low p (uv_code mul (fst uv))), uv_value div (low p (uv_code mul (snd uv)))).

Lemma read_uv_loop_ok oc p mul div uvs : forall r acc rest,
  rok r -> p < 64 -> p <> 32 -> rbits r = field_bits (uv_fields p mul uvs) ++ rest ->
  read_uv_loop oc (length uvs) r p div acc = Ok (acc ++ map (uv_image p mul div) uvs).
Proof.
  induction uvs as [|uv t IH]; intros r acc rest Hr Hp H32 Hb.
  - cbn. now rewrite app_nil_r.
  - cbn [length read_uv_loop]. unfold uv_fields in Hb. cbn [flat_map app] in Hb.
    rewrite !field_bits_cons in Hb. cbn [fst snd] in Hb. rewrite <- !app_assoc in Hb.
    destruct (read_two oc r p _ _ _ Hr Hp H32 Hb) as (r' & E & O & B).
    rewrite E. cbn [io map_err bind fst snd].
    rewrite (IH r' _ rest O Hp H32 B). rewrite <- app_assoc. reflexivity.
Qed.

Lemma uvs_roundtrip oc oc' uvs p mul rest :
  (N.of_nat (length uvs) <= 2 ^ 31)%N -> p < 64 -> p <> 32 -> 0 < p ->
  mask_f32 (E:=ioerr) oc p = Ok mul -> bytes_ok rest ->
  exists bytes, save_uvs oc uvs p [] = Ok bytes /\ bytes_ok bytes /\
    read_uvs oc' (bytes ++ rest) = Ok (map (uv_image p mul (f32_of_N (mask_u64 p))) uvs).
Proof.
  intros Hl Hp H32 H0 Hm Hrest.
  destruct (save_uvs_spec oc uvs p mul [] (Forall_nil _) ltac:(lia) Hm) as (pl & E & P).
  eexists. split; [exact E|]. pose proof (packs_ok _ _ P) as Hpl.
  split; [cbn [app]; rewrite app_comm_cons; apply bytes_ok_app; split;
          [constructor; [unfold byte_ok; lia|apply le_bytes_ok]|auto]|].
  cbn [app]. rewrite <- !app_assoc. unfold read_uvs.
  rewrite read_u8_cons by lia. cbn [io map_err bind].
  rewrite read_u64_w by now apply len64. cbn [io map_err bind].
  rewrite len_seg by auto.
  replace (N.of_nat p =? 0)%N with false by (symmetry; apply N.eqb_neq; lia).
  replace (64 <=? N.of_nat p)%N with false by (symmetry; apply N.leb_gt; lia).
  rewrite !Nat2N.id. destruct (packs_bits _ _ rest P) as [pad Hpad].
  apply (read_uv_loop_ok oc' p mul (f32_of_N (mask_u64 p)) uvs _ [] pad);
    try (apply rok_new; apply bytes_ok_app); try (rewrite rbits_new; exact Hpad); auto.
Qed.

Lemma field_bits_zero fs : Forall (fun f => fst f = 0) fs -> field_bits fs = [].
Proof. induction 1 as [|[w v] t H _ IH]; auto. cbn in H. subst. rewrite field_bits_cons. auto. Qed.

Lemma uvs_roundtrip_0 oc oc' uvs rest :
  (N.of_nat (length uvs) <= 2 ^ 31)%N -> bytes_ok rest ->
  exists bytes, save_uvs oc uvs 0 [] = Ok bytes /\ bytes_ok bytes /\
    read_uvs oc' (bytes ++ rest) = Ok (map (fun _ => (f0, f0)) uvs).
Proof.
  intros Hl Hrest.
  destruct (save_uvs_spec oc uvs 0 (f32_of_Z 0) [] (Forall_nil _) ltac:(lia)) as (pl & E & P);
    [now destruct oc|].
  eexists. split; [exact E|]. pose proof (packs_ok _ _ P) as Hpl.
  split; [cbn [app]; rewrite app_comm_cons; apply bytes_ok_app; split;
          [constructor; [unfold byte_ok; lia|apply le_bytes_ok]|auto]|].
  cbn [app]. rewrite <- !app_assoc. unfold read_uvs.
  rewrite read_u8_cons by lia. cbn [io map_err bind].
  rewrite read_u64_w by now apply len64. cbn [io map_err bind].
  rewrite len_seg by auto. cbn [N.of_nat N.eqb]. rewrite Nat2N.id. f_equal.
  clear. induction uvs; cbn; congruence.
Qed.

(** ** Normals *)

Definition code_fields (p : nat) (codes : list ncode) := flat_map (fun c => normal_fields c p) codes.
Definition tcode_fields (p : nat) (codes : list (bool * ncode)) :=
  flat_map (fun hc => tangent_fields (fst hc) (snd hc) p) codes.

Lemma normal_to_encoding_range {E} lm oc n p c :
  normal_to_encoding (E:=E) lm oc n p = Ok c -> (n_asine c < two64)%N /\ (n_z c < two64)%N.
Proof.
  unfold normal_to_encoding. destruct (mask_f32 oc p); cbn [bind]; try discriminate.
  intros [= <-]. cbn [n_asine n_z]. split; apply u64_lt.
Qed.

Definition code_ok (c : ncode) : Prop := (n_asine c < two64)%N /\ (n_z c < two64)%N.

Lemma normal_fields_ok p c : p <= 64 -> code_ok c ->
  Forall (fun f => fst f <= 64 /\ (snd f < two64)%N) (normal_fields c p).
Proof.
  intros Hp [H1 H2]. unfold normal_fields.
  assert (B : forall b, fst (bit b) <= 64 /\ (snd (bit b) < two64)%N).
  { intros []; cbn [bit fst snd]; split; try lia; reflexivity. }
  repeat (apply Forall_cons; [first [apply B | cbn [fst snd]; auto]|]). apply Forall_nil.
Qed.

Definition narr_header (len : N) (p : nat) : list N := le_bytes 8 len ++ [N.of_nat p].
Lemma narr_header_ok l p : p <= 64 -> bytes_ok (narr_header l p).
Proof. intros. apply bytes_ok_app. split; [apply le_bytes_ok|apply small_byte; lia]. Qed.

Lemma save_normals_spec lm oc normals p codes sink :
  bytes_ok sink -> p <= 64 ->
  map_res (E:=ioerr) (fun n => normal_to_encoding lm oc n p) normals = Ok codes ->
  Forall code_ok codes ->
  exists payload,
    save_normal_array lm oc normals p sink
      = Ok (sink ++ narr_header (N.of_nat (length normals)) p ++ payload) /\
    packs payload (field_bits (code_fields p codes)).
Proof.
  intros Hs Hp Hm Hc. unfold save_normal_array. rewrite Hm. cbn [bind].
  destruct (writer_packs_sink oc (sink ++ narr_header (N.of_nat (length normals)) p)
              (code_fields p codes)) as (w & pl & E & F & P).
  - apply bytes_ok_app. split; auto. now apply narr_header_ok.
  - apply Forall_flat_map. intros a Ha. apply normal_fields_ok; auto.
    rewrite Forall_forall in Hc. auto.
  - unfold code_fields, narr_header in *. rewrite E. cbn [bind]. rewrite F. exists pl. split; auto.
    now rewrite <- !app_assoc.
Qed.

Definition low_code (p : nat) (c : ncode) : ncode :=
  mk_ncode (low p (n_asine c)) (low p (n_z c)) (n_sx c) (n_sy c) (n_sz c).

Lemma read_normal_ok lm oc p c r rest :
  rok r -> p < 64 -> p <> 32 -> rbits r = field_bits (normal_fields c p) ++ rest ->
  exists r', read_normal lm oc p r = Ok (normal_from_encoding lm (low_code p c) p, r') /\
    rok r' /\ rbits r' = rest.
Proof.
  intros Hr Hp H32 Hb. unfold normal_fields in Hb. rewrite !field_bits_cons, <- !app_assoc in Hb.
  unfold read_normal.
  destruct (read_bool r _ _ Hr Hb) as (r1 & E1 & O1 & B1). rewrite E1. cbn [io map_err bind].
  destruct (read_bool r1 _ _ O1 B1) as (r2 & E2 & O2 & B2). rewrite E2. cbn [io map_err bind].
  destruct (read_bool r2 _ _ O2 B2) as (r3 & E3 & O3 & B3). rewrite E3. cbn [io map_err bind].
  cbn [fst snd field_bits flat_map app] in B3.
  destruct (read_two oc r3 p _ _ _ O3 Hp H32 B3) as (r4 & E4 & O4 & B4). rewrite E4.
  cbn [io map_err bind fst snd]. exists r4. auto.
Qed.

Lemma read_normal_loop_ok lm oc p codes : forall r acc rest,
  rok r -> p < 64 -> p <> 32 -> rbits r = field_bits (code_fields p codes) ++ rest ->
  read_normal_loop lm oc (length codes) p r acc
    = Ok (acc ++ map (fun c => normal_from_encoding lm (low_code p c) p) codes).
Proof.
  induction codes as [|c t IH]; intros r acc rest Hr Hp H32 Hb.
  - cbn. now rewrite app_nil_r.
  - cbn [length read_normal_loop]. unfold code_fields in Hb. cbn [flat_map] in Hb.
    rewrite field_bits_app, <- app_assoc in Hb.
    destruct (read_normal_ok lm oc p c r _ Hr Hp H32 Hb) as (r' & E & O & B).
    rewrite E. cbn [bind]. rewrite (IH r' _ rest O Hp H32 B). rewrite <- app_assoc. reflexivity.
Qed.

Lemma map_res_length {E A B} (f : A -> res E B) l l' : map_res f l = Ok l' -> length l' = length l.
Proof.
  revert l'; induction l as [|a l IH]; cbn [map_res]; intros l'.
  - now intros [= <-].
  - destruct (f a); cbn [bind]; try discriminate. destruct (map_res f l) eqn:E1; cbn [bind]; try discriminate.
    intros [= <-]. cbn. f_equal. auto.
Qed.

Lemma map_res_Forall {E A B} (f : A -> res E B) (P : B -> Prop) l l' :
  (forall a b, f a = Ok b -> P b) -> map_res f l = Ok l' -> Forall P l'.
Proof.
  intros H. revert l'; induction l as [|a l IH]; cbn [map_res]; intros l'.
  - intros [= <-]. constructor.
  - destruct (f a) eqn:Ea; cbn [bind]; try discriminate.
    destruct (map_res f l) eqn:E'; cbn [bind]; try discriminate.
    intros [= <-]. constructor; eauto.
Qed.

Lemma read_prec_w p s : p < 64 -> read_prec (N.of_nat p :: s) = Ok (p, s).
Proof.
  intros H. unfold read_prec. rewrite read_u8_cons by lia. cbn [io map_err bind].
  replace (64 <=? N.of_nat p)%N with false by (symmetry; apply N.leb_gt; lia).
  now rewrite Nat2N.id.
Qed.

Lemma normals_roundtrip lm lm' oc oc' normals p codes rest :
  (N.of_nat (length normals) <= 2 ^ 31)%N -> p < 64 -> p <> 32 ->
  map_res (E:=ioerr) (fun n => normal_to_encoding lm oc n p) normals = Ok codes -> bytes_ok rest ->
  exists bytes, save_normal_array lm oc normals p [] = Ok bytes /\ bytes_ok bytes /\
    read_normal_array lm' oc' (bytes ++ rest)
      = Ok (map (fun c => normal_from_encoding lm' (low_code p c) p) codes).
Proof.
  intros Hl Hp H32 Hm Hrest.
  assert (Hc : Forall code_ok codes).
  { eapply map_res_Forall; [|exact Hm]. intros a b. apply normal_to_encoding_range. }
  destruct (save_normals_spec lm oc normals p codes [] (Forall_nil _) ltac:(lia) Hm Hc) as (pl & E & P).
  eexists. split; [exact E|]. pose proof (packs_ok _ _ P) as Hpl. cbn [app].
  split; [apply bytes_ok_app; split; [apply narr_header_ok; lia|auto]|].
  unfold narr_header. rewrite <- !app_assoc. unfold read_normal_array.
  rewrite read_u64_w by now apply len64. cbn [io map_err bind].
  rewrite len_seg by auto. cbn [app]. rewrite read_prec_w by auto. cbn [bind].
  rewrite Nat2N.id, <- (map_res_length _ _ _ Hm).
  destruct (packs_bits _ _ rest P) as [pad Hpad].
  apply (read_normal_loop_ok lm' oc' p codes _ [] pad);
    try (apply rok_new; apply bytes_ok_app); try (rewrite rbits_new; exact Hpad); auto.
Qed.

(** ** Tangents *)

Lemma tangent_fields_ok p h c : p <= 64 -> code_ok c ->
  Forall (fun f => fst f <= 64 /\ (snd f < two64)%N) (tangent_fields h c p).
Proof.
  intros Hp Hc. constructor; [|now apply normal_fields_ok].
  destruct h; cbn [bit fst snd]; split; try lia; reflexivity.
Qed.

Definition tangent_code (lm : libm) (oc : bool) (p : nat) (t : tangent) : res ioerr (bool * ncode) :=
  let* c := normal_to_encoding lm oc (fst t) p in Ok (ht_to_bool (snd t), c).

Lemma save_tangents_spec lm oc tangents p codes sink :
  bytes_ok sink -> p <= 64 ->
  map_res (tangent_code lm oc p) tangents = Ok codes ->
  Forall (fun hc => code_ok (snd hc)) codes ->
  exists payload,
    save_tangents lm oc tangents p sink
      = Ok (sink ++ narr_header (N.of_nat (length tangents)) p ++ payload) /\
    packs payload (field_bits (tcode_fields p codes)).
Proof.
  intros Hs Hp Hm Hc. unfold save_tangents.
  change (map_res _ tangents) with (map_res (tangent_code lm oc p) tangents).
  rewrite Hm. cbn [bind].
  destruct (writer_packs_sink oc (sink ++ narr_header (N.of_nat (length tangents)) p)
              (tcode_fields p codes)) as (w & pl & E & F & P).
  - apply bytes_ok_app. split; auto. now apply narr_header_ok.
  - apply Forall_flat_map. intros a Ha. apply tangent_fields_ok; auto.
    rewrite Forall_forall in Hc. auto.
  - unfold tcode_fields, narr_header in *. rewrite E. cbn [bind]. rewrite F. exists pl. split; auto.
    now rewrite <- !app_assoc.
Qed.

Lemma read_tangent_loop_ok lm p codes : forall r acc rest,
  rok r -> p < 64 -> rbits r = field_bits (tcode_fields p codes) ++ rest ->
  read_tangent_loop lm (length codes) p r acc
    = Ok (acc ++ map (fun hc => (normal_from_encoding lm (low_code p (snd hc)) p, ht_from_bool (fst hc))) codes).
Proof.
  induction codes as [|[h c] t IH]; intros r acc rest Hr Hp Hb.
  - cbn. now rewrite app_nil_r.
  - cbn [length read_tangent_loop]. unfold tcode_fields in Hb. cbn [flat_map fst snd] in Hb.
    rewrite field_bits_app, <- app_assoc in Hb. unfold tangent_fields, normal_fields in Hb.
    rewrite !field_bits_cons, <- !app_assoc in Hb.
    destruct (read_bool r _ _ Hr Hb) as (r1 & E1 & O1 & B1). rewrite E1. cbn [io map_err bind].
    destruct (read_bool r1 _ _ O1 B1) as (r2 & E2 & O2 & B2). rewrite E2. cbn [io map_err bind].
    destruct (read_bool r2 _ _ O2 B2) as (r3 & E3 & O3 & B3). rewrite E3. cbn [io map_err bind].
    destruct (read_bool r3 _ _ O3 B3) as (r4 & E4 & O4 & B4). rewrite E4. cbn [io map_err bind].
    destruct (read_one r4 p _ _ O4 Hp B4) as (r5 & E5 & O5 & B5). cbn [snd] in E5. rewrite E5. cbn [io map_err bind].
    destruct (read_one r5 p _ _ O5 Hp B5) as (r6 & E6 & O6 & B6). cbn [snd] in E6. rewrite E6. cbn [io map_err bind].
    rewrite (IH r6 _ rest O6 Hp B6). rewrite <- app_assoc. reflexivity.
Qed.

Lemma tangents_roundtrip lm lm' oc tangents p codes rest :
  (N.of_nat (length tangents) <= 2 ^ 31)%N -> p < 64 ->
  map_res (tangent_code lm oc p) tangents = Ok codes -> bytes_ok rest ->
  exists bytes, save_tangents lm oc tangents p [] = Ok bytes /\ bytes_ok bytes /\
    read_tangents lm' (bytes ++ rest)
      = Ok (map (fun hc => (normal_from_encoding lm' (low_code p (snd hc)) p, ht_from_bool (fst hc))) codes).
Proof.
  intros Hl Hp Hm Hrest.
  assert (Hc : Forall (fun hc => code_ok (snd hc)) codes).
  { eapply map_res_Forall; [|exact Hm]. intros a b. unfold tangent_code.
    destruct (normal_to_encoding lm oc (fst a) p) eqn:E; cbn [bind]; try discriminate.
    intros [= <-]. eapply normal_to_encoding_range; eauto. }
  destruct (save_tangents_spec lm oc tangents p codes [] (Forall_nil _) ltac:(lia) Hm Hc) as (pl & E & P).
  eexists. split; [exact E|]. pose proof (packs_ok _ _ P) as Hpl. cbn [app].
  split; [apply bytes_ok_app; split; [apply narr_header_ok; lia|auto]|].
  unfold narr_header. rewrite <- !app_assoc. unfold read_tangents.
  rewrite read_u64_w by now apply len64. cbn [io map_err bind].
  rewrite len_seg by auto. cbn [app]. rewrite read_prec_w by auto. cbn [bind].
  rewrite Nat2N.id, <- (map_res_length _ _ _ Hm).
  destruct (packs_bits _ _ rest P) as [pad Hpad].
  apply (read_tangent_loop_ok lm' p codes _ [] pad);
    try (apply rok_new; apply bytes_ok_app); try (rewrite rbits_new; exact Hpad); auto.
Qed.

(** ** f64 fields *)

Lemma bits_of_f64_lt x : (bits_of_f64 x < two64)%N.
Proof.
  unfold bits_of_f64.
  assert (H : (0 <= Bits.bits_of_b64 (Binary.BSN2B 53 1024 Bits.default_nan_pl64 x) < 2 ^ 64)%Z).
  { apply (Bits.bits_of_binary_float_range 52 11 eq_refl eq_refl). }
  unfold two64. lia.
Qed.

Lemma f64_bits x : f64_of_bits (bits_of_f64 x) = x.
Proof.
  unfold f64_of_bits, bits_of_f64.
  assert (H : (0 <= Bits.bits_of_b64 (Binary.BSN2B 53 1024 Bits.default_nan_pl64 x) < 2 ^ 64)%Z).
  { apply (Bits.bits_of_binary_float_range 52 11 eq_refl eq_refl). }
  rewrite Z2N.id by lia. unfold Bits.b64_of_bits, Bits.bits_of_b64.
  rewrite Bits.binary_float_of_bits_of_binary_float by reflexivity.
  apply Binary.B2BSN_BSN2B.
Qed.

Lemma read_f64_w x s : read_f64 (le_f64 x ++ s) = Ok (f64_of_f32 x, s).
Proof.
  unfold read_f64, le_f64. rewrite read_u64_w by apply bits_of_f64_lt. cbn [bind].
  now rewrite f64_bits.
Qed.

Lemma read_f64_as_f32_w x s : read_f64_as_f32 (le_f64 x ++ s) = Ok (x, s).
Proof. unfold read_f64_as_f32. rewrite read_f64_w. cbn [io map_err bind]. now rewrite f32_f64_f32. Qed.

Lemma le_f64_ok x : bytes_ok (le_f64 x).
Proof. apply le_bytes_ok. Qed.

Lemma u8_lt x : u8_of_f32 x < 256.
Proof.
  unfold u8_of_f32. assert (sat_cast 255 x <= 255)%N; [|lia].
  unfold sat_cast. destruct x; try lia. destruct s; lia.
Qed.

(** ** Vertices *)

(** The parameters of a saved vertex array: extents and widths. *)
Record vparams := mk_vparams {
  vp_box : bbox; vp_sx : f32; vp_sy : f32; vp_sz : f32; vp_px : nat; vp_py : nat; vp_pz : nat }.
Definition vertex_params (lm : libm) (vs : list vec3) (precision shortest_edge : f32) : option vparams :=
  match bounding_box (E:=ioerr) vs with
  | Ok b =>
    let sx := fmax (fsub (max_x b) (min_x b)) min_extent in
    let sy := fmax (fsub (max_y b) (min_y b)) min_extent in
    let sz := fmax (fsub (max_z b) (min_z b)) min_extent in
    Some (mk_vparams b sx sy sz (axis_precision lm shortest_edge sx precision)
            (axis_precision lm shortest_edge sy precision) (axis_precision lm shortest_edge sy precision))
  | _ => None
  end.

Definition vertex_header (len : N) (p : vparams) : list N :=
  le_bytes 8 len ++ le_f64 (min_x (vp_box p)) ++ le_f64 (max_x (vp_box p)) ++
  le_f64 (min_y (vp_box p)) ++ le_f64 (max_y (vp_box p)) ++ le_f64 (min_z (vp_box p)) ++
  le_f64 (max_z (vp_box p)) ++ [N.of_nat (vp_px p); N.of_nat (vp_py p); N.of_nat (vp_pz p)].

Definition vertex_fields (p : vparams) (mx my mz : f32) (vs : list vec3) : list (nat * N) :=
  flat_map (fun v =>
    [(vp_px p, quantize (vx v) (min_x (vp_box p)) (vp_sx p) mx);
     (vp_py p, quantize (vy v) (min_y (vp_box p)) (vp_sy p) my);
     (vp_pz p, quantize (vz v) (min_z (vp_box p)) (vp_sz p) mz)]) vs.

Lemma vertex_header_ok len p :
  vp_px p < 256 -> vp_py p < 256 -> vp_pz p < 256 -> bytes_ok (vertex_header len p).
Proof.
  intros. unfold vertex_header. rewrite !bytes_ok_app.
  repeat (split; [first [apply le_bytes_ok|apply le_f64_ok]|]).
  repeat (apply Forall_cons; [unfold byte_ok; lia|]). apply Forall_nil.
Qed.

Lemma axis_precision_lt lm e s p : axis_precision lm e s p < 256.
Proof. unfold axis_precision. pose proof (u8_lt (fceil (m_log2 lm (fdiv f1 (fmul (fdiv e s) p))))). lia. Qed.

Lemma save_vertices_spec lm oc vs prec edge sink p mx my mz :
  bytes_ok sink -> vertex_params lm vs prec edge = Some p ->
  vp_px p <= 64 -> vp_py p <= 64 -> vp_pz p <= 64 ->
  mask_f32 (E:=ioerr) oc (vp_px p) = Ok mx -> mask_f32 (E:=ioerr) oc (vp_py p) = Ok my ->
  mask_f32 (E:=ioerr) oc (vp_pz p) = Ok mz ->
  exists payload,
    save_tmf_vertices lm oc vs prec edge sink
      = Ok (sink ++ vertex_header (N.of_nat (length vs)) p ++ payload) /\
    packs payload (field_bits (vertex_fields p mx my mz vs)).
Proof.
  intros Hs Hp H1 H2 H3 M1 M2 M3. unfold vertex_params in Hp. unfold save_tmf_vertices.
  destruct (bounding_box vs) as [b| |]; try discriminate. cbn [bind]. cbv zeta.
  injection Hp as <-.
  cbn [vp_px vp_py vp_pz vp_box vp_sx vp_sy vp_sz] in *.
  assert (mz = my) as -> by congruence.
  rewrite M1, M2. cbn [bind].
  match goal with |- context [writer_new ?k] => set (S0 := k) end.
  match goal with |- context [write_fields oc _ ?k] => set (fs := k) end.
  destruct (writer_packs_sink oc S0 fs) as (w & pl & E & F & P).
  - unfold S0. rewrite !bytes_ok_app. repeat (split; [repeat (split || apply le_bytes_ok || apply le_f64_ok || auto)|]).
    repeat (apply Forall_cons; [unfold byte_ok; lia|]). apply Forall_nil.
  - apply Forall_flat_map. intros a _.
    repeat (apply Forall_cons; [cbn [fst snd]; split; [assumption|apply u64_lt]|]). apply Forall_nil.
  - rewrite E. cbn [bind]. rewrite F. exists pl. split; auto. unfold S0, vertex_header.
    cbn [vp_px vp_py vp_pz vp_box]. now rewrite <- !app_assoc.
Qed.

Definition vertex_image (p : vparams) (mx my mz : f32) (v : vec3) : vec3 :=
  let b := vp_box p in
  (dequantize (low (vp_px p) (quantize (vx v) (min_x b) (vp_sx p) mx))
     (f32_of_N (mask_u64 (vp_px p))) (fsub (max_x b) (min_x b)) (min_x b),
   dequantize (low (vp_py p) (quantize (vy v) (min_y b) (vp_sy p) my))
     (f32_of_N (mask_u64 (vp_py p))) (fsub (max_y b) (min_y b)) (min_y b),
   dequantize (low (vp_pz p) (quantize (vz v) (min_z b) (vp_sz p) mz))
     (f32_of_N (mask_u64 (vp_pz p))) (fsub (max_z b) (min_z b)) (min_z b)).

Lemma read_vertex_loop_ok px py pz (f g h : vec3 -> N) mk vs : forall r acc rest,
  rok r -> px < 64 -> py < 64 -> pz < 64 ->
  rbits r = field_bits (flat_map (fun v => [(px, f v); (py, g v); (pz, h v)]) vs) ++ rest ->
  read_vertex_loop (length vs) r px py pz mk acc
    = Ok (acc ++ map (fun v => mk (low px (f v)) (low py (g v)) (low pz (h v))) vs).
Proof.
  induction vs as [|v t IH]; intros r acc rest Hr Hx Hy Hz Hb.
  - cbn. now rewrite app_nil_r.
  - cbn [length read_vertex_loop]. cbn [flat_map app] in Hb.
    rewrite !field_bits_cons in Hb. cbn [fst snd] in Hb. rewrite <- !app_assoc in Hb.
    destruct (read_one r px _ _ Hr Hx Hb) as (r1 & E1 & O1 & B1). rewrite E1. cbn [io map_err bind].
    destruct (read_one r1 py _ _ O1 Hy B1) as (r2 & E2 & O2 & B2). rewrite E2. cbn [io map_err bind].
    destruct (read_one r2 pz _ _ O2 Hz B2) as (r3 & E3 & O3 & B3). rewrite E3. cbn [io map_err bind].
    rewrite (IH r3 _ rest O3 Hx Hy Hz B3). rewrite <- app_assoc. reflexivity.
Qed.

Lemma vertices_roundtrip lm oc vs prec edge p mx my mz rest :
  (N.of_nat (length vs) <= 2 ^ 31)%N -> vertex_params lm vs prec edge = Some p ->
  vp_px p < 64 -> vp_py p < 64 -> vp_pz p < 64 ->
  mask_f32 (E:=ioerr) oc (vp_px p) = Ok mx -> mask_f32 (E:=ioerr) oc (vp_py p) = Ok my ->
  mask_f32 (E:=ioerr) oc (vp_pz p) = Ok mz -> bytes_ok rest ->
  exists bytes, save_tmf_vertices lm oc vs prec edge [] = Ok bytes /\ bytes_ok bytes /\
    read_tmf_vertices (bytes ++ rest) = Ok (map (vertex_image p mx my mz) vs).
Proof.
  intros Hl Hp H1 H2 H3 M1 M2 M3 Hrest.
  destruct (save_vertices_spec lm oc vs prec edge [] p mx my mz (Forall_nil _) Hp
              ltac:(lia) ltac:(lia) ltac:(lia) M1 M2 M3) as (pl & E & P).
  eexists. split; [exact E|]. pose proof (packs_ok _ _ P) as Hpl. cbn [app].
  split; [apply bytes_ok_app; split; [apply vertex_header_ok; lia|auto]|].
  unfold vertex_header. rewrite <- !app_assoc. unfold read_tmf_vertices.
  rewrite read_u64_w by now apply len64. cbn [io map_err bind].
  rewrite !read_f64_as_f32_w; cbn [bind].
  do 5 (rewrite read_f64_as_f32_w; cbn [bind]). cbn [app].
  do 3 (rewrite read_prec_w by auto; cbn [bind]).
  rewrite len_seg by auto. rewrite Nat2N.id.
  destruct (packs_bits _ _ rest P) as [pad Hpad].
  rewrite (read_vertex_loop_ok (vp_px p) (vp_py p) (vp_pz p)
     (fun v => quantize (vx v) (min_x (vp_box p)) (vp_sx p) mx)
     (fun v => quantize (vy v) (min_y (vp_box p)) (vp_sy p) my)
     (fun v => quantize (vz v) (min_z (vp_box p)) (vp_sz p) mz) _ vs _ [] pad);
    try (apply rok_new; apply bytes_ok_app); try (rewrite rbits_new; exact Hpad); auto.
Qed.

(** ** Custom floats and colours *)

Definition float_width (lm : libm) (l : list f32) (p : f32) : nat :=
  Nat.max (u8_of_f32 (fceil (m_log2 lm (fdiv (fsub (fst (float_range l)) (snd (float_range l))) p)))) 1.
Definition color_width (lm : libm) (p : f32) : nat :=
  u8_of_f32 (fceil (m_log2 lm (fdiv f1 (fmin p f1)))).
Definition float_code (l : list f32) (mul x : f32) : N :=
  u64_of_f32 (fmul (fdiv (fsub x (snd (float_range l)))
                         (fsub (fst (float_range l)) (snd (float_range l)))) mul).
Definition color_code (mul x : f32) : N := u64_of_f32 (fmul x mul).
Definition float_header (l : list f32) (w : nat) : list N :=
  le_bytes 8 (N.of_nat (length l)) ++ le_f64 (snd (float_range l)) ++ le_f64 (fst (float_range l)) ++ [N.of_nat w].

Lemma save_float_spec lm oc l p mul sink :
  bytes_ok sink -> float_width lm l p <= 64 -> mask_f32 (E:=ioerr) oc (float_width lm l p) = Ok mul ->
  exists payload,
    cdata_write lm oc (CFloat l p) sink = Ok (sink ++ float_header l (float_width lm l p) ++ payload) /\
    packs payload (field_bits (map (fun x => (float_width lm l p, float_code l mul x)) l)).
Proof.
  intros Hs Hw Hm. unfold cdata_write. unfold float_header, float_code, float_width in *.
  destruct (float_range l) as [mx mn]. cbn [fst snd] in *.
  rewrite Hm. cbn [bind].
  match goal with |- context [writer_new ?k] => set (S0 := k) end.
  match goal with |- context [write_fields oc _ ?k] => set (fs := k) end.
  destruct (writer_packs_sink oc S0 fs) as (w & pl & E & F & P).
  - unfold S0. rewrite !bytes_ok_app. split; auto.
    split; [apply le_bytes_ok|]. split; [apply le_f64_ok|]. split; [apply le_f64_ok|]. apply small_byte. lia.
  - unfold fs. rewrite Forall_map. apply Forall_forall. intros x _. cbn [fst snd]. split; [exact Hw|apply u64_lt].
  - rewrite E. cbn [bind]. rewrite F. exists pl. split; auto. unfold S0. now rewrite <- !app_assoc.
Qed.

Lemma read_float_loop_ok {A} w (f : A -> N) mk l : forall r acc rest,
  rok r -> w < 64 -> rbits r = field_bits (map (fun x => (w, f x)) l) ++ rest ->
  read_float_loop (length l) r w mk acc = Ok (acc ++ map (fun x => mk (low w (f x))) l).
Proof.
  induction l as [|v t IH]; intros r acc rest Hr Hx Hb.
  - cbn. now rewrite app_nil_r.
  - cbn [length read_float_loop]. cbn [map] in Hb.
    rewrite !field_bits_cons in Hb. cbn [fst snd] in Hb. rewrite <- !app_assoc in Hb.
    destruct (read_one r w _ _ Hr Hx Hb) as (r1 & E1 & O1 & B1). rewrite E1. cbn [io map_err bind].
    rewrite (IH r1 _ rest O1 Hx B1). rewrite <- app_assoc. reflexivity.
Qed.

(** What a float turns into. *)
Definition float_value (l : list f32) (w : nat) (q : N) : f32 :=
  let mn := f64_of_f32 (snd (float_range l)) in
  let mx := f64_of_f32 (fst (float_range l)) in
  f32_of_f64 (dadd (dmul (ddiv (f64_of_N q) (f64_of_N (mask_u64 w))) (dsub mx mn)) mn).
Definition float_image (lm : libm) (l : list f32) (p mul : f32) (x : f32) : f32 :=
  float_value l (float_width lm l p) (low (float_width lm l p) (float_code l mul x)).

(** The precision the loaded data reports. *)
Definition float_prec (l : list f32) (w : nat) : f32 :=
  fmul (f32_of_f64 (ddiv (dsub (f64_of_f32 (fst (float_range l))) (f64_of_f32 (snd (float_range l)))) (f64_of_N (2 ^ N.of_nat w)))) f099999.
Definition color_prec (w : nat) : f32 := fmul (f32_of_f64 (ddiv (f64_of_N 1) (f64_of_N (2 ^ N.of_nat w)))) f099999.

Lemma read_float_ok l w (f : f32 -> N) payload pad :
  (N.of_nat (length l) <= 2 ^ 31)%N -> w < 64 -> bytes_ok payload ->
  bits_of_bytes payload = field_bits (map (fun x => (w, f x)) l) ++ pad ->
  exists q, read_custom_float (float_header l w ++ payload)
    = Ok (CFloat (map (fun x => float_value l w (low w (f x))) l) q) /\ q = float_prec l w.
Proof.
  intros Hl Hw Hp Hb. unfold read_custom_float, float_header. rewrite <- !app_assoc.
  rewrite read_u64_w by now apply len64. cbn [io map_err bind]. rewrite len_seg by auto.
  do 2 (rewrite read_f64_w; cbn [io map_err bind]). cbn [app]. rewrite read_prec_w by auto. cbn [bind].
  rewrite Nat2N.id.
  erewrite (read_float_loop_ok w f _ l _ [] pad);
    try (apply rok_new); try (rewrite rbits_new; exact Hb); auto.
  cbn [bind app]. eexists. split; reflexivity.
Qed.

Definition color_header (len : N) (w : nat) : list N := le_bytes 8 len ++ [N.of_nat w].
Definition color_fields (w : nat) (mul : f32) (l : list vec4) : list (nat * N) :=
  flat_map (fun v => map (fun x => (w, color_code mul x)) (c4 v)) l.

Lemma save_color_spec lm oc l p mul sink :
  bytes_ok sink -> color_width lm p <= 64 -> mask_f32 (E:=ioerr) oc (color_width lm p) = Ok mul ->
  exists payload,
    cdata_write lm oc (CColor l p) sink
      = Ok (sink ++ color_header (N.of_nat (length l)) (color_width lm p) ++ payload) /\
    packs payload (field_bits (color_fields (color_width lm p) mul l)).
Proof.
  intros Hs Hw Hm. unfold cdata_write. unfold color_header, color_fields, color_code, color_width in *.
  rewrite Hm. cbn [bind].
  match goal with |- context [writer_new ?k] => set (S0 := k) end.
  match goal with |- context [write_fields oc _ ?k] => set (fs := k) end.
  destruct (writer_packs_sink oc S0 fs) as (w & pl & E & F & P).
  - unfold S0. rewrite !bytes_ok_app. split; auto.
    split; [apply le_bytes_ok|]. apply small_byte. lia.
  - apply Forall_flat_map. intros a _. rewrite Forall_map. apply Forall_forall.
    intros x _. cbn [fst snd]. split; [exact Hw|apply u64_lt].
  - rewrite E. cbn [bind]. rewrite F. exists pl. split; auto. unfold S0. now rewrite <- !app_assoc.
Qed.

Definition map4 (f : f32 -> f32) (v : vec4) : vec4 :=
  (f (fst (fst (fst v))), f (snd (fst (fst v))), f (snd (fst v)), f (snd v)).

Lemma read_color_loop_ok oc w mul mk l : forall r acc rest,
  rok r -> w < 64 -> w <> 32 -> rbits r = field_bits (color_fields w mul l) ++ rest ->
  read_color_loop oc (length l) r w mk acc
    = Ok (acc ++ map (map4 (fun x => mk (low w (color_code mul x)))) l).
Proof.
  induction l as [|v t IH]; intros r acc rest Hr Hx H32 Hb.
  - cbn. now rewrite app_nil_r.
  - cbn [length read_color_loop]. unfold color_fields in Hb. cbn [flat_map map c4 app] in Hb.
    rewrite !field_bits_cons in Hb. cbn [fst snd] in Hb. rewrite <- !app_assoc in Hb.
    destruct (read_two oc r w _ _ _ Hr Hx H32 Hb) as (r1 & E1 & O1 & B1). rewrite E1. cbn [io map_err bind].
    destruct (read_two oc r1 w _ _ _ O1 Hx H32 B1) as (r2 & E2 & O2 & B2). rewrite E2. cbn [io map_err bind].
    rewrite (IH r2 _ rest O2 Hx H32 B2). rewrite <- app_assoc. reflexivity.
Qed.

Definition color_value (w : nat) (q : N) : f32 :=
  f32_of_f64 (ddiv (f64_of_N q) (f64_of_N (2 ^ N.of_nat w - 1))).

Lemma read_color_ok oc l w mul payload pad :
  (N.of_nat (length l) <= 2 ^ 31)%N -> w < 64 -> w <> 32 -> bytes_ok payload ->
  bits_of_bytes payload = field_bits (color_fields w mul l) ++ pad ->
  exists q, read_custom_color oc (color_header (N.of_nat (length l)) w ++ payload)
    = Ok (CColor (map (map4 (fun x => color_value w (low w (color_code mul x)))) l) q) /\ q = color_prec w.
Proof.
  intros Hl Hw H32 Hp Hb. unfold read_custom_color, color_header. rewrite <- !app_assoc.
  rewrite read_u64_w by now apply len64. cbn [io map_err bind app].
  rewrite read_u8_cons by lia. cbn [io map_err bind].
  replace (color_alloc_ok (N.of_nat (length l))) with true
    by (symmetry; unfold color_alloc_ok; apply N.ltb_lt; lia).
  cbn [negb]. rewrite !Nat2N.id.
  rewrite shl64_ok by auto. cbn [bind]. rewrite N.shiftl_1_l, N.mod_small
    by (rewrite two64_eq; apply N.pow_lt_mono_r; lia).
  erewrite (read_color_loop_ok oc w mul _ l _ [] pad);
    try (apply rok_new); try (rewrite rbits_new; exact Hb); auto.
  cbn [bind app]. eexists. split; reflexivity.
Qed.
