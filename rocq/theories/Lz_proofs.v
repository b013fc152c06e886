(** Lemmas about the LZ77 coder. *)
From Coq Require Import List NArith Arith Lia Bool.
From Verif Require Import Base BitSpec BitLemmas UnalignedRW UnalignedRW_proofs Utilis Triangles Lz77 LzSpec.
Import ListNotations.
Open Scope res_scope.

Lemma match_len_spec data fuel : forall offset pos len, exists n, match_len fuel data offset pos len = len + n /\
  (n = 0 \/ offset < pos /\ pos + n <= length data) /\ forall k, k < n -> nth_error data (pos + k) = nth_error data (offset + k).
Proof.
  induction fuel as [|fuel IH]; intros offset pos len; cbn [match_len]; [exists 0; split; [lia|split; [auto|intros; lia]]|].
  assert (Z : exists n, len = len + n /\ (n = 0 \/ offset < pos /\ pos + n <= length data) /\ forall k, k < n -> nth_error data (pos + k) = nth_error data (offset + k)).
  { exists 0. split; [lia|split; [auto|intros; lia]]. }
  destruct (Nat.ltb_spec offset pos); cbn [andb]; auto. destruct (Nat.ltb_spec pos (length data)); auto.
  destruct (nth_error data offset) as [a|] eqn:A; auto. destruct (nth_error data pos) as [b|] eqn:B; auto.
  destruct (N.eqb_spec a b) as [E|]; auto. subst b.
  destruct (IH (S offset) (S pos) (S len)) as (n & E & R & K). exists (S n). split; [lia|]. split; [right; lia|].
  intros [|k] L; [now rewrite !Nat.add_0_r, A, B|]. rewrite !Nat.add_succ_r. apply K. lia.
Qed.
Lemma best_match_spec data pos os best : Forall (fun o => o < pos) os -> (fst best = 0 \/ repeats data pos (fst best) (snd best)) ->
  let b := best_match data pos os best in b = best \/ (exists o, In o os /\ fst b = pos - o) /\ repeats data pos (fst b) (snd b).
Proof.
  revert best. induction os as [|o os IH]; intros best F B; cbn [best_match]; [now left|].
  inversion F as [|? ? F1 F2]; subst. cbv zeta in *.
  destruct (match_len_spec data (length data) o pos 0) as (n & E & R & K). rewrite E. cbn [Nat.add].
  destruct (Nat.ltb_spec (snd best) n) as [L|L].
  - assert (RP : repeats data pos (pos - o) n).
    { split; [lia|]. split; [lia|]. intros k Hk. replace (pos - (pos - o) + k) with (o + k) by lia. now apply K. }
    destruct (IH (pos - o, n) F2) as [-> | [(o' & I & J) RR]]; [now right| |].
    + right. cbn [fst snd]. split; [exists o; split; [now left|auto]|auto].
    + right. split; [exists o'; split; [now right|auto]|auto].
  - destruct (IH best F2 B) as [-> | [(o' & I & J) RR]]; auto. right. split; [exists o'; split; [now right|auto]|auto].
Qed.
Lemma longest_spec data pos : let b := find_longest_match data pos 127 in fst b = 0 \/ (1 <= fst b <= 127 /\ repeats data pos (fst b) (snd b)).
Proof.
  unfold find_longest_match. cbv zeta. set (start := if pos <? 127 then 0 else pos - 127).
  assert (SB : start <= pos /\ pos - start <= 127) by (unfold start; destruct (Nat.ltb_spec pos 127); lia).
  destruct (best_match_spec data pos (seq start (pos - start)) (0, 0)) as [E | [(o & I & J) R]]; cbn [fst snd]; auto.
  - apply Forall_forall. intros o I. apply in_seq in I. lia.
  - rewrite E. now left.
  - right. apply in_seq in I. split; [lia|auto].
Qed.

Lemma index_nth {E A} (l : list A) i x : nth_error l i = Some x -> index (E:=E) l (N.of_nat i) = Ok x.
Proof.
  unfold index. intros H. assert (G : get l (N.of_nat i) = Some x); [|now rewrite G].
  revert i H. induction l as [|y l IH]; intros [|i] H; try discriminate H; cbn [get nth_error] in *.
  - exact H.
  - replace (N.of_nat (S i) =? 0)%N with false by (symmetry; apply N.eqb_neq; lia). replace (N.of_nat (S i) - 1)%N with (N.of_nat i) by lia. now apply IH.
Qed.
Lemma firstn_snoc {A} (l : list A) n x : nth_error l n = Some x -> firstn (S n) l = firstn n l ++ [x].
Proof.
  revert n. induction l as [|y l IH]; intros [|n] H; try discriminate H; cbn in *; [congruence|]. f_equal. now apply IH.
Qed.
Lemma copy_loop_ok data dist n : forall pos, 1 <= dist -> repeats data pos dist n ->
  copy_loop n (N.of_nat (pos - dist)) (firstn pos data) = Ok (firstn (pos + n) data).
Proof.
  induction n as [|n IH]; intros pos D (R1 & R2 & R3); cbn [copy_loop]; [now rewrite Nat.add_0_r|].
  pose proof (R3 0 ltac:(lia)) as E. rewrite !Nat.add_0_r in E.
  destruct (nth_error data pos) as [x|] eqn:X; [|apply nth_error_None in X; lia].
  rewrite (index_nth _ _ x).
  2: { rewrite <- (firstn_skipn pos data) in E. rewrite nth_error_app1 in E; [congruence|]. rewrite firstn_length. lia. }
  cbn [bind]. rewrite <- (firstn_snoc data pos x X).
  replace (N.of_nat (pos - dist) + 1)%N with (N.of_nat (S pos - dist)) by lia.
  replace (pos + S n) with (S pos + n) by lia. apply IH; auto. split; [lia|]. split; [lia|].
  intros k Hk. specialize (R3 (S k) ltac:(lia)). replace (S pos + k) with (pos + S k) by lia. replace (S pos - dist + k) with (pos - dist + S k) by lia. exact R3.
Qed.

Lemma field_read r w v rest : rok r -> w < 64 -> (v < 2 ^ N.of_nat w)%N -> rbits r = bits w v ++ rest ->
  exists r', read_unaligned r w = Ok (v, r') /\ rok r' /\ rbits r' = rest.
Proof.
  intros R W V B. destruct (read_unaligned_spec r w R W) as [G _]. destruct G as (r' & E & R' & B').
  { rewrite B, app_length, bits_length. lia. }
  exists r'. rewrite E, B', B. rewrite firstn_app, skipn_app, bits_length, Nat.sub_diag.
  rewrite <- (bits_length w v) at 1 3. rewrite firstn_all, skipn_all. cbn [firstn skipn app]. rewrite app_nil_r, of_bits_bits_id by exact V. auto.
Qed.
Lemma bit_read r (b : bool) rest : rok r -> rbits r = bits 1 (if b then 1 else 0)%N ++ rest -> exists r', read_bit r = Ok (b, r') /\ rok r' /\ rbits r' = rest.
Proof. intros R B. destruct (read_bit_spec r R) as [G _]. apply G. rewrite B. now destruct b. Qed.
Lemma write_bit_spec oc w (b : bool) : wok w -> exists w', write_bit oc w b = Ok w' /\ wok w' /\ wbits w' = wbits w ++ bits 1 (if b then 1 else 0)%N.
Proof. intros W. apply write_unaligned_spec; auto; [lia|]. now destruct b. Qed.

Lemma save_lz oc p data : 7 <= p < 64 -> values_fit p data -> repeats_fit p data -> (N.of_nat (length data) < 2 ^ 64)%N ->
  forall fuel pos wr, length data - pos <= fuel -> pos <= length data -> wok wr ->
  exists wr' bs, save_lz_loop fuel oc p data pos wr = Ok wr' /\ wok wr' /\ wbits wr' = wbits wr ++ bs /\
    forall oc' fuel' r rest, rok r -> rbits r = bs ++ rest -> length bs <= fuel' ->
      read_lz_loop fuel' oc' p (N.of_nat (length data)) r (firstn pos data) = Ok data.
Proof.
  intros P V RF LD. assert (P64 : (2 ^ N.of_nat p < two64)%N). { change two64 with (2 ^ 64)%N. apply N.pow_lt_mono_r; lia. }
  assert (P7 : (127 < 2 ^ N.of_nat p)%N). { apply N.lt_le_trans with (2 ^ 7)%N; [reflexivity|]. apply N.pow_le_mono_r; lia. }
  induction fuel as [|fuel IH]; intros pos wr F B W; cbn [save_lz_loop].
  { destruct (Nat.leb_spec (length data) pos); [|lia]. exists wr, []. rewrite app_nil_r. split; auto. split; auto. split; auto.
    intros oc' fuel' r rest _ _ _. assert (pos = length data) by lia. subst pos. rewrite firstn_all.
    destruct fuel'; cbn [read_lz_loop]; rewrite N.leb_refl; reflexivity. }
  destruct (Nat.leb_spec (length data) pos) as [D|D].
  { exists wr, []. rewrite app_nil_r. split; auto. split; auto. split; auto.
    intros oc' fuel' r rest _ _ _. assert (pos = length data) by lia. subst pos. rewrite firstn_all.
    destruct fuel'; cbn [read_lz_loop]; rewrite N.leb_refl; reflexivity. }
  pose proof (longest_spec data pos) as M. destruct (find_longest_match data pos 127) as [offset n]. cbn [fst snd] in M.
  assert (LF : length (firstn pos data) = pos) by (rewrite firstn_length; lia).
  set (raw := (offset =? 0) || (n <? 2)). destruct (write_bit_spec oc wr raw W) as (w1 & E1 & W1 & B1). rewrite E1. cbn [bind].
  destruct raw eqn:RW.
  - destruct (nth_error data pos) as [v|] eqn:X; [|apply nth_error_None in X; lia]. rewrite (index_nth _ _ v X). cbn [bind].
    assert (VF : (v < 2 ^ N.of_nat p)%N). { unfold values_fit in V. rewrite Forall_forall in V. apply V. eapply nth_error_In; eauto. }
    destruct (write_unaligned_spec oc w1 p v W1) as (w2 & E2 & W2 & B2); [lia|lia|]. rewrite E2. cbn [bind].
    destruct (IH (pos + 1) w2) as (w3 & bs & E3 & W3 & B3 & RD); auto; [lia|lia|].
    exists w3, (bits 1 1 ++ bits p v ++ bs). split; auto. split; auto. split; [rewrite B3, B2, B1; now rewrite <- !app_assoc|].
    intros oc' fuel' r rest R RB LB. rewrite <- !app_assoc in RB. rewrite !app_length, !bits_length in LB. destruct fuel' as [|fuel']; [lia|].
    cbn [read_lz_loop]. rewrite LF. destruct (N.leb_spec (N.of_nat (length data)) (N.of_nat pos)); [lia|].
    destruct (bit_read r true _ R RB) as (r1 & R1 & RO1 & RB1). rewrite R1. cbn [bind].
    destruct (field_read r1 p v _ RO1 ltac:(lia) VF RB1) as (r2 & R2 & RO2 & RB2). rewrite R2. cbn [bind].
    rewrite <- (firstn_snoc data pos v X). replace (S pos) with (pos + 1) by lia. apply (RD oc' fuel' r2 rest); auto. lia.
  - unfold raw in RW. apply orb_false_iff in RW as [RW1 RW2]. apply Nat.eqb_neq in RW1. apply Nat.ltb_ge in RW2.
    destruct M as [M|[M1 M2]]; [lia|]. pose proof (RF _ _ _ M1 M2) as NF. destruct M2 as (M2 & M3 & M4).
    destruct (write_unaligned_spec oc w1 p (N.of_nat n) W1) as (w2 & E2 & W2 & B2); [lia|lia|]. rewrite E2. cbn [bind].
    destruct (write_unaligned_spec oc w2 p (N.of_nat offset) W2) as (w3 & E3 & W3 & B3); [lia|lia|]. rewrite E3. cbn [bind].
    destruct (IH (pos + n) w3) as (w4 & bs & E4 & W4 & B4 & RD); auto; [lia|].
    exists w4, (bits 1 0 ++ bits p (N.of_nat n) ++ bits p (N.of_nat offset) ++ bs). split; auto. split; auto. split; [rewrite B4, B3, B2, B1; now rewrite <- !app_assoc|].
    intros oc' fuel' r rest R RB LB. rewrite <- !app_assoc in RB. rewrite !app_length, !bits_length in LB. destruct fuel' as [|fuel']; [lia|].
    cbn [read_lz_loop]. rewrite LF. destruct (N.leb_spec (N.of_nat (length data)) (N.of_nat pos)); [lia|].
    destruct (bit_read r false _ R RB) as (r1 & R1 & RO1 & RB1). rewrite R1. cbn [bind].
    destruct (field_read r1 p _ _ RO1 ltac:(lia) NF RB1) as (r2 & R2 & RO2 & RB2). rewrite R2. cbn [bind].
    destruct (field_read r2 p (N.of_nat offset) _ RO2 ltac:(lia) ltac:(lia) RB2) as (r3 & R3 & RO3 & RB3). rewrite R3. cbn [bind].
    unfold sub64. destruct (N.leb_spec (N.of_nat offset) (N.of_nat pos)); [|lia]. cbn [bind].
    unfold add64. change two64 with (2 ^ 64)%N. destruct (N.ltb_spec (N.of_nat pos - N.of_nat offset + N.of_nat n) (2 ^ 64)); [|lia]. cbn [bind].
    replace (N.to_nat (N.of_nat pos - N.of_nat offset + N.of_nat n - (N.of_nat pos - N.of_nat offset))) with n by lia.
    replace (N.of_nat pos - N.of_nat offset)%N with (N.of_nat (pos - offset)) by lia.
    rewrite copy_loop_ok by (auto; repeat split; auto; lia). cbn [bind]. apply (RD oc' fuel' r3 rest); auto. lia.
Qed.
Lemma lz_roundtrip oc oc' p data sink : 7 <= p < 64 -> values_fit p data -> repeats_fit p data -> (N.of_nat (length data) < 2 ^ 64)%N -> bytes_ok sink ->
  exists bytes, save_compressed_array oc p data sink = Ok (sink ++ bytes) /\ bytes_ok bytes /\
  forall trailing sched, bytes_ok trailing -> read_compressed_array oc' p (N.of_nat (length data)) (mk_source (bytes ++ trailing) sched) = Ok data.
Proof.
  intros P V RF LD BS. unfold save_compressed_array.
  destruct (save_lz oc p data P V RF LD (length data) 0 (writer_new sink)) as (w & bs & E & W & B & RD); [lia|lia|now apply wok_new|].
  rewrite E. cbn [bind]. rewrite wbits_new in B. destruct (finish_spec w W) as (pad & FB & _ & OK). rewrite B, <- app_assoc in FB.
  set (tl := skipn (length sink) (writer_finish w)).
  assert (LS : length sink <= length (writer_finish w)).
  { apply (f_equal (@length bool)) in FB. rewrite app_length, !bits_of_bytes_length in FB. lia. }
  assert (S1 : writer_finish w = sink ++ tl).
  { rewrite <- (firstn_skipn (length sink) (writer_finish w)) at 1. f_equal. apply bits_of_bytes_inj; auto; [now apply Forall_firstn|].
    rewrite bits_of_bytes_firstn, FB, firstn_app, bits_of_bytes_length, Nat.sub_diag. rewrite <- bits_of_bytes_length, firstn_all. apply app_nil_r. }
  exists tl. rewrite S1. split; auto. assert (OT : bytes_ok tl) by (apply Forall_skipn, OK). split; auto.
  intros trailing sched TO. unfold read_compressed_array. cbn [s_data].
  assert (TB : bits_of_bytes tl = bs ++ repeat false pad).
  { unfold tl. rewrite bits_of_bytes_skipn, FB, skipn_app, bits_of_bytes_length, Nat.sub_diag. rewrite <- bits_of_bytes_length, skipn_all. reflexivity. }
  assert (OA : bytes_ok (tl ++ trailing)) by (apply bytes_ok_app; auto).
  apply (RD oc' _ (reader_new (mk_source (tl ++ trailing) sched)) (repeat false pad ++ bits_of_bytes trailing)).
  - now apply rok_new.
  - rewrite rbits_new. cbn [s_data]. rewrite bits_of_bytes_app, TB. now rewrite <- app_assoc.
  - apply (f_equal (@length bool)) in TB. rewrite bits_of_bytes_length, app_length in TB. rewrite app_length. lia.
Qed.

(** The fuel of the reading loop is enough: more makes no difference. *)
Lemma read_unaligned_less r p v r' : rok r -> p < 64 -> read_unaligned r p = Ok (v, r') -> rok r' /\ length (rbits r') <= length (rbits r).
Proof.
  intros R P E. destruct (read_unaligned_spec r p R P) as [A B]. destruct (le_lt_dec p (length (rbits r))) as [L|L].
  - destruct (A L) as (r2 & E2 & R2 & B2). rewrite E2 in E. injection E as <- <-. rewrite B2, skipn_length. split; [auto|lia].
  - specialize (B L). congruence.
Qed.
Lemma read_lz_fuel oc p n f : forall r out f', rok r -> p < 64 -> length (rbits r) < f -> length (rbits r) < f' ->
  read_lz_loop f oc p n r out = read_lz_loop f' oc p n r out.
Proof.
  induction f as [|f IH]; intros r out f' R P L L'; [lia|]. destruct f' as [|f']; [lia|]. cbn [read_lz_loop]. destruct (_ <=? _)%N; auto.
  destruct (read_bit_spec r R) as [A B]. destruct (rbits r) as [|b l] eqn:RB; [now rewrite B|].
  destruct (A b l eq_refl) as (r1 & -> & R1 & RB1). cbn [bind].
  destruct (read_unaligned r1 p) as [[v r2]|e|] eqn:E2; cbn [bind]; auto. destruct (read_unaligned_less _ _ _ _ R1 P E2) as [R2 L2]. rewrite RB1 in L2. cbn [length] in L, L'.
  destruct b; [apply IH; auto; lia|].
  destruct (read_unaligned r2 p) as [[o r3]|e|] eqn:E3; cbn [bind]; auto. destruct (read_unaligned_less _ _ _ _ R2 P E3) as [R3 L3].
  destruct (sub64 oc _ o) as [start|e|]; cbn [bind]; auto. destruct (add64 oc start v) as [stop|e|]; cbn [bind]; auto.
  destruct (copy_loop _ start out) as [out'|e|]; cbn [bind]; auto. apply IH; auto; lia.
Qed.
