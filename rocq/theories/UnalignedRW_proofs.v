(** Proofs about the bit reader and writer. *)
From Coq Require Import List NArith ZArith Arith Lia Bool ZifyN ZifyNat ZifyBool.
From Verif Require Import Base BitSpec BitLemmas UnalignedRW BitIOSpec.
Import ListNotations.
Open Scope res_scope.
Ltac Zify.zify_post_hook ::= Z.div_mod_to_equations.

(** ** Reader *)

Definition rbits (r : reader) : list bool :=
  firstn (64 - r_bits_read r) (bits 64 (r_cur r)) ++ bits_of_bytes (s_data (r_src r)).

Definition rok (r : reader) : Prop :=
  r_bits_read r <= 64 /\ (r_cur r < two64)%N /\ bytes_ok (s_data (r_src r)).

Lemma two64_eq : two64 = (2 ^ N.of_nat 64)%N.
Proof. reflexivity. Qed.

Lemma pow2_pos n : (0 < 2 ^ n)%N.
Proof. apply N.neq_0_lt_0, N.pow_nonzero; lia. Qed.

Lemma rok_new s : bytes_ok (s_data s) -> rok (reader_new s).
Proof. intros H. repeat split; simpl; auto. Qed.

Lemma rbits_new s : rbits (reader_new s) = bits_of_bytes (s_data s).
Proof. reflexivity. Qed.

Lemma bytes_ok_app a b : bytes_ok (a ++ b) <-> bytes_ok a /\ bytes_ok b.
Proof. apply Forall_app. Qed.

Lemma bytes_ok_zeros n : bytes_ok (repeat 0%N n).
Proof. induction n; simpl; constructor; auto. reflexivity. Qed.

Lemma Forall_firstn {A} (P : A -> Prop) n l : Forall P l -> Forall P (firstn n l).
Proof. rewrite <- (firstn_skipn n l) at 1. now intros H%Forall_app. Qed.
Lemma Forall_skipn {A} (P : A -> Prop) n l : Forall P l -> Forall P (skipn n l).
Proof. rewrite <- (firstn_skipn n l) at 1. now intros H%Forall_app. Qed.

Lemma storage_spec r :
  rok r -> r_bits_read r = 64 ->
  (s_data (r_src r) = [] /\ read_to_internal_storage r = Err UnexpectedEof) \/
  (s_data (r_src r) <> [] /\
   exists r', read_to_internal_storage r = Ok r' /\ rok r' /\ rbits r' = rbits r /\ r_bits_read r' < 64).
Proof.
  intros [H1 [H2 H3]] H64. unfold read_to_internal_storage, source_read.
  set (k := match s_sched (r_src r) with [] => 8 | k :: _ => Nat.max 1 (Nat.min k 8) end).
  assert (Hk : 1 <= k <= 8) by (unfold k; destruct (s_sched (r_src r)); lia).
  clearbody k.
  destruct (s_data (r_src r)) as [|b data] eqn:Hd.
  - left. split; auto. rewrite firstn_nil. reflexivity.
  - right. split; [discriminate|].
    set (tmp := firstn k (b :: data)).
    assert (Ht : 1 <= length tmp <= 8).
    { unfold tmp. rewrite firstn_length. simpl length. lia. }
    destruct (Nat.eqb_spec (length tmp * 8) 0) as [E|E]; [lia|].
    eexists. split; [reflexivity|].
    assert (Hok : bytes_ok (tmp ++ repeat 0%N (8 - length tmp))).
    { apply bytes_ok_app. split; [|apply bytes_ok_zeros]. now apply Forall_firstn. }
    assert (Hlen : length (tmp ++ repeat 0%N (8 - length tmp)) = 8).
    { rewrite app_length, repeat_length. lia. }
    split; [|split].
    + repeat split; cbn [r_bits_read r_cur r_src s_data]; try lia.
      * rewrite bits_of_be by auto. rewrite two64_eq.
        replace 64 with (length (bits_of_bytes (tmp ++ repeat 0%N (8 - length tmp)))).
        apply of_bits_lt. rewrite bits_of_bytes_length, Hlen. reflexivity.
      * now apply Forall_skipn.
    + unfold rbits. cbn [r_bits_read r_cur r_src s_data].
      rewrite H64, Nat.sub_diag, Hd. cbn [firstn app].
      rewrite bits_of_be by auto.
      assert (H8 : length (bits_of_bytes (tmp ++ repeat 0%N (8 - length tmp))) = 64)
        by (rewrite bits_of_bytes_length, Hlen; reflexivity).
      pose proof (bits_of_bits (bits_of_bytes (tmp ++ repeat 0%N (8 - length tmp)))) as Hbb.
      rewrite H8 in Hbb. rewrite Hbb, bits_of_bytes_app.
      rewrite firstn_app, bits_of_bytes_length.
      replace (64 - (64 - length tmp * 8)) with (8 * length tmp) by lia.
      rewrite Nat.sub_diag. simpl firstn. rewrite app_nil_r.
      rewrite firstn_all2 by (rewrite bits_of_bytes_length; lia).
      rewrite <- bits_of_bytes_app. unfold tmp. now rewrite firstn_skipn.
    + cbn [r_bits_read]. lia.
Qed.

Lemma rbits_length r : r_bits_read r <= 64 ->
  length (rbits r) = (64 - r_bits_read r) + 8 * length (s_data (r_src r)).
Proof.
  intros H. unfold rbits. rewrite app_length, firstn_length, bits_length, bits_of_bytes_length. lia.
Qed.

(** Consuming [k] of the buffered bits. *)
Lemma consume_spec r k :
  rok r -> k <= 64 - r_bits_read r -> 0 < k < 64 ->
  let r' := mk_reader (r_src r) (N.shiftl (r_cur r) (N.of_nat k) mod two64)%N (r_bits_read r + k) in
  rok r' /\ rbits r' = skipn k (rbits r) /\
  N.shiftr (r_cur r) (N.of_nat (64 - k)) = of_bits (firstn k (rbits r)).
Proof.
  intros [H1 [H2 H3]] Hk Hk'. cbv zeta. split; [|split].
  - split; [cbn [r_bits_read]; lia|split; [apply N.mod_lt; discriminate|exact H3]].
  - unfold rbits. cbn [r_bits_read r_cur r_src].
    rewrite two64_eq, bits_mod by lia. rewrite bits_shiftl by lia.
    rewrite skipn_app, firstn_length, bits_length.
    replace (k - Nat.min (64 - r_bits_read r) 64) with 0 by lia.
    rewrite skipn_O. f_equal.
    rewrite firstn_app, bits_length.
    replace (64 - (r_bits_read r + k) - (64 - k)) with 0 by lia.
    rewrite firstn_O, app_nil_r.
    rewrite <- (skipn_bits k 64) by lia.
    rewrite skipn_firstn_comm. f_equal. lia.
  - unfold rbits. rewrite firstn_app, firstn_length, bits_length.
    replace (k - Nat.min (64 - r_bits_read r) 64) with 0 by lia.
    rewrite firstn_O, app_nil_r, firstn_firstn.
    replace (Nat.min k (64 - r_bits_read r)) with k by lia.
    rewrite firstn_bits by lia. rewrite of_bits_bits_id; auto.
    rewrite N.shiftr_div_pow2. apply N.div_lt_upper_bound; [apply N.pow_nonzero; lia|].
    rewrite <- N.pow_add_r.
    replace (N.of_nat (64 - k) + N.of_nat k)%N with 64%N by lia. exact H2.
Qed.

Lemma firstn_add {A} a b (l : list A) : firstn (a + b) l = firstn a l ++ firstn b (skipn a l).
Proof.
  revert l; induction a; intros l; simpl; auto.
  destruct l; simpl; [now rewrite firstn_nil|]. now rewrite IHa.
Qed.
Lemma skipn_add {A} a b (l : list A) : skipn (a + b) l = skipn b (skipn a l).
Proof.
  revert l; induction a; intros l; simpl; auto.
  destruct l; simpl; [now rewrite skipn_nil|]. auto.
Qed.

Lemma read_loop_spec fuel r total done acc :
  rok r -> total <= fuel -> done + total < 64 -> (acc < 2 ^ N.of_nat done)%N ->
  (total <= length (rbits r) ->
   exists r', read_loop fuel r total acc
              = Ok ((acc * 2 ^ N.of_nat total + of_bits (firstn total (rbits r)))%N, r')
              /\ rok r' /\ rbits r' = skipn total (rbits r)) /\
  (length (rbits r) < total -> read_loop fuel r total acc = Err UnexpectedEof).
Proof.
  revert r total done acc.
  induction fuel as [|fuel IH]; intros r total done acc Hr Hf Hd Hacc.
  - assert (total = 0) by lia. subst. simpl. split; [|lia]. intros _.
    exists r. split; [|auto]. rewrite N.mul_1_r, of_bits_nil, N.add_0_r. reflexivity.
  - cbn [read_loop]. destruct (Nat.eqb_spec total 0) as [E|E].
    { subst. split; [|lia]. intros _.
      exists r. split; [|auto]. simpl. rewrite N.mul_1_r, of_bits_nil, N.add_0_r. reflexivity. }
    assert (Step : forall r1, rok r1 -> rbits r1 = rbits r -> r_bits_read r1 < 64 ->
      let k := Nat.min total (64 - r_bits_read r1) in
      let acc2 := N.lor (N.shiftl acc (N.of_nat k) mod two64)%N (N.shiftr (r_cur r1) (N.of_nat (64 - k))) in
      let cur' := if k <? 64 then (N.shiftl (r_cur r1) (N.of_nat k) mod two64)%N else r_cur r1 in
      let out := read_loop fuel (mk_reader (r_src r1) cur' (r_bits_read r1 + k)) (total - k) acc2 in
      (total <= length (rbits r) ->
        exists r', out = Ok ((acc * 2 ^ N.of_nat total + of_bits (firstn total (rbits r)))%N, r')
              /\ rok r' /\ rbits r' = skipn total (rbits r)) /\
      (length (rbits r) < total -> out = Err UnexpectedEof)).
    { intros r1 Hr1 Hb Hlt k acc2 cur' out.
      assert (Hk : 0 < k < 64) by (unfold k; lia).
      destruct (consume_spec r1 k Hr1 ltac:(lia) Hk) as (Ho & Hs & Hv).
      unfold out, cur'. destruct (Nat.ltb_spec k 64) as [_|]; [|lia].
      set (r2 := mk_reader _ _ _) in *.
      assert (Hlen : length (rbits r) >= k).
      { rewrite <- Hb, rbits_length by apply Hr1. lia. }
      assert (Ev : (of_bits (firstn k (rbits r)) < 2 ^ N.of_nat k)%N).
      { replace k with (length (firstn k (rbits r))) at 2 by (rewrite firstn_length; lia).
        apply of_bits_lt. }
      assert (Ea : acc2 = (acc * 2 ^ N.of_nat k + of_bits (firstn k (rbits r)))%N).
      { unfold acc2. rewrite Hv, Hb. rewrite N.mod_small.
        - apply lor_add_low. exact Ev.
        - rewrite N.shiftl_mul_pow2.
          apply N.lt_le_trans with (2 ^ N.of_nat done * 2 ^ N.of_nat k)%N.
          + apply N.mul_lt_mono_pos_r; auto. apply pow2_pos.
          + rewrite <- N.pow_add_r. apply N.pow_le_mono_r; lia. }
      destruct (IH r2 (total - k) (done + k) acc2 Ho ltac:(lia) ltac:(lia)) as [IH1 IH2].
      { rewrite Ea. rewrite Nat2N.inj_add, N.pow_add_r.
        pose proof (pow2_pos (N.of_nat k)). nia. }
      rewrite Hs, Hb in IH1, IH2. rewrite skipn_length in IH1, IH2.
      split.
      - intros Hle. destruct IH1 as (r' & E1 & E2 & E3); [lia|].
        exists r'. split; [|split; auto].
        + rewrite E1, Ea. do 2 f_equal.
          replace total with (k + (total - k)) at 3 4 by lia.
          rewrite firstn_add, of_bits_app.
          rewrite firstn_length, skipn_length.
          replace (Nat.min (total - k) (length (rbits r) - k)) with (total - k) by lia.
          rewrite Nat2N.inj_add, N.pow_add_r. ring.
        + rewrite E3. rewrite <- skipn_add. f_equal. lia.
      - intros Hlt'. apply IH2. lia. }
    destruct (Nat.leb_spec 64 (r_bits_read r)) as [H64|H64].
    + assert (r_bits_read r = 64) by (destruct Hr; lia).
      destruct (storage_spec r Hr H) as [[Hd0 He]|[Hd0 (r1 & He & Hr1 & Hb & Hlt)]]; rewrite He; cbn [bind].
      * split; auto. intros. exfalso.
        rewrite rbits_length, H, Hd0 in H0 by lia. simpl in H0. lia.
      * apply Step; auto.
    + cbn [bind]. apply Step; auto.
Qed.

Lemma read_unaligned_spec r n :
  rok r -> n < 64 ->
  (n <= length (rbits r) ->
   exists r', read_unaligned r n = Ok (of_bits (firstn n (rbits r)), r')
              /\ rok r' /\ rbits r' = skipn n (rbits r)) /\
  (length (rbits r) < n -> read_unaligned r n = Err UnexpectedEof).
Proof.
  intros Hr Hn. unfold read_unaligned.
  destruct (Nat.eqb_spec n 0) as [->|E].
  - cbn. split; [|lia]. intros _. exists r. auto.
  - destruct (Nat.leb_spec 64 n); [lia|]. cbn [orb].
    destruct (read_loop_spec n r n 0 0%N Hr ltac:(lia) ltac:(lia) ltac:(cbn; lia)) as [A B].
    split; auto. 
Qed.

Lemma read_unaligned_wide r n : 64 <= n -> read_unaligned r n = Ok (0%N, r).
Proof.
  intros H. unfold read_unaligned. destruct (Nat.leb_spec 64 n); [|lia].
  now rewrite orb_true_r.
Qed.

Lemma read_bit_spec r :
  rok r ->
  (forall b l, rbits r = b :: l ->
   exists r', read_bit r = Ok (b, r') /\ rok r' /\ rbits r' = l) /\
  (rbits r = [] -> read_bit r = Err UnexpectedEof).
Proof.
  intros Hr. unfold read_bit.
  assert (Step : forall r1, rok r1 -> rbits r1 = rbits r -> r_bits_read r1 < 64 ->
     forall b l, rbits r = b :: l ->
     negb (N.land (r_cur r1) (2 ^ 63) =? 0)%N = b /\
     rok (mk_reader (r_src r1) (N.shiftl (r_cur r1) 1 mod two64)%N (r_bits_read r1 + 1)) /\
     rbits (mk_reader (r_src r1) (N.shiftl (r_cur r1) 1 mod two64)%N (r_bits_read r1 + 1)) = l).
  { intros r1 Hr1 Hb Hlt b l Hbl.
    destruct (consume_spec r1 1 Hr1 ltac:(lia) ltac:(lia)) as (Ho & Hs & _).
    split; [|split; auto].
    - rewrite <- Hb in Hbl. unfold rbits in Hbl.
      replace (64 - r_bits_read r1) with (S (63 - r_bits_read r1)) in Hbl by lia.
      change (bits 64 (r_cur r1)) with (N.testbit (r_cur r1) 63 :: bits 63 (r_cur r1)) in Hbl.
      cbn [firstn app] in Hbl. injection Hbl as <- _.
      destruct (N.testbit (r_cur r1) 63) eqn:T.
      + apply negb_true_iff, N.eqb_neq. intros E.
        assert (N.testbit (N.land (r_cur r1) (2^63)) 63 = true)
          by (rewrite N.land_spec, T, N.pow2_bits_true; auto).
        rewrite E in H. discriminate.
      + apply negb_false_iff, N.eqb_eq. apply N.bits_inj_0. intros i. rewrite N.land_spec.
        destruct (N.eq_dec i 63) as [->|Hi]; [now rewrite T|].
        rewrite N.pow2_bits_false by auto. apply andb_false_r.
    - change (N.of_nat 1) with 1%N in Hs. rewrite Hs, Hb, Hbl. reflexivity. }
  destruct (Nat.leb_spec 64 (r_bits_read r)) as [H64|H64].
  - assert (r_bits_read r = 64) by (destruct Hr; lia).
    destruct (storage_spec r Hr H) as [[Hd0 He]|[Hd0 (r1 & He & Hr1 & Hb & Hlt)]]; rewrite He; cbn [bind].
    + split; auto. intros b l E. unfold rbits in E. rewrite H, Hd0 in E. discriminate.
    + destruct (Nat.ltb_spec (64 - r_bits_read r1) 1); [lia|]. cbn [bind]. split.
      * intros b l E. destruct (Step r1 Hr1 Hb Hlt b l E) as (S1 & S2 & S3). subst.
        eexists. split; [reflexivity|]. auto.
      * intros E. exfalso. assert (length (rbits r) = 0) by now rewrite E.
        rewrite rbits_length in H1 by lia. destruct (s_data (r_src r)); [auto|simpl in H1; lia].
  - cbn [bind]. split.
    + intros b l E. destruct (Step r Hr eq_refl H64 b l E) as (S1 & S2 & S3).
      eexists. split; [rewrite S1; reflexivity|]. auto.
    + intros E. exfalso. assert (length (rbits r) = 0) by now rewrite E.
      rewrite rbits_length in H by lia. lia.
Qed.

(** *** Field extraction from a combined word *)

Lemma shl_shr_mod d w :
  w <= 64 -> N.shiftr (N.shiftl d (N.of_nat (64 - w)) mod two64) (N.of_nat (64 - w))
             = (d mod 2 ^ N.of_nat w)%N.
Proof.
  intros H. rewrite N.shiftr_div_pow2, N.shiftl_mul_pow2.
  replace two64 with (2 ^ N.of_nat w * 2 ^ N.of_nat (64 - w))%N.
  - rewrite N.mul_mod_distr_r by (apply N.pow_nonzero; lia).
    apply N.div_mul. apply N.pow_nonzero; lia.
  - rewrite <- N.pow_add_r. unfold two64. f_equal. lia.
Qed.

Lemma split_word l a b :
  length l = a + b ->
  N.shiftr (of_bits l) (N.of_nat b) = of_bits (firstn a l) /\
  (of_bits l mod 2 ^ N.of_nat b)%N = of_bits (skipn a l).
Proof.
  intros H. rewrite <- (firstn_skipn a l) at 1 3. rewrite of_bits_app.
  assert (length (skipn a l) = b) by (rewrite skipn_length; lia).
  rewrite H0. pose proof (of_bits_lt (skipn a l)). rewrite H0 in H1.
  pose proof (pow2_pos (N.of_nat b)).
  split.
  - rewrite N.shiftr_div_pow2, N.div_add_l by lia. rewrite N.div_small by auto. lia.
  - rewrite N.add_comm, N.mod_add by lia. apply N.mod_small. auto.
Qed.

Lemma shr64_ok {E} oc x k : k < 64 -> @shr64 E oc x k = Ok (N.shiftr x (N.of_nat k)).
Proof. intros. unfold shr64. destruct (Nat.ltb_spec k 64); [auto|lia]. Qed.
Lemma shl64_ok {E} oc x k : k < 64 -> @shl64 E oc x k = Ok (N.shiftl x (N.of_nat k) mod two64)%N.
Proof. intros. unfold shl64. destruct (Nat.ltb_spec k 64); [auto|lia]. Qed.

Lemma skipn_firstn' {A} a b (l : list A) : skipn a (firstn (a + b) l) = firstn b (skipn a l).
Proof. rewrite skipn_firstn_comm. f_equal. lia. Qed.

(** Two consecutive single reads. *)
Lemma read_twice_spec r a b :
  rok r -> a < 64 -> b < 64 ->
  (a + b <= length (rbits r) ->
   exists r1 r2, read_unaligned r a = Ok (of_bits (firstn a (rbits r)), r1) /\ rok r1 /\
     read_unaligned r1 b = Ok (of_bits (firstn b (skipn a (rbits r))), r2) /\
     rok r2 /\ rbits r2 = skipn (a + b) (rbits r)) /\
  (length (rbits r) < a + b ->
    forall (f : N -> N -> reader -> (N * N) * reader),
    (let* (x, r1) := read_unaligned r a in
     let* (y, r2) := read_unaligned r1 b in Ok (f x y r2)) = Err UnexpectedEof).
Proof.
  intros Hr Ha Hb.
  destruct (read_unaligned_spec r a Hr Ha) as [A1 A2].
  split.
  - intros Hl. destruct A1 as (r1 & E1 & Hr1 & Hb1); [lia|].
    destruct (read_unaligned_spec r1 b Hr1 Hb) as [B1 _].
    destruct B1 as (r2 & E2 & Hr2 & Hb2); [rewrite Hb1, skipn_length; lia|].
    exists r1, r2. rewrite Hb1 in E2. repeat split; auto; try apply Hr1; try apply Hr2.
    rewrite Hb2, Hb1. now rewrite skipn_add.
  - intros Hl f. destruct (le_lt_dec a (length (rbits r))) as [L|L].
    + destruct A1 as (r1 & E1 & Hr1 & Hb1); [lia|]. rewrite E1. cbn [bind].
      destruct (read_unaligned_spec r1 b Hr1 Hb) as [_ B2].
      rewrite B2; auto. rewrite Hb1, skipn_length. lia.
    + rewrite A2 by auto. reflexivity.
Qed.

Lemma read2_spec oc r w :
  rok r -> w < 64 -> w <> 32 ->
  (w + w <= length (rbits r) ->
   exists r', read2_unaligned oc r w
     = Ok ((of_bits (firstn w (rbits r)), of_bits (firstn w (skipn w (rbits r)))), r')
     /\ rok r' /\ rbits r' = skipn (w + w) (rbits r)) /\
  (length (rbits r) < w + w -> read2_unaligned oc r w = Err UnexpectedEof).
Proof.
  intros Hr Hw H32. unfold read2_unaligned.
  destruct (Nat.eqb_spec w 0) as [->|E].
  { simpl. split; [|lia]. intros. exists r. auto. }
  destruct (Nat.ltb_spec 32 w) as [L|L].
  - destruct (read_twice_spec r w w Hr Hw Hw) as [A B]. split.
    + intros Hl. destruct (A Hl) as (r1 & r2 & E1 & _ & E2 & O2 & B2).
      rewrite E1. cbn [bind]. rewrite E2. cbn [bind]. eauto.
    + intros Hl. apply (B Hl (fun x y r2 => ((x, y), r2))).
  - destruct (read_unaligned_spec r (w * 2) Hr ltac:(lia)) as [A B].
    replace (w * 2) with (w + w) in * by lia. split.
    + intros Hl. destruct (A Hl) as (r1 & E1 & O1 & B1). rewrite E1. cbn [bind].
      rewrite shr64_ok, shl64_ok by lia. cbn [bind]. rewrite shr64_ok by lia. cbn [bind].
      rewrite shl_shr_mod by lia.
      destruct (split_word (firstn (w + w) (rbits r)) w w) as [S1 S2].
      { rewrite firstn_length. lia. }
      rewrite S1, S2, skipn_firstn', firstn_firstn.
      replace (Nat.min w (w + w)) with w by lia. eauto.
    + intros Hl. rewrite (B Hl). reflexivity.
Qed.

Lemma read2_32 oc r : read2_unaligned oc r 32 = Ok ((0%N, 0%N), r).
Proof. unfold read2_unaligned. cbn. destruct oc; reflexivity. Qed.

Lemma read_pair_spec oc r w :
  rok r -> 0 < w -> w + w < 64 ->
  (w + w <= length (rbits r) ->
   exists r', read_pair_unaligned oc r w w
     = Ok ((of_bits (firstn w (rbits r)), of_bits (firstn w (skipn w (rbits r)))), r')
     /\ rok r' /\ rbits r' = skipn (w + w) (rbits r)) /\
  (length (rbits r) < w + w -> read_pair_unaligned oc r w w = Err UnexpectedEof).
Proof.
  intros Hr Hw Hw2.
  assert (E : read_pair_unaligned oc r w w = read2_unaligned oc r w).
  { unfold read_pair_unaligned, read2_unaligned, add8, sub8.
    destruct (Nat.ltb_spec (w + w) 256); [|lia]. cbn [bind].
    destruct (Nat.ltb_spec 64 (w + w)); [lia|].
    destruct (Nat.eqb_spec w 0); [lia|].
    destruct (Nat.ltb_spec 32 w); [lia|].
    replace (w * 2) with (w + w) by lia.
    destruct (Nat.leb_spec w 64); [|lia]. reflexivity. }
  rewrite E. apply read2_spec; auto; lia.
Qed.

Lemma read3_spec oc r w :
  rok r -> 0 < w < 64 -> w <> 32 ->
  (w + w + w <= length (rbits r) ->
   exists r', read3_unaligned oc r w
     = Ok ((of_bits (firstn w (rbits r)), of_bits (firstn w (skipn w (rbits r))),
            of_bits (firstn w (skipn (w + w) (rbits r)))), r')
     /\ rok r' /\ rbits r' = skipn (w + w + w) (rbits r)) /\
  (length (rbits r) < w + w + w -> read3_unaligned oc r w = Err UnexpectedEof).
Proof.
  intros Hr Hw H32. unfold read3_unaligned.
  destruct (Nat.ltb_spec 21 w) as [L|L].
  - destruct (read2_spec oc r w Hr ltac:(lia) H32) as [A B]. split.
    + intros Hl. destruct A as (r1 & E1 & O1 & B1); [lia|]. rewrite E1. cbn [bind].
      destruct (read_unaligned_spec r1 w O1 ltac:(lia)) as [A' _].
      destruct A' as (r2 & E2 & O2 & B2); [rewrite B1, skipn_length; lia|].
      rewrite E2. cbn [bind fst snd]. rewrite B1. exists r2. split; auto. split; auto.
      rewrite B2, B1. now rewrite <- skipn_add.
    + intros Hl. destruct (le_lt_dec (w + w) (length (rbits r))) as [L'|L'].
      * destruct A as (r1 & E1 & O1 & B1); [lia|]. rewrite E1. cbn [bind].
        destruct (read_unaligned_spec r1 w O1 ltac:(lia)) as [_ B'].
        rewrite B'; auto. rewrite B1, skipn_length. lia.
      * rewrite B by auto. reflexivity.
  - destruct (read_unaligned_spec r (w * 3) Hr ltac:(lia)) as [A B].
    replace (w * 3) with (w + (w + w)) in * by lia.
    replace (w + w + w) with (w + (w + w)) by lia.
    replace (w * 2) with (w + w) by lia. split.
    + intros Hl. destruct (A Hl) as (r1 & E1 & O1 & B1). rewrite E1. cbn [bind].
      rewrite shr64_ok, shl64_ok by lia. cbn [bind]. rewrite shr64_ok by lia. cbn [bind].
      rewrite shl_shr_mod by lia. rewrite shr64_ok by lia. cbn [bind].
      rewrite shl64_ok by lia. cbn [bind]. rewrite shr64_ok by lia. cbn [bind].
      rewrite shl_shr_mod by lia.
      destruct (split_word (firstn (w + (w + w)) (rbits r)) w (w + w)) as [S1 S2].
      { rewrite firstn_length. lia. }
      rewrite S1, S2, skipn_firstn', firstn_firstn.
      replace (Nat.min w (w + (w + w))) with w by lia.
      destruct (split_word (firstn (w + w) (skipn w (rbits r))) w w) as [T1 T2].
      { rewrite firstn_length, skipn_length. lia. }
      rewrite T1, T2, skipn_firstn', firstn_firstn.
      replace (Nat.min w (w + w)) with w by lia.
      rewrite <- skipn_add. eauto.
    + intros Hl. rewrite (B Hl). reflexivity.
Qed.

(** *** Histories of reads *)

Lemma take_fields_app l ws1 ws2 :
  take_fields l (ws1 ++ ws2) =
  match take_fields l ws1 with
  | Some vs => option_map (app vs) (take_fields (skipn (list_sum ws1) l) ws2)
  | None => None
  end.
Proof.
  revert l; induction ws1 as [|w t IH]; intros l; simpl.
  - destruct (take_fields l ws2); reflexivity.
  - destruct (Nat.leb_spec w (length l)); [|reflexivity].
    rewrite IH. destruct (take_fields (skipn w l) t) as [vs|]; simpl; auto.
    rewrite skipn_add. destruct (take_fields _ ws2); reflexivity.
Qed.

Lemma run_rop_spec oc r op :
  rok r -> rop_ok op ->
  (forall vs, take_fields (rbits r) (rop_widths op) = Some vs ->
    exists r', run_rop oc r op = Ok (vs, r') /\ rok r' /\
               rbits r' = skipn (list_sum (rop_widths op)) (rbits r)) /\
  (take_fields (rbits r) (rop_widths op) = None -> run_rop oc r op = Err UnexpectedEof).
Proof.
  intros Hr Ho. destruct op as [|w|w|w|w1 w2]; cbn [rop_widths run_rop take_fields list_sum fold_right] in *.
  - destruct (read_bit_spec r Hr) as [A B].
    destruct (rbits r) as [|b l] eqn:E; cbn [length Nat.leb option_map].
    + split; [discriminate|]. intros _. rewrite B by auto. reflexivity.
    + split; [|discriminate]. intros vs [= <-].
      destruct (A b l eq_refl) as (r' & E' & O' & B'). rewrite E'. cbn [bind].
      exists r'. split; [destruct b; reflexivity|auto].
  - destruct (read_unaligned_spec r w Hr Ho) as [A B].
    destruct (Nat.leb_spec w (length (rbits r))); cbn [option_map].
    + split; [|discriminate]. intros vs [= <-].
      destruct (A H) as (r' & E' & O' & B'). rewrite E'. cbn [bind]. rewrite Nat.add_0_r. eauto.
    + split; [discriminate|]. intros _. now rewrite B.
  - destruct Ho as [Hw H32]. destruct (read2_spec oc r w Hr Hw H32) as [A B].
    rewrite skipn_length.
    destruct (Nat.leb_spec w (length (rbits r))); [destruct (Nat.leb_spec w (length (rbits r) - w))|];
      cbn [option_map].
    + split; [|discriminate]. intros vs [= <-].
      destruct A as (r' & E' & O' & B'); [lia|]. rewrite E'. cbn [bind fst snd].
      exists r'. split; [reflexivity|]. split; auto. rewrite Nat.add_0_r. auto.
    + split; [discriminate|]. intros _. rewrite B by lia. reflexivity.
    + split; [discriminate|]. intros _. rewrite B by lia. reflexivity.
  - destruct Ho as [Hw H32]. destruct (read3_spec oc r w Hr Hw H32) as [A B].
    rewrite !skipn_length.
    destruct (Nat.leb_spec w (length (rbits r)));
      [destruct (Nat.leb_spec w (length (rbits r) - w));
        [destruct (Nat.leb_spec w (length (rbits r) - w - w))|]|]; cbn [option_map].
    + split; [|discriminate]. intros vs [= <-].
      destruct A as (r' & E' & O' & B'); [lia|]. rewrite E'. cbn [bind fst snd].
      rewrite skipn_add.
      exists r'. split; [reflexivity|]. split; auto. rewrite B'. f_equal. lia.
    + split; [discriminate|]. intros _. rewrite B by lia. reflexivity.
    + split; [discriminate|]. intros _. rewrite B by lia. reflexivity.
    + split; [discriminate|]. intros _. rewrite B by lia. reflexivity.
  - destruct Ho as [Hw [<- H64]]. destruct (read_pair_spec oc r w1 Hr Hw H64) as [A B].
    rewrite skipn_length.
    destruct (Nat.leb_spec w1 (length (rbits r))); [destruct (Nat.leb_spec w1 (length (rbits r) - w1))|];
      cbn [option_map].
    + split; [|discriminate]. intros vs [= <-].
      destruct A as (r' & E' & O' & B'); [lia|]. rewrite E'. cbn [bind fst snd].
      exists r'. split; [reflexivity|]. split; auto. rewrite Nat.add_0_r. auto.
    + split; [discriminate|]. intros _. rewrite B by lia. reflexivity.
    + split; [discriminate|]. intros _. rewrite B by lia. reflexivity.
Qed.

Lemma run_rops_spec oc r ops :
  rok r -> Forall rop_ok ops ->
  run_rops oc r ops = of_option (take_fields (rbits r) (flat_map rop_widths ops)).
Proof.
  revert r; induction ops as [|op t IH]; intros r Hr Ho; [reflexivity|].
  apply Forall_cons_iff in Ho as [Ho Ht].
  cbn [run_rops flat_map]. rewrite take_fields_app.
  destruct (run_rop_spec oc r op Hr Ho) as [A B].
  destruct (take_fields (rbits r) (rop_widths op)) as [vs|].
  - destruct (A vs eq_refl) as (r' & E & O' & B'). rewrite E. cbn [bind].
    rewrite IH by auto. rewrite B'. destruct (take_fields _ _); reflexivity.
  - rewrite B by auto. reflexivity.
Qed.

(** ** Writer *)

Definition wbits (w : writer) : list bool :=
  bits_of_bytes (w_out w) ++ firstn (w_written w) (bits 8 (w_next w)).

Definition wok (w : writer) : Prop :=
  bytes_ok (w_out w) /\ w_written w < 8 /\
  exists hi, w_next w = (hi * 2 ^ N.of_nat (8 - w_written w))%N /\ (hi < 2 ^ N.of_nat (w_written w))%N.

Lemma wok_new s : bytes_ok s -> wok (writer_new s).
Proof. intros H. repeat split; simpl; auto; try lia. exists 0%N. simpl. lia. Qed.

Lemma wbits_new s : wbits (writer_new s) = bits_of_bytes s.
Proof. unfold wbits. simpl. apply app_nil_r. Qed.

Lemma write_loop_spec fuel w total data :
  wok w -> total <= fuel -> total <= 64 -> (data < two64)%N ->
  exists w', write_loop fuel w total data = Ok w' /\ wok w' /\
             wbits w' = wbits w ++ firstn total (bits 64 data).
Proof.
  revert w total data. induction fuel as [|fuel IH]; intros w total data Hw Hf H64 Hd.
  - assert (total = 0) by lia. subst. simpl. exists w. rewrite app_nil_r. auto.
  - cbn [write_loop]. destruct (Nat.eqb_spec total 0) as [->|E].
    { exists w. simpl. rewrite app_nil_r. auto. }
    destruct Hw as (Hout & Hwr & hi & Hn & Hhi).
    set (c := Nat.min total (8 - w_written w)).
    assert (Hc : 1 <= c <= 8 /\ c <= total /\ w_written w + c <= 8) by (unfold c; lia).
    set (b := (N.shiftr data (N.of_nat (64 - c)) mod 256)%N).
    assert (Hb : b = of_bits (firstn c (bits 64 data))).
    { unfold b. rewrite firstn_bits by lia. rewrite of_bits_bits.
      change 256%N with (2 ^ 8)%N.
      assert (N.shiftr data (N.of_nat (64 - c)) < 2 ^ N.of_nat c)%N.
      { rewrite N.shiftr_div_pow2. apply N.div_lt_upper_bound; [apply N.pow_nonzero; lia|].
        rewrite <- N.pow_add_r.
        replace (N.of_nat (64 - c) + N.of_nat c)%N with 64%N by lia. exact Hd. }
      rewrite !N.mod_small; auto.
      eapply N.lt_le_trans; [exact H|]. apply N.pow_le_mono_r; lia. }
    assert (Hblt : (b < 2 ^ N.of_nat c)%N).
    { rewrite Hb. replace c with (length (firstn c (bits 64 data))) at 2
        by (rewrite firstn_length, bits_length; lia). apply of_bits_lt. }
    set (off := 8 - w_written w - c).
    assert (Eoff : 8 - w_written w = c + off) by (unfold off; lia).
    assert (Ecb : (N.shiftl b (N.of_nat off) mod 256 = b * 2 ^ N.of_nat off)%N).
    { rewrite N.shiftl_mul_pow2. apply N.mod_small. change 256%N with (2^8)%N.
      apply N.lt_le_trans with (2 ^ N.of_nat c * 2 ^ N.of_nat off)%N.
      - apply N.mul_lt_mono_pos_r; auto. apply pow2_pos.
      - rewrite <- N.pow_add_r. apply N.pow_le_mono_r; lia. }
    rewrite Ecb.
    assert (Enext : N.lor (w_next w) (b * 2 ^ N.of_nat off) = ((hi * 2 ^ N.of_nat c + b) * 2 ^ N.of_nat off)%N).
    { rewrite Hn, Eoff, <- N.shiftl_mul_pow2.
      rewrite lor_add_low.
      - rewrite Nat2N.inj_add, N.pow_add_r. ring.
      - rewrite Nat2N.inj_add, N.pow_add_r. apply N.mul_lt_mono_pos_r; auto. apply pow2_pos. }
    rewrite Enext.
    set (hi' := (hi * 2 ^ N.of_nat c + b)%N) in *.
    assert (Hhi' : (hi' < 2 ^ N.of_nat (w_written w + c))%N).
    { unfold hi'. rewrite Nat2N.inj_add, N.pow_add_r.
      pose proof (pow2_pos (N.of_nat c)). nia. }
    set (next := (hi' * 2 ^ N.of_nat off)%N).
    assert (Ewb : firstn (w_written w + c) (bits 8 next)
                  = firstn (w_written w) (bits 8 (w_next w)) ++ firstn c (bits 64 data)).
    { rewrite (firstn_bits (w_written w + c)) by lia.
      replace (8 - (w_written w + c)) with off by lia.
      unfold next. rewrite N.shiftr_div_pow2, N.div_mul by (apply N.pow_nonzero; lia).
      rewrite bits_app. f_equal.
      - rewrite firstn_bits by lia. rewrite Hn.
        rewrite (N.shiftr_div_pow2 (hi * _)), N.div_mul by (apply N.pow_nonzero; lia).
        unfold hi'. rewrite N.shiftr_div_pow2, N.div_add_l by (apply N.pow_nonzero; lia).
        rewrite (N.div_small b) by auto. f_equal. lia.
      - rewrite <- (bits_mod c c hi') by lia. unfold hi'.
        rewrite N.add_comm, N.mod_add by (apply N.pow_nonzero; lia).
        rewrite bits_mod by lia. rewrite Hb.
        replace c with (length (firstn c (bits 64 data))) at 1
          by (rewrite firstn_length, bits_length; lia).
        apply bits_of_bits. }
    assert (Ed : bits 64 (N.shiftl data (N.of_nat c) mod two64) = skipn c (bits 64 data) ++ repeat false c).
    { rewrite two64_eq, bits_mod by lia. rewrite bits_shiftl, skipn_bits by lia. auto. }
    assert (Hd' : (N.shiftl data (N.of_nat c) mod two64 < two64)%N) by (apply N.mod_lt; discriminate).
    assert (Hfin : firstn total (bits 64 data)
       = firstn c (bits 64 data)
         ++ firstn (total - c) (bits 64 (N.shiftl data (N.of_nat c) mod two64))).
    { rewrite Ed. rewrite (firstn_app (total - c)), skipn_length, bits_length.
      replace (total - c - (64 - c)) with 0 by lia. rewrite firstn_O, app_nil_r.
      rewrite <- firstn_add. f_equal. lia. }
    assert (Step : forall w', wok w' -> wbits w' = wbits w ++ firstn c (bits 64 data) ->
      exists w'', write_loop fuel w' (total - c) (N.shiftl data (N.of_nat c) mod two64) = Ok w''
        /\ wok w'' /\ wbits w'' = wbits w ++ firstn total (bits 64 data)).
    { intros w' O' B'.
      destruct (IH w' (total - c) _ O' ltac:(lia) ltac:(lia) Hd') as (w'' & E1 & O'' & B'').
      exists w''. split; auto. split; auto. rewrite B'', B', Hfin. now rewrite app_assoc. }
    destruct (Nat.leb_spec 8 (w_written w + c)) as [L|L]; apply Step.
    + assert (off = 0) by lia.
      assert (next < 256)%N.
      { unfold next. rewrite H. replace (w_written w + c) with 8 in Hhi' by lia.
        simpl. rewrite N.mul_1_r. exact Hhi'. }
      repeat split; cbn; try lia.
      * apply bytes_ok_app. split; auto. constructor; auto.
      * exists 0%N. simpl. lia.
    + unfold wbits. cbn [w_out w_written w_next]. rewrite firstn_O, app_nil_r.
      rewrite bits_of_bytes_app, <- app_assoc. f_equal.
      rewrite <- Ewb. cbn [bits_of_bytes flat_map]. rewrite app_nil_r.
      symmetry. apply firstn_all2. rewrite bits_length. lia.
    + unfold wok. cbn [w_out w_written w_next]. split; [exact Hout|]. split; [exact L|].
      exists hi'. split; [|exact Hhi'].
      replace (8 - (w_written w + c)) with off by lia. reflexivity.
    + unfold wbits. cbn [w_out w_written w_next]. now rewrite Ewb, app_assoc.
Qed.

Lemma write_unaligned_spec oc w n v :
  wok w -> n <= 64 -> (v < two64)%N ->
  exists w', write_unaligned oc w n v = Ok w' /\ wok w' /\ wbits w' = wbits w ++ bits n v.
Proof.
  intros Hw Hn Hv. unfold write_unaligned.
  destruct (Nat.eqb_spec n 0) as [->|E].
  { exists w. simpl. rewrite app_nil_r. auto. }
  unfold sub8. destruct (Nat.leb_spec n 64); [|lia]. cbn [bind].
  rewrite shl64_ok by lia. cbn [bind].
  set (d := (N.shiftl v (N.of_nat (64 - n)) mod two64)%N).
  destruct (write_loop_spec n w n d Hw ltac:(lia) ltac:(lia)) as (w' & E1 & O1 & B1).
  { apply N.mod_lt. discriminate. }
  exists w'. split; auto. split; auto. rewrite B1. f_equal.
  unfold d. rewrite two64_eq, bits_mod by lia. rewrite bits_shiftl by lia.
  replace (64 - (64 - n)) with n by lia.
  rewrite firstn_app, bits_length, Nat.sub_diag, firstn_O, app_nil_r.
  apply firstn_all2. rewrite bits_length. lia.
Qed.

Lemma write_fields_spec oc w fs :
  wok w -> Forall (fun f => fst f <= 64 /\ (snd f < two64)%N) fs ->
  exists w', write_fields oc w fs = Ok w' /\ wok w' /\ wbits w' = wbits w ++ field_bits fs.
Proof.
  revert w; induction fs as [|[n v] t IH]; intros w Hw Hf.
  - exists w. simpl. rewrite app_nil_r. auto.
  - apply Forall_cons_iff in Hf as [[Hn Hv] Ht]. cbn [fst snd] in *.
    cbn [write_fields]. destruct (write_unaligned_spec oc w n v Hw Hn Hv) as (w1 & E1 & O1 & B1).
    rewrite E1. cbn [bind]. destruct (IH w1 O1 Ht) as (w2 & E2 & O2 & B2).
    exists w2. split; auto. split; auto. rewrite B2, B1. cbn [field_bits flat_map fst snd].
    now rewrite app_assoc.
Qed.

Lemma finish_spec w :
  wok w ->
  exists pad, bits_of_bytes (writer_finish w) = wbits w ++ repeat false pad /\ pad < 8 /\
    bytes_ok (writer_finish w).
Proof.
  intros (Hout & Hwr & hi & Hn & Hhi). unfold writer_finish, wbits.
  destruct (Nat.ltb_spec 0 (w_written w)) as [L|L].
  - exists (8 - w_written w). split; [|split; [lia|]].
    + rewrite bits_of_bytes_app, <- app_assoc. f_equal.
      cbn [bits_of_bytes flat_map]. rewrite app_nil_r.
      rewrite Hn, <- N.shiftl_mul_pow2, bits_shiftl by lia.
      f_equal. rewrite firstn_app, bits_length.
      replace (w_written w - (8 - (8 - w_written w))) with 0 by lia.
      rewrite firstn_O, app_nil_r. symmetry. apply firstn_all2. rewrite bits_length. lia.
    + apply bytes_ok_app. split; auto. constructor; auto. unfold byte_ok.
      rewrite Hn. change 256%N with (2^8)%N.
      apply N.lt_le_trans with (2 ^ N.of_nat (w_written w) * 2 ^ N.of_nat (8 - w_written w))%N.
      * apply N.mul_lt_mono_pos_r; auto. apply pow2_pos.
      * rewrite <- N.pow_add_r. apply N.pow_le_mono_r; lia.
  - exists 0. assert (w_written w = 0) by lia. rewrite H. simpl. rewrite !app_nil_r.
    split; auto. split; auto. lia.
Qed.

(** Complete life of a writer: everything written into a fresh sink. *)
Lemma writer_packs oc fs :
  Forall (fun f => fst f <= 64 /\ (snd f < two64)%N) fs ->
  exists w, write_fields oc (writer_new []) fs = Ok w /\ packs (writer_finish w) (field_bits fs).
Proof.
  intros Hf. destruct (write_fields_spec oc (writer_new []) fs (wok_new [] (Forall_nil _)) Hf)
    as (w & E & O & B).
  exists w. split; auto. rewrite wbits_new in B. simpl in B.
  destruct (finish_spec w O) as (pad & E1 & Hp & Hok). rewrite B in E1.
  split; [exact Hok|]. split; [|eauto].
  assert (L : 8 * length (writer_finish w) = length (field_bits fs) + pad).
  { rewrite <- bits_of_bytes_length, E1, app_length, repeat_length. auto. }
  unfold bytes_for_bits. lia.
Qed.

(** Reading back. *)
Lemma take_fields_fields fs rest :
  Forall (fun f => (snd f < 2 ^ N.of_nat (fst f))%N) fs ->
  take_fields (field_bits fs ++ rest) (map fst fs) = Some (map snd fs).
Proof.
  induction fs as [|[n v] t IH]; intros Hf; [reflexivity|].
  apply Forall_cons_iff in Hf as [Hv Ht]. cbn [fst snd map field_bits flat_map] in *.
  cbn [take_fields]. rewrite <- app_assoc.
  rewrite app_length, bits_length.
  destruct (Nat.leb_spec n (n + length (flat_map (fun f => bits (fst f) (snd f)) t ++ rest))); [|lia].
  rewrite firstn_app, bits_length, Nat.sub_diag, firstn_O, app_nil_r.
  rewrite firstn_all2 by (rewrite bits_length; lia).
  rewrite skipn_app, bits_length, Nat.sub_diag, skipn_O.
  rewrite skipn_all2 by (rewrite bits_length; lia). cbn [app].
  fold (field_bits t). rewrite IH by auto. cbn [option_map].
  rewrite of_bits_bits_id by auto. reflexivity.
Qed.

Lemma read_fields_rops oc r ws :
  (let* (vs, _) := read_fields r ws in Ok vs) = run_rops oc r (map ROne ws).
Proof.
  revert r; induction ws as [|w t IH]; intros r; [reflexivity|].
  cbn [read_fields map run_rops run_rop].
  destruct (read_unaligned r w) as [[v r1]| |]; cbn [bind]; auto.
  rewrite <- IH. destruct (read_fields r1 t) as [[vs r2]| |]; reflexivity.
Qed.

(** General form used by the array codecs: reading fields from a reader whose
    remaining bits start with the fields. *)
Lemma read_fields_spec r ws :
  rok r -> Forall (fun w => w < 64) ws ->
  (forall vs, take_fields (rbits r) ws = Some vs ->
    exists r', read_fields r ws = Ok (vs, r') /\ rok r' /\ rbits r' = skipn (list_sum ws) (rbits r)) /\
  (take_fields (rbits r) ws = None -> read_fields r ws = Err UnexpectedEof).
Proof.
  revert r; induction ws as [|w t IH]; intros r Hr Hw.
  - simpl. split; [|discriminate]. intros vs [= <-]. exists r. auto.
  - apply Forall_cons_iff in Hw as [Hw Ht]. cbn [take_fields read_fields].
    destruct (read_unaligned_spec r w Hr Hw) as [A B].
    destruct (Nat.leb_spec w (length (rbits r))).
    + destruct (A H) as (r1 & E1 & O1 & B1). rewrite E1. cbn [bind].
      destruct (IH r1 O1 Ht) as [C D]. rewrite B1 in C, D.
      destruct (take_fields (skipn w (rbits r)) t) as [vs|]; cbn [option_map].
      * split; [|discriminate]. intros vs' [= <-].
        destruct (C vs eq_refl) as (r2 & E2 & O2 & B2). rewrite E2. cbn [bind].
        exists r2. split; auto. split; auto. rewrite B2, <- skipn_add. reflexivity.
      * split; [discriminate|]. intros _. rewrite D by auto. reflexivity.
    + split; [discriminate|]. intros _. rewrite B by auto. reflexivity.
Qed.

Lemma bits_of_bytes_firstn n l : bits_of_bytes (firstn n l) = firstn (8 * n) (bits_of_bytes l).
Proof.
  revert l; induction n; intros l; auto.
  destruct l; [now rewrite firstn_nil|].
  replace (8 * S n) with (8 + 8 * n) by lia.
  rewrite firstn_add. cbn [firstn]. unfold bits_of_bytes in *. cbn [flat_map].
  rewrite IHn. f_equal.
Qed.
Lemma bits_of_bytes_skipn n l : bits_of_bytes (skipn n l) = skipn (8 * n) (bits_of_bytes l).
Proof.
  revert l; induction n; intros l; auto.
  destruct l; [now rewrite skipn_nil|].
  replace (8 * S n) with (8 + 8 * n) by lia.
  rewrite skipn_add. cbn [skipn]. unfold bits_of_bytes in *. cbn [flat_map].
  rewrite IHn. f_equal.
Qed.

Lemma writer_packs_sink oc sink fs :
  bytes_ok sink ->
  Forall (fun f => fst f <= 64 /\ (snd f < two64)%N) fs ->
  exists w bytes, write_fields oc (writer_new sink) fs = Ok w /\
    writer_finish w = sink ++ bytes /\ packs bytes (field_bits fs).
Proof.
  intros Hs Hf. destruct (write_fields_spec oc (writer_new sink) fs (wok_new sink Hs) Hf)
    as (w & E & O & B).
  rewrite wbits_new in B.
  destruct (finish_spec w O) as (pad & E1 & Hp & Hok). rewrite B in E1.
  set (n := length sink).
  exists w, (skipn n (writer_finish w)). split; auto.
  assert (Ef : firstn n (writer_finish w) = sink).
  { apply bits_of_bytes_inj; auto.
    - now apply Forall_firstn.
    - rewrite bits_of_bytes_firstn, E1, <- !app_assoc.
      unfold n. rewrite <- bits_of_bytes_length.
      rewrite firstn_app, Nat.sub_diag, firstn_O, app_nil_r. apply firstn_all. }
  split; [rewrite <- Ef at 1; symmetry; apply firstn_skipn|].
  assert (Es : bits_of_bytes (skipn n (writer_finish w)) = field_bits fs ++ repeat false pad).
  { rewrite bits_of_bytes_skipn, E1, <- !app_assoc.
    unfold n. rewrite <- bits_of_bytes_length.
    rewrite skipn_app, Nat.sub_diag, skipn_O, skipn_all. reflexivity. }
  split; [now apply Forall_skipn|]. split; [|eauto].
  assert (L : 8 * length (skipn n (writer_finish w)) = length (field_bits fs) + pad).
  { rewrite <- bits_of_bytes_length, Es, app_length, repeat_length. auto. }
  unfold bytes_for_bits. lia.
Qed.

Lemma packs_unique a b l : packs a l -> packs b l -> a = b.
Proof.
  intros (Ha & La & pa & Ea) (Hb & Lb & pb & Eb).
  apply bits_of_bytes_inj; auto. rewrite Ea, Eb. do 2 f_equal.
  assert (8 * length a = length l + pa) by (rewrite <- bits_of_bytes_length, Ea, app_length, repeat_length; auto).
  assert (8 * length b = length l + pb) by (rewrite <- bits_of_bytes_length, Eb, app_length, repeat_length; auto).
  lia.
Qed.

Lemma read_fields_take data sched ws :
  bytes_ok data -> Forall (fun w => w < 64) ws ->
  values (read_fields (reader_new (mk_source data sched)) ws)
  = of_option (take_fields (bits_of_bytes data) ws).
Proof.
  intros Hd Hw.
  destruct (read_fields_spec (reader_new (mk_source data sched)) ws) as [A B]; auto.
  { now apply rok_new. }
  rewrite rbits_new in A, B. cbn [s_data] in *.
  destruct (take_fields (bits_of_bytes data) ws) as [vs|].
  - destruct (A vs eq_refl) as (r' & E & _). now rewrite E.
  - now rewrite B.
Qed.

Lemma fields_roundtrip oc fs trailing sched :
  Forall (fun f => fst f < 64 /\ (snd f < 2 ^ N.of_nat (fst f))%N) fs ->
  bytes_ok trailing ->
  exists w, write_fields oc (writer_new []) fs = Ok w /\
    values (read_fields (reader_new (mk_source (writer_finish w ++ trailing) sched)) (map fst fs))
    = Ok (map snd fs).
Proof.
  intros Hf Ht.
  destruct (writer_packs oc fs) as (w & E & Hok & Hl & pad & Hb).
  { eapply Forall_impl; [|exact Hf]. intros [n v] [H1 H2]. cbn [fst snd] in *. split; [lia|].
    eapply N.lt_le_trans; [exact H2|]. rewrite two64_eq. apply N.pow_le_mono_r; lia. }
  exists w. split; auto. rewrite read_fields_take.
  - rewrite bits_of_bytes_app, Hb, <- app_assoc, take_fields_fields; auto.
    eapply Forall_impl; [|exact Hf]. cbn. tauto.
  - apply bytes_ok_app. split; auto.
  - rewrite Forall_map. eapply Forall_impl; [|exact Hf]. cbn. tauto.
Qed.

Lemma rop_replace oc data sched pre post op ws :
  bytes_ok data -> Forall rop_ok pre -> Forall rop_ok post -> rop_ok op ->
  rop_widths op = ws ->
  run_rops oc (reader_new (mk_source data sched)) (pre ++ op :: post)
  = run_rops oc (reader_new (mk_source data sched)) (pre ++ map ROne ws ++ post).
Proof.
  intros Hd H1 H2 H3 Hw.
  rewrite !run_rops_spec; try (now apply rok_new).
  - f_equal. f_equal. rewrite !flat_map_app. cbn [flat_map]. f_equal. f_equal.
    rewrite Hw. clear. induction ws; simpl; congruence.
  - apply Forall_app. split; auto. apply Forall_app. split; auto.
    rewrite Forall_map. subst ws. destruct op; cbn [rop_widths rop_ok] in *;
    repeat (apply Forall_cons; [cbn [rop_ok]; lia|]); apply Forall_nil.
  - apply Forall_app. split; auto.
Qed.
