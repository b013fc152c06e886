(** The reader with any size of the storage word. *)
From Coq Require Import List NArith ZArith Arith Lia Bool ZifyN ZifyNat ZifyBool.
From Verif Require Import Base BitSpec BitLemmas UnalignedRW UnalignedRW_proofs BitIOSpec StorageSize.
Import ListNotations.
Open Scope res_scope.

Section Size.
Context (sb : nat) (SB : 1 <= sb).
Let W := sbits sb.

Definition zbits (r : reader) : list bool := firstn (W - r_bits_read r) (bits W (r_cur r)) ++ bits_of_bytes (s_data (r_src r)).
Definition zok (r : reader) : Prop := r_bits_read r <= W /\ (r_cur r < smod sb)%N /\ bytes_ok (s_data (r_src r)).
Lemma smod_eq : smod sb = (2 ^ N.of_nat W)%N.
Proof. reflexivity. Qed.
Lemma W8 : W = 8 * sb.
Proof. unfold W, sbits. lia. Qed.
Lemma zok_new s : bytes_ok (s_data s) -> zok (reader_new_sz sb s).
Proof. intros H. repeat split; auto. apply pow2_pos. Qed.
Lemma zbits_new s : zbits (reader_new_sz sb s) = bits_of_bytes (s_data s).
Proof. unfold zbits. cbn [reader_new_sz r_bits_read r_cur r_src]. fold W. now rewrite Nat.sub_diag. Qed.
Lemma zbits_length r : r_bits_read r <= W -> length (zbits r) = (W - r_bits_read r) + 8 * length (s_data (r_src r)).
Proof. intros H. unfold zbits. rewrite app_length, firstn_length, bits_length, bits_of_bytes_length. lia. Qed.

Lemma fill_spec tmp data' s' : bytes_ok tmp -> 1 <= length tmp <= sb -> bytes_ok data' -> s_data s' = data' ->
  let r' := mk_reader s' (of_be_bytes (tmp ++ repeat 0%N (sb - length tmp))) (W - length tmp * 8) in
  zok r' /\ zbits r' = bits_of_bytes (tmp ++ data') /\ r_bits_read r' < W.
Proof.
  intros OT LT OD ED. cbv zeta. pose proof W8 as WE.
  assert (Hok : bytes_ok (tmp ++ repeat 0%N (sb - length tmp))) by (apply bytes_ok_app; split; [auto|apply bytes_ok_zeros]).
  assert (Hlen : length (tmp ++ repeat 0%N (sb - length tmp)) = sb) by (rewrite app_length, repeat_length; lia).
  assert (HB : length (bits_of_bytes (tmp ++ repeat 0%N (sb - length tmp))) = W) by (rewrite bits_of_bytes_length, Hlen; lia).
  split; [|split].
  - repeat split; cbn [r_bits_read r_cur r_src]; try lia; [|now rewrite ED].
    rewrite bits_of_be by auto. rewrite smod_eq, <- HB. apply of_bits_lt.
  - unfold zbits. cbn [r_bits_read r_cur r_src]. rewrite ED, bits_of_be by auto.
    pose proof (bits_of_bits (bits_of_bytes (tmp ++ repeat 0%N (sb - length tmp)))) as Hbb. rewrite HB in Hbb. rewrite Hbb, !bits_of_bytes_app.
    rewrite firstn_app, bits_of_bytes_length. replace (W - (W - length tmp * 8)) with (8 * length tmp) by lia.
    rewrite Nat.sub_diag, firstn_O, app_nil_r. rewrite firstn_all2 by (rewrite bits_of_bytes_length; lia). reflexivity.
  - cbn [r_bits_read]. lia.
Qed.
Lemma zstorage_spec r : zok r -> r_bits_read r = W ->
  (s_data (r_src r) = [] /\ read_to_internal_storage_sz sb r = Err UnexpectedEof) \/
  (s_data (r_src r) <> [] /\ exists r', read_to_internal_storage_sz sb r = Ok r' /\ zok r' /\ zbits r' = zbits r /\ r_bits_read r' < W).
Proof.
  intros (H1 & H2 & H3) HW. unfold read_to_internal_storage_sz, source_read.
  set (k := match s_sched (r_src r) with [] => sb | k :: _ => Nat.max 1 (Nat.min k sb) end).
  assert (Hk : 1 <= k <= sb) by (unfold k; destruct (s_sched (r_src r)); lia). clearbody k.
  destruct (s_data (r_src r)) as [|b data] eqn:Hd.
  - left. split; auto. rewrite firstn_nil. now destruct (sb =? 1).
  - right. split; [discriminate|].
    assert (ZB : zbits r = bits_of_bytes (firstn k (b :: data) ++ skipn k (b :: data))).
    { unfold zbits. now rewrite HW, Nat.sub_diag, Hd, firstn_skipn. }
    set (tmp := firstn k (b :: data)) in *.
    assert (Ht : 1 <= length tmp <= sb) by (unfold tmp; rewrite firstn_length; cbn [length]; lia).
    destruct (fill_spec tmp (skipn k (b :: data)) (mk_source (skipn k (b :: data)) (tl (s_sched (r_src r))))) as (F1 & F2 & F3); [now apply Forall_firstn|exact Ht|now apply Forall_skipn|reflexivity|].
    clearbody tmp. cbn [s_data] in *. destruct (Nat.eqb_spec sb 1) as [E1|E1].
    + destruct tmp as [|b0 t0]; [cbn [length] in Ht; lia|]. assert (T0 : t0 = []) by (destruct t0; cbn [length] in Ht; [auto|lia]). subst t0.
      eexists. split; [reflexivity|]. cbn [length] in F1, F2, F3. rewrite <- ZB in F2. rewrite E1 in F1, F2, F3 at 1.
      replace (W - 1 * 8) with 0 in F1, F2, F3 by (pose proof W8; lia). cbn [Nat.sub repeat app] in F1, F2, F3.
      replace (of_be_bytes [b0]) with b0 in F1, F2, F3 by (cbn; lia). auto.
    + destruct (Nat.eqb_spec (length tmp * 8) 0) as [E|E]; [lia|]. eexists. split; [reflexivity|]. rewrite ZB. fold W. auto.
Qed.
Lemma zconsume_spec r k : zok r -> k <= W - r_bits_read r -> 0 < k <= W ->
  let cur' := if k <? W then (N.shiftl (r_cur r) (N.of_nat k) mod smod sb)%N else r_cur r in
  let r' := mk_reader (r_src r) cur' (r_bits_read r + k) in
  zok r' /\ zbits r' = skipn k (zbits r) /\ N.shiftr (r_cur r) (N.of_nat (W - k)) = of_bits (firstn k (zbits r)).
Proof.
  intros (H1 & H2 & H3) Hk Hk'. cbv zeta. pose proof (pow2_pos (N.of_nat W)) as PW.
  destruct (Nat.ltb_spec k W) as [L|L].
  - split; [|split].
    + split; [cbn [r_bits_read]; lia|split; [apply N.mod_lt; rewrite smod_eq; lia|exact H3]].
    + unfold zbits. cbn [r_bits_read r_cur r_src]. rewrite smod_eq, bits_mod by lia. rewrite bits_shiftl by lia.
      rewrite skipn_app, firstn_length, bits_length. replace (k - Nat.min (W - r_bits_read r) W) with 0 by lia.
      rewrite skipn_O. f_equal. rewrite firstn_app, bits_length. replace (W - (r_bits_read r + k) - (W - k)) with 0 by lia.
      rewrite firstn_O, app_nil_r. rewrite <- (skipn_bits k W) by lia. rewrite skipn_firstn_comm. f_equal. lia.
    + unfold zbits. rewrite firstn_app, firstn_length, bits_length. replace (k - Nat.min (W - r_bits_read r) W) with 0 by lia.
      rewrite firstn_O, app_nil_r, firstn_firstn. replace (Nat.min k (W - r_bits_read r)) with k by lia.
      rewrite firstn_bits by lia. rewrite of_bits_bits_id; auto. rewrite N.shiftr_div_pow2. apply N.div_lt_upper_bound; [apply N.pow_nonzero; lia|].
      rewrite <- N.pow_add_r. replace (N.of_nat (W - k) + N.of_nat k)%N with (N.of_nat W) by lia. exact H2.
  - assert (KW : k = W) by lia. assert (R0 : r_bits_read r = 0) by lia. split; [|split].
    + split; [cbn [r_bits_read]; lia|split; [exact H2|exact H3]].
    + unfold zbits. cbn [r_bits_read r_cur r_src]. rewrite R0, KW, Nat.add_0_l, Nat.sub_diag, Nat.sub_0_r. cbn [firstn app].
      rewrite skipn_app, firstn_length, bits_length, skipn_all2 by (rewrite firstn_length; lia).
      replace (W - Nat.min W W) with 0 by lia. now rewrite skipn_O.
    + rewrite KW, Nat.sub_diag. cbn [N.of_nat]. rewrite N.shiftr_0_r. unfold zbits. rewrite R0, Nat.sub_0_r.
      rewrite firstn_app, firstn_length, bits_length. replace (W - Nat.min W W) with 0 by lia. rewrite firstn_O, app_nil_r, firstn_firstn.
      rewrite firstn_all2 by (rewrite bits_length; lia). symmetry. apply of_bits_bits_id. exact H2.
Qed.
Lemma zread_loop_spec fuel : forall r total done acc,
  zok r -> total <= fuel -> done + total < 64 -> (acc < 2 ^ N.of_nat done)%N ->
  (total <= length (zbits r) ->
   exists r', read_loop_sz sb fuel r total acc = Ok ((acc * 2 ^ N.of_nat total + of_bits (firstn total (zbits r)))%N, r')
              /\ zok r' /\ zbits r' = skipn total (zbits r)) /\
  (length (zbits r) < total -> read_loop_sz sb fuel r total acc = Err UnexpectedEof).
Proof.
  induction fuel as [|fuel IH]; intros r total done acc Hr Hf Hd Hacc.
  - assert (total = 0) by lia. subst. cbn [read_loop_sz Nat.eqb firstn skipn N.of_nat]. split; [|lia]. intros _. exists r. split; [|auto]. now rewrite N.pow_0_r, N.mul_1_r, of_bits_nil, N.add_0_r.
  - cbn [read_loop_sz]. fold W. destruct (Nat.eqb_spec total 0) as [E|E].
    { subst. split; [|lia]. intros _. exists r. split; [|auto]. cbn [firstn N.of_nat]. now rewrite N.pow_0_r, N.mul_1_r, of_bits_nil, N.add_0_r. }
    assert (Step : forall r1, zok r1 -> zbits r1 = zbits r -> r_bits_read r1 < W ->
      let k := Nat.min total (W - r_bits_read r1) in
      let acc2 := N.lor (N.shiftl acc (N.of_nat k) mod two64)%N (N.shiftr (r_cur r1) (N.of_nat (W - k))) in
      let cur' := if k <? W then (N.shiftl (r_cur r1) (N.of_nat k) mod smod sb)%N else r_cur r1 in
      let out := read_loop_sz sb fuel (mk_reader (r_src r1) cur' (r_bits_read r1 + k)) (total - k) acc2 in
      (total <= length (zbits r) ->
        exists r', out = Ok ((acc * 2 ^ N.of_nat total + of_bits (firstn total (zbits r)))%N, r') /\ zok r' /\ zbits r' = skipn total (zbits r)) /\
      (length (zbits r) < total -> out = Err UnexpectedEof)).
    { intros r1 Hr1 Hb Hlt k acc2 cur' out. assert (Hk : 0 < k <= W) by (unfold k; lia).
      destruct (zconsume_spec r1 k Hr1 ltac:(lia) Hk) as (Ho & Hs & Hv). unfold out. fold cur' in Ho, Hs. set (r2 := mk_reader _ _ _) in *.
      assert (Hlen : length (zbits r) >= k) by (rewrite <- Hb, zbits_length by apply Hr1; lia).
      assert (Ev : (of_bits (firstn k (zbits r)) < 2 ^ N.of_nat k)%N).
      { replace k with (length (firstn k (zbits r))) at 2 by (rewrite firstn_length; lia). apply of_bits_lt. }
      assert (Ea : acc2 = (acc * 2 ^ N.of_nat k + of_bits (firstn k (zbits r)))%N).
      { unfold acc2. rewrite Hv, Hb. rewrite N.mod_small; [now apply lor_add_low|].
        rewrite N.shiftl_mul_pow2. apply N.lt_le_trans with (2 ^ N.of_nat done * 2 ^ N.of_nat k)%N.
        + apply N.mul_lt_mono_pos_r; auto. apply pow2_pos.
        + rewrite <- N.pow_add_r. apply N.pow_le_mono_r; lia. }
      destruct (IH r2 (total - k) (done + k) acc2 Ho ltac:(lia) ltac:(lia)) as [IH1 IH2].
      { rewrite Ea. rewrite Nat2N.inj_add, N.pow_add_r. pose proof (pow2_pos (N.of_nat k)). nia. }
      rewrite Hs, Hb in IH1, IH2. rewrite skipn_length in IH1, IH2. split.
      - intros Hle. destruct IH1 as (r' & E1 & E2 & E3); [lia|]. exists r'. split; [|split; auto].
        + rewrite E1, Ea. do 2 f_equal. replace total with (k + (total - k)) at 3 4 by lia. rewrite firstn_add, of_bits_app.
          rewrite firstn_length, skipn_length. replace (Nat.min (total - k) (length (zbits r) - k)) with (total - k) by lia.
          rewrite Nat2N.inj_add, N.pow_add_r. ring.
        + rewrite E3. rewrite <- skipn_add. f_equal. lia.
      - intros Hlt'. apply IH2. lia. }
    destruct (Nat.leb_spec W (r_bits_read r)) as [HW|HW].
    + assert (RW : r_bits_read r = W) by (destruct Hr; lia).
      destruct (zstorage_spec r Hr RW) as [[Hd0 He]|[Hd0 (r1 & He & Hr1 & Hb & Hlt)]]; rewrite He; cbn [bind].
      * split; auto. intros K. exfalso. rewrite zbits_length, RW, Hd0 in K by lia. cbn [length] in K. lia.
      * apply Step; auto.
    + cbn [bind]. apply Step; auto.
Qed.
Lemma zread_unaligned_spec r n : zok r -> n < 64 ->
  (n <= length (zbits r) -> exists r', read_unaligned_sz sb r n = Ok (of_bits (firstn n (zbits r)), r') /\ zok r' /\ zbits r' = skipn n (zbits r)) /\
  (length (zbits r) < n -> read_unaligned_sz sb r n = Err UnexpectedEof).
Proof.
  intros Hr Hn. unfold read_unaligned_sz. destruct (Nat.eqb_spec n 0) as [->|E].
  - cbn. split; [|lia]. intros _. exists r. auto.
  - destruct (Nat.leb_spec 64 n); [lia|]. cbn [orb].
    destruct (zread_loop_spec n r n 0 0%N Hr ltac:(lia) ltac:(lia) ltac:(cbn; lia)) as [A B]. split; auto.
Qed.
Lemma zread_bit_spec r : zok r ->
  (forall b l, zbits r = b :: l -> exists r', read_bit_sz sb r = Ok (b, r') /\ zok r' /\ zbits r' = l) /\
  (zbits r = [] -> read_bit_sz sb r = Err UnexpectedEof).
Proof.
  intros Hr. unfold read_bit_sz. fold W. pose proof W8 as WE.
  assert (Step : forall r1, zok r1 -> zbits r1 = zbits r -> r_bits_read r1 < W ->
     forall b l, zbits r = b :: l ->
     negb (N.land (r_cur r1) (2 ^ N.of_nat (W - 1)) =? 0)%N = b /\
     zok (mk_reader (r_src r1) (N.shiftl (r_cur r1) 1 mod smod sb)%N (r_bits_read r1 + 1)) /\
     zbits (mk_reader (r_src r1) (N.shiftl (r_cur r1) 1 mod smod sb)%N (r_bits_read r1 + 1)) = l).
  { intros r1 Hr1 Hb Hlt b l Hbl. destruct (zconsume_spec r1 1 Hr1 ltac:(lia) ltac:(lia)) as (Ho & Hs & _).
    destruct (Nat.ltb_spec 1 W); [|lia]. split; [|split; auto].
    - rewrite <- Hb in Hbl. unfold zbits in Hbl. replace (W - r_bits_read r1) with (S (W - 1 - r_bits_read r1)) in Hbl by lia.
      replace (bits W (r_cur r1)) with (N.testbit (r_cur r1) (N.of_nat (W - 1)) :: bits (W - 1) (r_cur r1)) in Hbl.
      2: { replace W with (S (W - 1)) at 3 by lia. reflexivity. }
      cbn [firstn app] in Hbl. injection Hbl as <- _. destruct (N.testbit (r_cur r1) (N.of_nat (W - 1))) eqn:T.
      + apply negb_true_iff, N.eqb_neq. intros E.
        assert (K : N.testbit (N.land (r_cur r1) (2 ^ N.of_nat (W - 1))) (N.of_nat (W - 1)) = true) by (rewrite N.land_spec, T, N.pow2_bits_true; auto).
        rewrite E in K. rewrite N.bits_0 in K. discriminate K.
      + apply negb_false_iff, N.eqb_eq. apply N.bits_inj_0. intros i. rewrite N.land_spec.
        destruct (N.eq_dec i (N.of_nat (W - 1))) as [->|Hi]; [now rewrite T|]. rewrite N.pow2_bits_false by auto. apply andb_false_r.
    - change (N.of_nat 1) with 1%N in Hs. rewrite Hs, Hb, Hbl. reflexivity. }
  destruct (Nat.leb_spec W (r_bits_read r)) as [HW|HW].
  - assert (RW : r_bits_read r = W) by (destruct Hr; lia).
    destruct (zstorage_spec r Hr RW) as [[Hd0 He]|[Hd0 (r1 & He & Hr1 & Hb & Hlt)]]; rewrite He; cbn [bind].
    + split; auto. intros b l E. unfold zbits in E. rewrite RW, Hd0, Nat.sub_diag in E. discriminate E.
    + destruct (Nat.ltb_spec (W - r_bits_read r1) 1); [lia|]. cbn [bind]. split.
      * intros b l E. destruct (Step r1 Hr1 Hb Hlt b l E) as (S1 & S2 & S3). subst. eexists. split; [reflexivity|]. auto.
      * intros E. exfalso. assert (L0 : length (zbits r) = 0) by now rewrite E.
        rewrite zbits_length in L0 by lia. destruct (s_data (r_src r)); [auto|cbn [length] in L0; lia].
  - cbn [bind]. split.
    + intros b l E. destruct (Step r Hr eq_refl HW b l E) as (S1 & S2 & S3). eexists. split; [rewrite S1; reflexivity|]. auto.
    + intros E. exfalso. assert (L0 : length (zbits r) = 0) by now rewrite E. rewrite zbits_length in L0 by lia. lia.
Qed.

(** Two readers that hold the same bits. *)
Definition alike (z r : reader) : Prop := zok z /\ rok r /\ zbits z = rbits r.
Definition same {A} (a b : res ioerr (A * reader)) : Prop :=
  match a, b with
  | Ok (x, z), Ok (y, r) => x = y /\ alike z r
  | Err e, Err f => e = f
  | Panic, Panic => True
  | _, _ => False
  end.
Lemma same_one z r n : alike z r -> same (read_unaligned_sz sb z n) (read_unaligned r n).
Proof.
  intros (Z & R & B). destruct (le_lt_dec 64 n) as [L|L].
  - unfold read_unaligned_sz, read_unaligned. destruct (Nat.leb_spec 64 n); [|lia]. rewrite orb_true_r. repeat split; auto; try apply Z; apply R.
  - destruct (zread_unaligned_spec z n Z L) as [A1 A2], (read_unaligned_spec r n R L) as [B1 B2]. rewrite B in A1, A2.
    destruct (le_lt_dec n (length (rbits r))) as [G|G].
    + destruct A1 as (z' & -> & Z1 & Z2); auto. destruct B1 as (r' & -> & R1 & R2); auto. split; auto. split; auto. split; auto. congruence.
    + rewrite A2, B2 by auto. reflexivity.
Qed.
Lemma same_bit z r : alike z r -> same (read_bit_sz sb z) (read_bit r).
Proof.
  intros (Z & R & B). destruct (zread_bit_spec z Z) as [A1 A2], (read_bit_spec r R) as [B1 B2]. rewrite B in A1, A2.
  destruct (rbits r) as [|b l]; [rewrite A2, B2 by auto; reflexivity|].
  destruct (A1 b l eq_refl) as (z' & -> & Z1 & Z2). destruct (B1 b l eq_refl) as (r' & -> & R1 & R2). split; auto. split; auto. split; auto. congruence.
Qed.
Lemma same_bind {A B} (a b : res ioerr (A * reader)) (f g : A * reader -> res ioerr (B * reader)) : same a b ->
  (forall x z r, alike z r -> same (f (x, z)) (g (x, r))) -> same (bind a f) (bind b g).
Proof. destruct a as [[x z]|e|], b as [[y r]|e'|]; cbn; intros S F; try tauto. destruct S as [<- S]. now apply F. Qed.
Lemma same_pure {A C} (m : res ioerr C) (f g : C -> res ioerr (A * reader)) : (forall x, same (f x) (g x)) -> same (bind m f) (bind m g).
Proof. destruct m; cbn; auto. Qed.
Lemma same_ok {A} (x : A) z r : alike z r -> same (Ok (x, z)) (Ok (x, r)).
Proof. cbn. auto. Qed.
Ltac same_step := first [ apply same_bind; [first [now apply same_one|idtac]|intros ? ? ? ?] | apply same_pure; intros ? | now apply same_ok ].
Lemma same_two oc z r n : alike z r -> same (read2_unaligned_sz sb oc z n) (read2_unaligned oc r n).
Proof.
  intros A. unfold read2_unaligned_sz, read2_unaligned. destruct (n =? 0); [now apply same_ok|]. destruct (32 <? n); repeat same_step.
Qed.
Lemma same_pair oc z r n m : alike z r -> same (read_pair_unaligned_sz sb oc z n m) (read_pair_unaligned oc r n m).
Proof.
  intros A. unfold read_pair_unaligned_sz, read_pair_unaligned. apply same_pure. intros s. destruct (64 <? s); repeat same_step.
Qed.
Lemma same_three oc z r n : alike z r -> same (read3_unaligned_sz sb oc z n) (read3_unaligned oc r n).
Proof.
  intros A. unfold read3_unaligned_sz, read3_unaligned. destruct (21 <? n); repeat same_step. now apply same_two.
Qed.
Lemma same_rop oc z r op : alike z r -> same (run_rop_sz sb oc z op) (run_rop oc r op).
Proof.
  intros A. destruct op as [|n|n|n|n m]; cbn [run_rop_sz run_rop]; (apply same_bind; [auto using same_bit, same_one, same_two, same_three, same_pair|intros x z' r' A'; now apply same_ok]).
Qed.
Lemma same_rops oc ops : forall z r, alike z r -> run_rops_sz sb oc z ops = run_rops oc r ops.
Proof.
  induction ops as [|op t IH]; intros z r A; [reflexivity|]. cbn [run_rops_sz run_rops]. pose proof (same_rop oc z r op A) as S.
  destruct (run_rop_sz sb oc z op) as [[x z']|e|], (run_rop oc r op) as [[y r']|e'|]; cbn in S; try tauto; cbn [bind]; [|congruence].
  destruct S as [<- S]. now rewrite (IH z' r' S).
Qed.
Lemma same_new data sched sched' : bytes_ok data -> alike (reader_new_sz sb (mk_source data sched)) (reader_new (mk_source data sched')).
Proof. intros D. split; [now apply zok_new|]. split; [now apply rok_new|]. now rewrite zbits_new, rbits_new. Qed.
End Size.
