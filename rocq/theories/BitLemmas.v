(** Lemmas about the bit-stream vocabulary of BitSpec.v. *)
From Coq Require Import List NArith ZArith Arith Lia Bool ZifyN ZifyNat ZifyBool.
From Verif Require Import Base BitSpec.
Import ListNotations.

Ltac Zify.zify_post_hook ::= Z.div_mod_to_equations.

Lemma bits_length n v : length (bits n v) = n.
Proof. induction n; simpl; auto. Qed.

Lemma bits_nth n v i : (i < n)%nat -> nth i (bits n v) false = N.testbit v (N.of_nat (n - 1 - i)).
Proof.
  revert i; induction n; intros i H; [lia|].
  destruct i; simpl.
  - f_equal; lia.
  - rewrite IHn by lia. f_equal. lia.
Qed.

Lemma bits_ext n a b :
  (forall i, (i < N.of_nat n)%N -> N.testbit a i = N.testbit b i) -> bits n a = bits n b.
Proof.
  induction n; intros H; simpl; auto.
  f_equal; [apply H; lia | apply IHn; intros; apply H; lia].
Qed.

Lemma bits_ext_inv n a b :
  bits n a = bits n b -> forall i, (i < N.of_nat n)%N -> N.testbit a i = N.testbit b i.
Proof.
  induction n; intros H i Hi; [lia|].
  simpl in H. injection H as H0 H1.
  destruct (N.eq_dec i (N.of_nat n)) as [->|Hn]; auto.
  apply IHn; auto. lia.
Qed.

Lemma bits_mod n m v : (n <= m)%nat -> bits n (v mod 2 ^ N.of_nat m) = bits n v.
Proof.
  intros H. apply bits_ext. intros i Hi.
  apply N.mod_pow2_bits_low. lia.
Qed.

Lemma bits_app n m v : bits (n + m) v = bits n (N.shiftr v (N.of_nat m)) ++ bits m v.
Proof.
  induction n; simpl; auto.
  rewrite IHn. f_equal. rewrite N.shiftr_spec' . f_equal. lia.
Qed.

Lemma bits_zero n : bits n 0 = repeat false n.
Proof. induction n; simpl; auto. now rewrite IHn. Qed.

Lemma bits_shiftl n k v :
  (k <= n)%nat -> bits n (N.shiftl v (N.of_nat k)) = bits (n - k) v ++ repeat false k.
Proof.
  intros H. replace n with ((n - k) + k)%nat at 1 by lia.
  rewrite bits_app. f_equal.
  - f_equal. rewrite N.shiftr_shiftl_l by lia. replace (N.of_nat k - N.of_nat k)%N with 0%N by lia.
    apply N.shiftl_0_r.
  - rewrite <- bits_zero. apply bits_ext. intros i Hi.
    rewrite N.shiftl_spec_low by lia. now rewrite N.bits_0.
Qed.

Lemma firstn_bits k n v : (k <= n)%nat -> firstn k (bits n v) = bits k (N.shiftr v (N.of_nat (n - k))).
Proof.
  intros H. replace n with (k + (n - k))%nat at 1 by lia. rewrite bits_app.
  rewrite firstn_app, bits_length, Nat.sub_diag. simpl. rewrite app_nil_r.
  rewrite <- (bits_length k (N.shiftr v (N.of_nat (n - k)))) at 1. apply firstn_all.
Qed.

Lemma skipn_bits k n v : (k <= n)%nat -> skipn k (bits n v) = bits (n - k) v.
Proof.
  intros H. replace n with (k + (n - k))%nat at 1 by lia. rewrite bits_app.
  rewrite skipn_app, bits_length, Nat.sub_diag. simpl.
  rewrite <- (bits_length k (N.shiftr v (N.of_nat (n - k)))) at 1. rewrite skipn_all. auto.
Qed.

(** ** of_bits *)

Lemma of_bits_acc l acc :
  fold_left (fun acc b => (2 * acc + N.b2n b)%N) l acc = (acc * 2 ^ N.of_nat (length l) + of_bits l)%N.
Proof.
  unfold of_bits. revert acc. induction l as [|b l IH]; intros acc.
  - simpl. lia.
  - cbn [fold_left length]. rewrite IH. rewrite (IH (2*0 + N.b2n b)%N).
    rewrite Nat2N.inj_succ, N.pow_succ_r'. lia.
Qed.

Lemma of_bits_nil : of_bits [] = 0%N.
Proof. reflexivity. Qed.

Lemma of_bits_cons b l : of_bits (b :: l) = (N.b2n b * 2 ^ N.of_nat (length l) + of_bits l)%N.
Proof. unfold of_bits at 1. cbn [fold_left]. rewrite of_bits_acc. f_equal. Qed.

Lemma of_bits_app a b : of_bits (a ++ b) = (of_bits a * 2 ^ N.of_nat (length b) + of_bits b)%N.
Proof. unfold of_bits at 1. rewrite fold_left_app. apply of_bits_acc. Qed.

Lemma of_bits_lt l : (of_bits l < 2 ^ N.of_nat (length l))%N.
Proof.
  induction l as [|b l IH].
  - cbn. lia.
  - rewrite of_bits_cons. cbn [length]. rewrite Nat2N.inj_succ, N.pow_succ_r'.
    destruct b; simpl N.b2n; lia.
Qed.

Lemma of_bits_bits n v : of_bits (bits n v) = (v mod 2 ^ N.of_nat n)%N.
Proof.
  induction n.
  - simpl. now rewrite N.mod_1_r.
  - cbn [bits]. rewrite of_bits_cons, bits_length, IHn.
    rewrite Nat2N.inj_succ, N.pow_succ_r'.
    rewrite N.mul_comm. rewrite (N.mul_comm 2).
    rewrite N.mod_mul_r by (try lia; apply N.pow_nonzero; lia).
    rewrite N.testbit_spec' . lia.
Qed.

Lemma of_bits_bits_id n v : (v < 2 ^ N.of_nat n)%N -> of_bits (bits n v) = v.
Proof. intros. rewrite of_bits_bits. apply N.mod_small; auto. Qed.

Lemma testbit_high_small a n i : (a < 2 ^ n)%N -> (n <= i)%N -> N.testbit a i = false.
Proof.
  intros H1 H2. rewrite <- (N.mod_small a (2^n)) by auto.
  apply N.mod_pow2_bits_high. auto.
Qed.

Lemma bits_of_bits l : bits (length l) (of_bits l) = l.
Proof.
  induction l as [|b l IH]; auto.
  cbn [length bits]. f_equal.
  - rewrite of_bits_cons. pose proof (of_bits_lt l).
    set (m := N.of_nat (length l)) in *.
    apply N.b2n_inj. rewrite N.testbit_spec'.
    rewrite N.div_add_l by (apply N.pow_nonzero; lia).
    rewrite N.div_small by auto. rewrite N.add_0_r.
    apply N.mod_small. destruct b; simpl; lia.
  - etransitivity; [|exact IH]. apply bits_ext. intros i Hi.
    rewrite of_bits_cons. set (m := N.of_nat (length l)) in *.
    rewrite <- (N.mod_pow2_bits_low _ m i) by auto.
    rewrite N.add_comm, N.mod_add by (apply N.pow_nonzero; lia).
    apply N.mod_pow2_bits_low. auto.
Qed.

(** Disjoint [lor] is addition. *)
Lemma lor_add_low a b n : (b < 2 ^ n)%N -> N.lor (N.shiftl a n) b = (a * 2 ^ n + b)%N.
Proof.
  intros H. rewrite N.shiftl_mul_pow2.
  symmetry.
  rewrite <- N.lxor_lor.
  - apply N.add_nocarry_lxor.
    apply N.bits_inj_0. intros i. rewrite N.land_spec.
    destruct (N.lt_ge_cases i n).
    + rewrite N.mul_pow2_bits_low; auto.
    + rewrite (testbit_high_small b n i) by auto. apply andb_false_r.
  - apply N.bits_inj_0. intros i. rewrite N.land_spec.
    destruct (N.lt_ge_cases i n).
    + rewrite N.mul_pow2_bits_low; auto.
    + rewrite (testbit_high_small b n i) by auto. apply andb_false_r.
Qed.

Lemma bits_lor n a b : bits n (N.lor a b) = map (fun p => orb (fst p) (snd p)) (combine (bits n a) (bits n b)).
Proof.
  induction n; simpl; auto. rewrite IHn. f_equal. apply N.lor_spec.
Qed.

Lemma bits_of_bytes_app a b : bits_of_bytes (a ++ b) = bits_of_bytes a ++ bits_of_bytes b.
Proof. unfold bits_of_bytes. apply flat_map_app. Qed.

Lemma bits_of_bytes_length l : length (bits_of_bytes l) = 8 * length l.
Proof.
  induction l; auto. unfold bits_of_bytes in *. cbn [flat_map].
  rewrite app_length, IHl, bits_length. simpl length. lia.
Qed.

Lemma bits_of_bytes_inj a b :
  bytes_ok a -> bytes_ok b -> bits_of_bytes a = bits_of_bytes b -> a = b.
Proof.
  unfold bits_of_bytes.
  revert b; induction a as [|x a IH]; intros [|y b] Ha Hb H; auto; try discriminate H.
  apply Forall_cons_iff in Ha. apply Forall_cons_iff in Hb. destruct Ha, Hb.
  cbn [flat_map] in H.
  assert (E : bits 8 x = bits 8 y /\ flat_map (bits 8) a = flat_map (bits 8) b).
  { assert (forall (p q p' q' : list bool), length p = length p' -> p ++ q = p' ++ q' -> p = p' /\ q = q') as K.
    { induction p; intros q [|c p'] q' L E; try discriminate; simpl in *; auto.
      injection E as -> E. destruct (IHp q p' q'); auto; try congruence. split; congruence. }
    apply K; auto. }
  destruct E as [E1 E2]. f_equal; auto.
  rewrite <- (of_bits_bits_id 8 x), <- (of_bits_bits_id 8 y); auto. congruence.
Qed.

Lemma app_inj_len {A} (p q p' q' : list A) :
  length p = length p' -> p ++ q = p' ++ q' -> p = p' /\ q = q'.
Proof.
  revert p'. induction p; intros [|c p'] L E; try discriminate; simpl in *; auto.
  injection E as -> E. destruct (IHp p'); auto; try congruence. split; congruence.
Qed.

Lemma of_be_bytes_acc l acc :
  fold_left (fun acc b => (acc * 256 + b)%N) l acc
  = (acc * 2 ^ N.of_nat (8 * length l) + of_be_bytes l)%N.
Proof.
  unfold of_be_bytes. revert acc. induction l as [|b l IH]; intros acc.
  - simpl. lia.
  - cbn [fold_left length]. rewrite IH, (IH (0*256+b)%N).
    replace (8 * S (length l)) with (8 + 8 * length l) by lia.
    rewrite Nat2N.inj_add, N.pow_add_r. change (2 ^ N.of_nat 8)%N with 256%N. lia.
Qed.

Lemma bits_of_be l : bytes_ok l -> of_be_bytes l = of_bits (bits_of_bytes l).
Proof.
  induction l as [|b l IH]; intros H; auto.
  apply Forall_cons_iff in H as [Hb Hl].
  unfold of_be_bytes. cbn [fold_left]. rewrite of_be_bytes_acc.
  change (bits_of_bytes (b :: l)) with (bits 8 b ++ bits_of_bytes l).
  rewrite of_bits_app, bits_of_bytes_length.
  rewrite of_bits_bits_id by exact Hb.
  rewrite IH by auto. f_equal.
Qed.
