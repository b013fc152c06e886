(** The polynomial of the fast_trig feature approximates the sine. *)
From Coq Require Import List NArith ZArith Arith Lia Bool Reals Lra.
From Flocq Require Import Core IEEE754.BinarySingleNaN.
From Verif Require Import Base Floats Floats_proofs FloatReal_proofs ValueSpec Log2_proofs Trig_proofs NormalReal_proofs FastTrig.
Import ListNotations.
Local Open Scope R_scope.

(** ** Taylor polynomials of the sine *)
Lemma inr_fact_step n : INR (fact (S n)) = INR (S n) * INR (fact n).
Proof. rewrite fact_simpl, mult_INR. reflexivity. Qed.
Lemma inr_facts : INR (fact 1) = 1 /\ INR (fact 3) = 6 /\ INR (fact 5) = 120 /\ INR (fact 7) = 5040 /\
  INR (fact 9) = 362880 /\ INR (fact 11) = 39916800.
Proof.
  assert (F1 : INR (fact 1) = 1) by reflexivity.
  assert (F3 : INR (fact 3) = 6) by (do 2 rewrite inr_fact_step; rewrite F1; cbn [INR]; lra).
  assert (F5 : INR (fact 5) = 120) by (do 2 rewrite inr_fact_step; rewrite F3; cbn [INR]; lra).
  assert (F7 : INR (fact 7) = 5040) by (do 2 rewrite inr_fact_step; rewrite F5; cbn [INR]; lra).
  assert (F9 : INR (fact 9) = 362880) by (do 2 rewrite inr_fact_step; rewrite F7; cbn [INR]; lra).
  assert (F11 : INR (fact 11) = 39916800) by (do 2 rewrite inr_fact_step; rewrite F9; cbn [INR]; lra).
  auto 10.
Qed.
Definition T9 (x : R) : R := x - x ^ 3 / 6 + x ^ 5 / 120 - x ^ 7 / 5040 + x ^ 9 / 362880.
Lemma sin_T9 x : 0 <= x <= 1.5708 -> T9 x - 4 * / 10 ^ 6 <= sin x <= T9 x.
Proof.
  intros B. pose proof PI_bounds as PB.
  destruct (sin_bound x 1 ltac:(lra) ltac:(lra)) as [_ U]. destruct (sin_bound x 2 ltac:(lra) ltac:(lra)) as [L _].
  destruct inr_facts as (F1 & F3 & F5 & F7 & F9 & F11).
  unfold sin_approx, sin_term in U, L. cbn [Nat.mul Nat.add sum_f_R0] in U, L.
  rewrite F1, F3, F5, F7, F9 in U. rewrite F1, F3, F5, F7, F9, F11 in L.
  clear F1 F3 F5 F7 F9 F11. split.
  - eapply Rle_trans; [|exact L]. clear U L.
    assert (P : x ^ 11 <= 1.5708 ^ 11) by (apply pow_incr; lra).
    assert (Q : 1.5708 ^ 11 <= 159) by (simpl; lra).
    assert (x ^ 11 / 39916800 <= 4 * / 10 ^ 6) by lra.
    apply Rle_trans with (T9 x - x ^ 11 / 39916800); [lra|]. right. unfold T9. field.
  - eapply Rle_trans; [exact U|]. unfold T9. right. field.
Qed.

(** ** The polynomial *)
Definition cA : R := 8476818696109467 / 1152921504606846976.
Definition cB : R := 2977583968337421 / 18014398509481984.
Definition cC : R := 9004424913935581 / 9007199254740992.
Definition fp (x : R) : R := x * ((cA * (x * x) - cB) * (x * x) + cC).
Definition Q (y : R) : R := (cC - 1) + (/ 6 - cB) * y + (cA - / 120) * (y * y) + / 5040 * (y * y * y) - / 362880 * (y * y * y * y).
Lemma fp_Q x : fp x - T9 x = x * Q (x * x).
Proof. unfold fp, T9, Q. field. Qed.

Lemma Q_upper y : 0 <= y <= 2.4675 -> (y + 1.1025) * Q y <= 6.44 * / 10 ^ 4.
Proof.
  intros B. set (y0 := 1.2).
  assert (D : 0 <= y * y) by (apply Rmult_le_pos; lra).
  assert (Y4 : 0 <= (y + 1.1025) * (/ 362880 * (y * y * y * y))).
  { apply Rmult_le_pos; [lra|]. apply Rmult_le_pos; [lra|]. repeat apply Rmult_le_pos; lra. }
  assert (K : (/ 6 - cB + 1.1025 * (cA - / 120)) + (cA - / 120 + 1.1025 * / 5040) * (y + 2 * y0)
              + / 5040 * (y * y + 2 * y0 * y + 3 * y0 * y0) <= 0).
  { assert (0 <= y * (2.4675 - y)) by (apply Rmult_le_pos; lra). unfold cA, cB, y0. lra. }
  assert (S : 0 <= (y - y0) * (y - y0) * - ((/ 6 - cB + 1.1025 * (cA - / 120)) + (cA - / 120 + 1.1025 * / 5040) * (y + 2 * y0)
              + / 5040 * (y * y + 2 * y0 * y + 3 * y0 * y0))).
  { apply Rmult_le_pos; [apply Rle_0_sqr|lra]. }
  unfold Q. unfold cA, cB, cC, y0 in *. lra.
Qed.
Lemma Q_lower y : 0 <= y <= 2.4675 ->
  cC - 1 <= Q y /\ (/ 4 <= y <= 1 -> - 0.3 * / 10 ^ 4 <= Q y) /\ (1 <= y -> - 1.9 * / 10 ^ 4 <= Q y).
Proof.
  intros B.
  assert (D : 0 <= y * y) by (apply Rmult_le_pos; lra).
  assert (Y2 : y * y <= 2.4675 * 2.4675) by (apply Rmult_le_compat; lra).
  assert (Y3 : y * y * y <= 2.4675 * 2.4675 * 2.4675) by (apply Rmult_le_compat; lra).
  assert (Y3' : 0 <= y * y * y) by (apply Rmult_le_pos; lra).
  assert (G : 1.2 * / 10 ^ 4 <= (/ 6 - cB) + (cA - / 120) * y + / 5040 * (y * y) - / 362880 * (y * y * y)).
  { assert (0 <= (y - 2.4718) * (y - 2.4718)) by apply Rle_0_sqr. unfold cA, cB. lra. }
  assert (E : Q y = cC - 1 + y * ((/ 6 - cB) + (cA - / 120) * y + / 5040 * (y * y) - / 362880 * (y * y * y))).
  { unfold Q. ring. }
  split; [|split].
  - rewrite E. assert (0 <= y * ((/ 6 - cB) + (cA - / 120) * y + / 5040 * (y * y) - / 362880 * (y * y * y))) by (apply Rmult_le_pos; lra). lra.
  - intros R. assert (0 <= y * y * y * (/ 5040 - / 362880 * y)) by (apply Rmult_le_pos; lra).
    assert (0 <= (y - / 4) * (1 - y)) by (apply Rmult_le_pos; lra). unfold Q, cA, cB, cC. lra.
  - intros R. rewrite E.
    assert (1 * (1.2 * / 10 ^ 4) <= y * ((/ 6 - cB) + (cA - / 120) * y + / 5040 * (y * y) - / 362880 * (y * y * y))).
    { apply Rmult_le_compat; lra. }
    unfold cC. lra.
Qed.
Lemma xQ_bound x : 0 <= x <= 1.5708 -> - 3.07 * / 10 ^ 4 <= x * Q (x * x) <= 3.07 * / 10 ^ 4.
Proof.
  intros B. assert (Y : 0 <= x * x <= 2.4675).
  { split; [apply Rle_0_sqr|]. apply Rle_trans with (1.5708 * 1.5708); [apply Rmult_le_compat; lra|lra]. }
  pose proof (Q_upper _ Y) as U. destruct (Q_lower _ Y) as (L1 & L2 & L3).
  set (q := Q (x * x)) in *. split.
  - destruct (Rle_lt_dec x (/ 2)) as [X|X].
    + assert (x * (cC - 1) <= x * q) by (apply Rmult_le_compat_l; lra).
      assert (x * (1 - cC) <= / 2 * (1 - cC)) by (apply Rmult_le_compat_r; unfold cC; lra).
      unfold cC in *. lra.
    + assert (Y4 : / 4 <= x * x).
      { replace (/ 4) with (/ 2 * / 2) by lra. apply Rmult_le_compat; lra. }
      destruct (Rle_lt_dec (x * x) 1) as [Z|Z].
      * specialize (L2 (conj Y4 Z)). assert (x * (- 0.3 * / 10 ^ 4) <= x * q) by (apply Rmult_le_compat_l; lra). lra.
      * specialize (L3 (Rlt_le _ _ Z)). assert (x * (- 1.9 * / 10 ^ 4) <= x * q) by (apply Rmult_le_compat_l; lra). lra.
  - destruct (Rle_lt_dec q 0) as [N|N].
    + assert (0 <= x * - q) by (apply Rmult_le_pos; lra). lra.
    + assert (0 <= (x - 1.05) * (x - 1.05)) by apply Rle_0_sqr.
      assert (x * q <= (x * x + 1.1025) / 2.1 * q) by (apply Rmult_le_compat_r; lra). lra.
Qed.
(** The polynomial is within 3.12e-4 of the sine, and between 0 and 1. *)
Lemma fp_sin x : 0 <= x <= 1.5708 -> Rabs (fp x - sin x) <= 3.12 * / 10 ^ 4.
Proof.
  intros B. pose proof (sin_T9 x B) as T. pose proof (xQ_bound x B) as X. rewrite <- fp_Q in X.
  apply Rabs_le_iff. lra.
Qed.
Lemma fp_range x : 0 <= x <= 1.5708 -> 0 <= fp x <= 1 + / 10 ^ 8.
Proof.
  intros B. assert (Y : 0 <= x * x <= 2.4675).
  { split; [apply Rle_0_sqr|]. apply Rle_trans with (1.5708 * 1.5708); [apply Rmult_le_compat; lra|lra]. }
  split.
  - apply Rmult_le_pos; [lra|]. assert (0 <= cA * (x * x) * (x * x)) by (repeat apply Rmult_le_pos; unfold cA; lra).
    unfold cB, cC. lra.
  - set (x0 := 1.570796327).
    assert (X3 : x * x * x <= 2.4675 * 1.5708) by (apply Rmult_le_compat; lra).
    assert (K : cA * (x * x * x + 2 * x0 * (x * x) + 3 * x0 * x0 * x + 4 * x0 * x0 * x0) - cB * (x + 2 * x0) <= 0).
    { unfold cA, cB, x0. lra. }
    assert (S : 0 <= (x - x0) * (x - x0) * - (cA * (x * x * x + 2 * x0 * (x * x) + 3 * x0 * x0 * x + 4 * x0 * x0 * x0) - cB * (x + 2 * x0))).
    { apply Rmult_le_pos; [apply Rle_0_sqr|lra]. }
    unfold fp, cA, cB, cC, x0 in *. lra.
Qed.
