(** The cosine with a vector that is only nearly in a given direction. *)
From Coq Require Import Reals Lra Psatz.
Local Open Scope R_scope.

Definition dotR (a1 a2 a3 b1 b2 b3 : R) : R := a1 * b1 + a2 * b2 + a3 * b3.
Definition cosR (a1 a2 a3 b1 b2 b3 : R) : R :=
  dotR a1 a2 a3 b1 b2 b3 / (sqrt (dotR a1 a2 a3 a1 a2 a3) * sqrt (dotR b1 b2 b3 b1 b2 b3)).
Lemma sum_sq_pos a b c : 0 <= dotR a b c a b c.
Proof. unfold dotR. nra. Qed.
Lemma cauchy a1 a2 a3 b1 b2 b3 :
  Rabs (dotR a1 a2 a3 b1 b2 b3) <= sqrt (dotR a1 a2 a3 a1 a2 a3) * sqrt (dotR b1 b2 b3 b1 b2 b3).
Proof.
  rewrite <- sqrt_mult by apply sum_sq_pos. rewrite <- sqrt_Rsqr_abs. apply sqrt_le_1_alt. unfold Rsqr, dotR.
  pose proof (Rle_0_sqr (a1 * b2 - a2 * b1)) as X. pose proof (Rle_0_sqr (a1 * b3 - a3 * b1)) as Y. pose proof (Rle_0_sqr (a2 * b3 - a3 * b2)) as Z.
  unfold Rsqr in *. nra.
Qed.
Lemma comp_le b1 b2 b3 : let B := sqrt (dotR b1 b2 b3 b1 b2 b3) in Rabs b1 <= B /\ Rabs b2 <= B /\ Rabs b3 <= B.
Proof. intros B. unfold B. rewrite <- !sqrt_Rsqr_abs. unfold dotR, Rsqr. repeat split; apply sqrt_le_1_alt; nra. Qed.
Lemma cos_shift a1 a2 a3 m1 m2 m3 b1 b2 b3 e d c :
  0 < sqrt (dotR a1 a2 a3 a1 a2 a3) ->
  Rabs (m1 - a1 / sqrt (dotR a1 a2 a3 a1 a2 a3)) <= e -> Rabs (m2 - a2 / sqrt (dotR a1 a2 a3 a1 a2 a3)) <= e ->
  Rabs (m3 - a3 / sqrt (dotR a1 a2 a3 a1 a2 a3)) <= e ->
  Rabs (dotR m1 m2 m3 m1 m2 m3 - 1) <= d -> d <= / 2 ->
  c <= cosR m1 m2 m3 b1 b2 b3 -> c - (d + 3 * e) <= cosR a1 a2 a3 b1 b2 b3.
Proof.
  intros NP E1 E2 E3 D DB C. unfold cosR in *. set (N := sqrt (dotR a1 a2 a3 a1 a2 a3)) in *. set (B := sqrt (dotR b1 b2 b3 b1 b2 b3)) in *.
  assert (EP : 0 <= e) by (pose proof (Rabs_pos (m1 - a1 / N)); lra). assert (DP : 0 <= d) by (pose proof (Rabs_pos (dotR m1 m2 m3 m1 m2 m3 - 1)); lra).
  pose proof (comp_le b1 b2 b3) as (B1 & B2 & B3). cbv zeta in *. fold B in B1, B2, B3.
  assert (BP : 0 <= B) by apply sqrt_pos.
  destruct (Req_dec B 0) as [B0|BN].
  - rewrite B0 in *. assert (Z : forall x, Rabs x <= 0 -> x = 0).
    { intros x H. destruct (Req_dec x 0) as [|NZ]; auto. pose proof (Rabs_pos_lt _ NZ). lra. }
    apply Z in B1, B2, B3. subst b1 b2 b3. unfold dotR, Rdiv in *. rewrite !Rmult_0_r, !Rplus_0_l, Rmult_0_l in *. lra.
  - assert (B' : 0 < B) by lra. set (M := sqrt (dotR m1 m2 m3 m1 m2 m3)) in *.
    assert (MM : M * M = dotR m1 m2 m3 m1 m2 m3) by (apply sqrt_sqrt, sum_sq_pos).
    assert (MP : 0 < M). { apply sqrt_lt_R0. destruct (Rabs_def2 (dotR m1 m2 m3 m1 m2 m3 - 1) (3 / 4)); lra. }
    assert (M1 : Rabs (M - 1) <= d).
    { eapply Rle_trans; [|exact D]. rewrite <- MM. replace (M * M - 1) with ((M - 1) * (M + 1)) by ring. rewrite Rabs_mult, (Rabs_pos_eq (M + 1)) by lra.
      pose proof (Rabs_pos (M - 1)). nra. }
    set (K := dotR m1 m2 m3 b1 b2 b3 / (M * B)) in *.
    assert (MB : 0 < M * B) by now apply Rmult_lt_0_compat.
    assert (KE : dotR m1 m2 m3 b1 b2 b3 = K * M * B) by (unfold K; field; lra).
    assert (K1 : Rabs K <= 1).
    { pose proof (cauchy m1 m2 m3 b1 b2 b3) as CS. fold M B in CS. unfold K, Rdiv. rewrite Rabs_mult, Rabs_inv, (Rabs_pos_eq (M * B)) by lra.
      apply Rmult_le_reg_r with (M * B); auto. rewrite Rmult_assoc, Rinv_l by lra. lra. }
    assert (G : forall x y, Rabs x <= e -> Rabs y <= B -> - (e * B) <= x * y).
    { intros x y X Y. assert (Rabs (x * y) <= e * B) by (rewrite Rabs_mult; apply Rmult_le_compat; auto using Rabs_pos).
      pose proof (Rle_abs (- (x * y))) as Q. rewrite Rabs_Ropp in Q. lra. }
    rewrite Rabs_minus_sym in E1, E2, E3.
    pose proof (G _ _ E1 B1) as G1. pose proof (G _ _ E2 B2) as G2. pose proof (G _ _ E3 B3) as G3.
    assert (KM : K - d <= K * M).
    { assert (Rabs (K * (M - 1)) <= 1 * d) by (rewrite Rabs_mult; apply Rmult_le_compat; auto using Rabs_pos).
      pose proof (Rle_abs (- (K * (M - 1)))) as Q. rewrite Rabs_Ropp in Q. lra. }
    apply Rmult_le_reg_r with B; auto.
    replace (dotR a1 a2 a3 b1 b2 b3 / (N * B) * B) with (dotR m1 m2 m3 b1 b2 b3 + ((a1 / N - m1) * b1 + (a2 / N - m2) * b2 + (a3 / N - m3) * b3)) by (unfold dotR; field; lra).
    rewrite KE. assert ((K - d) * B <= K * M * B) by (apply Rmult_le_compat_r; lra).
    assert (c * B <= K * B) by (apply Rmult_le_compat_r; lra). lra.
Qed.
