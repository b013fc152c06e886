(** Normalising a vector, in real numbers. *)
From Coq Require Import List NArith ZArith Arith Lia Bool Reals Lra Psatz.
From Flocq Require Import Core IEEE754.BinarySingleNaN.
From Verif Require Import Base Floats Floats_proofs FloatReal_proofs ValueSpec Log2_proofs Trig_proofs Utilis Mesh Save_proofs Codec_proofs Quant_proofs NormalReal_proofs.
Import ListNotations.
Local Open Scope R_scope.

Definition sq3 (n : vec3) : R := R32 (vx n) * R32 (vx n) + R32 (vy n) * R32 (vy n) + R32 (vz n) * R32 (vz n).
Lemma p50 : 2 ^ 50 = IZR (2 ^ 50). Proof. rewrite (pow_IZR 2 50). reflexivity. Qed.
Lemma tiny_is : tiny32 = / IZR (2 ^ 150).
Proof. unfold tiny32. reflexivity. Qed.

(** The computed length of a vector of ordinary size. *)
Record measured (n : vec3) : Prop := {
  me_fin : fin (magnitude n);
  me_pos : 0 < sqrt (sq3 n);
  me_err : Rabs (R32 (magnitude n) - sqrt (sq3 n)) <= 3 * u32 * sqrt (sq3 n);
  me_x : Rabs (R32 (vx n)) <= R32 (magnitude n);
  me_y : Rabs (R32 (vy n)) <= R32 (magnitude n);
  me_z : Rabs (R32 (vz n)) <= R32 (magnitude n) }.

Lemma square_R x : fin x -> Rabs (R32 x) <= 2 ^ 50 ->
  fin (fmul x x) /\ 0 <= R32 (fmul x x) <= 2 ^ 100 /\ R32 (fmul x x) = rnd32 (R32 x * R32 x) /\ 0 <= R32 x * R32 x <= 2 ^ 100.
Proof.
  intros F B. assert (Q : 0 <= R32 x * R32 x <= 2 ^ 100).
  { split; [nra|]. replace (R32 x * R32 x) with (Rabs (R32 x) * Rabs (R32 x)) by (rewrite <- Rabs_mult; apply Rabs_pos_eq; nra).
    replace (2 ^ 100) with (2 ^ 50 * 2 ^ 50) by ring. apply Rmult_le_compat; auto; apply Rabs_pos. }
  assert (P100 : 2 ^ 100 = bpow radix2 100). { change 100%Z with (Z.of_nat 100). rewrite bpow_powerRZ, <- pow_powerRZ. reflexivity. }
  destruct (fmul_R x x F F) as [M1 M2].
  { rewrite Rabs_pos_eq by lra. rewrite big32_pow. eapply Rle_trans; [apply Q|]. apply pow2_le. lia. }
  split; auto. split; [|auto]. rewrite M1. split; [rewrite <- rnd32_0; apply rnd32_le; lra|].
  eapply Rle_trans; [apply Rle_abs|]. rewrite P100. apply rnd32_abs_le_bpow; [lia|]. rewrite Rabs_pos_eq by lra. lra.
Qed.
Lemma near_sqrt s S k : 0 < S -> 0 <= k <= 4 -> Rabs (s - S) <= k * (u32 * S) -> Rabs (sqrt s - sqrt S) <= (k / 2 + / 100) * u32 * sqrt S.
Proof.
  intros SP K C. pose proof u32_small as U. set (rho := sqrt S). assert (RP : 0 < rho) by now apply sqrt_lt_R0.
  assert (RR : rho * rho = S) by (apply sqrt_sqrt; lra).
  assert (US : 0 < u32 * S) by (apply Rmult_lt_0_compat; lra).
  assert (UR : 0 < u32 * rho) by (apply Rmult_lt_0_compat; lra).
  assert (UR2 : u32 * rho <= / 16777216 * rho) by (apply Rmult_le_compat_r; lra).
  assert (UUS : 0 <= u32 * (u32 * S)) by (apply Rmult_le_pos; lra).
  assert (UUS2 : u32 * (u32 * S) <= / 16777216 * (u32 * S)) by (apply Rmult_le_compat_r; lra).
  set (c := k / 2 + / 100) in *. assert (CB : / 100 <= c <= 3) by (unfold c; lra).
  assert (CC : 0 <= c * c <= 9) by nra.
  assert (CR : c * u32 * rho <= 3 * (u32 * rho)). { replace (c * u32 * rho) with (c * (u32 * rho)) by ring. apply Rmult_le_compat_r; lra. }
  assert (CR0 : 0 <= c * u32 * rho). { replace (c * u32 * rho) with (c * (u32 * rho)) by ring. apply Rmult_le_pos; lra. }
  assert (CUU : 0 <= c * c * (u32 * (u32 * S)) <= 9 * (u32 * (u32 * S))). { split; [apply Rmult_le_pos; lra|apply Rmult_le_compat_r; lra]. }
  assert (CS : 2 * c * (u32 * S) = k * (u32 * S) + / 50 * (u32 * S)) by (unfold c; field).
  apply Rabs_le_iff in C. apply Rabs_le_iff. split.
  - assert (rho - c * u32 * rho <= sqrt s); [|lra].
    rewrite <- (sqrt_square (rho - c * u32 * rho)) by lra. apply sqrt_le_1_alt. rewrite sq_minus, RR. lra.
  - assert (sqrt s <= rho + c * u32 * rho); [|lra].
    rewrite <- (sqrt_square (rho + c * u32 * rho)) by lra. apply sqrt_le_1_alt. rewrite sq_plus, RR. lra.
Qed.

Lemma add_pos a b B : fin a -> fin b -> 0 <= R32 a <= 2 ^ 102 -> 0 <= R32 b <= 2 ^ 102 -> B = R32 a + R32 b ->
  fin (fadd a b) /\ R32 a <= R32 (fadd a b) /\ R32 b <= R32 (fadd a b) /\ Rabs (R32 (fadd a b) - B) <= u32 * B + tiny32.
Proof.
  intros Fa Fb Ba Bb ->. destruct (fadd_R a b Fa Fb) as [A1 A2].
  { rewrite Rabs_pos_eq by lra. rewrite big32_pow. apply Rle_trans with (2 ^ 103); [|apply pow2_le; lia].
    replace (2 ^ 103) with (2 ^ 102 + 2 ^ 102) by ring. lra. }
  split; auto. rewrite A1. split; [|split].
  - rewrite <- (rnd32_R32 a) at 1. apply rnd32_le. lra.
  - rewrite <- (rnd32_R32 b) at 1. apply rnd32_le. lra.
  - pose proof (rnd32_err (R32 a + R32 b)) as E. rewrite (Rabs_pos_eq (R32 a + R32 b)) in E by lra. exact E.
Qed.
Lemma le_sq_sqrt a s : a * a <= s -> Rabs a <= sqrt s.
Proof. intros L. rewrite <- (sqrt_square (Rabs a)) by apply Rabs_pos. apply sqrt_le_1_alt. rewrite <- Rabs_mult, Rabs_pos_eq by nra. exact L. Qed.
Lemma measure n : ordinary n -> measured n.
Proof.
  destruct n as [[x y] z]. intros ((Fx & Fy & Fz) & (Bx & By & Bz) & L). unfold ordinary, finite3, finite in *. cbn [fst snd] in *. change val with R32 in *.
  pose proof u32_small as U.
  destruct (square_R x Fx Bx) as (X1 & X2 & X3 & X4). destruct (square_R y Fy By) as (Y1 & Y2 & Y3 & Y4). destruct (square_R z Fz Bz) as (Z1 & Z2 & Z3 & Z4).
  set (S := sq3 (x, y, z)). assert (SE : S = R32 x * R32 x + R32 y * R32 y + R32 z * R32 z) by reflexivity.
  assert (P100 : 2 ^ 100 <= 2 ^ 102) by (apply pow2_le; lia).
  assert (LS : / IZR (2 ^ 100) <= S).
  { assert (G : forall a, / 2 ^ 50 <= Rabs a -> / IZR (2 ^ 100) <= a * a).
    { intros a La. replace (a * a) with (Rabs a * Rabs a) by (rewrite <- Rabs_mult; apply Rabs_pos_eq; nra).
      replace (/ IZR (2 ^ 100)) with (/ 2 ^ 50 * / 2 ^ 50) by (rewrite <- Rinv_mult, p50, <- mult_IZR; reflexivity).
      assert (0 < / 2 ^ 50) by (apply Rinv_0_lt_compat; rewrite p50; apply IZR_lt; lia). apply Rmult_le_compat; lra. }
    destruct L as [L|[L|L]]; apply G in L; lra. }
  assert (SP : 0 < S). { assert (0 < / IZR (2 ^ 100)) by (apply Rinv_0_lt_compat, IZR_lt; lia). lra. }
  assert (T : 0 <= tiny32 <= / 1000 * (u32 * S)).
  { rewrite tiny_is. split; [left; apply Rinv_0_lt_compat, IZR_lt; lia|].
    assert (/ 1000 * u32 * / IZR (2 ^ 100) <= / 1000 * u32 * S) by (apply Rmult_le_compat_l; lra).
    rewrite <- Rmult_assoc. eapply Rle_trans; [|eassumption]. unfold u32. cbn. lra. }
  assert (US : 0 < u32 * S) by (apply Rmult_lt_0_compat; lra).
  assert (US2 : u32 * S <= / 16777216 * S) by (apply Rmult_le_compat_r; lra).
  pose proof (rnd32_err (R32 x * R32 x)) as E1. rewrite <- X3, (Rabs_pos_eq (R32 x * R32 x)) in E1 by lra. apply Rabs_le_iff in E1.
  pose proof (rnd32_err (R32 y * R32 y)) as E2. rewrite <- Y3, (Rabs_pos_eq (R32 y * R32 y)) in E2 by lra. apply Rabs_le_iff in E2.
  pose proof (rnd32_err (R32 z * R32 z)) as E3. rewrite <- Z3, (Rabs_pos_eq (R32 z * R32 z)) in E3 by lra. apply Rabs_le_iff in E3.
  destruct (add_pos (fmul x x) (fmul y y) _ X1 Y1 ltac:(lra) ltac:(lra) eq_refl) as (T1 & T2 & T3 & T4).
  set (t := fadd (fmul x x) (fmul y y)) in *. apply Rabs_le_iff in T4.
  assert (T5 : R32 t <= 2 ^ 102).
  { unfold t. destruct (fadd_R (fmul x x) (fmul y y) X1 Y1) as [A1 A2].
    { rewrite Rabs_pos_eq by lra. rewrite big32_pow. apply Rle_trans with (2 ^ 103); [|apply pow2_le; lia]. replace (2 ^ 103) with (2 ^ 102 + 2 ^ 102) by ring. lra. }
    rewrite A1. eapply Rle_trans; [apply Rle_abs|].
    assert (P102 : 2 ^ 102 = bpow radix2 102). { change 102%Z with (Z.of_nat 102). rewrite bpow_powerRZ, <- pow_powerRZ. reflexivity. }
    rewrite P102. apply rnd32_abs_le_bpow; [lia|]. rewrite Rabs_pos_eq, <- P102 by lra. replace (2 ^ 102) with (4 * 2 ^ 100) by ring. lra. }
  destruct (add_pos t (fmul z z) _ T1 Z1 ltac:(lra) ltac:(lra) eq_refl) as (W1 & W2 & W3 & W4).
  set (w := fadd t (fmul z z)) in *. apply Rabs_le_iff in W4.
  set (a := R32 (fmul x x)) in *. set (b := R32 (fmul y y)) in *. set (c := R32 (fmul z z)) in *.
  set (xx := R32 x * R32 x) in *. set (yy := R32 y * R32 y) in *. set (zz := R32 z * R32 z) in *.
  assert (UXY : u32 * xx + u32 * yy + u32 * zz = u32 * S) by (rewrite SE; ring).
  assert (AB0 : 0 <= u32 * xx /\ 0 <= u32 * yy /\ 0 <= u32 * zz) by (repeat split; apply Rmult_le_pos; lra).
  assert (AB : u32 * (a + b) <= 1.01 * (u32 * S)).
  { replace (1.01 * (u32 * S)) with (u32 * (1.01 * S)) by ring. apply Rmult_le_compat_l; lra. }
  assert (TC : u32 * (R32 t + c) <= 1.01 * (u32 * S)).
  { replace (1.01 * (u32 * S)) with (u32 * (1.01 * S)) by ring. apply Rmult_le_compat_l; lra. }
  assert (C : Rabs (R32 w - S) <= 3.1 * (u32 * S)) by (apply Rabs_le_iff; lra).
  assert (WP : 0 <= R32 w) by lra.
  destruct (fsqrt_R w W1 WP) as [Q1 Q2]. change (magnitude (x, y, z)) with (fsqrt w) in *.
  pose proof (near_sqrt _ _ 3.1 SP ltac:(lra) C) as D. set (rho := sqrt S) in *.
  assert (RP : 0 < rho) by now apply sqrt_lt_R0.
  assert (LR : / IZR (2 ^ 50) <= rho).
  { unfold rho. rewrite <- (sqrt_square (/ IZR (2 ^ 50))) by (left; apply Rinv_0_lt_compat, IZR_lt; lia).
    apply sqrt_le_1_alt. eapply Rle_trans; [|exact LS]. right. rewrite <- Rinv_mult, <- mult_IZR. reflexivity. }
  assert (UR : 0 < u32 * rho) by (apply Rmult_lt_0_compat; lra).
  assert (UR2 : u32 * rho <= / 16777216 * rho) by (apply Rmult_le_compat_r; lra).
  assert (TR : tiny32 <= / 1000 * (u32 * rho)).
  { assert (/ 1000 * u32 * / IZR (2 ^ 50) <= / 1000 * u32 * rho) by (apply Rmult_le_compat_l; lra).
    rewrite <- Rmult_assoc. rewrite tiny_is. eapply Rle_trans; [|eassumption]. unfold u32. cbn. lra. }
  pose proof (rnd32_err (sqrt (R32 w))) as E4. rewrite <- Q1, (Rabs_pos_eq (sqrt _)) in E4 by apply sqrt_pos.
  assert (ME : Rabs (R32 (fsqrt w) - rho) <= 3 * u32 * rho).
  { apply Rabs_le_iff in E4, D. apply Rabs_le_iff.
    assert (sqrt (R32 w) <= 1.01 * rho) by lra.
    pose proof (Rmult_le_compat_l u32 (sqrt (R32 w)) (1.01 * rho) ltac:(lra) ltac:(lra)). lra. }
  assert (CO : forall v, fin v -> rnd32 (R32 v * R32 v) <= R32 w -> Rabs (R32 v) <= R32 (fsqrt w)).
  { intros v Fv Lv. destruct (Rle_lt_dec (bpow radix2 (-60)) (Rabs (R32 v))) as [G|G].
    - eapply Rle_trans; [apply (sqrt_square_ge (Rabs (R32 v))); [rewrite <- fabs_R; apply generic_format_B2R|exact G]|].
      rewrite Q1. apply rnd32_le, sqrt_le_1_alt. rewrite <- Rabs_mult, Rabs_pos_eq by nra. exact Lv.
    - apply Rabs_le_iff in ME. assert (bpow radix2 (-60) <= / IZR (2 ^ 59)) by (cbn; lra).
      assert (/ IZR (2 ^ 59) <= / 2 * rho). { apply Rle_trans with (/ 2 * / IZR (2 ^ 50)); [cbn; lra|]. apply Rmult_le_compat_l; lra. }
      lra. }
  constructor; unfold vx, vy, vz; cbn [fst snd]; auto; apply CO; auto.
  - change (rnd32 xx <= R32 w). rewrite <- X3. lra.
  - change (rnd32 yy <= R32 w). rewrite <- Y3. lra.
  - change (rnd32 zz <= R32 w). rewrite <- Z3. lra.
Qed.

Lemma component_R x mag rho : fin x -> 0 < rho -> Rabs (R32 mag - rho) <= 3 * u32 * rho -> Rabs (R32 x) <= R32 mag -> Rabs (R32 x) <= rho ->
  fin (fdiv x mag) /\ Rabs (R32 (fdiv x mag)) <= 1 /\ Rabs (R32 (fdiv x mag) - R32 x / rho) <= 4.2 * u32 * Rabs (R32 x / rho) + tiny32.
Proof.
  intros F RP E L LR. pose proof u32_small as U. apply Rabs_le_iff in E. set (q := R32 mag) in *.
  assert (UR : 0 < u32 * rho) by (apply Rmult_lt_0_compat; lra).
  assert (UR2 : u32 * rho <= / 16777216 * rho) by (apply Rmult_le_compat_r; lra).
  assert (QP : 0 < q) by lra.
  assert (B : Rabs (R32 x / q) <= 1).
  { unfold Rdiv. rewrite Rabs_mult, (Rabs_pos_eq (/ q)) by (left; now apply Rinv_0_lt_compat).
    apply Rmult_le_reg_r with q; auto. rewrite Rmult_assoc, Rinv_l by lra. lra. }
  destruct (fdiv_R x mag F) as [D1 D2]; [fold q; lra|fold q; apply fits32; lra|]. fold q in D1. split; auto.
  split. { rewrite D1. change 1 with (bpow radix2 0). apply rnd32_abs_le_bpow; [lia|exact B]. }
  pose proof (rnd32_err (R32 x / q)) as R. rewrite <- D1 in R.
  set (e := R32 x / rho). assert (XE : R32 x = e * rho) by (unfold e; field; lra).
  assert (QE : R32 x / q = e * (rho / q)) by (rewrite XE; field; lra).
  assert (RQ : Rabs (rho / q - 1) <= 3.1 * u32).
  { replace (rho / q - 1) with ((rho - q) * / q) by (field; lra). rewrite Rabs_mult, (Rabs_pos_eq (/ q)) by (left; now apply Rinv_0_lt_compat).
    apply Rmult_le_reg_r with q; auto. rewrite Rmult_assoc, Rinv_l, Rmult_1_r by lra.
    assert (Rabs (rho - q) <= 3 * u32 * rho) by (apply Rabs_le_iff; lra).
    assert (u32 * (rho - 3 * u32 * rho) <= u32 * q) by (apply Rmult_le_compat_l; lra).
    assert (u32 * (u32 * rho) <= / 16777216 * (u32 * rho)) by (apply Rmult_le_compat_r; lra). lra. }
  assert (P1 : Rabs (R32 x / q - e) <= 3.1 * u32 * Rabs e).
  { rewrite QE. replace (e * (rho / q) - e) with ((rho / q - 1) * e) by ring. rewrite Rabs_mult. apply Rmult_le_compat_r; [apply Rabs_pos|exact RQ]. }
  assert (P2 : Rabs (R32 x / q) <= 1.001 * Rabs e).
  { rewrite QE, Rabs_mult, Rmult_comm. apply Rmult_le_compat_r; [apply Rabs_pos|]. apply Rabs_le_iff in RQ. rewrite Rabs_pos_eq; lra. }
  assert (P3 : u32 * Rabs (R32 x / q) <= u32 * (1.001 * Rabs e)) by (apply Rmult_le_compat_l; lra).
  replace (R32 (fdiv x mag) - e) with ((R32 (fdiv x mag) - R32 x / q) + (R32 x / q - e)) by ring.
  eapply Rle_trans; [apply Rabs_triang|].
  assert (0 <= u32 * Rabs e) by (apply Rmult_le_pos; [lra|apply Rabs_pos]). lra.
Qed.
Lemma square_near e x : Rabs e <= 1 -> Rabs (x - e) <= 4.2 * u32 * Rabs e + tiny32 -> Rabs (x * x - e * e) <= 8.4 * u32 * (e * e) + / 100 * u32.
Proof.
  intros B E. pose proof u32_small as U. pose proof tiny_u as T.
  replace (x * x - e * e) with ((x - e) * (x - e) + 2 * (e * (x - e))) by ring.
  set (d := x - e) in *. pose proof (Rabs_pos e) as P. pose proof (Rabs_pos d) as P'.
  assert (EE : e * e = Rabs e * Rabs e) by (rewrite <- Rabs_mult; symmetry; apply Rabs_pos_eq; nra). rewrite EE.
  set (a := Rabs e) in *. assert (UA : 0 <= u32 * a <= u32) by nra.
  assert (D1 : Rabs d <= 5 * u32) by lra.
  eapply Rle_trans; [apply Rabs_triang|]. rewrite !Rabs_mult. rewrite (Rabs_pos_eq 2) by lra. fold a.
  assert (Q1 : Rabs d * Rabs d <= / 1000 * u32).
  { apply Rle_trans with (5 * u32 * (5 * u32)); [apply Rmult_le_compat; lra|]. nra. }
  assert (Q2 : a * Rabs d <= a * (4.2 * u32 * a + tiny32)) by (apply Rmult_le_compat_l; lra).
  assert (Q3 : a * tiny32 <= 1 * tiny32) by (apply Rmult_le_compat_r; lra).
  replace (a * (4.2 * u32 * a + tiny32)) with (4.2 * u32 * (a * a) + a * tiny32) in Q2 by ring. lra.
Qed.
Lemma normalize_R n : ordinary n -> unit_vector (normalize n) /\ same_direction (8 * u32) n (normalize n) /\ Rabs (dot3 (normalize n) (normalize n) - 1) <= 9 * u32.
Proof.
  intros O. destruct (measure n O) as [Mf Mp Me Mx My Mz]. destruct n as [[x y] z]. destruct O as ((Fx & Fy & Fz) & _).
  unfold vx, vy, vz, finite in *. cbn [fst snd] in *. set (rho := sqrt (sq3 (x, y, z))) in *.
  assert (RR : rho * rho = R32 x * R32 x + R32 y * R32 y + R32 z * R32 z).
  { unfold rho. rewrite sqrt_sqrt; [reflexivity|]. unfold sq3, vx, vy, vz. cbn [fst snd]. nra. }
  assert (N3 : norm3 (x, y, z) = rho) by reflexivity.
  unfold normalize. fold (magnitude (x, y, z)). unfold vx, vy, vz. cbn [fst snd].
  change (fsqrt (fadd (fadd (fmul x x) (fmul y y)) (fmul z z))) with (magnitude (x, y, z)).
  set (mag := magnitude (x, y, z)) in *.
  destruct (is_nan mag) eqn:NN; [destruct mag; discriminate NN || discriminate Mf|].
  assert (Lx : Rabs (R32 x) <= rho) by (apply le_sq_sqrt; unfold sq3, vx, vy, vz; cbn [fst snd]; nra).
  assert (Ly : Rabs (R32 y) <= rho) by (apply le_sq_sqrt; unfold sq3, vx, vy, vz; cbn [fst snd]; nra).
  assert (Lz : Rabs (R32 z) <= rho) by (apply le_sq_sqrt; unfold sq3, vx, vy, vz; cbn [fst snd]; nra).
  destruct (component_R x mag rho Fx Mp Me Mx Lx) as (X1 & X2 & X3).
  destruct (component_R y mag rho Fy Mp Me My Ly) as (Y1 & Y2 & Y3).
  destruct (component_R z mag rho Fz Mp Me Mz Lz) as (Z1 & Z2 & Z3).
  pose proof u32_small as U. pose proof tiny_u as T.
  assert (EB : forall a, Rabs a <= rho -> Rabs (a / rho) <= 1).
  { intros a La. unfold Rdiv. rewrite Rabs_mult, (Rabs_pos_eq (/ rho)) by (left; now apply Rinv_0_lt_compat).
    apply Rmult_le_reg_r with rho; auto. rewrite Rmult_assoc, Rinv_l by lra. lra. }
  pose proof (EB _ Lx) as Ex. pose proof (EB _ Ly) as Ey. pose proof (EB _ Lz) as Ez.
  pose proof (square_near _ _ Ex X3) as Sx. pose proof (square_near _ _ Ey Y3) as Sy. pose proof (square_near _ _ Ez Z3) as Sz.
  assert (ONE : R32 x / rho * (R32 x / rho) + R32 y / rho * (R32 y / rho) + R32 z / rho * (R32 z / rho) = 1).
  { replace (_ + _ + _) with ((R32 x * R32 x + R32 y * R32 y + R32 z * R32 z) / (rho * rho)) by (field; lra). rewrite <- RR. field. lra. }
  assert (DD : Rabs (dot3 (fdiv x mag, fdiv y mag, fdiv z mag) (fdiv x mag, fdiv y mag, fdiv z mag) - 1) <= 9 * u32).
  { unfold dot3. cbn [fst snd]. change val with R32. apply Rabs_le_iff in Sx, Sy, Sz. apply Rabs_le_iff.
    set (ex := R32 x / rho * (R32 x / rho)) in *. set (ey := R32 y / rho * (R32 y / rho)) in *. set (ez := R32 z / rho * (R32 z / rho)) in *.
    assert (u32 * ex + u32 * ey + u32 * ez = u32) by (rewrite <- (Rmult_1_r u32) at 4; rewrite <- ONE; ring). lra. }
  split; [|split; [|exact DD]].
  - split; [repeat split; assumption|]. split; [|cbn [fst snd]; auto]. eapply Rle_trans; [exact DD|]. unfold u32. simpl pow. lra.
  - unfold same_direction. cbn [fst snd]. rewrite N3. change val with R32.
    assert (GG : forall a e, Rabs e <= 1 -> a <= 4.2 * u32 * Rabs e + tiny32 -> a <= 8 * u32).
    { intros a e He Ha. pose proof (Rmult_le_compat_l u32 _ _ ltac:(lra) He). lra. }
    split; [exact (GG _ _ Ex X3)|]. split; [exact (GG _ _ Ey Y3)|exact (GG _ _ Ez Z3)].
Qed.
(** Verification does not object to what normalising made. *)
Lemma one_ok n : unit_vector n -> not_normalized n = false /\ fin (magnitude n) /\ 0.99999 < R32 (magnitude n) < 1.00001.
Proof.
  intros (F & D & B1 & B2 & B3). pose proof u32_small as U.
  assert (E20 : / 2 ^ 20 = 16 * u32) by (unfold u32; simpl pow; lra). rewrite E20 in D. apply Rabs_le_iff in D.
  assert (P50 : 1 <= 2 ^ 50) by (rewrite p50; apply IZR_le; lia).
  assert (P50' : / 2 ^ 50 <= / 4) by (rewrite p50; cbn; lra).
  assert (O : ordinary n).
  { split; auto. split; [repeat split; lra|].
    destruct n as [[x y] z]. unfold dot3 in D. cbn [fst snd] in *. change val with R32 in *.
    destruct (Rle_lt_dec (/ 2 ^ 50) (Rabs (R32 x))); auto. destruct (Rle_lt_dec (/ 2 ^ 50) (Rabs (R32 y))); auto. right. right.
    destruct (Rle_lt_dec (/ 2 ^ 50) (Rabs (R32 z))); auto. exfalso.
    assert (G : forall a, Rabs a < / 2 ^ 50 -> a * a <= / 16). { intros a La. assert (K : Rabs a <= / 4) by lra. apply Rabs_le_iff in K. nra. }
    pose proof (G (R32 x) ltac:(assumption)). pose proof (G (R32 y) ltac:(assumption)). pose proof (G (R32 z) ltac:(assumption)). lra. }
  destruct (measure n O) as [Mf Mp Me _ _ _]. set (rho := sqrt (sq3 n)) in *.
  assert (RR : rho * rho = dot3 n n).
  { unfold rho. rewrite sqrt_sqrt; [reflexivity|]. change (sq3 n) with (dot3 n n). lra. }
  assert (RB : 0.999 <= rho <= 1.0001) by nra.
  apply Rabs_le_iff in Me. assert (UR : 0 <= u32 * rho <= 1.0001 * u32) by nra.
  assert (MB : 0.9989 <= R32 (magnitude n) <= 1.0002) by lra.
  assert (RB' : 1 - 20 * u32 <= rho <= 1 + 20 * u32) by nra.
  assert (MB' : Rabs (1 - R32 (magnitude n)) <= 30 * u32) by (apply Rabs_le_iff; lra).
  split; [|split; [exact Mf|apply Rabs_le_iff in MB'; lra]].
  unfold not_normalized. destruct f1_R as [O1 O2].
  destruct (fsub_R f1 (magnitude n) O2 Mf) as [S1 S2]; [rewrite O1; apply fits32; lra|]. rewrite O1 in S1.
  destruct (flit_R 1 1000 ltac:(lia) ltac:(lia)) as [L1 L2].
  rewrite flt_R; auto; [|now rewrite fabs_fin]. apply Rlt_bool_false. rewrite fabs_R, S1, L1.
  pose proof (rnd32_err (1 - R32 (magnitude n))) as E1. pose proof (rnd32_err (1 / 1000)) as E2. rewrite (Rabs_pos_eq (1 / 1000)) in E2 by lra.
  pose proof tiny_u. apply Rabs_le_iff in E2.
  assert (Rabs (rnd32 (1 - R32 (magnitude n))) <= 40 * u32).
  { apply Rabs_le_iff in E1, MB'. apply Rabs_le_iff.
    assert (K : Rabs (1 - R32 (magnitude n)) <= 1) by (apply Rabs_le_iff; lra).
    pose proof (Rmult_le_compat_l u32 _ _ ltac:(lra) K). lra. }
  assert (u32 * (1 / 1000) <= / 16777216 * / 1000) by nra. unfold u32 in *. lra.
Qed.

(** ** Vectors that are too small, too large or not numbers *)
Lemma fmul_small x : fin x -> Rabs (R32 x) <= / 2 ^ 76 -> R32 (fmul x x) = 0 /\ fin (fmul x x).
Proof.
  intros F B. assert (Q : R32 x * R32 x <= / 2 ^ 76 * / 2 ^ 76).
  { replace (R32 x * R32 x) with (Rabs (R32 x) * Rabs (R32 x)) by (rewrite <- Rabs_mult; apply Rabs_pos_eq; nra). apply Rmult_le_compat; auto; apply Rabs_pos. }
  assert (P : / 2 ^ 76 * / 2 ^ 76 = bpow radix2 (-152)).
  { rewrite <- Rinv_mult, <- pow_add. change (76 + 76)%nat with 152%nat. change (-152)%Z with (- (152))%Z. rewrite bpow_opp. f_equal.
    change 152%Z with (Z.of_nat 152). rewrite bpow_powerRZ, <- pow_powerRZ. reflexivity. }
  assert (S : 0 <= R32 x * R32 x) by nra.
  destruct (fmul_R x x F F) as [M1 M2].
  { rewrite Rabs_pos_eq by auto. eapply Rle_trans; [exact Q|]. rewrite P. unfold big32. apply bpow_le. lia. }
  split; auto. rewrite M1. destruct (Req_dec (R32 x * R32 x) 0) as [->|NZ]; [apply rnd32_0|].
  apply (round_N_small_pos radix2 fexp32 _ _ (mag radix2 (R32 x * R32 x))).
  - pose proof (bpow_mag_le radix2 _ NZ) as G1. pose proof (bpow_mag_gt radix2 (R32 x * R32 x)) as G2. rewrite Rabs_pos_eq in G1, G2 by auto. auto.
  - assert (mag radix2 (R32 x * R32 x) <= -151)%Z.
    { apply mag_le_bpow; auto. rewrite Rabs_pos_eq by auto. eapply Rle_lt_trans; [exact Q|]. rewrite P. apply bpow_lt. lia. }
    unfold fexp32, SpecFloat.fexp. cbn. lia.
Qed.
Lemma zero_or x : fin x -> R32 x = 0 -> exists s, x = B754_zero s.
Proof.
  intros F Z. destruct x as [s|s| |s m e H0]; try discriminate F; [now exists s|]. exfalso. revert Z. unfold R32, B2R.
  destruct s; cbn [cond_Zopp]; intros Z; apply eq_0_F2R in Z; discriminate Z.
Qed.

Lemma zeros_magnitude x y z : (exists s, fmul x x = B754_zero s) -> (exists s, fmul y y = B754_zero s) -> (exists s, fmul z z = B754_zero s) ->
  exists s, magnitude (x, y, z) = B754_zero s.
Proof.
  intros [a A] [b B] [c C]. unfold magnitude, vx, vy, vz. cbn [fst snd]. rewrite A, B, C. destruct a, b, c; eexists; reflexivity.
Qed.
Lemma normalize_by x y z mag : magnitude (x, y, z) = mag -> is_nan mag = false -> normalize (x, y, z) = (fdiv x mag, fdiv y mag, fdiv z mag).
Proof. intros E NN. unfold normalize, vx, vy, vz. cbn [fst snd]. change (fsqrt (fadd (fadd (fmul x x) (fmul y y)) (fmul z z))) with (magnitude (x, y, z)). now rewrite E, NN. Qed.
Lemma div_zero x s : fin x -> (R32 x = 0 -> fdiv x (B754_zero s) = B754_nan) /\ (R32 x <> 0 -> exists t, fdiv x (B754_zero s) = B754_infinity t).
Proof.
  intros F. destruct x as [t|t| |t m e H0]; try discriminate F.
  - split; [reflexivity|]. intros NZ. now destruct NZ.
  - split; [|intros _; eexists; reflexivity]. intros Z. destruct (zero_or _ F Z) as [u E]. discriminate E.
Qed.
Lemma fmul_huge x : fin x -> 2 ^ 64 <= Rabs (R32 x) -> fmul x x = B754_infinity false.
Proof.
  intros F B. pose proof (Bmult_correct 24 128 gt0_24 lt_24_128 mode_NE x x) as C. cbn [round_mode] in C.
  assert (Q : bpow radix2 128 <= R32 x * R32 x).
  { replace (R32 x * R32 x) with (Rabs (R32 x) * Rabs (R32 x)) by (rewrite <- Rabs_mult; apply Rabs_pos_eq; nra).
    replace (bpow radix2 128) with (2 ^ 64 * 2 ^ 64). { assert (0 < 2 ^ 64) by (apply pow_lt; lra). apply Rmult_le_compat; lra. }
    rewrite <- pow_add. change (64 + 64)%nat with 128%nat. change 128%Z with (Z.of_nat 128). rewrite bpow_powerRZ, <- pow_powerRZ. reflexivity. }
  rewrite Rlt_bool_false in C.
  - rewrite xorb_nilpotent in C. change (binary_overflow 24 128 mode_NE false) with (SpecFloat.S754_infinity false) in C.
    fold (fmul x x) in C. destruct (fmul x x); cbn in C; congruence.
  - apply Rle_trans with (rnd32 (R32 x * R32 x)); [|apply Rle_abs].
    assert (E : rnd32 (bpow radix2 128) = bpow radix2 128).
    { apply round_generic; [auto with typeclass_instances|]. apply generic_format_bpow. cbn. lia. }
    rewrite <- E. now apply rnd32_le.
Qed.
(** A sum of squares: a number that is not negative, or infinity. *)
Definition large (x : f32) : Prop := x = B754_infinity false \/ fin x /\ 0 <= R32 x.
Lemma large_square x : fin x -> large (fmul x x).
Proof.
  intros F. pose proof (Bmult_correct 24 128 gt0_24 lt_24_128 mode_NE x x) as C. cbn [round_mode] in C.
  destruct (Rlt_bool _ _).
  - right. destruct C as (C1 & C2 & _). split; [unfold fmul; now rewrite C2, F|]. unfold R32 at 1, fmul. rewrite C1.
    change (0 <= rnd32 (R32 x * R32 x)). rewrite <- rnd32_0. apply rnd32_le. nra.
  - left. rewrite xorb_nilpotent in C. change (binary_overflow 24 128 mode_NE false) with (SpecFloat.S754_infinity false) in C.
    fold (fmul x x) in C. destruct (fmul x x); cbn in C; congruence.
Qed.
Lemma large_add x y : large x -> large y -> large (fadd x y).
Proof.
  intros [->|[Fx Px]] [->|[Fy Py]].
  - left. reflexivity.
  - left. destruct y; try discriminate Fy; reflexivity.
  - left. destruct x; try discriminate Fx; reflexivity.
  - pose proof (Bplus_correct 24 128 gt0_24 lt_24_128 mode_NE x y Fx Fy) as C. cbn [round_mode] in C.
    destruct (Rlt_bool _ _) eqn:RL.
    + right. destruct C as (C1 & C2 & _). split; [exact C2|]. unfold R32 at 1, fadd. rewrite C1.
      change (0 <= rnd32 (R32 x + R32 y)). rewrite <- rnd32_0. apply rnd32_le. lra.
    + left. destruct C as [C S].
      assert (SX : Bsign x = false).
      { destruct (Bsign x) eqn:E; auto. exfalso. symmetry in S. rename S into Sy.
        assert (NEG : forall v : f32, fin v -> Bsign v = true -> R32 v <= 0).
        { intros v Fv Sv. destruct v as [sv|sv| |sv m e H0]; try discriminate Fv; cbn in Sv; subst; [cbn; lra|].
          unfold R32, B2R. cbn [cond_Zopp]. left. now apply F2R_lt_0. }
        pose proof (NEG x Fx E). pose proof (NEG y Fy Sy). assert (SUM : R32 x + R32 y = 0) by lra.
        assert (RL' : Rlt_bool (Rabs (rnd32 (R32 x + R32 y))) (bpow radix2 128) = true).
        { rewrite SUM, rnd32_0, Rabs_R0. apply Rlt_bool_true, bpow_gt_0. }
        unfold R32 in RL'. change (Rlt_bool (Rabs (rnd32 (B2R x + B2R y))) (bpow radix2 128) = false) in RL. congruence. }
      rewrite SX in C. change (binary_overflow 24 128 mode_NE false) with (SpecFloat.S754_infinity false) in C.
      fold (fadd x y) in C. destruct (fadd x y); cbn in C; congruence.
Qed.
Lemma inf_add x : large x -> fadd (B754_infinity false) x = B754_infinity false /\ fadd x (B754_infinity false) = B754_infinity false.
Proof. intros [->|[F _]]; [split; reflexivity|]. destruct x; try discriminate F; split; reflexivity. Qed.
Lemma huge_magnitude x y z : fin x -> fin y -> fin z -> 2 ^ 64 <= Rabs (R32 x) \/ 2 ^ 64 <= Rabs (R32 y) \/ 2 ^ 64 <= Rabs (R32 z) ->
  magnitude (x, y, z) = B754_infinity false.
Proof.
  intros Fx Fy Fz D. unfold magnitude, vx, vy, vz. cbn [fst snd].
  assert (G : fadd (fadd (fmul x x) (fmul y y)) (fmul z z) = B754_infinity false).
  { destruct D as [D|[D|D]]; apply fmul_huge in D; auto; rewrite D.
    - rewrite (proj1 (inf_add _ (large_square y Fy))). now apply inf_add, large_square.
    - rewrite (proj2 (inf_add _ (large_square x Fx))). now apply inf_add, large_square.
    - now apply inf_add, large_add; apply large_square. }
  now rewrite G.
Qed.
Lemma div_inf x : fin x -> exists s, fdiv x (B754_infinity false) = B754_zero s.
Proof. intros F. destruct x; try discriminate F; eexists; reflexivity. Qed.
Lemma zeros_off a b c : not_normalized (B754_zero a, B754_zero b, B754_zero c) = true.
Proof. destruct a, b, c; vm_compute; reflexivity. Qed.
Lemma nan_magnitude x y z : is_nan x = true \/ is_nan y = true \/ is_nan z = true -> magnitude (x, y, z) = B754_nan.
Proof.
  intros D. unfold magnitude, vx, vy, vz. cbn [fst snd].
  assert (M : forall v, is_nan v = true -> fmul v v = B754_nan) by (intros v V; destruct v; try discriminate V; reflexivity).
  assert (A1 : forall v, fadd B754_nan v = B754_nan) by (intros v; destruct v; reflexivity).
  assert (A2 : forall v, fadd v B754_nan = B754_nan) by (intros v; destruct v; reflexivity).
  destruct D as [D|[D|D]]; apply M in D; rewrite D, ?A1, ?A2, ?A1; reflexivity.
Qed.
Lemma nan_passes x y z : is_nan x = true \/ is_nan y = true \/ is_nan z = true -> not_normalized (x, y, z) = false.
Proof. intros D. unfold not_normalized. rewrite (nan_magnitude x y z D). reflexivity. Qed.
