(** Normalising a vector of f64, in real numbers: as Normalize_proofs.v. *)
From Coq Require Import List NArith ZArith Arith Lia Bool Reals Lra Psatz.
From Flocq Require Import Core IEEE754.BinarySingleNaN.
From Verif Require Import Base Floats Floats_proofs FloatReal_proofs ValueSpec Log2_proofs Trig_proofs FastTrig Double DoubleSpec DoubleSave DoubleValueSpec DoubleNormalSpec DoubleMesh DoubleMeshSpec
  NormalReal_proofs Double2_proofs DQuant_proofs DNormal_proofs.
Import ListNotations.
Local Open Scope R_scope.

Definition sq3_d (n : dvec3) : R := R64 (dvx n) * R64 (dvx n) + R64 (dvy n) * R64 (dvy n) + R64 (dvz n) * R64 (dvz n).
Lemma p49_d : / 2 ^ 49 = 16 * u64. Proof. rewrite (pow_IZR 2 49). change (2 ^ Z.of_nat 49)%Z with 562949953421312%Z. unfold u64. lra. Qed.
Lemma p50_d : 2 ^ 50 = IZR (2 ^ 50). Proof. rewrite (pow_IZR 2 50). reflexivity. Qed.

(** The computed length of a vector of ordinary size. *)
Record measured_d (n : dvec3) : Prop := {
  me_fin_d : fin (magnitude_d n);
  me_pos_d : 0 < sqrt (sq3_d n);
  me_err_d : Rabs (R64 (magnitude_d n) - sqrt (sq3_d n)) <= 3 * u64 * sqrt (sq3_d n);
  me_x_d : Rabs (R64 (dvx n)) <= R64 (magnitude_d n);
  me_y_d : Rabs (R64 (dvy n)) <= R64 (magnitude_d n);
  me_z_d : Rabs (R64 (dvz n)) <= R64 (magnitude_d n) }.

Lemma square_R_d x : fin x -> Rabs (R64 x) <= 2 ^ 50 ->
  fin (dmul x x) /\ 0 <= R64 (dmul x x) <= 2 ^ 100 /\ R64 (dmul x x) = rnd64 (R64 x * R64 x) /\ 0 <= R64 x * R64 x <= 2 ^ 100.
Proof.
  intros F B. assert (Q : 0 <= R64 x * R64 x <= 2 ^ 100).
  { split; [nra|]. replace (R64 x * R64 x) with (Rabs (R64 x) * Rabs (R64 x)) by (rewrite <- Rabs_mult; apply Rabs_pos_eq; nra).
    replace (2 ^ 100) with (2 ^ 50 * 2 ^ 50) by ring. apply Rmult_le_compat; auto; apply Rabs_pos. }
  assert (P100 : 2 ^ 100 = bpow radix2 100). { change 100%Z with (Z.of_nat 100). rewrite bpow_powerRZ, <- pow_powerRZ. reflexivity. }
  destruct (dmul_R x x F F) as [M1 M2].
  { rewrite Rabs_pos_eq by lra. rewrite big64_pow. eapply Rle_trans; [apply Q|]. apply pow2_le. lia. }
  split; auto. split; [|auto]. rewrite M1. split; [rewrite <- rnd64_0; apply rnd64_le; lra|].
  eapply Rle_trans; [apply Rle_abs|]. rewrite P100. apply rnd64_abs_le_bpow; [lia|]. rewrite Rabs_pos_eq by lra. lra.
Qed.
Lemma near_sqrt_d s S k : 0 < S -> 0 <= k <= 4 -> Rabs (s - S) <= k * (u64 * S) -> Rabs (sqrt s - sqrt S) <= (k / 2 + / 100) * u64 * sqrt S.
Proof.
  intros SP K C. pose proof u64_small as U. set (rho := sqrt S). assert (RP : 0 < rho) by now apply sqrt_lt_R0.
  assert (RR : rho * rho = S) by (apply sqrt_sqrt; lra).
  assert (US : 0 < u64 * S) by (apply Rmult_lt_0_compat; lra).
  assert (UR : 0 < u64 * rho) by (apply Rmult_lt_0_compat; lra).
  assert (UR2 : u64 * rho <= / 9007199254740992 * rho) by (apply Rmult_le_compat_r; lra).
  assert (UUS : 0 <= u64 * (u64 * S)) by (apply Rmult_le_pos; lra).
  assert (UUS2 : u64 * (u64 * S) <= / 9007199254740992 * (u64 * S)) by (apply Rmult_le_compat_r; lra).
  set (c := k / 2 + / 100) in *. assert (CB : / 100 <= c <= 3) by (unfold c; lra).
  assert (CC : 0 <= c * c <= 9) by nra.
  assert (CR : c * u64 * rho <= 3 * (u64 * rho)). { replace (c * u64 * rho) with (c * (u64 * rho)) by ring. apply Rmult_le_compat_r; lra. }
  assert (CR0 : 0 <= c * u64 * rho). { replace (c * u64 * rho) with (c * (u64 * rho)) by ring. apply Rmult_le_pos; lra. }
  assert (CUU : 0 <= c * c * (u64 * (u64 * S)) <= 9 * (u64 * (u64 * S))). { split; [apply Rmult_le_pos; lra|apply Rmult_le_compat_r; lra]. }
  assert (CS : 2 * c * (u64 * S) = k * (u64 * S) + / 50 * (u64 * S)) by (unfold c; field).
  apply Rabs_le_iff in C. apply Rabs_le_iff. split.
  - assert (rho - c * u64 * rho <= sqrt s); [|lra].
    rewrite <- (sqrt_square (rho - c * u64 * rho)) by lra. apply sqrt_le_1_alt. rewrite sq_minus, RR. lra.
  - assert (sqrt s <= rho + c * u64 * rho); [|lra].
    rewrite <- (sqrt_square (rho + c * u64 * rho)) by lra. apply sqrt_le_1_alt. rewrite sq_plus, RR. lra.
Qed.

Lemma add_pos_d a b B : fin a -> fin b -> 0 <= R64 a <= 2 ^ 102 -> 0 <= R64 b <= 2 ^ 102 -> B = R64 a + R64 b ->
  fin (dadd a b) /\ R64 a <= R64 (dadd a b) /\ R64 b <= R64 (dadd a b) /\ Rabs (R64 (dadd a b) - B) <= u64 * B + tiny64.
Proof.
  intros Fa Fb Ba Bb ->. destruct (dadd_R a b Fa Fb) as [A1 A2].
  { rewrite Rabs_pos_eq by lra. rewrite big64_pow. apply Rle_trans with (2 ^ 103); [|apply pow2_le; lia].
    replace (2 ^ 103) with (2 ^ 102 + 2 ^ 102) by ring. lra. }
  split; auto. rewrite A1. split; [|split].
  - rewrite <- (rnd64_R64 a) at 1. apply rnd64_le. lra.
  - rewrite <- (rnd64_R64 b) at 1. apply rnd64_le. lra.
  - pose proof (rnd64_err (R64 a + R64 b)) as E. rewrite (Rabs_pos_eq (R64 a + R64 b)) in E by lra. exact E.
Qed.
Lemma le_sq_sqrt a s : a * a <= s -> Rabs a <= sqrt s.
Proof. intros L. rewrite <- (sqrt_square (Rabs a)) by apply Rabs_pos. apply sqrt_le_1_alt. rewrite <- Rabs_mult, Rabs_pos_eq by nra. exact L. Qed.
Lemma measure_d n : ordinary_d n -> measured_d n.
Proof.
  destruct n as [[x y] z]. intros ((Fx & Fy & Fz) & (Bx & By & Bz) & L). unfold ordinary_d, finite3_d, finite64 in *. cbn [fst snd] in *. change val64 with R64 in *.
  pose proof u64_small as U.
  destruct (square_R_d x Fx Bx) as (X1 & X2 & X3 & X4). destruct (square_R_d y Fy By) as (Y1 & Y2 & Y3 & Y4). destruct (square_R_d z Fz Bz) as (Z1 & Z2 & Z3 & Z4).
  set (S := sq3_d (x, y, z)). assert (SE : S = R64 x * R64 x + R64 y * R64 y + R64 z * R64 z) by reflexivity.
  assert (P100 : 2 ^ 100 <= 2 ^ 102) by (apply pow2_le; lia).
  assert (LS : / IZR (2 ^ 100) <= S).
  { assert (G : forall a, / 2 ^ 50 <= Rabs a -> / IZR (2 ^ 100) <= a * a).
    { intros a La. replace (a * a) with (Rabs a * Rabs a) by (rewrite <- Rabs_mult; apply Rabs_pos_eq; nra).
      replace (/ IZR (2 ^ 100)) with (/ 2 ^ 50 * / 2 ^ 50) by (rewrite <- Rinv_mult, p50_d, <- mult_IZR; reflexivity).
      assert (0 < / 2 ^ 50) by (apply Rinv_0_lt_compat; rewrite p50_d; apply IZR_lt; lia). apply Rmult_le_compat; lra. }
    destruct L as [L|[L|L]]; apply G in L; lra. }
  assert (SP : 0 < S). { assert (0 < / IZR (2 ^ 100)) by (apply Rinv_0_lt_compat, IZR_lt; lia). lra. }
  assert (T : 0 <= tiny64 <= / 1000 * (u64 * S)).
  { pose proof tiny64_200 as T2. split; [left; apply T2|]. eapply Rle_trans; [apply T2|].
    assert (/ 1000 * u64 * / IZR (2 ^ 100) <= / 1000 * u64 * S) by (apply Rmult_le_compat_l; lra).
    rewrite <- Rmult_assoc. eapply Rle_trans; [|eassumption]. unfold u64. cbn. lra. }
  assert (US : 0 < u64 * S) by (apply Rmult_lt_0_compat; lra).
  assert (US2 : u64 * S <= / 9007199254740992 * S) by (apply Rmult_le_compat_r; lra).
  pose proof (rnd64_err (R64 x * R64 x)) as E1. rewrite <- X3, (Rabs_pos_eq (R64 x * R64 x)) in E1 by lra. apply Rabs_le_iff in E1.
  pose proof (rnd64_err (R64 y * R64 y)) as E2. rewrite <- Y3, (Rabs_pos_eq (R64 y * R64 y)) in E2 by lra. apply Rabs_le_iff in E2.
  pose proof (rnd64_err (R64 z * R64 z)) as E3. rewrite <- Z3, (Rabs_pos_eq (R64 z * R64 z)) in E3 by lra. apply Rabs_le_iff in E3.
  destruct (add_pos_d (dmul x x) (dmul y y) _ X1 Y1 ltac:(lra) ltac:(lra) eq_refl) as (T1 & T2 & T3 & T4).
  set (t := dadd (dmul x x) (dmul y y)) in *. apply Rabs_le_iff in T4.
  assert (T5 : R64 t <= 2 ^ 102).
  { unfold t. destruct (dadd_R (dmul x x) (dmul y y) X1 Y1) as [A1 A2].
    { rewrite Rabs_pos_eq by lra. rewrite big64_pow. apply Rle_trans with (2 ^ 103); [|apply pow2_le; lia]. replace (2 ^ 103) with (2 ^ 102 + 2 ^ 102) by ring. lra. }
    rewrite A1. eapply Rle_trans; [apply Rle_abs|].
    assert (P102 : 2 ^ 102 = bpow radix2 102). { change 102%Z with (Z.of_nat 102). rewrite bpow_powerRZ, <- pow_powerRZ. reflexivity. }
    rewrite P102. apply rnd64_abs_le_bpow; [lia|]. rewrite Rabs_pos_eq, <- P102 by lra. replace (2 ^ 102) with (4 * 2 ^ 100) by ring. lra. }
  destruct (add_pos_d t (dmul z z) _ T1 Z1 ltac:(lra) ltac:(lra) eq_refl) as (W1 & W2 & W3 & W4).
  set (w := dadd t (dmul z z)) in *. apply Rabs_le_iff in W4.
  set (a := R64 (dmul x x)) in *. set (b := R64 (dmul y y)) in *. set (c := R64 (dmul z z)) in *.
  set (xx := R64 x * R64 x) in *. set (yy := R64 y * R64 y) in *. set (zz := R64 z * R64 z) in *.
  assert (UXY : u64 * xx + u64 * yy + u64 * zz = u64 * S) by (rewrite SE; ring).
  assert (AB0 : 0 <= u64 * xx /\ 0 <= u64 * yy /\ 0 <= u64 * zz) by (repeat split; apply Rmult_le_pos; lra).
  assert (AB : u64 * (a + b) <= 1.01 * (u64 * S)).
  { replace (1.01 * (u64 * S)) with (u64 * (1.01 * S)) by ring. apply Rmult_le_compat_l; lra. }
  assert (TC : u64 * (R64 t + c) <= 1.01 * (u64 * S)).
  { replace (1.01 * (u64 * S)) with (u64 * (1.01 * S)) by ring. apply Rmult_le_compat_l; lra. }
  assert (C : Rabs (R64 w - S) <= 3.1 * (u64 * S)) by (apply Rabs_le_iff; lra).
  assert (WP : 0 <= R64 w) by lra.
  destruct (dsqrt_R w W1 WP) as [Q1 Q2]. change (magnitude_d (x, y, z)) with (dsqrt w) in *.
  pose proof (near_sqrt_d _ _ 3.1 SP ltac:(lra) C) as D. set (rho := sqrt S) in *.
  assert (RP : 0 < rho) by now apply sqrt_lt_R0.
  assert (LR : / IZR (2 ^ 50) <= rho).
  { unfold rho. rewrite <- (sqrt_square (/ IZR (2 ^ 50))) by (left; apply Rinv_0_lt_compat, IZR_lt; lia).
    apply sqrt_le_1_alt. eapply Rle_trans; [|exact LS]. right. rewrite <- Rinv_mult, <- mult_IZR. reflexivity. }
  assert (UR : 0 < u64 * rho) by (apply Rmult_lt_0_compat; lra).
  assert (UR2 : u64 * rho <= / 9007199254740992 * rho) by (apply Rmult_le_compat_r; lra).
  assert (TR : tiny64 <= / 1000 * (u64 * rho)).
  { assert (/ 1000 * u64 * / IZR (2 ^ 50) <= / 1000 * u64 * rho) by (apply Rmult_le_compat_l; lra).
    rewrite <- Rmult_assoc. eapply Rle_trans; [apply tiny64_200|]. eapply Rle_trans; [|eassumption]. unfold u64. cbn. lra. }
  pose proof (rnd64_err (sqrt (R64 w))) as E4. rewrite <- Q1, (Rabs_pos_eq (sqrt _)) in E4 by apply sqrt_pos.
  assert (ME : Rabs (R64 (dsqrt w) - rho) <= 3 * u64 * rho).
  { apply Rabs_le_iff in E4, D. apply Rabs_le_iff.
    assert (sqrt (R64 w) <= 1.01 * rho) by lra.
    pose proof (Rmult_le_compat_l u64 (sqrt (R64 w)) (1.01 * rho) ltac:(lra) ltac:(lra)). lra. }
  assert (CO : forall v, fin v -> rnd64 (R64 v * R64 v) <= R64 w -> Rabs (R64 v) <= R64 (dsqrt w)).
  { intros v Fv Lv. destruct (Rle_lt_dec (bpow radix2 (-60)) (Rabs (R64 v))) as [G|G].
    - eapply Rle_trans; [apply (sqrt_square_ge_d (Rabs (R64 v))); [rewrite <- dabs_R; apply generic_format_B2R|eapply Rle_trans; [|exact G]; apply bpow_le; lia]|].
      rewrite Q1. apply rnd64_le, sqrt_le_1_alt. rewrite <- Rabs_mult, Rabs_pos_eq by nra. exact Lv.
    - apply Rabs_le_iff in ME. assert (bpow radix2 (-60) <= / IZR (2 ^ 59)) by (cbn; lra).
      assert (/ IZR (2 ^ 59) <= / 2 * rho). { apply Rle_trans with (/ 2 * / IZR (2 ^ 50)); [cbn; lra|]. apply Rmult_le_compat_l; lra. }
      lra. }
  constructor; unfold dvx, dvy, dvz; cbn [fst snd]; auto; apply CO; auto.
  - change (rnd64 xx <= R64 w). rewrite <- X3. lra.
  - change (rnd64 yy <= R64 w). rewrite <- Y3. lra.
  - change (rnd64 zz <= R64 w). rewrite <- Z3. lra.
Qed.

Lemma component_R_d x mag rho : fin x -> 0 < rho -> Rabs (R64 mag - rho) <= 3 * u64 * rho -> Rabs (R64 x) <= R64 mag -> Rabs (R64 x) <= rho ->
  fin (ddiv x mag) /\ Rabs (R64 (ddiv x mag)) <= 1 /\ Rabs (R64 (ddiv x mag) - R64 x / rho) <= 4.2 * u64 * Rabs (R64 x / rho) + tiny64.
Proof.
  intros F RP E L LR. pose proof u64_small as U. apply Rabs_le_iff in E. set (q := R64 mag) in *.
  assert (UR : 0 < u64 * rho) by (apply Rmult_lt_0_compat; lra).
  assert (UR2 : u64 * rho <= / 9007199254740992 * rho) by (apply Rmult_le_compat_r; lra).
  assert (QP : 0 < q) by lra.
  assert (B : Rabs (R64 x / q) <= 1).
  { unfold Rdiv. rewrite Rabs_mult, (Rabs_pos_eq (/ q)) by (left; now apply Rinv_0_lt_compat).
    apply Rmult_le_reg_r with q; auto. rewrite Rmult_assoc, Rinv_l by lra. lra. }
  destruct (ddiv_R x mag F) as [D1 D2]; [fold q; lra|fold q; apply fit4; lra|]. fold q in D1. split; auto.
  split. { rewrite D1. change 1 with (bpow radix2 0). apply rnd64_abs_le_bpow; [lia|exact B]. }
  pose proof (rnd64_err (R64 x / q)) as R. rewrite <- D1 in R.
  set (e := R64 x / rho). assert (XE : R64 x = e * rho) by (unfold e; field; lra).
  assert (QE : R64 x / q = e * (rho / q)) by (rewrite XE; field; lra).
  assert (RQ : Rabs (rho / q - 1) <= 3.1 * u64).
  { replace (rho / q - 1) with ((rho - q) * / q) by (field; lra). rewrite Rabs_mult, (Rabs_pos_eq (/ q)) by (left; now apply Rinv_0_lt_compat).
    apply Rmult_le_reg_r with q; auto. rewrite Rmult_assoc, Rinv_l, Rmult_1_r by lra.
    assert (Rabs (rho - q) <= 3 * u64 * rho) by (apply Rabs_le_iff; lra).
    assert (u64 * (rho - 3 * u64 * rho) <= u64 * q) by (apply Rmult_le_compat_l; lra).
    assert (u64 * (u64 * rho) <= / 9007199254740992 * (u64 * rho)) by (apply Rmult_le_compat_r; lra). lra. }
  assert (P1 : Rabs (R64 x / q - e) <= 3.1 * u64 * Rabs e).
  { rewrite QE. replace (e * (rho / q) - e) with ((rho / q - 1) * e) by ring. rewrite Rabs_mult. apply Rmult_le_compat_r; [apply Rabs_pos|exact RQ]. }
  assert (P2 : Rabs (R64 x / q) <= 1.001 * Rabs e).
  { rewrite QE, Rabs_mult, Rmult_comm. apply Rmult_le_compat_r; [apply Rabs_pos|]. apply Rabs_le_iff in RQ. rewrite Rabs_pos_eq; lra. }
  assert (P3 : u64 * Rabs (R64 x / q) <= u64 * (1.001 * Rabs e)) by (apply Rmult_le_compat_l; lra).
  replace (R64 (ddiv x mag) - e) with ((R64 (ddiv x mag) - R64 x / q) + (R64 x / q - e)) by ring.
  eapply Rle_trans; [apply Rabs_triang|].
  assert (0 <= u64 * Rabs e) by (apply Rmult_le_pos; [lra|apply Rabs_pos]). lra.
Qed.
Lemma square_near_d e x : Rabs e <= 1 -> Rabs (x - e) <= 4.2 * u64 * Rabs e + tiny64 -> Rabs (x * x - e * e) <= 8.4 * u64 * (e * e) + / 100 * u64.
Proof.
  intros B E. pose proof u64_small as U. pose proof tiny_u_d as T.
  replace (x * x - e * e) with ((x - e) * (x - e) + 2 * (e * (x - e))) by ring.
  set (d := x - e) in *. pose proof (Rabs_pos e) as P. pose proof (Rabs_pos d) as P'.
  assert (EE : e * e = Rabs e * Rabs e) by (rewrite <- Rabs_mult; symmetry; apply Rabs_pos_eq; nra). rewrite EE.
  set (a := Rabs e) in *. assert (UA : 0 <= u64 * a <= u64) by nra.
  assert (D1 : Rabs d <= 5 * u64) by lra.
  eapply Rle_trans; [apply Rabs_triang|]. rewrite !Rabs_mult. rewrite (Rabs_pos_eq 2) by lra. fold a.
  assert (Q1 : Rabs d * Rabs d <= / 1000 * u64).
  { apply Rle_trans with (5 * u64 * (5 * u64)); [apply Rmult_le_compat; lra|]. nra. }
  assert (Q2 : a * Rabs d <= a * (4.2 * u64 * a + tiny64)) by (apply Rmult_le_compat_l; lra).
  assert (Q3 : a * tiny64 <= 1 * tiny64) by (apply Rmult_le_compat_r; lra).
  replace (a * (4.2 * u64 * a + tiny64)) with (4.2 * u64 * (a * a) + a * tiny64) in Q2 by ring. lra.
Qed.
Lemma normalize_R_d n : ordinary_d n -> unit_vector_d (normalize_d n) /\ same_direction_d (8 * u64) n (normalize_d n) /\ Rabs (dot3_d (normalize_d n) (normalize_d n) - 1) <= 9 * u64.
Proof.
  intros O. destruct (measure_d n O) as [Mf Mp Me Mx My Mz]. destruct n as [[x y] z]. destruct O as ((Fx & Fy & Fz) & _).
  unfold dvx, dvy, dvz, finite64 in *. cbn [fst snd] in *. set (rho := sqrt (sq3_d (x, y, z))) in *.
  assert (RR : rho * rho = R64 x * R64 x + R64 y * R64 y + R64 z * R64 z).
  { unfold rho. rewrite sqrt_sqrt; [reflexivity|]. unfold sq3_d, dvx, dvy, dvz. cbn [fst snd]. nra. }
  assert (N3 : norm3_d (x, y, z) = rho) by reflexivity.
  unfold normalize_d. fold (magnitude_d (x, y, z)). unfold dvx, dvy, dvz. cbn [fst snd].
  change (dsqrt (dadd (dadd (dmul x x) (dmul y y)) (dmul z z))) with (magnitude_d (x, y, z)).
  set (mag := magnitude_d (x, y, z)) in *.
  destruct (is_nan mag) eqn:NN; [destruct mag; discriminate NN || discriminate Mf|].
  assert (Lx : Rabs (R64 x) <= rho) by (apply le_sq_sqrt; unfold sq3_d, dvx, dvy, dvz; cbn [fst snd]; nra).
  assert (Ly : Rabs (R64 y) <= rho) by (apply le_sq_sqrt; unfold sq3_d, dvx, dvy, dvz; cbn [fst snd]; nra).
  assert (Lz : Rabs (R64 z) <= rho) by (apply le_sq_sqrt; unfold sq3_d, dvx, dvy, dvz; cbn [fst snd]; nra).
  destruct (component_R_d x mag rho Fx Mp Me Mx Lx) as (X1 & X2 & X3).
  destruct (component_R_d y mag rho Fy Mp Me My Ly) as (Y1 & Y2 & Y3).
  destruct (component_R_d z mag rho Fz Mp Me Mz Lz) as (Z1 & Z2 & Z3).
  pose proof u64_small as U. pose proof tiny_u_d as T.
  assert (EB : forall a, Rabs a <= rho -> Rabs (a / rho) <= 1).
  { intros a La. unfold Rdiv. rewrite Rabs_mult, (Rabs_pos_eq (/ rho)) by (left; now apply Rinv_0_lt_compat).
    apply Rmult_le_reg_r with rho; auto. rewrite Rmult_assoc, Rinv_l by lra. lra. }
  pose proof (EB _ Lx) as Ex. pose proof (EB _ Ly) as Ey. pose proof (EB _ Lz) as Ez.
  pose proof (square_near_d _ _ Ex X3) as Sx. pose proof (square_near_d _ _ Ey Y3) as Sy. pose proof (square_near_d _ _ Ez Z3) as Sz.
  assert (ONE : R64 x / rho * (R64 x / rho) + R64 y / rho * (R64 y / rho) + R64 z / rho * (R64 z / rho) = 1).
  { replace (_ + _ + _) with ((R64 x * R64 x + R64 y * R64 y + R64 z * R64 z) / (rho * rho)) by (field; lra). rewrite <- RR. field. lra. }
  assert (DD : Rabs (dot3_d (ddiv x mag, ddiv y mag, ddiv z mag) (ddiv x mag, ddiv y mag, ddiv z mag) - 1) <= 9 * u64).
  { unfold dot3_d. cbn [fst snd]. change val64 with R64. apply Rabs_le_iff in Sx, Sy, Sz. apply Rabs_le_iff.
    set (ex := R64 x / rho * (R64 x / rho)) in *. set (ey := R64 y / rho * (R64 y / rho)) in *. set (ez := R64 z / rho * (R64 z / rho)) in *.
    assert (u64 * ex + u64 * ey + u64 * ez = u64) by (rewrite <- (Rmult_1_r u64) at 4; rewrite <- ONE; ring). lra. }
  split; [|split; [|exact DD]].
  - split; [repeat split; assumption|]. split; [|cbn [fst snd]; auto]. eapply Rle_trans; [exact DD|]. rewrite p49_d. unfold u64. lra.
  - unfold same_direction_d. cbn [fst snd]. rewrite N3. change val64 with R64.
    assert (GG : forall a e, Rabs e <= 1 -> a <= 4.2 * u64 * Rabs e + tiny64 -> a <= 8 * u64).
    { intros a e He Ha. pose proof (Rmult_le_compat_l u64 _ _ ltac:(lra) He). lra. }
    split; [exact (GG _ _ Ex X3)|]. split; [exact (GG _ _ Ey Y3)|exact (GG _ _ Ez Z3)].
Qed.
(** Verification does not object to what normalising made. *)
Lemma one_ok_d n : unit_vector_d n -> not_normalized_d n = false /\ fin (magnitude_d n) /\ Rabs (R64 (magnitude_d n) - 1) <= 32 * u64.
Proof.
  intros (F & D & B1 & B2 & B3). pose proof u64_small as U.
  rewrite p49_d in D. apply Rabs_le_iff in D.
  assert (P50 : 1 <= 2 ^ 50) by (rewrite p50_d; apply IZR_le; lia).
  assert (P50' : / 2 ^ 50 <= / 4) by (rewrite p50_d; cbn; lra).
  assert (O : ordinary_d n).
  { split; auto. split; [repeat split; lra|].
    destruct n as [[x y] z]. unfold dot3_d in D. cbn [fst snd] in *. change val64 with R64 in *.
    destruct (Rle_lt_dec (/ 2 ^ 50) (Rabs (R64 x))); auto. destruct (Rle_lt_dec (/ 2 ^ 50) (Rabs (R64 y))); auto. right. right.
    destruct (Rle_lt_dec (/ 2 ^ 50) (Rabs (R64 z))); auto. exfalso.
    assert (G : forall a, Rabs a < / 2 ^ 50 -> a * a <= / 16). { intros a La. assert (K : Rabs a <= / 4) by lra. apply Rabs_le_iff in K. nra. }
    pose proof (G (R64 x) ltac:(assumption)). pose proof (G (R64 y) ltac:(assumption)). pose proof (G (R64 z) ltac:(assumption)). lra. }
  destruct (measure_d n O) as [Mf Mp Me _ _ _]. set (rho := sqrt (sq3_d n)) in *.
  assert (RR : rho * rho = dot3_d n n).
  { unfold rho. rewrite sqrt_sqrt; [reflexivity|]. change (sq3_d n) with (dot3_d n n). lra. }
  assert (RB : 0.999 <= rho <= 1.0001) by nra.
  apply Rabs_le_iff in Me. assert (UR : 0 <= u64 * rho <= 1.0001 * u64) by nra.
  assert (MB : 0.9989 <= R64 (magnitude_d n) <= 1.0002) by lra.
  assert (RB' : 1 - 20 * u64 <= rho <= 1 + 20 * u64) by nra.
  assert (MB' : Rabs (1 - R64 (magnitude_d n)) <= 30 * u64) by (apply Rabs_le_iff; lra).
  split; [|split; [exact Mf|rewrite Rabs_minus_sym; lra]].
  unfold not_normalized_d. destruct d1_R as [O1 O2].
  destruct (dsub_R d1 (magnitude_d n) O2 Mf) as [S1 S2]; [rewrite O1; apply fit4; lra|]. rewrite O1 in S1.
  destruct (dlit_R 1 1000 ltac:(lia) ltac:(lia)) as [L1 L2].
  rewrite dlt_R; auto; [|now rewrite dabs_fin]. apply Rlt_bool_false. rewrite dabs_R, S1, L1.
  pose proof (rnd64_err (1 - R64 (magnitude_d n))) as E1. pose proof (rnd64_err (1 / 1000)) as E2. rewrite (Rabs_pos_eq (1 / 1000)) in E2 by lra.
  pose proof tiny_u_d. apply Rabs_le_iff in E2.
  assert (Rabs (rnd64 (1 - R64 (magnitude_d n))) <= 40 * u64).
  { apply Rabs_le_iff in E1, MB'. apply Rabs_le_iff.
    assert (K : Rabs (1 - R64 (magnitude_d n)) <= 1) by (apply Rabs_le_iff; lra).
    pose proof (Rmult_le_compat_l u64 _ _ ltac:(lra) K). lra. }
  assert (u64 * (1 / 1000) <= / 9007199254740992 * / 1000) by nra. unfold u64 in *. lra.
Qed.

(** ** Vectors that are too small, too large or not numbers *)
Lemma dmul_small x : fin x -> Rabs (R64 x) <= / 2 ^ 538 -> R64 (dmul x x) = 0 /\ fin (dmul x x).
Proof.
  intros F B. assert (Q : R64 x * R64 x <= / 2 ^ 538 * / 2 ^ 538).
  { replace (R64 x * R64 x) with (Rabs (R64 x) * Rabs (R64 x)) by (rewrite <- Rabs_mult; apply Rabs_pos_eq; nra). apply Rmult_le_compat; auto; apply Rabs_pos. }
  assert (P : / 2 ^ 538 * / 2 ^ 538 = bpow radix2 (-1076)).
  { rewrite <- Rinv_mult, <- pow_add. change (538 + 538)%nat with 1076%nat. change (-1076)%Z with (- (1076))%Z. rewrite bpow_opp. f_equal.
    change 1076%Z with (Z.of_nat 1076). rewrite bpow_powerRZ, <- pow_powerRZ. reflexivity. }
  assert (S : 0 <= R64 x * R64 x) by nra.
  destruct (dmul_R x x F F) as [M1 M2].
  { rewrite Rabs_pos_eq by auto. eapply Rle_trans; [exact Q|]. rewrite P. unfold big64. apply bpow_le. lia. }
  split; auto. rewrite M1. destruct (Req_dec (R64 x * R64 x) 0) as [->|NZ]; [apply rnd64_0|].
  apply (round_N_small_pos radix2 fexp64 _ _ (mag radix2 (R64 x * R64 x))).
  - pose proof (bpow_mag_le radix2 _ NZ) as G1. pose proof (bpow_mag_gt radix2 (R64 x * R64 x)) as G2. rewrite Rabs_pos_eq in G1, G2 by auto. auto.
  - assert (mag radix2 (R64 x * R64 x) <= -1075)%Z.
    { apply mag_le_bpow; auto. rewrite Rabs_pos_eq by auto. eapply Rle_lt_trans; [exact Q|]. rewrite P. apply bpow_lt. lia. }
    unfold fexp64, SpecFloat.fexp. cbn. lia.
Qed.
Lemma zero_or_d x : fin x -> R64 x = 0 -> exists s, x = B754_zero s.
Proof.
  intros F Z. destruct x as [s|s| |s m e H0]; try discriminate F; [now exists s|]. exfalso. revert Z. unfold R64, B2R.
  destruct s; cbn [cond_Zopp]; intros Z; apply eq_0_F2R in Z; discriminate Z.
Qed.

Lemma zeros_magnitude_d x y z : (exists s, dmul x x = B754_zero s) -> (exists s, dmul y y = B754_zero s) -> (exists s, dmul z z = B754_zero s) ->
  exists s, magnitude_d (x, y, z) = B754_zero s.
Proof.
  intros [a A] [b B] [c C]. unfold magnitude_d, dvx, dvy, dvz. cbn [fst snd]. rewrite A, B, C. destruct a, b, c; eexists; reflexivity.
Qed.
Lemma normalize_by_d x y z mag : magnitude_d (x, y, z) = mag -> is_nan mag = false -> normalize_d (x, y, z) = (ddiv x mag, ddiv y mag, ddiv z mag).
Proof. intros E NN. unfold normalize_d, dvx, dvy, dvz. cbn [fst snd]. change (dsqrt (dadd (dadd (dmul x x) (dmul y y)) (dmul z z))) with (magnitude_d (x, y, z)). now rewrite E, NN. Qed.
Lemma div_zero_d x s : fin x -> (R64 x = 0 -> ddiv x (B754_zero s) = B754_nan) /\ (R64 x <> 0 -> exists t, ddiv x (B754_zero s) = B754_infinity t).
Proof.
  intros F. destruct x as [t|t| |t m e H0]; try discriminate F.
  - split; [reflexivity|]. intros NZ. now destruct NZ.
  - split; [|intros _; eexists; reflexivity]. intros Z. destruct (zero_or_d _ F Z) as [u E]. discriminate E.
Qed.
Lemma dmul_huge x : fin x -> 2 ^ 512 <= Rabs (R64 x) -> dmul x x = B754_infinity false.
Proof.
  intros F B. pose proof (Bmult_correct 53 1024 gt0_53 lt_53_1024 mode_NE x x) as C. cbn [round_mode] in C.
  assert (Q : bpow radix2 1024 <= R64 x * R64 x).
  { replace (R64 x * R64 x) with (Rabs (R64 x) * Rabs (R64 x)) by (rewrite <- Rabs_mult; apply Rabs_pos_eq; nra).
    replace (bpow radix2 1024) with (2 ^ 512 * 2 ^ 512). { assert (0 < 2 ^ 512) by (apply pow_lt; lra). apply Rmult_le_compat; lra. }
    rewrite <- pow_add. change (512 + 512)%nat with 1024%nat. change 1024%Z with (Z.of_nat 1024). rewrite bpow_powerRZ, <- pow_powerRZ. reflexivity. }
  rewrite Rlt_bool_false in C.
  - rewrite xorb_nilpotent in C. change (binary_overflow 53 1024 mode_NE false) with (SpecFloat.S754_infinity false) in C.
    fold (dmul x x) in C. destruct (dmul x x); cbn in C; congruence.
  - apply Rle_trans with (rnd64 (R64 x * R64 x)); [|apply Rle_abs].
    assert (E : rnd64 (bpow radix2 1024) = bpow radix2 1024).
    { apply round_generic; [auto with typeclass_instances|]. apply generic_format_bpow. cbn. lia. }
    rewrite <- E. now apply rnd64_le.
Qed.
(** A sum of squares: a number that is not negative, or infinity. *)
Definition large_d (x : f64) : Prop := x = B754_infinity false \/ fin x /\ 0 <= R64 x.
Lemma large_square_d x : fin x -> large_d (dmul x x).
Proof.
  intros F. pose proof (Bmult_correct 53 1024 gt0_53 lt_53_1024 mode_NE x x) as C. cbn [round_mode] in C.
  destruct (Rlt_bool _ _).
  - right. destruct C as (C1 & C2 & _). split; [unfold dmul; now rewrite C2, F|]. unfold R64 at 1, dmul. rewrite C1.
    change (0 <= rnd64 (R64 x * R64 x)). rewrite <- rnd64_0. apply rnd64_le. nra.
  - left. rewrite xorb_nilpotent in C. change (binary_overflow 53 1024 mode_NE false) with (SpecFloat.S754_infinity false) in C.
    fold (dmul x x) in C. destruct (dmul x x); cbn in C; congruence.
Qed.
Lemma large_add_d x y : large_d x -> large_d y -> large_d (dadd x y).
Proof.
  intros [->|[Fx Px]] [->|[Fy Py]].
  - left. reflexivity.
  - left. destruct y; try discriminate Fy; reflexivity.
  - left. destruct x; try discriminate Fx; reflexivity.
  - pose proof (Bplus_correct 53 1024 gt0_53 lt_53_1024 mode_NE x y Fx Fy) as C. cbn [round_mode] in C.
    destruct (Rlt_bool _ _) eqn:RL.
    + right. destruct C as (C1 & C2 & _). split; [exact C2|]. unfold R64 at 1, dadd. rewrite C1.
      change (0 <= rnd64 (R64 x + R64 y)). rewrite <- rnd64_0. apply rnd64_le. lra.
    + left. destruct C as [C S].
      assert (SX : Bsign x = false).
      { destruct (Bsign x) eqn:E; auto. exfalso. symmetry in S. rename S into Sy.
        assert (NEG : forall v : f64, fin v -> Bsign v = true -> R64 v <= 0).
        { intros v Fv Sv. destruct v as [sv|sv| |sv m e H0]; try discriminate Fv; cbn in Sv; subst; [cbn; lra|].
          unfold R64, B2R. cbn [cond_Zopp]. left. now apply F2R_lt_0. }
        pose proof (NEG x Fx E). pose proof (NEG y Fy Sy). assert (SUM : R64 x + R64 y = 0) by lra.
        assert (RL' : Rlt_bool (Rabs (rnd64 (R64 x + R64 y))) (bpow radix2 1024) = true).
        { rewrite SUM, rnd64_0, Rabs_R0. apply Rlt_bool_true, bpow_gt_0. }
        unfold R64 in RL'. change (Rlt_bool (Rabs (rnd64 (B2R x + B2R y))) (bpow radix2 1024) = false) in RL. congruence. }
      rewrite SX in C. change (binary_overflow 53 1024 mode_NE false) with (SpecFloat.S754_infinity false) in C.
      fold (dadd x y) in C. destruct (dadd x y); cbn in C; congruence.
Qed.
Lemma inf_add_d x : large_d x -> dadd (B754_infinity false) x = B754_infinity false /\ dadd x (B754_infinity false) = B754_infinity false.
Proof. intros [->|[F _]]; [split; reflexivity|]. destruct x; try discriminate F; split; reflexivity. Qed.
Lemma huge_magnitude_d x y z : fin x -> fin y -> fin z -> 2 ^ 512 <= Rabs (R64 x) \/ 2 ^ 512 <= Rabs (R64 y) \/ 2 ^ 512 <= Rabs (R64 z) ->
  magnitude_d (x, y, z) = B754_infinity false.
Proof.
  intros Fx Fy Fz D. unfold magnitude_d, dvx, dvy, dvz. cbn [fst snd].
  assert (G : dadd (dadd (dmul x x) (dmul y y)) (dmul z z) = B754_infinity false).
  { destruct D as [D|[D|D]]; apply dmul_huge in D; auto; rewrite D.
    - rewrite (proj1 (inf_add_d _ (large_square_d y Fy))). now apply inf_add_d, large_square_d.
    - rewrite (proj2 (inf_add_d _ (large_square_d x Fx))). now apply inf_add_d, large_square_d.
    - now apply inf_add_d, large_add_d; apply large_square_d. }
  now rewrite G.
Qed.
Lemma div_inf_d x : fin x -> exists s, ddiv x (B754_infinity false) = B754_zero s.
Proof. intros F. destruct x; try discriminate F; eexists; reflexivity. Qed.
Lemma zeros_off_d a b c : not_normalized_d (B754_zero a, B754_zero b, B754_zero c) = true.
Proof. destruct a, b, c; vm_compute; reflexivity. Qed.
Lemma nan_magnitude_d x y z : is_nan x = true \/ is_nan y = true \/ is_nan z = true -> magnitude_d (x, y, z) = B754_nan.
Proof.
  intros D. unfold magnitude_d, dvx, dvy, dvz. cbn [fst snd].
  assert (M : forall v, is_nan v = true -> dmul v v = B754_nan) by (intros v V; destruct v; try discriminate V; reflexivity).
  assert (A1 : forall v, dadd B754_nan v = B754_nan) by (intros v; destruct v; reflexivity).
  assert (A2 : forall v, dadd v B754_nan = B754_nan) by (intros v; destruct v; reflexivity).
  destruct D as [D|[D|D]]; apply M in D; rewrite D, ?A1, ?A2, ?A1; reflexivity.
Qed.
Lemma nan_passes_d x y z : is_nan x = true \/ is_nan y = true \/ is_nan z = true -> not_normalized_d (x, y, z) = false.
Proof. intros D. unfold not_normalized_d. rewrite (nan_magnitude_d x y z D). reflexivity. Qed.
