(** How far a stored normal is from the original. *)
From Coq Require Import List NArith ZArith Arith Lia Bool Reals Lra Psatz.
From Flocq Require Import Core IEEE754.BinarySingleNaN.
From Verif Require Import Base UnalignedRW ReadExt Floats Floats_proofs FloatReal_proofs ValueSpec Log2_proofs Trig_proofs
  Utilis Normals Save_proofs Codec_proofs Quant_proofs.
Import ListNotations.
Local Open Scope R_scope.

Definition H : R := 13176795 / 8388608.
Lemma H_bounds : 1.5707963 < H < 1.5707964. Proof. unfold H. lra. Qed.
Lemma u32_small : 0 < u32 <= / 16777216. Proof. unfold u32. lra. Qed.
Lemma tiny_u : 0 < tiny32 <= / 1000 * u32.
Proof. pose proof tiny32_bound. unfold u32. split; [tauto|]. cbn in *. lra. Qed.
Lemma half_pi_is : R32 half_pi = H /\ fin half_pi.
Proof.
  replace half_pi with f32_FRAC_PI_2 by (apply B2SF_inj; vm_compute; reflexivity). apply half_pi_R.
Qed.
Lemma rnd32_err1 x : Rabs x <= 1 -> Rabs (rnd32 x - x) <= 1.001 * u32.
Proof.
  intros B. eapply Rle_trans; [apply rnd32_err|]. pose proof tiny_u. pose proof u32_small. pose proof (Rabs_pos x). nra.
Qed.
Lemma rnd32_err2 x : Rabs x <= 2 -> Rabs (rnd32 x - x) <= 2.001 * u32.
Proof.
  intros B. eapply Rle_trans; [apply rnd32_err|]. pose proof tiny_u. pose proof u32_small. pose proof (Rabs_pos x). nra.
Qed.
Lemma rnd32_H : rnd32 H = H.
Proof. destruct half_pi_is as [A _]. rewrite <- A. apply rnd32_R32. Qed.
Lemma rnd32_1 : rnd32 1 = 1. Proof. apply (rnd32_Z 1). lia. Qed.
Lemma fits1 x : 0 <= x <= 1 -> Rabs x <= big32.
Proof. intros. apply fits32, Rabs_le_iff. lra. Qed.

(** ** Decoding *)
Definition sg (b : bool) : R := if b then -1 else 1.
Lemma sg_R (b : bool) x : R32 (if b then fneg x else x) = sg b * R32 x.
Proof. destruct b; unfold sg; [rewrite fneg_R|]; lra. Qed.
Lemma sg_fin (b : bool) x : is_finite (if b then fneg x else x) = is_finite x.
Proof. destruct b; [apply fneg_fin|reflexivity]. Qed.

(** The cosine-like factor sqrt(1 - z*z) as computed. *)
Lemma radius_R z : fin z -> 0 <= R32 z <= 1 ->
  let rf := fsqrt (fsub f1 (fmul z z)) in
  fin rf /\ 0 <= R32 rf <= 1 /\ Rabs (R32 rf * R32 rf - (1 - R32 z * R32 z)) <= 6 * u32.
Proof.
  intros F B rf. pose proof u32_small as U.
  assert (Z2 : 0 <= R32 z * R32 z <= 1) by nra.
  destruct (fmul_R z z F F) as [M1 M2]; [now apply fits1|].
  assert (MB : 0 <= R32 (fmul z z) <= 1).
  { rewrite M1. apply rnd32_between; [apply rnd32_0|apply rnd32_1|exact Z2]. }
  destruct f1_R as [O1 O2].
  destruct (fsub_R f1 (fmul z z) O2 M2) as [S1 S2]; [rewrite O1; apply fits1; lra|].
  rewrite O1 in S1.
  assert (SB : 0 <= R32 (fsub f1 (fmul z z)) <= 1).
  { rewrite S1. apply rnd32_between; [apply rnd32_0|apply rnd32_1|lra]. }
  destruct (fsqrt_R _ S2 (proj1 SB)) as [Q1 Q2]. fold rf in Q1, Q2.
  set (w := R32 (fsub f1 (fmul z z))) in *.
  assert (QB : 0 <= sqrt w <= 1).
  { split; [apply sqrt_pos|]. rewrite <- sqrt_1. apply sqrt_le_1_alt. lra. }
  assert (RB : 0 <= R32 rf <= 1).
  { rewrite Q1. apply rnd32_between; [apply rnd32_0|apply rnd32_1|exact QB]. }
  split; [exact Q2|]. split; [exact RB|].
  pose proof (rnd32_err1 (R32 z * R32 z)) as E1. rewrite (Rabs_pos_eq (R32 z * R32 z)) in E1 by lra.
  rewrite <- M1 in E1. specialize (E1 (proj2 Z2)).
  pose proof (rnd32_err1 (1 - R32 (fmul z z))) as E2. rewrite (Rabs_pos_eq (1 - _)) in E2 by lra.
  rewrite <- S1 in E2. fold w in E2.
  assert (E2' := E2 ltac:(lra)). clear E2.
  pose proof (rnd32_err1 (sqrt w)) as E3. rewrite (Rabs_pos_eq (sqrt w)) in E3 by lra.
  rewrite <- Q1 in E3. specialize (E3 (proj2 QB)).
  assert (W : sqrt w * sqrt w = w) by (apply sqrt_sqrt; lra).
  apply Rabs_le_iff in E1, E2', E3. set (r := R32 rf) in *. set (q := sqrt w) in *.
  assert (E4 : Rabs (r * r - w) <= 2.01 * u32).
  { rewrite <- W. replace (r * r - q * q) with ((r - q) * (r + q)) by ring.
    rewrite Rabs_mult. rewrite (Rabs_pos_eq (r + q)) by lra.
    assert (Rabs (r - q) <= 1.001 * u32) by (apply Rabs_le_iff; lra).
    pose proof (Rabs_pos (r - q)). nra. }
  apply Rabs_le_iff in E4. apply Rabs_le_iff. lra.
Qed.

Record decoded (p : nat) (c : ncode) (n : vec3) (th z rf : R) : Prop := {
  de_fin : finite3 n;
  de_z01 : 0 <= z <= 1;
  de_z : Rabs (z - IZR (Z.of_N (n_z c)) / IZR (steps p)) <= 2 * u32;
  de_r01 : 0 <= rf <= 1;
  de_r : Rabs (rf * rf - (1 - z * z)) <= 6 * u32;
  de_th0 : 0 <= th <= H;
  de_th : Rabs (th - IZR (Z.of_N (n_asine c)) / IZR (steps p) * H) <= 6 * u32;
  de_vx : exists X, R32 (vx n) = sg (n_sx c) * X /\ Rabs (X - sin th * rf) <= 18 * u32;
  de_vy : exists Y, R32 (vy n) = sg (n_sy c) * Y /\ Rabs (Y - cos th * rf) <= 18 * u32;
  de_vz : R32 (vz n) = sg (n_sz c) * z }.

Lemma mul_trig s t rf : fin s -> fin rf -> 0 <= R32 rf <= 1 -> Rabs t <= 1 -> Rabs (R32 s - t) <= 16 * u32 ->
  fin (fmul s rf) /\ Rabs (R32 (fmul s rf) - t * R32 rf) <= 18 * u32.
Proof.
  intros Fs Fr Br Bt E. pose proof u32_small as U. apply Rabs_le_iff in Bt. apply Rabs_le_iff in E.
  assert (B : Rabs (R32 s * R32 rf) <= 1.001).
  { rewrite Rabs_mult, (Rabs_pos_eq (R32 rf)) by lra. assert (Rabs (R32 s) <= 1.001) by (apply Rabs_le_iff; lra).
    pose proof (Rabs_pos (R32 s)). nra. }
  destruct (fmul_R s rf Fs Fr) as [A1 A2]; [apply fits32; lra|]. split; [exact A2|]. rewrite A1.
  assert (E1 : Rabs (rnd32 (R32 s * R32 rf) - R32 s * R32 rf) <= 1.1 * u32).
  { eapply Rle_trans; [apply rnd32_err|]. pose proof tiny_u. nra. }
  apply Rabs_le_iff in E1. apply Rabs_le_iff.
  assert (- 16 * u32 <= (R32 s - t) * R32 rf <= 16 * u32) by nra. lra.
Qed.

Lemma decode_R lm p c : (1 <= p <= 24)%nat -> sin_cos_ok lm ->
  (Z.of_N (n_asine c) <= steps p)%Z -> (Z.of_N (n_z c) <= steps p)%Z ->
  exists th z rf, decoded p c (normal_from_encoding lm c p) th z rf.
Proof.
  intros B SC Ha Hz. pose proof u32_small as U. pose proof H_bounds as HB.
  unfold normal_from_encoding. destruct (Nat.eqb_spec p 0) as [E|_]; [lia|]. cbv zeta.
  destruct (value32_R p (n_asine c) B Ha) as (_ & A2 & A3 & A4). cbv zeta in *.
  destruct (value32_R p (n_z c) B Hz) as (_ & Z2 & Z3 & Z4). cbv zeta in *.
  set (a := fdiv (f32_of_N (n_asine c)) (f32_of_N (mask_u64 p))) in *.
  set (z := fdiv (f32_of_N (n_z c)) (f32_of_N (mask_u64 p))) in *.
  destruct half_pi_is as [P1 P2].
  assert (AB : 0 <= R32 a * H <= H) by nra.
  destruct (fmul_R a half_pi A2 P2) as [T1 T2]; [rewrite P1; apply fits32, Rabs_le_iff; lra|].
  rewrite P1 in T1. set (th := fmul a half_pi) in *.
  assert (TB : 0 <= R32 th <= H).
  { rewrite T1. apply rnd32_between; [apply rnd32_0|apply rnd32_H|exact AB]. }
  destruct (SC th T2) as (S1 & S2 & S3 & S4); [change (val th) with (R32 th); lra|].
  destruct (m_sin_cos lm th) as [sf cf]. cbn [fst snd] in *.
  destruct (radius_R z Z2 Z3) as (R1 & R2 & R3). cbv zeta in *.
  set (rf := fsqrt (fsub f1 (fmul z z))) in *.
  change val with R32 in *.
  assert (E20 : / 2 ^ 20 = 16 * u32) by (unfold u32; simpl pow; lra). rewrite E20 in S3, S4.
  destruct (mul_trig sf (sin (R32 th)) rf) as [X1 X2]; auto.
  { pose proof (SIN_bound (R32 th)). apply Rabs_le_iff. lra. }
  destruct (mul_trig cf (cos (R32 th)) rf) as [Y1 Y2]; auto.
  { pose proof (COS_bound (R32 th)). apply Rabs_le_iff. lra. }
  exists (R32 th), (R32 z), (R32 rf). constructor; auto.
  - unfold finite3, finite. cbn [fst snd]. rewrite !sg_fin. auto.
  - pose proof (rnd32_err2 (R32 a * H)) as E. rewrite (Rabs_pos_eq (R32 a * H)) in E by lra. rewrite <- T1 in E.
    specialize (E ltac:(lra)). apply Rabs_le_iff in E, A4. apply Rabs_le_iff. nra.
  - exists (R32 (fmul sf rf)). split; [apply sg_R|exact X2].
  - exists (R32 (fmul cf rf)). split; [apply sg_R|exact Y2].
  - apply sg_R.
Qed.

(** ** Encoding *)

Lemma sq_minus a b k : (a - k * b * a) * (a - k * b * a) = a * a - 2 * k * (b * (a * a)) + k * k * (b * (b * (a * a))).
Proof. ring. Qed.
Lemma sq_plus a b k : (a + k * b * a) * (a + k * b * a) = a * a + 2 * k * (b * (a * a)) + k * k * (b * (b * (a * a))).
Proof. ring. Qed.
(** The length of the projection to the xy plane as computed. *)
Lemma projection_R (x y : f32) : fin x -> fin y -> 0 <= R32 x <= 1 -> 0 <= R32 y <= 1 ->
  / IZR (2 ^ 60) <= R32 x * R32 x + R32 y * R32 y ->
  let xy := fsqrt (fadd (fmul x x) (fmul y y)) in
  let rho := sqrt (R32 x * R32 x + R32 y * R32 y) in
  fin xy /\ 0 < rho /\ Rabs (R32 xy - rho) <= 3 * u32 * rho /\ (bpow radix2 (-60) <= R32 x -> R32 x <= R32 xy).
Proof.
  intros Fx Fy Bx By L xy rho. pose proof u32_small as U. pose proof tiny32_bound as [T0 T1].
  set (X := R32 x) in *. set (Y := R32 y) in *. set (S := X * X + Y * Y) in *.
  assert (T2 : tiny32 <= / 1000 * (u32 * S)).
  { assert (/ 1000 * u32 * / IZR (2 ^ 60) <= / 1000 * u32 * S) by (apply Rmult_le_compat_l; lra).
    eapply Rle_trans; [exact T1|]. rewrite <- Rmult_assoc. eapply Rle_trans; [|eassumption]. unfold u32. cbn. lra. }
  assert (X2 : 0 <= X * X <= 1) by nra. assert (Y2 : 0 <= Y * Y <= 1) by nra.
  destruct (fmul_R x x Fx Fx) as [M1 M2]; [now apply fits1|].
  destruct (fmul_R y y Fy Fy) as [N1 N2]; [now apply fits1|].
  fold X in M1. fold Y in N1.
  assert (MB : 0 <= R32 (fmul x x) <= 1).
  { rewrite M1. apply rnd32_between; [apply rnd32_0|apply rnd32_1|exact X2]. }
  assert (NB : 0 <= R32 (fmul y y) <= 1).
  { rewrite N1. apply rnd32_between; [apply rnd32_0|apply rnd32_1|exact Y2]. }
  destruct (fadd_R _ _ M2 N2) as [A1 A2]; [apply fits32, Rabs_le_iff; lra|].
  assert (AB : 0 <= R32 (fadd (fmul x x) (fmul y y))).
  { rewrite A1, <- rnd32_0. apply rnd32_le. lra. }
  destruct (fsqrt_R _ A2 AB) as [Q1 Q2]. fold xy in Q1, Q2.
  set (m := R32 (fmul x x)) in *. set (n := R32 (fmul y y)) in *.
  set (s := R32 (fadd (fmul x x) (fmul y y))) in *.
  assert (SP : 0 < S). { assert (0 < / IZR (2 ^ 60)) by (apply Rinv_0_lt_compat, IZR_lt; lia). lra. }
  assert (RP : 0 < rho) by (apply sqrt_lt_R0; exact SP).
  assert (RR : rho * rho = S) by (apply sqrt_sqrt; lra).
  pose proof (rnd32_err (X * X)) as E1. rewrite <- M1, (Rabs_pos_eq (X * X)) in E1 by lra.
  pose proof (rnd32_err (Y * Y)) as E2. rewrite <- N1, (Rabs_pos_eq (Y * Y)) in E2 by lra.
  pose proof (rnd32_err (m + n)) as E3. rewrite <- A1, (Rabs_pos_eq (m + n)) in E3 by lra.
  apply Rabs_le_iff in E1, E2, E3.
  assert (C : Rabs (s - S) <= 2.1 * (u32 * S)).
  { assert (Rabs (m + n - S) <= 1.01 * (u32 * S)) as E4 by (apply Rabs_le_iff; unfold S in *; lra).
    apply Rabs_le_iff in E4. apply Rabs_le_iff.
    assert (u32 * (m + n) <= 1.01 * (u32 * S)).
    { assert (m + n <= 1.01 * S) by (pose proof (Rmult_le_compat_r S u32 (/ 16777216) ltac:(lra) (proj2 U)); lra).
      pose proof (Rmult_le_compat_l u32 (m + n) (1.01 * S) ltac:(lra) ltac:(lra)). lra. }
    lra. }
  assert (US : 0 < u32 * S) by (apply Rmult_lt_0_compat; lra).
  assert (UR : 0 < u32 * rho) by (apply Rmult_lt_0_compat; lra).
  assert (UR2 : u32 * rho <= / 16777216 * rho) by (apply Rmult_le_compat_r; lra).
  assert (UUS : 0 <= u32 * (u32 * S)) by (apply Rmult_le_pos; lra).
  assert (UUS2 : u32 * (u32 * S) <= / 16777216 * (u32 * S)) by (apply Rmult_le_compat_r; lra).
  assert (D : Rabs (sqrt s - rho) <= 1.1 * u32 * rho).
  { apply Rabs_le_iff in C. split_Rabs.
    - idtac. assert (rho - 1.1 * u32 * rho <= sqrt s); [|lra].
      rewrite <- (sqrt_square (rho - 1.1 * u32 * rho)) by lra. apply sqrt_le_1_alt.
      rewrite sq_minus, RR.
      lra.
    - assert (sqrt s <= rho + 1.1 * u32 * rho); [|lra].
      rewrite <- (sqrt_square (rho + 1.1 * u32 * rho)) by lra. apply sqrt_le_1_alt.
      rewrite sq_plus, RR.
      lra. }
  split; [exact Q2|]. split; [exact RP|].
  assert (R40 : / IZR (2 ^ 30) <= rho).
  { unfold rho. rewrite <- (sqrt_square (/ IZR (2 ^ 30))) by (left; apply Rinv_0_lt_compat, IZR_lt; lia).
    apply sqrt_le_1_alt. eapply Rle_trans; [|exact L]. right. rewrite <- Rinv_mult.
    rewrite <- mult_IZR. reflexivity. }
  split.
  - pose proof (rnd32_err (sqrt s)) as E4. rewrite <- Q1, (Rabs_pos_eq (sqrt s)) in E4 by apply sqrt_pos.
    assert (tiny32 <= / 1000 * (u32 * rho)).
    { assert (/ 1000 * u32 * / IZR (2 ^ 30) <= / 1000 * u32 * rho) by (apply Rmult_le_compat_l; lra).
      eapply Rle_trans; [exact T1|]. rewrite <- Rmult_assoc. eapply Rle_trans; [|eassumption]. unfold u32. cbn. lra. }
    apply Rabs_le_iff in E4, D. apply Rabs_le_iff.
    assert (sqrt s <= 1.01 * rho) by lra.
    pose proof (Rmult_le_compat_l u32 (sqrt s) (1.01 * rho) ltac:(lra) ltac:(lra)). lra.
  - intros LX. eapply Rle_trans; [apply (sqrt_square_ge X); [apply generic_format_B2R|exact LX]|].
    rewrite Q1. apply rnd32_le. apply sqrt_le_1_alt. rewrite A1.
    rewrite <- M1. rewrite <- (rnd32_R32 (fmul x x) : rnd32 m = m) at 1. apply rnd32_le. lra.
Qed.

(** The ratio whose arc sine is taken. *)
Lemma ratio_R (x y : f32) : fin x -> fin y -> 0 <= R32 x <= 1 -> 0 <= R32 y <= 1 ->
  / IZR (2 ^ 60) <= R32 x * R32 x + R32 y * R32 y ->
  let r := fdiv x (fsqrt (fadd (fmul x x) (fmul y y))) in
  let rho := sqrt (R32 x * R32 x + R32 y * R32 y) in
  fin r /\ 0 <= R32 r <= 1 /\ Rabs (R32 x / rho - R32 r) <= 5 * u32.
Proof.
  intros Fx Fy Bx By L r rho. pose proof u32_small as U.
  destruct (projection_R x y Fx Fy Bx By L) as (P1 & P2 & P3 & P4). cbv zeta in *.
  fold rho in P2, P3. set (xy := fsqrt (fadd (fmul x x) (fmul y y))) in *.
  set (X := R32 x) in *. set (W := R32 xy) in *. apply Rabs_le_iff in P3.
  assert (WP : 0 < W) by nra.
  assert (XR : X <= rho).
  { unfold rho. rewrite <- (sqrt_square X) at 1 by lra. apply sqrt_le_1_alt. nra. }
  assert (XW : 0 <= X / W <= 1.001).
  { split; [apply Rmult_le_pos; [lra|left; now apply Rinv_0_lt_compat]|].
    apply Rmult_le_reg_r with W; auto. unfold Rdiv. rewrite Rmult_assoc, Rinv_l by lra. nra. }
  assert (XQ : 0 <= X / rho <= 1).
  { split; [apply Rmult_le_pos; [lra|left; now apply Rinv_0_lt_compat]|].
    apply Rmult_le_reg_r with rho; auto. unfold Rdiv. rewrite Rmult_assoc, Rinv_l by lra. lra. }
  destruct (fdiv_R x xy Fx) as [D1 D2].
  { fold W. lra. }
  { fold X W. apply fits32, Rabs_le_iff. lra. }
  fold r in D1, D2. fold X W in D1.
  assert (DE : Rabs (X / W - X / rho) <= 3.1 * u32).
  { replace (X / W - X / rho) with ((X / rho) * ((rho - W) / W)) by (field; lra).
    rewrite Rabs_mult, (Rabs_pos_eq (X / rho)) by lra.
    assert (Rabs ((rho - W) / W) <= 3.1 * u32).
    { unfold Rdiv. rewrite Rabs_mult, Rabs_inv, (Rabs_pos_eq W) by lra. apply Rmult_le_reg_r with W; auto.
      rewrite Rmult_assoc, Rinv_l, Rmult_1_r by lra. apply Rabs_le_iff. nra. }
    pose proof (Rabs_pos ((rho - W) / W)). nra. }
  pose proof (rnd32_err2 (X / W)) as E. rewrite <- D1, (Rabs_pos_eq (X / W)) in E by lra.
  assert (E' : Rabs (R32 r - X / W) <= 1.1 * u32).
  { rewrite D1. eapply Rle_trans; [apply rnd32_err|]. rewrite (Rabs_pos_eq (X / W)) by lra. pose proof tiny_u. nra. }
  split; [exact D2|].
  assert (RN : 0 <= R32 r). { rewrite D1, <- rnd32_0. apply rnd32_le. lra. }
  apply Rabs_le_iff in DE, E'. split; [|apply Rabs_le_iff; lra]. split; [exact RN|].
  destruct (Rle_lt_dec (bpow radix2 (-60)) X) as [G|G].
  - rewrite D1. rewrite <- rnd32_1. apply rnd32_le. specialize (P4 G).
    apply Rmult_le_reg_r with W; auto. unfold Rdiv. rewrite Rmult_assoc, Rinv_l by lra. lra.
  - assert (R40 : / IZR (2 ^ 30) <= rho).
    { unfold rho. rewrite <- (sqrt_square (/ IZR (2 ^ 30))) by (left; apply Rinv_0_lt_compat, IZR_lt; lia).
      apply sqrt_le_1_alt. eapply Rle_trans; [|exact L]. right. rewrite <- Rinv_mult.
      rewrite <- mult_IZR. reflexivity. }
    assert (X / rho <= / 2).
    { apply Rmult_le_reg_r with rho; auto. unfold Rdiv. rewrite Rmult_assoc, Rinv_l by lra.
      change (bpow radix2 (-60)) with (/ IZR (2 ^ 60)) in G. cbn in *. lra. }
    lra.
Qed.

(** The angle code: within H/(2^p-1) of the true angle, up to rounding. *)
Lemma angle_code p (mul A : f32) : (1 <= p <= 24)%nat -> R32 mul = IZR (steps p) -> fin mul ->
  fin A -> 0 <= R32 A <= H ->
  let q := u64_of_f32 (fmul (fdiv A half_pi) mul) in
  low p q = q /\ (Z.of_N q <= steps p)%Z /\
  Rabs (IZR (Z.of_N q) / IZR (steps p) * H - R32 A) <= H * (/ IZR (steps p) + 4 * u32).
Proof.
  intros B M1 M2 F HA q. pose proof u32_small as U. pose proof H_bounds as HB.
  destruct half_pi_is as [P1 P2].
  assert (AH : 0 <= R32 A / H <= 1).
  { split; [apply Rmult_le_pos; [lra|left; apply Rinv_0_lt_compat; lra]|].
    apply Rmult_le_reg_r with H; [lra|]. unfold Rdiv. rewrite Rmult_assoc, Rinv_l by lra. lra. }
  destruct (fdiv_R A half_pi F) as [D1 D2]; [rewrite P1; lra|rewrite P1; now apply fits1|].
  rewrite P1 in D1.
  assert (DB : 0 <= R32 (fdiv A half_pi) <= 1).
  { rewrite D1. apply rnd32_between; [apply rnd32_0|apply rnd32_1|exact AH]. }
  destruct (code_R p mul (fdiv A half_pi) B M1 M2 D2 DB) as (C1 & C2 & C3). fold q in C1, C2, C3.
  split; [exact C2|]. split; [exact C3|].
  destruct (encode_R (steps p) _ (steps_bounds p B) DB) as (_ & _ & E). cbv zeta in E. rewrite <- C1 in E.
  pose proof (rnd32_err1 (R32 A / H)) as E2. rewrite <- D1, (Rabs_pos_eq (R32 A / H)) in E2 by lra.
  specialize (E2 (proj2 AH)).
  set (k := IZR (Z.of_N q) / IZR (steps p)) in *.
  replace (k * H - R32 A) with (H * (k - R32 A / H)) by (field; lra).
  rewrite Rabs_mult, (Rabs_pos_eq H) by lra. apply Rmult_le_compat_l; [lra|].
  apply Rabs_le_iff in E, E2. apply Rabs_le_iff. lra.
Qed.

(** ** Putting it together *)

(** The cosine of the difference between the angle of (x,y) and the decoded angle. *)
Lemma angle_dot x y rho r A th s :
  0 <= x -> 0 <= y -> 0 < rho -> rho * rho = x * x + y * y ->
  0 <= r <= 1 -> Rabs (x / rho - r) <= 5 * u32 -> Rabs (A - asin r) <= 16 * u32 -> Rabs (th - A) <= H * s + 16 * u32 ->
  0 <= s <= 1 ->
  1 - 2 * (s * s) - 110 * u32 <= x / rho * sin th + y / rho * cos th.
Proof.
  intros Hx Hy Hr RR Br E1 E2 E3 Hs. pose proof u32_small as U. pose proof H_bounds as HB.
  set (a := x / rho) in *. set (b := y / rho) in *.
  assert (A0 : 0 <= a) by (apply Rmult_le_pos; [lra|left; now apply Rinv_0_lt_compat]).
  assert (B0 : 0 <= b) by (apply Rmult_le_pos; [lra|left; now apply Rinv_0_lt_compat]).
  assert (AB : a * a + b * b = 1).
  { unfold a, b. replace (x / rho * (x / rho) + y / rho * (y / rho)) with ((x * x + y * y) / (rho * rho)) by (field; lra).
    rewrite <- RR. field. lra. }
  assert (A1 : a <= 1) by nra.
  assert (SA : sin (asin a) = a) by (apply sin_asin; lra).
  assert (CA : cos (asin a) = b).
  { rewrite cos_asin by lra. replace (1 - a²) with (b * b) by (unfold Rsqr; lra). now apply sqrt_square. }
  assert (SR : sin (asin r) = r) by (apply sin_asin; lra).
  assert (CR : cos (asin r) = sqrt (1 - r * r)) by (rewrite cos_asin by lra; reflexivity).
  assert (SQ : sqrt (1 - r * r) * sqrt (1 - r * r) = 1 - r * r) by (apply sqrt_sqrt; nra).
  assert (D : 1 - 5 * u32 <= cos (asin a - asin r)).
  { rewrite cos_minus, SA, CA, SR, CR.
    pose proof (circle_dot a r b (sqrt (1 - r * r)) A0 (proj1 Br) B0 (sqrt_pos _) AB) as C.
    specialize (C ltac:(lra)). lra. }
  assert (E : a * sin th + b * cos th = cos (asin a - asin r + (asin r - th))).
  { replace (asin a - asin r + (asin r - th)) with (asin a - th) by ring. rewrite cos_minus, SA, CA. ring. }
  rewrite E.
  assert (T : Rabs (asin r - th) <= H * s + 32 * u32).
  { apply Rabs_le_iff in E2, E3. apply Rabs_le_iff. lra. }
  set (be := asin r - th) in *. set (al := asin a - asin r) in *.
  assert (BE : be * be <= (H * s + 32 * u32) * (H * s + 32 * u32)).
  { rewrite <- (Rabs_pos_eq (be * be)) by apply Rle_0_sqr. rewrite Rabs_mult.
    pose proof (Rabs_pos be). apply Rmult_le_compat; auto. }
  pose proof (cos_sum_ge al be (5 * u32)) as C. specialize (C ltac:(lra) D).
  eapply Rle_trans; [|exact C].
  assert (H * H <= 2.4675) by nra.
  assert ((H * s + 32 * u32) * (H * s + 32 * u32) <= 2.4675 * (s * s) + 102 * u32).
  { replace ((H * s + 32 * u32) * (H * s + 32 * u32)) with (H * H * (s * s) + (64 * H * s) * u32 + 1024 * u32 * u32) by ring.
    assert (64 * H * s <= 101) by nra. assert (0 <= s * s) by nra.
    assert (H * H * (s * s) <= 2.4675 * (s * s)) by (apply Rmult_le_compat_r; lra).
    assert (64 * H * s * u32 <= 101 * u32) by (apply Rmult_le_compat_r; lra). nra. }
  assert (0 <= s * s) by nra. lra.
Qed.

(** The last step: dot product of the absolute values. *)
Lemma mul_le a b c d : 0 <= a -> a <= b -> 0 <= c -> c <= d -> a * c <= b * d.
Proof. intros. apply Rmult_le_compat; auto. Qed.
Lemma radii_product rho rf k : 0 <= rho -> 0 <= rf -> 0 < k -> k <= rho * rho -> k <= rf * rf -> k <= rho * rf.
Proof.
  intros H1 H2 K A B. destruct (Rle_lt_dec k (rho * rf)) as [G|G]; auto. exfalso.
  assert (0 <= rho * rf) by now apply Rmult_le_pos.
  assert (C : (rho * rf) * (rho * rf) < k * k) by (apply Rmult_le_0_lt_compat; auto).
  replace (rho * rf * (rho * rf)) with ((rho * rho) * (rf * rf)) in C by ring.
  assert (k * k <= (rho * rho) * (rf * rf)) by (apply mul_le; lra). lra.
Qed.
Lemma le_of_sq a b : 0 <= b -> a * a <= b * b -> a <= b.
Proof. intros B Q. destruct (Rle_lt_dec a b) as [?|G]; auto. exfalso. assert (b * b < a * a) by (apply Rmult_le_0_lt_compat; lra). lra. Qed.
Lemma z_square z z' : 0 <= z <= 1 -> 0 <= z' -> z' <= z + 4 * u32 -> z' * z' <= z * z + 8.1 * u32.
Proof.
  intros A B C. pose proof u32_small as U.
  assert (z' * z' <= (z + 4 * u32) * (z + 4 * u32)) by (apply mul_le; lra).
  replace ((z + 4 * u32) * (z + 4 * u32)) with (z * z + (8 * z + 16 * u32) * u32) in H0 by ring.
  assert ((8 * z + 16 * u32) * u32 <= 8.1 * u32) by (apply Rmult_le_compat_r; lra). lra.
Qed.

Lemma final_dot x y z rho z' rf X Y C s e0 :
  0 <= x <= 1 -> 0 <= y <= 1 -> 0 <= z <= 1 -> 0 <= rho -> rho * rho = x * x + y * y ->
  Rabs (x * x + y * y + z * z - 1) <= e0 -> 0 <= e0 <= 16 * u32 ->
  0 <= z' <= 1 -> z' <= z + 4 * u32 -> z - z' <= s + 4 * u32 -> 0 <= s <= 1 ->
  0 <= rf <= 1 -> Rabs (rf * rf - (1 - z' * z')) <= 6 * u32 ->
  x * X + y * Y >= rho * rf * C - 40 * u32 ->
  (1 - 2 * (s * s) - 110 * u32 <= C \/ (rho <= u32 /\ -1 <= C)) ->
  1 - s - 2 * (s * s) - 256 * u32 <= x * X + y * Y + z * z'.
Proof.
  intros Hx Hy Hz Hr RR E0 He0 Hz' L1 L2 Hs Hrf ER XY HC. pose proof u32_small as U.
  apply Rabs_le_iff in E0, ER.
  pose proof (z_square z z' Hz (proj1 Hz') L1) as ZQ.
  assert (Q0 : 0 <= z * z) by (apply Rmult_le_pos; lra).
  assert (RB : rho <= 1 + 8 * u32).
  { apply le_of_sq; [lra|]. replace ((1 + 8 * u32) * (1 + 8 * u32)) with (1 + 16 * u32 + 64 * (u32 * u32)) by ring.
    assert (0 <= u32 * u32) by (apply Rmult_le_pos; lra). lra. }
  set (w := rho * rf) in *.
  assert (W0 : 0 <= w) by (apply Rmult_le_pos; lra).
  assert (W1 : w <= 1 + 8 * u32).
  { unfold w. pose proof (Rmult_le_compat_l rho rf 1 ltac:(lra) ltac:(lra)). lra. }
  assert (KW : rho * rho - 48 * u32 <= w).
  { destruct (Rle_lt_dec (rho * rho) (48 * u32)) as [G|G]; [lra|].
    apply radii_product; lra. }
  assert (ZZ : z * z - s - 4 * u32 <= z * z').
  { replace (z * z') with (z * z - z * (z - z')) by ring.
    destruct (Rle_lt_dec (z - z') 0) as [G|G].
    - assert (0 <= z * (z' - z)) by (apply Rmult_le_pos; lra). replace (z * (z - z')) with (- (z * (z' - z))) by ring. lra.
    - assert (z * (z - z') <= 1 * (s + 4 * u32)) by (apply mul_le; lra). lra. }
  assert (SS : 0 <= s * s <= 1) by (split; [apply Rmult_le_pos; lra|replace 1 with (1 * 1) by ring; apply mul_le; lra]).
  destruct HC as [HC|[HR HC]].
  - set (d := 2 * (s * s) + 110 * u32) in *.
    assert (WC : w * (1 - d) <= w * C) by (apply Rmult_le_compat_l; unfold d; lra).
    assert (WD : w * d <= (1 + 8 * u32) * d) by (apply Rmult_le_compat_r; unfold d; lra).
    assert (UD : u32 * d <= u32 * 2.1) by (apply Rmult_le_compat_l; unfold d; lra).
    replace (w * (1 - d)) with (w - w * d) in WC by ring.
    replace ((1 + 8 * u32) * d) with (d + 8 * (u32 * d)) in WD by ring. unfold d in *. lra.
  - assert (w <= u32). { unfold w. pose proof (Rmult_le_compat_l rho rf 1 ltac:(lra) ltac:(lra)). lra. }
    assert (w * -1 <= w * C) by (apply Rmult_le_compat_l; lra).
    assert (rho * rho <= u32 * 1) by (apply mul_le; lra). lra.
Qed.

Lemma encode_upper (M : Z) x : (1 <= M < 2 ^ 24)%Z -> 0 <= x <= 1 ->
  IZR (Zfloor (rnd32 (x * IZR M))) / IZR M <= x + 2 * u32.
Proof.
  intros HM Hx. assert (1 <= IZR M) by (apply IZR_le; lia). pose proof u32_small as U. pose proof tiny_u.
  pose proof (Zfloor_lb (rnd32 (x * IZR M))). pose proof (rnd32_err (x * IZR M)) as Er.
  assert (0 <= x * IZR M) by (apply Rmult_le_pos; lra). rewrite (Rabs_pos_eq (x * IZR M)) in Er by auto.
  apply Rabs_le_iff in Er. apply Rmult_le_reg_r with (IZR M); [lra|]. unfold Rdiv. rewrite Rmult_assoc, Rinv_l by lra.
  assert (u32 * (x * IZR M) <= u32 * IZR M).
  { apply Rmult_le_compat_l; [lra|]. pose proof (Rmult_le_compat_r (IZR M) x 1 ltac:(lra) ltac:(lra)). lra. }
  assert (u32 * 1 <= u32 * IZR M) by (apply Rmult_le_compat_l; lra). lra.
Qed.

Lemma low_steps p q : (1 <= p)%nat -> (Z.of_N (low p q) <= steps p)%Z.
Proof.
  intros _. unfold low, steps. rewrite N2Z.inj_mod, N2Z.inj_pow, nat_N_Z.
  pose proof (Z.mod_pos_bound (Z.of_N q) (2 ^ Z.of_nat p) ltac:(apply Z.pow_pos_nonneg; lia)). cbn [Z.of_N]. lia.
Qed.

Lemma sg_sq b : sg b * sg b = 1. Proof. destruct b; unfold sg; ring. Qed.
Lemma sg_abs x : fin x -> R32 x = sg (flt x f0) * Rabs (R32 x).
Proof.
  intros F. rewrite (flt_R x f0 F eq_refl). change (R32 f0) with 0. unfold sg.
  destruct (Rlt_bool_spec (R32 x) 0); split_Rabs; lra.
Qed.
Lemma abs_sq x : Rabs x * Rabs x = x * x.
Proof. split_Rabs; ring. Qed.

(** What is proved about a stored normal. *)
Record normal_close (s : R) (a b : vec3) : Prop := {
  nc_fin : finite3 b;
  nc_unit : Rabs (dot3 b b - 1) <= 64 * u32;
  nc_dot : 1 - s - 2 * (s * s) - 256 * u32 <= dot3 a b;
  nc_z : Rabs (R32 (vz b) - R32 (vz a)) <= s + 4 * u32;
  nc_sx : same_side (19 * u32) (vx a) (vx b);
  nc_sy : same_side (19 * u32) (vy a) (vy b);
  nc_sz : same_side 0 (vz a) (vz b) }.

Lemma side e a b X : fin a -> R32 b = sg (flt a f0) * X -> - e <= X -> same_side e a b.
Proof.
  intros F E L. rewrite (flt_R a f0 F eq_refl) in E. change (R32 f0) with 0 in E.
  unfold same_side. change val with R32. rewrite E. unfold sg. destruct (Rlt_bool_spec (R32 a) 0); split; lra.
Qed.

Lemma normal_accuracy {E} lm lm' p a c : (1 <= p <= 24)%nat -> asin_ok lm -> sin_cos_ok lm' -> unit_vector a ->
  normal_to_encoding (E:=E) lm true a p = Ok c ->
  normal_close (/ IZR (steps p)) a (normal_from_encoding lm' (low_code p c) p).
Proof.
  intros B AS SC UV EN. pose proof u32_small as U. pose proof H_bounds as HB.
  destruct UV as ((Fx & Fy & Fz) & UN & Bx & By & Bz). change val with R32 in *. unfold finite in Fx, Fy, Fz.
  unfold normal_to_encoding in EN. destruct (mask_f32 true p) as [mul| |] eqn:M; try discriminate EN. cbn [bind] in EN.
  destruct (mask_R p mul M B) as [M1 M2].
  destruct a as [[ax ay] az]. unfold vx, vy, vz in EN. cbn [fst snd] in *. unfold dot3 in UN. cbn [fst snd] in UN.
  change val with R32 in UN.
  set (x := Rabs (R32 ax)). set (y := Rabs (R32 ay)). set (z := Rabs (R32 az)).
  assert (Hx : 0 <= x <= 1) by (split; [apply Rabs_pos|exact Bx]).
  assert (Hy : 0 <= y <= 1) by (split; [apply Rabs_pos|exact By]).
  assert (Hz : 0 <= z <= 1) by (split; [apply Rabs_pos|exact Bz]).
  assert (UN' : Rabs (x * x + y * y + z * z - 1) <= 16 * u32).
  { unfold x, y, z. rewrite !abs_sq. eapply Rle_trans; [exact UN|]. unfold u32. simpl pow. lra. }
  pose proof (steps_bounds p B) as SB.
  assert (S1 : 1 <= IZR (steps p)) by (apply IZR_le; lia).
  set (s := / IZR (steps p)).
  assert (Hs : 0 <= s <= 1).
  { unfold s. split; [left; apply Rinv_0_lt_compat; lra|]. rewrite <- Rinv_1. apply Rinv_le_contravar; lra. }
  assert (AX : R32 (fabs ax) = x) by apply fabs_R. assert (AY : R32 (fabs ay) = y) by apply fabs_R.
  assert (AZ : R32 (fabs az) = z) by apply fabs_R.
  assert (FX : fin (fabs ax)) by now rewrite fabs_fin.
  assert (FY : fin (fabs ay)) by now rewrite fabs_fin.
  assert (FZ : fin (fabs az)) by now rewrite fabs_fin.
  apply Ok_inj in EN. subst c. unfold low_code. cbn [n_asine n_z n_sx n_sy n_sz].
  set (qa := u64_of_f32 (fmul (fdiv (m_asin lm _) half_pi) mul)).
  set (qz := u64_of_f32 (fmul (fabs az) mul)).
  destruct (decode_R lm' p (mk_ncode (low p qa) (low p qz) (flt ax f0) (flt ay f0) (flt az f0)) B SC)
    as (th & z' & rf & D); [apply low_steps; lia|apply low_steps; lia|].
  set (b := normal_from_encoding _ _ _) in *.
  destruct D as [D1 D2 D3 D4 D5 D6 D7 (X & D8 & D9) (Y & D10 & D11) D12]. cbn [n_asine n_z n_sx n_sy n_sz] in *.
  (* z *)
  destruct (code_R p mul (fabs az) B M1 M2 FZ) as (C1 & C2 & C3); [rewrite AZ; exact Hz|].
  fold qz in C1, C2, C3. rewrite C2, C1, AZ in D3.
  destruct (encode_R (steps p) z SB Hz) as (_ & _ & E1). cbv zeta in E1.
  pose proof (encode_upper (steps p) z SB Hz) as E2. fold s in E1.
  set (kz := IZR (Zfloor (rnd32 (z * IZR (steps p)))) / IZR (steps p)) in *.
  apply Rabs_le_iff in D3, E1.
  assert (Z1 : z' <= z + 4 * u32) by lra. assert (Z2 : z - z' <= s + 4 * u32) by lra.
  (* trig *)
  assert (PI1 : H <= 1.5708) by lra. pose proof PI_bounds as PB.
  assert (SN : 0 <= sin th) by (apply sin_ge_0; lra).
  assert (S1' : sin th <= 1) by apply SIN_bound. assert (C1' : cos th <= 1) by apply COS_bound.
  assert (CN : - u32 <= cos th).
  { destruct (Rle_lt_dec th (PI / 2)) as [G|G]; [assert (0 <= cos th) by (apply cos_ge_0; lra); lra|].
    replace th with (PI / 2 - (PI / 2 - th)) by ring. rewrite cos_shift.
    pose proof (sin_abs_le (PI / 2 - th)) as SA. apply Rabs_le_iff in SA.
    rewrite Rabs_left1 in SA by lra. unfold H in D6. unfold u32. lra. }
  assert (SC1 : sin th * sin th + cos th * cos th = 1) by (pose proof (sin2_cos2 th); unfold Rsqr in *; lra).
  set (sn := sin th) in *. set (cs := cos th) in *.
  apply Rabs_le_iff in D5, D9, D11.
  assert (P1 : 0 <= sn * rf) by (apply Rmult_le_pos; lra).
  assert (P2 : - u32 <= cs * rf).
  { destruct (Rle_lt_dec 0 cs) as [G|G]; [assert (0 <= cs * rf) by (apply Rmult_le_pos; lra); lra|].
    assert (- u32 * 1 <= cs * rf); [|lra]. replace (cs * rf) with (- (- cs * rf)) by ring.
    replace (- u32 * 1) with (- (u32 * 1)) by ring. apply Ropp_le_contravar. apply mul_le; lra. }
  assert (P3 : sn * rf <= 1) by (replace 1 with (1 * 1) by ring; apply mul_le; lra).
  assert (P4 : cs * rf <= 1).
  { destruct (Rle_lt_dec 0 cs) as [G|G]; [replace 1 with (1 * 1) by ring; apply mul_le; lra|].
    assert (0 <= - cs * rf) by (apply Rmult_le_pos; lra). lra. }
  assert (XA : R32 ax = sg (flt ax f0) * x) by now apply sg_abs.
  assert (YA : R32 ay = sg (flt ay f0) * y) by now apply sg_abs.
  assert (ZA : R32 az = sg (flt az f0) * z) by now apply sg_abs.
  assert (DX : R32 ax * R32 (vx b) = x * X).
  { rewrite D8, XA. replace (sg (flt ax f0) * x * (sg (flt ax f0) * X)) with (sg (flt ax f0) * sg (flt ax f0) * (x * X)) by ring.
    rewrite sg_sq. ring. }
  assert (DY : R32 ay * R32 (vy b) = y * Y).
  { rewrite D10, YA. replace (sg (flt ay f0) * y * (sg (flt ay f0) * Y)) with (sg (flt ay f0) * sg (flt ay f0) * (y * Y)) by ring.
    rewrite sg_sq. ring. }
  assert (DZ : R32 az * R32 (vz b) = z * z').
  { rewrite D12, ZA. replace (sg (flt az f0) * z * (sg (flt az f0) * z')) with (sg (flt az f0) * sg (flt az f0) * (z * z')) by ring.
    rewrite sg_sq. ring. }
  assert (XX : x * (sn * rf) - 18 * u32 <= x * X).
  { assert (x * (sn * rf - X) <= 18 * u32); [|lra].
    destruct (Rle_lt_dec 0 (sn * rf - X)) as [G|G].
    - replace (18 * u32) with (1 * (18 * u32)) by ring. apply mul_le; lra.
    - assert (0 <= x * (X - sn * rf)) by (apply Rmult_le_pos; lra). lra. }
  assert (YY : y * (cs * rf) - 18 * u32 <= y * Y).
  { assert (y * (cs * rf - Y) <= 18 * u32); [|lra].
    destruct (Rle_lt_dec 0 (cs * rf - Y)) as [G|G].
    - replace (18 * u32) with (1 * (18 * u32)) by ring. apply mul_le; lra.
    - assert (0 <= y * (Y - cs * rf)) by (apply Rmult_le_pos; lra). lra. }
  assert (YU : - u32 <= y * (cs * rf)).
  { destruct (Rle_lt_dec 0 (cs * rf)) as [G|G]; [assert (0 <= y * (cs * rf)) by (apply Rmult_le_pos; lra); lra|].
    assert (y * - (cs * rf) <= 1 * u32) by (apply mul_le; lra). lra. }
  assert (XU : 0 <= x * (sn * rf)) by (apply Rmult_le_pos; lra).
  constructor; cbn [fst snd]; auto.
  - (* length *)
    unfold dot3. change (val (fst (fst b))) with (R32 (vx b)). change (val (snd (fst b))) with (R32 (vy b)).
    change (val (snd b)) with (R32 (vz b)).
    assert (EX : R32 (vx b) * R32 (vx b) = X * X).
    { rewrite D8. replace (sg (flt ax f0) * X * (sg (flt ax f0) * X)) with (sg (flt ax f0) * sg (flt ax f0) * (X * X)) by ring. rewrite sg_sq. ring. }
    assert (EY : R32 (vy b) * R32 (vy b) = Y * Y).
    { rewrite D10. replace (sg (flt ay f0) * Y * (sg (flt ay f0) * Y)) with (sg (flt ay f0) * sg (flt ay f0) * (Y * Y)) by ring. rewrite sg_sq. ring. }
    assert (EZ : R32 (vz b) * R32 (vz b) = z' * z').
    { rewrite D12. replace (sg (flt az f0) * z' * (sg (flt az f0) * z')) with (sg (flt az f0) * sg (flt az f0) * (z' * z')) by ring. rewrite sg_sq. ring. }
    rewrite EX, EY, EZ. set (e := X - sn * rf) in *. set (f := Y - cs * rf) in *.
    replace (X * X + Y * Y + z' * z' - 1)
      with (rf * rf * (sn * sn + cs * cs) - (1 - z' * z') + (2 * (sn * rf) + e) * e + (2 * (cs * rf) + f) * f)
      by (unfold e, f; ring).
    rewrite SC1.
    (* the two cross terms: |sn rf| e + |cs rf| f with sn^2+cs^2 = 1 *)
    assert (T1 : Rabs ((2 * (sn * rf) + e) * e) <= (2 * (sn * rf) + 18 * u32) * (18 * u32)).
    { rewrite Rabs_mult. apply mul_le; try apply Rabs_pos; apply Rabs_le_iff; lra. }
    assert (T2 : Rabs ((2 * (cs * rf) + f) * f) <= (2 * (cs * rf) + 22 * u32) * (18 * u32)).
    { rewrite Rabs_mult. apply mul_le; try apply Rabs_pos; apply Rabs_le_iff; lra. }
    assert (T3 : sn * rf + cs * rf <= 1.45).
    { assert (sn + cs <= 1.4143).
      { apply le_of_sq; [lra|]. assert (0 <= (sn - cs) * (sn - cs)) by apply Rle_0_sqr. lra. }
      destruct (Rle_lt_dec 0 (sn + cs)) as [G|G].
      - replace (sn * rf + cs * rf) with ((sn + cs) * rf) by ring.
        assert ((sn + cs) * rf <= 1.4143 * 1) by (apply mul_le; lra). lra.
      - assert (0 <= - (sn + cs) * rf) by (apply Rmult_le_pos; lra). lra. }
    apply Rabs_le_iff in T1, T2. apply Rabs_le_iff.
    assert (T4 : (2 * (sn * rf) + 18 * u32) * (18 * u32) + (2 * (cs * rf) + 22 * u32) * (18 * u32) <= 2.91 * (18 * u32)).
    { rewrite <- Rmult_plus_distr_r. apply Rmult_le_compat_r; lra. }
    lra.
  - (* dot *)
    unfold dot3. cbn [fst snd]. change val with R32. change (fst (fst b)) with (vx b). change (snd (fst b)) with (vy b).
    change (snd b) with (vz b). rewrite DX, DY, DZ.
    set (rho := sqrt (x * x + y * y)).
    assert (Q0 : 0 <= x * x + y * y) by (assert (0 <= x * x) by apply Rle_0_sqr; assert (0 <= y * y) by apply Rle_0_sqr; lra).
    assert (RR : rho * rho = x * x + y * y) by (apply sqrt_sqrt; exact Q0).
    assert (R0 : 0 <= rho) by apply sqrt_pos.
    assert (D5' : Rabs (rf * rf - (1 - z' * z')) <= 6 * u32) by (apply Rabs_le_iff; lra).
    destruct (Rle_lt_dec (/ IZR (2 ^ 60)) (x * x + y * y)) as [L|L].
    + assert (RP : 0 < rho).
      { apply sqrt_lt_R0. assert (0 < / IZR (2 ^ 60)) by (apply Rinv_0_lt_compat, IZR_lt; lia). lra. }
      destruct (ratio_R (fabs ax) (fabs ay) FX FY) as (G1 & G2 & G3); try (rewrite ?AX, ?AY; assumption).
      cbv zeta in *. rewrite AX, AY in G3. fold rho in G3.
      set (r := fdiv (fabs ax) _) in *.
      destruct (AS r G1 G2) as (A1 & A2 & A3). change val with R32 in *.
      rewrite (proj1 half_pi_R) in A2. fold H in A2.
      destruct (angle_code p mul (m_asin lm r) B M1 M2 A1 A2) as (K1 & K2 & K3).
      fold qa in K1, K2, K3. rewrite K1 in D7.
      assert (E20 : / 2 ^ 20 = 16 * u32) by (unfold u32; simpl pow; lra). rewrite E20 in A3.
      pose proof (angle_dot x y rho (R32 r) (R32 (m_asin lm r)) th s (proj1 Hx) (proj1 Hy) RP RR G2 G3 A3) as AD.
      assert (TH : Rabs (th - R32 (m_asin lm r)) <= H * s + 16 * u32).
      { fold s in K3. apply Rabs_le_iff in K3, D7. apply Rabs_le_iff.
        replace (H * (s + 4 * u32)) with (H * s + H * 4 * u32) in K3 by ring.
        assert (H * 4 * u32 <= 6.3 * u32) by (apply Rmult_le_compat_r; lra). lra. }
      specialize (AD TH Hs). fold sn cs in AD.
      refine (final_dot x y z rho z' rf X Y (x / rho * sn + y / rho * cs) s (16 * u32) Hx Hy Hz R0 RR UN' _ D2 Z1 Z2 Hs D4 D5' _ (or_introl AD)).
      { lra. }
      apply Rle_ge. replace (rho * rf * (x / rho * sn + y / rho * cs)) with (x * (sn * rf) + y * (cs * rf)) by (field; lra). lra.
    + assert (RU : rho <= u32).
      { apply le_of_sq; [lra|]. rewrite RR. unfold u32. cbn in L. lra. }
      refine (final_dot x y z rho z' rf X Y 0 s (16 * u32) Hx Hy Hz R0 RR UN' _ D2 Z1 Z2 Hs D4 D5' _ (or_intror (conj RU _))); lra.
  - change (vz (ax, ay, az)) with az. rewrite D12, ZA.
    replace (sg (flt az f0) * z' - sg (flt az f0) * z) with (sg (flt az f0) * (z' - z)) by ring.
    rewrite Rabs_mult. assert (Rabs (sg (flt az f0)) = 1) as -> by (destruct (flt az f0); unfold sg; split_Rabs; lra).
    rewrite Rmult_1_l. apply Rabs_le_iff. lra.
  - apply (side _ ax _ X Fx D8). lra.
  - apply (side _ ay _ Y Fy D10). lra.
  - apply (side _ az _ z' Fz D12). lra.
Qed.
