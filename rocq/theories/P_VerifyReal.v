(** Property C29: which normals the verification reports, in terms of their true length. *)
From Coq Require Import List NArith ZArith Arith Lia Bool Reals Lra.
From Flocq Require Import Core IEEE754.BinarySingleNaN.
From Verif Require Import Base Floats Floats_proofs FloatReal_proofs ValueSpec Log2_proofs Trig_proofs Utilis Mesh Save_proofs Codec_proofs Quant_proofs
  NormalReal_proofs Normalize_proofs P_Mesh P_Normalize.
Import ListNotations.
Local Open Scope R_scope.

(** ** The computed length *)

Lemma off_by n : fin (magnitude n) -> Rabs (R32 (magnitude n)) <= 4 ->
  (Rabs (R32 (magnitude n) - 1) <= 0.0009992 -> ~ length_off n) /\ (0.0010008 <= Rabs (R32 (magnitude n) - 1) -> length_off n).
Proof.
  intros Mf MB. pose proof u32_small as U. destruct f1_R as [O1 O2].
  destruct (fsub_R f1 (magnitude n) O2 Mf) as [S1 S2].
  { rewrite O1. apply Rabs_le_iff in MB. eapply Rle_trans; [|apply big32_ge].
    apply Rabs_le_iff. simpl. lra. }
  rewrite O1 in S1. destruct (flit_R 1 1000 ltac:(lia) ltac:(lia)) as [L1 L2].
  unfold length_off. rewrite flt_R; auto; [|now rewrite fabs_fin]. rewrite fabs_R, S1, L1.
  set (m := R32 (magnitude n)) in *. apply Rabs_le_iff in MB.
  pose proof (rnd32_err (1 - m)) as E1. pose proof (rnd32_err (1 / 1000)) as E2.
  rewrite (Rabs_pos_eq (1 / 1000)) in E2 by lra. pose proof tiny32_bound as [_ Ti]. apply Rabs_le_iff in E2.
  assert (AD : Rabs (1 - m) <= 5) by (apply Rabs_le_iff; lra).
  pose proof (Rmult_le_compat_l u32 _ _ ltac:(lra) AD) as K.
  assert (NB : Rabs (Rabs (rnd32 (1 - m)) - Rabs (m - 1)) <= 5 * u32 + tiny32).
  { rewrite (Rabs_minus_sym m 1). eapply Rle_trans; [apply Rabs_triang_inv2|]. lra. }
  apply Rabs_le_iff in NB. unfold u32 in *. split.
  - intros H. rewrite Rlt_bool_false by lra. discriminate.
  - intros H. apply Rlt_bool_true. lra.
Qed.

(** Infinity, or a number that is at least [c]. *)
Definition least (c : R) (x : f32) : Prop := x = B754_infinity false \/ fin x /\ c <= R32 x.
Lemma least_square x c : fin x -> rnd32 c = c -> c <= R32 x * R32 x -> least c (fmul x x).
Proof.
  intros F C L. destruct (large_square x F) as [G|[G _]]; [now left|]. right. split; [exact G|].
  pose proof (Bmult_correct 24 128 gt0_24 lt_24_128 mode_NE x x) as B. cbn [round_mode] in B.
  destruct (Rlt_bool _ _).
  - destruct B as (B1 & _). unfold R32 at 1, fmul. rewrite B1. change (c <= rnd32 (R32 x * R32 x)).
    rewrite <- C. now apply rnd32_le.
  - exfalso. rewrite xorb_nilpotent in B. change (binary_overflow 24 128 mode_NE false) with (SpecFloat.S754_infinity false) in B.
    fold (fmul x x) in B. destruct (fmul x x); cbn in B; try discriminate B. discriminate G.
Qed.
Lemma least_add x y c : rnd32 c = c -> 0 <= c -> large x -> large y -> least c x \/ least c y -> least c (fadd x y).
Proof.
  intros C P X Y D.
  assert (IX : x = B754_infinity false -> least c (fadd x y)) by (intros ->; left; now apply inf_add).
  assert (IY : y = B754_infinity false -> least c (fadd x y)) by (intros ->; left; now apply inf_add).
  destruct X as [X|[Fx Px]]; auto. destruct Y as [Y|[Fy Py]]; auto.
  assert (S : c <= R32 x + R32 y) by (destruct D as [[->|[_ D]]|[->|[_ D]]]; try discriminate; lra).
  destruct (large_add x y) as [G|[G _]]; [now right|now right|now left|]. right. split; [exact G|].
  pose proof (Bplus_correct 24 128 gt0_24 lt_24_128 mode_NE x y Fx Fy) as B. cbn [round_mode] in B.
  destruct (Rlt_bool _ _).
  - destruct B as (B1 & _). unfold R32 at 1, fadd. rewrite B1. change (c <= rnd32 (R32 x + R32 y)).
    rewrite <- C. now apply rnd32_le.
  - exfalso. destruct B as [B _]. fold (fadd x y) in B. destruct (fadd x y); try discriminate G;
      destruct (Bsign x); cbn in B; discriminate B.
Qed.
Lemma least_large c x : 0 <= c -> least c x -> large x.
Proof. intros P [H|[F H]]; [now left|right; split; auto; lra]. Qed.

(** A component of 2 or more makes the computed length at least 2. *)
Lemma long_off x y z : fin x -> fin y -> fin z -> 2 <= Rabs (R32 x) \/ 2 <= Rabs (R32 y) \/ 2 <= Rabs (R32 z) ->
  length_off (x, y, z).
Proof.
  intros Fx Fy Fz D.
  assert (C4 : rnd32 4 = 4) by (apply (rnd32_Z 4); lia). assert (C2 : rnd32 2 = 2) by (apply (rnd32_Z 2); lia).
  assert (Q : forall v, 2 <= Rabs v -> 4 <= v * v).
  { intros v H. replace (v * v) with (Rabs v * Rabs v) by (rewrite <- Rabs_mult; apply Rabs_pos_eq; nra). nra. }
  pose proof (large_square x Fx) as X. pose proof (large_square y Fy) as Y. pose proof (large_square z Fz) as Z.
  assert (S : least 4 (fadd (fadd (fmul x x) (fmul y y)) (fmul z z))).
  { apply least_add; auto; [lra|now apply large_add|].
    destruct D as [D|[D|D]].
    - left. apply least_add; auto; [lra|]. left. apply least_square; auto.
    - left. apply least_add; auto; [lra|]. right. apply least_square; auto.
    - right. apply least_square; auto. }
  assert (M : magnitude (x, y, z) = B754_infinity false \/
              fin (magnitude (x, y, z)) /\ 2 <= R32 (magnitude (x, y, z)) <= bpow radix2 64).
  { unfold magnitude, vx, vy, vz. cbn [fst snd]. destruct S as [->|[F S]]; [now left|]. right.
    destruct (fsqrt_R _ F) as [R1 R2]; [lra|]. split; [exact R2|]. rewrite R1. split.
    - rewrite <- C2. apply rnd32_le. rewrite <- (sqrt_square 2) by lra. apply sqrt_le_1_alt. lra.
    - eapply Rle_trans; [apply Rle_abs|]. apply rnd32_abs_le_bpow; [lia|]. rewrite Rabs_pos_eq by apply sqrt_pos.
      rewrite <- (sqrt_square (bpow radix2 64)) by apply bpow_ge_0. apply sqrt_le_1_alt.
      rewrite <- bpow_plus. change (64 + 64)%Z with 128%Z. left. eapply Rle_lt_trans; [apply Rle_abs|]. apply abs_B2R_lt_emax. }
  unfold length_off. destruct M as [->|[F M]]; [vm_compute; reflexivity|].
  destruct f1_R as [O1 O2]. destruct (flit_R 1 1000 ltac:(lia) ltac:(lia)) as [L1 L2].
  destruct (fsub_R f1 (magnitude (x, y, z)) O2 F) as [S1 S2].
  { rewrite O1. assert (B : bpow radix2 64 <= big32) by (unfold big32; apply bpow_le; lia).
    rewrite Rabs_left by lra. lra. }
  rewrite flt_R; auto; [|now rewrite fabs_fin]. apply Rlt_bool_true. rewrite fabs_R, S1, L1, O1.
  pose proof (rnd32_err (1 / 1000)) as E2. rewrite (Rabs_pos_eq (1 / 1000)) in E2 by lra.
  pose proof tiny32_bound as [_ Ti]. apply Rabs_le_iff in E2. unfold u32 in E2.
  assert (rnd32 (1 - R32 (magnitude (x, y, z))) <= -1).
  { rewrite <- (rnd32_Z (-1)) by lia. apply rnd32_le. lra. }
  rewrite Rabs_left by lra. lra.
Qed.

(** Components below 2^-50 make it less than a half. *)
Lemma tiny_off x y z : fin x -> fin y -> fin z -> Rabs (R32 x) <= / 4 -> Rabs (R32 y) <= / 4 -> Rabs (R32 z) <= / 4 ->
  length_off (x, y, z).
Proof.
  intros Fx Fy Fz Bx By Bz. pose proof u32_small as U. pose proof tiny32_bound as [_ Ti].
  assert (Q : forall v, Rabs v <= / 4 -> 0 <= v * v <= / 16).
  { intros v H. replace (v * v) with (Rabs v * Rabs v) by (rewrite <- Rabs_mult; apply Rabs_pos_eq; nra).
    pose proof (Rabs_pos v). nra. }
  assert (G : forall t b, 0 <= t <= b -> b <= 1 -> 0 <= rnd32 t <= b + u32 + tiny32).
  { intros t b H H1. split; [rewrite <- rnd32_0; apply rnd32_le; lra|].
    pose proof (rnd32_err t) as E. rewrite (Rabs_pos_eq t) in E by lra. apply Rabs_le_iff in E.
    assert (u32 * t <= u32 * 1) by (apply Rmult_le_compat_l; lra). lra. }
  assert (FB : forall t, 0 <= t <= 2 -> Rabs t <= big32) by (intros t H; apply fits32; rewrite Rabs_pos_eq; lra).
  destruct (fmul_R x x Fx Fx) as [X1 X2]; [apply FB; specialize (Q _ Bx); lra|].
  destruct (fmul_R y y Fy Fy) as [Y1 Y2]; [apply FB; specialize (Q _ By); lra|].
  destruct (fmul_R z z Fz Fz) as [Z1 Z2]; [apply FB; specialize (Q _ Bz); lra|].
  pose proof (G _ (/ 16) (Q _ Bx) ltac:(lra)) as GX. pose proof (G _ (/ 16) (Q _ By) ltac:(lra)) as GY.
  pose proof (G _ (/ 16) (Q _ Bz) ltac:(lra)) as GZ. rewrite <- X1 in GX. rewrite <- Y1 in GY. rewrite <- Z1 in GZ.
  unfold u32 in *.
  destruct (fadd_R _ _ X2 Y2) as [A1 A2]; [apply FB; lra|].
  pose proof (G _ 0.13 ltac:(split; [apply Rplus_le_le_0_compat; [apply GX|apply GY]|lra]) ltac:(lra)) as GA. rewrite <- A1 in GA.
  destruct (fadd_R _ _ A2 Z2) as [B1 B2]; [apply FB; lra|].
  pose proof (G _ 0.2 ltac:(split; [apply Rplus_le_le_0_compat; [apply GA|apply GZ]|lra]) ltac:(lra)) as GB. rewrite <- B1 in GB.
  destruct (fsqrt_R _ B2) as [C1 C2]; [apply GB|].
  assert (SQ : 0 <= sqrt (R32 (fadd (fadd (fmul x x) (fmul y y)) (fmul z z))) <= 0.5).
  { split; [apply sqrt_pos|]. rewrite <- (sqrt_square 0.5) by lra. apply sqrt_le_1_alt. lra. }
  pose proof (G _ _ SQ ltac:(lra)) as GC. rewrite <- C1 in GC.
  destruct (off_by (x, y, z)) as [_ H]; unfold magnitude, vx, vy, vz; cbn [fst snd]; auto.
  - apply Rabs_le_iff. lra.
  - apply H. unfold magnitude, vx, vy, vz; cbn [fst snd]. rewrite Rabs_left by lra. lra.
Qed.

(** C29. Whatever its components, a finite normal is accepted if its true length is
    within 0.000999 of 1 and reported if it is 0.001001 or more off; only in between
    does the rounding of the computed length matter. *)
Theorem C29_length_real : forall n, finite3 n ->
  (Rabs (norm3 n - 1) <= 0.000999 -> ~ length_off n) /\ (0.001001 <= Rabs (norm3 n - 1) -> length_off n).
Proof.
  intros n (Fx & Fy & Fz). destruct n as [[x y] z]. unfold finite in *. cbn [fst snd] in *.
  assert (NN : norm3 (x, y, z) = sqrt (R32 x * R32 x + R32 y * R32 y + R32 z * R32 z)) by reflexivity.
  assert (SQ : forall v, v * v = Rabs v * Rabs v) by (intros v; rewrite <- Rabs_mult; rewrite Rabs_pos_eq; nra).
  assert (D : (2 <= Rabs (R32 x) \/ 2 <= Rabs (R32 y) \/ 2 <= Rabs (R32 z)) \/
              (Rabs (R32 x) <= / 4 /\ Rabs (R32 y) <= / 4 /\ Rabs (R32 z) <= / 4) \/
              (Rabs (R32 x) <= 2 /\ Rabs (R32 y) <= 2 /\ Rabs (R32 z) <= 2) /\
              (/ 4 <= Rabs (R32 x) \/ / 4 <= Rabs (R32 y) \/ / 4 <= Rabs (R32 z))).
  { destruct (Rle_lt_dec 2 (Rabs (R32 x))); [auto|]. destruct (Rle_lt_dec 2 (Rabs (R32 y))); [auto|].
    destruct (Rle_lt_dec 2 (Rabs (R32 z))); [auto|]. right.
    destruct (Rle_lt_dec (/ 4) (Rabs (R32 x))); [right; split; [lra|auto]|].
    destruct (Rle_lt_dec (/ 4) (Rabs (R32 y))); [right; split; [lra|auto]|].
    destruct (Rle_lt_dec (/ 4) (Rabs (R32 z))); [right; split; [lra|auto]|]. left. lra. }
  pose proof (Rabs_pos (R32 x)). pose proof (Rabs_pos (R32 y)). pose proof (Rabs_pos (R32 z)).
  destruct D as [D|[(Bx & By & Bz)|[(Bx & By & Bz) D]]].
  - pose proof (long_off x y z Fx Fy Fz D) as L. split; [|auto]. intros H2 _.
    assert (2 <= norm3 (x, y, z)).
    { rewrite NN, (SQ (R32 x)), (SQ (R32 y)), (SQ (R32 z)). rewrite <- (sqrt_square 2) at 1 by lra. apply sqrt_le_1_alt.
      destruct D as [D|[D|D]]; nra. }
    rewrite Rabs_pos_eq in H2; lra.
  - pose proof (tiny_off x y z Fx Fy Fz Bx By Bz) as L. split; [|auto]. intros H2 _.
    assert (norm3 (x, y, z) <= / 2).
    { rewrite NN, (SQ (R32 x)), (SQ (R32 y)), (SQ (R32 z)). rewrite <- (sqrt_square (/ 2)) by lra. apply sqrt_le_1_alt. nra. }
    apply Rabs_le_iff in H2. lra.
  - assert (P50 : 2 <= 2 ^ 50) by (rewrite p50; apply IZR_le; lia).
    assert (P50' : / 2 ^ 50 <= / 4) by (rewrite p50; cbn; lra).
    assert (O : ordinary (x, y, z)).
    { split; [repeat split; auto|]. cbn [fst snd]. change val with R32. split; [lra|].
      destruct D as [D|[D|D]]; [left|right; left|right; right]; lra. }
    destruct (measure _ O) as [Mf Mp Me _ _ _]. pose proof u32_small as U.
    change (sqrt (sq3 (x, y, z))) with (norm3 (x, y, z)) in *. set (rho := norm3 (x, y, z)) in *.
    assert (R3 : rho <= 3.5).
    { rewrite NN, (SQ (R32 x)), (SQ (R32 y)), (SQ (R32 z)). rewrite <- (sqrt_square 3.5) by lra. apply sqrt_le_1_alt. nra. }
    assert (UR : 0 <= u32 * rho <= u32 * 3.5) by (split; [apply Rmult_le_pos; lra|apply Rmult_le_compat_l; lra]).
    assert (DM : Rabs (Rabs (R32 (magnitude (x, y, z)) - 1) - Rabs (rho - 1)) <= 3 * u32 * rho).
    { eapply Rle_trans; [apply Rabs_triang_inv2|].
      replace (R32 (magnitude (x, y, z)) - 1 - (rho - 1)) with (R32 (magnitude (x, y, z)) - rho) by ring. lra. }
    apply Rabs_le_iff in Me, DM.
    destruct (off_by (x, y, z) Mf) as [A B]; [apply Rabs_le_iff; unfold u32 in *; lra|].
    assert (NEAR : rho <= 1.1 -> u32 * rho <= u32 * 1.1) by (intros; apply Rmult_le_compat_l; lra).
    split; intros H2.
    + apply A. assert (L : rho <= 1.1) by (pose proof (Rle_abs (rho - 1)); lra). specialize (NEAR L). unfold u32 in *. lra.
    + apply B. destruct (Rle_lt_dec rho 1.1) as [L|L]; [specialize (NEAR L); unfold u32 in *; lra|].
      rewrite (Rabs_pos_eq (rho - 1)) in DM by lra. unfold u32 in *. lra.
Qed.
Print Assumptions C29_length_real.
(** A normal with a component that is NaN is accepted; one with an infinite component
    and no NaN is reported. *)
Theorem C29_nan_accepted : forall x y z, x = B754_nan \/ y = B754_nan \/ z = B754_nan -> ~ length_off (x, y, z).
Proof.
  intros x y z D L. pose proof (nan_passes x y z) as N. unfold not_normalized in N. unfold length_off in L.
  rewrite N in L; [discriminate L|]. destruct D as [->|[->| ->]]; auto.
Qed.
Print Assumptions C29_nan_accepted.
Theorem C29_infinite_reported : forall x y z, is_nan x = false -> is_nan y = false -> is_nan z = false ->
  ~ finite3 (x, y, z) -> length_off (x, y, z).
Proof.
  intros x y z Nx Ny Nz NF.
  assert (M : forall v, is_nan v = false -> large (fmul v v) /\ (is_finite v = false -> fmul v v = B754_infinity false)).
  { intros v N. destruct (is_finite v) eqn:F; [split; [now apply large_square|discriminate]|].
    destruct v as [s|s| |s m e H]; try discriminate. destruct s; split; auto; left; reflexivity. }
  destruct (M x Nx) as [X1 X2], (M y Ny) as [Y1 Y2], (M z Nz) as [Z1 Z2].
  assert (G : fadd (fadd (fmul x x) (fmul y y)) (fmul z z) = B754_infinity false).
  { destruct (is_finite x) eqn:Fx.
    - destruct (is_finite y) eqn:Fy.
      + destruct (is_finite z) eqn:Fz.
        * exfalso. apply NF. repeat split; assumption.
        * rewrite (Z2 eq_refl). now apply inf_add, large_add.
      + rewrite (Y2 eq_refl). rewrite (proj2 (inf_add _ X1)). now apply inf_add.
    - rewrite (X2 eq_refl). rewrite (proj1 (inf_add _ Y1)). now apply inf_add. }
  unfold length_off, magnitude, vx, vy, vz. cbn [fst snd]. rewrite G. vm_compute. reflexivity.
Qed.
Print Assumptions C29_infinite_reported.
(** (3, 0, -4) is reported, (0, 1, 0) is accepted. *)
Example C29_length_case : length_off (f32_of_Z 3, f0, f32_of_Z (-4)) /\ ~ length_off (f0, f1, f0) /\ finite3 (f0, f1, f0) /\ norm3 (f0, f1, f0) = 1.
Proof.
  split; [vm_compute; reflexivity|]. split; [vm_compute; discriminate|]. split; [repeat split|].
  destruct f1_R as [A _]. unfold norm3, dot3. cbn [fst snd]. change val with R32. rewrite A. change (R32 f0) with 0.
  replace (0 * 0 + 1 * 1 + 0 * 0) with 1 by ring. apply sqrt_1.
Qed.
