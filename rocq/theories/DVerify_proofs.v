(** The lengths verification measures with [double_precision], in real numbers. *)
From Coq Require Import List NArith ZArith Arith Lia Bool Reals Lra.
From Flocq Require Import Core IEEE754.BinarySingleNaN.
From Verif Require Import Base Floats Floats_proofs FloatReal_proofs ValueSpec Log2_proofs Trig_proofs NormalReal_proofs
  Double DoubleSpec DoubleSave DoubleValueSpec DoubleNormalSpec DoubleMesh DoubleMeshSpec Double2_proofs DQuant_proofs DNormal_proofs DNormalize_proofs.
Import ListNotations.
Local Open Scope R_scope.

(** The computed length differs from 1 by more than 0.001. *)
Definition length_off_d (n : dvec3) : Prop := dlt (dlit 1 1000) (dabs (dsub d1 (magnitude_d n))) = true.

(** ** The computed length *)

Lemma off_by_d n : fin (magnitude_d n) -> Rabs (R64 (magnitude_d n)) <= 4 ->
  (Rabs (R64 (magnitude_d n) - 1) <= 0.001 - 10 * u64 -> ~ length_off_d n) /\ (0.001 + 10 * u64 <= Rabs (R64 (magnitude_d n) - 1) -> length_off_d n).
Proof.
  intros Mf MB. pose proof u64_small as U. destruct d1_R as [O1 O2].
  destruct (dsub_R d1 (magnitude_d n) O2 Mf) as [S1 S2].
  { rewrite O1. apply Rabs_le_iff in MB. eapply Rle_trans; [|apply big64_ge].
    apply Rabs_le_iff. simpl. lra. }
  rewrite O1 in S1. destruct (dlit_R 1 1000 ltac:(lia) ltac:(lia)) as [L1 L2].
  unfold length_off_d. rewrite dlt_R; auto; [|now rewrite dabs_fin]. rewrite dabs_R, S1, L1.
  set (m := R64 (magnitude_d n)) in *. apply Rabs_le_iff in MB.
  pose proof (rnd64_err (1 - m)) as E1. pose proof (rnd64_err (1 / 1000)) as E2.
  rewrite (Rabs_pos_eq (1 / 1000)) in E2 by lra. pose proof tiny64_bound as [_ Ti]. apply Rabs_le_iff in E2.
  assert (AD : Rabs (1 - m) <= 5) by (apply Rabs_le_iff; lra).
  pose proof (Rmult_le_compat_l u64 _ _ ltac:(lra) AD) as K.
  assert (NB : Rabs (Rabs (rnd64 (1 - m)) - Rabs (m - 1)) <= 5 * u64 + tiny64).
  { rewrite (Rabs_minus_sym m 1). eapply Rle_trans; [apply Rabs_triang_inv2|]. lra. }
  apply Rabs_le_iff in NB. unfold u64 in *. split.
  - intros H. rewrite Rlt_bool_false by lra. discriminate.
  - intros H. apply Rlt_bool_true. lra.
Qed.

(** Infinity, or a number that is at least_d [c]. *)
Definition least_d (c : R) (x : f64) : Prop := x = B754_infinity false \/ fin x /\ c <= R64 x.
Lemma least_square_d x c : fin x -> rnd64 c = c -> c <= R64 x * R64 x -> least_d c (dmul x x).
Proof.
  intros F C L. destruct (large_square_d x F) as [G|[G _]]; [now left|]. right. split; [exact G|].
  pose proof (Bmult_correct 53 1024 gt0_53 lt_53_1024 mode_NE x x) as B. cbn [round_mode] in B.
  destruct (Rlt_bool _ _).
  - destruct B as (B1 & _). unfold R64 at 1, dmul. rewrite B1. change (c <= rnd64 (R64 x * R64 x)).
    rewrite <- C. now apply rnd64_le.
  - exfalso. rewrite xorb_nilpotent in B. change (binary_overflow 53 1024 mode_NE false) with (SpecFloat.S754_infinity false) in B.
    fold (dmul x x) in B. destruct (dmul x x); cbn in B; try discriminate B. discriminate G.
Qed.
Lemma least_add_d x y c : rnd64 c = c -> 0 <= c -> large_d x -> large_d y -> least_d c x \/ least_d c y -> least_d c (dadd x y).
Proof.
  intros C P X Y D.
  assert (IX : x = B754_infinity false -> least_d c (dadd x y)) by (intros ->; left; now apply inf_add_d).
  assert (IY : y = B754_infinity false -> least_d c (dadd x y)) by (intros ->; left; now apply inf_add_d).
  destruct X as [X|[Fx Px]]; auto. destruct Y as [Y|[Fy Py]]; auto.
  assert (S : c <= R64 x + R64 y) by (destruct D as [[->|[_ D]]|[->|[_ D]]]; try discriminate; lra).
  destruct (large_add_d x y) as [G|[G _]]; [now right|now right|now left|]. right. split; [exact G|].
  pose proof (Bplus_correct 53 1024 gt0_53 lt_53_1024 mode_NE x y Fx Fy) as B. cbn [round_mode] in B.
  destruct (Rlt_bool _ _).
  - destruct B as (B1 & _). unfold R64 at 1, dadd. rewrite B1. change (c <= rnd64 (R64 x + R64 y)).
    rewrite <- C. now apply rnd64_le.
  - exfalso. destruct B as [B _]. fold (dadd x y) in B. destruct (dadd x y); try discriminate G;
      destruct (Bsign x); cbn in B; discriminate B.
Qed.
Lemma least_large_d c x : 0 <= c -> least_d c x -> large_d x.
Proof. intros P [H|[F H]]; [now left|right; split; auto; lra]. Qed.

(** A component of 2 or more makes the computed length at least_d 2. *)
Lemma long_off_d x y z : fin x -> fin y -> fin z -> 2 <= Rabs (R64 x) \/ 2 <= Rabs (R64 y) \/ 2 <= Rabs (R64 z) ->
  length_off_d (x, y, z).
Proof.
  intros Fx Fy Fz D.
  assert (C4 : rnd64 4 = 4) by (apply (rnd64_Z 4); lia). assert (C2 : rnd64 2 = 2) by (apply (rnd64_Z 2); lia).
  assert (Q : forall v, 2 <= Rabs v -> 4 <= v * v).
  { intros v H. replace (v * v) with (Rabs v * Rabs v) by (rewrite <- Rabs_mult; apply Rabs_pos_eq; nra). nra. }
  pose proof (large_square_d x Fx) as X. pose proof (large_square_d y Fy) as Y. pose proof (large_square_d z Fz) as Z.
  assert (S : least_d 4 (dadd (dadd (dmul x x) (dmul y y)) (dmul z z))).
  { apply least_add_d; auto; [lra|now apply large_add_d|].
    destruct D as [D|[D|D]].
    - left. apply least_add_d; auto; [lra|]. left. apply least_square_d; auto.
    - left. apply least_add_d; auto; [lra|]. right. apply least_square_d; auto.
    - right. apply least_square_d; auto. }
  assert (M : magnitude_d (x, y, z) = B754_infinity false \/
              fin (magnitude_d (x, y, z)) /\ 2 <= R64 (magnitude_d (x, y, z)) <= bpow radix2 512).
  { unfold magnitude_d, dvx, dvy, dvz. cbn [fst snd]. destruct S as [->|[F S]]; [now left|]. right.
    destruct (dsqrt_R _ F) as [R1 R2]; [lra|]. split; [exact R2|]. rewrite R1. split.
    - rewrite <- C2. apply rnd64_le. rewrite <- (sqrt_square 2) by lra. apply sqrt_le_1_alt. lra.
    - eapply Rle_trans; [apply Rle_abs|]. apply rnd64_abs_le_bpow; [lia|]. rewrite Rabs_pos_eq by apply sqrt_pos.
      rewrite <- (sqrt_square (bpow radix2 512)) by apply bpow_ge_0. apply sqrt_le_1_alt.
      rewrite <- bpow_plus. change (512 + 512)%Z with 1024%Z. left. eapply Rle_lt_trans; [apply Rle_abs|]. apply abs_B2R_lt_emax. }
  unfold length_off_d. destruct M as [->|[F M]]; [vm_compute; reflexivity|].
  destruct d1_R as [O1 O2]. destruct (dlit_R 1 1000 ltac:(lia) ltac:(lia)) as [L1 L2].
  destruct (dsub_R d1 (magnitude_d (x, y, z)) O2 F) as [S1 S2].
  { rewrite O1. assert (B : bpow radix2 512 <= big64) by (unfold big64; apply bpow_le; lia).
    rewrite Rabs_left by lra. lra. }
  rewrite dlt_R; auto; [|now rewrite dabs_fin]. apply Rlt_bool_true. rewrite dabs_R, S1, L1, O1.
  pose proof (rnd64_err (1 / 1000)) as E2. rewrite (Rabs_pos_eq (1 / 1000)) in E2 by lra.
  pose proof tiny64_bound as [_ Ti]. apply Rabs_le_iff in E2. unfold u64 in E2.
  assert (rnd64 (1 - R64 (magnitude_d (x, y, z))) <= -1).
  { rewrite <- (rnd64_Z (-1)) by lia. apply rnd64_le. lra. }
  rewrite Rabs_left by lra. lra.
Qed.

(** Components of at most 1/4 make it less than a half. *)
Lemma tiny_off_d x y z : fin x -> fin y -> fin z -> Rabs (R64 x) <= / 4 -> Rabs (R64 y) <= / 4 -> Rabs (R64 z) <= / 4 ->
  length_off_d (x, y, z).
Proof.
  intros Fx Fy Fz Bx By Bz. pose proof u64_small as U. pose proof tiny64_bound as [_ Ti].
  assert (Q : forall v, Rabs v <= / 4 -> 0 <= v * v <= / 16).
  { intros v H. replace (v * v) with (Rabs v * Rabs v) by (rewrite <- Rabs_mult; apply Rabs_pos_eq; nra).
    pose proof (Rabs_pos v). nra. }
  assert (G : forall t b, 0 <= t <= b -> b <= 1 -> 0 <= rnd64 t <= b + u64 + tiny64).
  { intros t b H H1. split; [rewrite <- rnd64_0; apply rnd64_le; lra|].
    pose proof (rnd64_err t) as E. rewrite (Rabs_pos_eq t) in E by lra. apply Rabs_le_iff in E.
    assert (u64 * t <= u64 * 1) by (apply Rmult_le_compat_l; lra). lra. }
  assert (FB : forall t, 0 <= t <= 2 -> Rabs t <= big64) by (intros t H; apply fit4; rewrite Rabs_pos_eq; lra).
  destruct (dmul_R x x Fx Fx) as [X1 X2]; [apply FB; specialize (Q _ Bx); lra|].
  destruct (dmul_R y y Fy Fy) as [Y1 Y2]; [apply FB; specialize (Q _ By); lra|].
  destruct (dmul_R z z Fz Fz) as [Z1 Z2]; [apply FB; specialize (Q _ Bz); lra|].
  pose proof (G _ (/ 16) (Q _ Bx) ltac:(lra)) as GX. pose proof (G _ (/ 16) (Q _ By) ltac:(lra)) as GY.
  pose proof (G _ (/ 16) (Q _ Bz) ltac:(lra)) as GZ. rewrite <- X1 in GX. rewrite <- Y1 in GY. rewrite <- Z1 in GZ.
  unfold u64 in *.
  destruct (dadd_R _ _ X2 Y2) as [A1 A2]; [apply FB; lra|].
  pose proof (G _ 0.13 ltac:(split; [apply Rplus_le_le_0_compat; [apply GX|apply GY]|lra]) ltac:(lra)) as GA. rewrite <- A1 in GA.
  destruct (dadd_R _ _ A2 Z2) as [B1 B2]; [apply FB; lra|].
  pose proof (G _ 0.2 ltac:(split; [apply Rplus_le_le_0_compat; [apply GA|apply GZ]|lra]) ltac:(lra)) as GB. rewrite <- B1 in GB.
  destruct (dsqrt_R _ B2) as [C1 C2]; [apply GB|].
  assert (SQ : 0 <= sqrt (R64 (dadd (dadd (dmul x x) (dmul y y)) (dmul z z))) <= 0.5).
  { split; [apply sqrt_pos|]. rewrite <- (sqrt_square 0.5) by lra. apply sqrt_le_1_alt. lra. }
  pose proof (G _ _ SQ ltac:(lra)) as GC. rewrite <- C1 in GC.
  destruct (off_by_d (x, y, z)) as [_ H]; unfold magnitude_d, dvx, dvy, dvz; cbn [fst snd]; auto.
  - apply Rabs_le_iff. lra.
  - apply H. unfold magnitude_d, dvx, dvy, dvz; cbn [fst snd]. unfold u64. rewrite Rabs_left by lra. lra.
Qed.

