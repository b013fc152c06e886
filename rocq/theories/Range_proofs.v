(** The ranges of decoded values, for every stored code and every width. *)
From Coq Require Import List NArith ZArith Arith Lia Bool Reals Lra Psatz.
From Flocq Require Import Core IEEE754.BinarySingleNaN.
From Verif Require Import Base UnalignedRW ReadExt Floats Floats_proofs FloatReal_proofs ValueSpec Log2_proofs Trig_proofs
  Utilis Normals Quant_proofs NormalReal_proofs PlatformSpec.
Import ListNotations.
Local Open Scope R_scope.

Lemma code_bound32 (q : N) : (q < 2 ^ 64)%N -> Rabs (IZR (Z.of_N q)) <= big32.
Proof.
  intros H. rewrite <- abs_IZR. eapply Rle_trans; [|apply big32_ge]. apply IZR_le.
  change (2 ^ 64)%N with (Z.to_N (2 ^ 64)) in H. assert (Z.of_N q < 2 ^ 64)%Z by lia.
  rewrite Z.abs_eq by lia. transitivity (2 ^ 64)%Z; [lia|]. now apply Z.pow_le_mono_r.
Qed.
Lemma pow_le_64 p : (p < 64)%nat -> (2 ^ N.of_nat p <= 2 ^ 63)%N.
Proof. intros. apply N.pow_le_mono_r; lia. Qed.
Lemma mask_pos p : (1 <= p)%nat -> (1 <= mask_u64 p)%N.
Proof.
  intros. unfold mask_u64. assert (2 ^ 1 <= 2 ^ N.of_nat p)%N by (apply N.pow_le_mono_r; lia).
  change (2 ^ 1)%N with 2%N in *. lia.
Qed.

(** A code divided by the largest code of its width. *)
Lemma quot_any (q d : N) : (q <= d)%N -> (1 <= d)%N -> (d < 2 ^ 64)%N ->
  let y := fdiv (f32_of_N q) (f32_of_N d) in fin y /\ 0 <= R32 y <= 1.
Proof.
  intros Hq Hd Hb y.
  destruct (f32_of_Z_R (Z.of_N q)) as [Q1 Q2]; [apply code_bound32; lia|]. fold (f32_of_N q) in Q1, Q2.
  destruct (f32_of_Z_R (Z.of_N d)) as [D1 D2]; [apply code_bound32; lia|]. fold (f32_of_N d) in D1, D2.
  assert (L0 : 0 <= R32 (f32_of_N q)). { rewrite Q1, <- rnd32_0. apply rnd32_le, IZR_le. lia. }
  assert (L1 : R32 (f32_of_N q) <= R32 (f32_of_N d)). { rewrite Q1, D1. apply rnd32_le, IZR_le. lia. }
  assert (L2 : 1 <= R32 (f32_of_N d)). { rewrite D1, <- rnd32_1. apply rnd32_le, (IZR_le 1). lia. }
  assert (B : 0 <= R32 (f32_of_N q) / R32 (f32_of_N d) <= 1).
  { split; [apply Rmult_le_pos; [exact L0|left; apply Rinv_0_lt_compat; lra]|].
    apply Rmult_le_reg_r with (R32 (f32_of_N d)); [lra|]. unfold Rdiv. rewrite Rmult_assoc, Rinv_l by lra. lra. }
  destruct (fdiv_R (f32_of_N q) (f32_of_N d) Q2) as [A1 A2]; [lra|now apply fits1|].
  split; [exact A2|]. unfold y. rewrite A1. apply rnd32_between; [apply rnd32_0|apply rnd32_1|exact B].
Qed.

(** A decoded normal, whatever the width. *)
Record shape (lm : libm) (p : nat) (c : ncode) (th z rf : f32) : Prop := {
  sh_n : normal_from_encoding lm c p =
    ((if n_sx c then fneg (fmul (fst (m_sin_cos lm th)) rf) else fmul (fst (m_sin_cos lm th)) rf),
     (if n_sy c then fneg (fmul (snd (m_sin_cos lm th)) rf) else fmul (snd (m_sin_cos lm th)) rf),
     (if n_sz c then fneg z else z));
  sh_th : fin th /\ 0 <= R32 th <= H;
  sh_z : fin z /\ 0 <= R32 z <= 1;
  sh_r : fin rf /\ 0 <= R32 rf <= 1 /\ Rabs (R32 rf * R32 rf - (1 - R32 z * R32 z)) <= 6 * u32 }.

Definition th_of (p : nat) (c : ncode) : f32 :=
  fmul (fdiv (f32_of_N (n_asine c)) (f32_of_N (mask_u64 p))) half_pi.
Definition z_of (p : nat) (c : ncode) : f32 := fdiv (f32_of_N (n_z c)) (f32_of_N (mask_u64 p)).
Definition r_of (p : nat) (c : ncode) : f32 := fsqrt (fsub f1 (fmul (z_of p c) (z_of p c))).

Lemma shape_any lm p c : (1 <= p < 64)%nat ->
  (n_asine c < 2 ^ N.of_nat p)%N -> (n_z c < 2 ^ N.of_nat p)%N -> shape lm p c (th_of p c) (z_of p c) (r_of p c).
Proof.
  intros B Ha Hz. pose proof H_bounds as HB. pose proof (pow_le_64 p ltac:(lia)) as P64.
  pose proof (mask_pos p ltac:(lia)) as M1.
  change (2 ^ 64)%N with (2 ^ 63 * 2)%N in *.
  destruct (quot_any (n_asine c) (mask_u64 p)) as [A1 A2]; [unfold mask_u64; lia|exact M1| |].
  { change (2 ^ 64)%N with (2 * 2 ^ 63)%N. unfold mask_u64. lia. }
  destruct (quot_any (n_z c) (mask_u64 p)) as [Z1 Z2]; [unfold mask_u64; lia|exact M1| |].
  { change (2 ^ 64)%N with (2 * 2 ^ 63)%N. unfold mask_u64. lia. }
  cbv zeta in *. fold (z_of p c) in Z1, Z2.
  destruct half_pi_is as [P1 P2].
  set (a := fdiv (f32_of_N (n_asine c)) (f32_of_N (mask_u64 p))) in *.
  assert (AB : 0 <= R32 a * H <= H).
  { split; [apply Rmult_le_pos; lra|]. rewrite <- (Rmult_1_l H) at 2. apply Rmult_le_compat_r; lra. }
  destruct (fmul_R a half_pi A1 P2) as [T1 T2]; [rewrite P1; apply fits32, Rabs_le_iff; lra|].
  rewrite P1 in T1. change (fmul a half_pi) with (th_of p c) in T1, T2.
  constructor.
  - unfold normal_from_encoding. destruct (Nat.eqb_spec p 0) as [E|_]; [lia|]. cbv zeta.
    fold a. fold (th_of p c). change (fmul a half_pi) with (th_of p c). fold (z_of p c). fold (r_of p c).
    destruct (m_sin_cos lm (th_of p c)). reflexivity.
  - split; [exact T2|]. rewrite T1. apply rnd32_between; [apply rnd32_0|apply rnd32_H|exact AB].
  - auto.
  - apply (radius_R (z_of p c)); auto.
Qed.

Lemma fmul_trig lm th rf : sin_cos_ok lm -> fin th -> 0 <= R32 th <= H -> fin rf -> 0 <= R32 rf <= 1 ->
  fin (fmul (fst (m_sin_cos lm th)) rf) /\ fin (fmul (snd (m_sin_cos lm th)) rf) /\
  Rabs (R32 (fmul (fst (m_sin_cos lm th)) rf) - sin (R32 th) * R32 rf) <= 18 * u32 /\
  Rabs (R32 (fmul (snd (m_sin_cos lm th)) rf) - cos (R32 th) * R32 rf) <= 18 * u32.
Proof.
  intros SC F B Fr Br. pose proof H_bounds as HB.
  destruct (SC th F) as (S1 & S2 & S3 & S4); [change (val th) with (R32 th); lra|].
  change val with R32 in *.
  assert (E20 : / 2 ^ 20 = 16 * u32) by (unfold u32; simpl pow; lra). rewrite E20 in S3, S4.
  destruct (mul_trig (fst (m_sin_cos lm th)) (sin (R32 th)) rf) as [X1 X2]; auto.
  { pose proof (SIN_bound (R32 th)). apply Rabs_le_iff. lra. }
  destruct (mul_trig (snd (m_sin_cos lm th)) (cos (R32 th)) rf) as [Y1 Y2]; auto.
  { pose proof (COS_bound (R32 th)). apply Rabs_le_iff. lra. }
Qed.
Lemma Rabs_sub_self x : Rabs (x - x) = 0.
Proof. unfold Rminus. rewrite Rplus_opp_r. apply Rabs_R0. Qed.
Lemma within_sg e (b : bool) x y : Rabs (R32 y - R32 x) <= e -> within e (if b then fneg x else x) (if b then fneg y else y).
Proof.
  intros D. unfold within. change val with R32. rewrite !sg_R. unfold sg.
  destruct b; apply Rabs_le_iff; apply Rabs_le_iff in D; lra.
Qed.

(** Two accurate libraries decode nearly the same normal. *)
Lemma near_any lm lm' p c : sin_cos_ok lm -> sin_cos_ok lm' -> (p < 64)%nat ->
  (n_asine c < 2 ^ N.of_nat p)%N -> (n_z c < 2 ^ N.of_nat p)%N ->
  near3 (/ 2 ^ 18) (normal_from_encoding lm c p) (normal_from_encoding lm' c p).
Proof.
  intros SC SC' B Ha Hz.
  assert (E18 : / 2 ^ 18 = 64 * u32) by (unfold u32; simpl pow; lra). pose proof u32_small as U.
  destruct (Nat.eq_dec p 0) as [->|P0].
  - unfold normal_from_encoding. cbn [Nat.eqb]. unfold near3, finite3, finite, within. cbn [fst snd].
    rewrite !Rabs_sub_self, !sg_fin. rewrite (proj2 f1_R), E18. repeat split; lra.
  - destruct (shape_any lm p c ltac:(lia) Ha Hz) as [S1 T Z R]. destruct (shape_any lm' p c ltac:(lia) Ha Hz) as [S1' _ _ _].
    rewrite S1, S1'. destruct T as [T1 T2], R as (R1 & R2 & _), Z as [Z1 Z2].
    destruct (fmul_trig lm (th_of p c) (r_of p c)) as (F1 & F2 & E1 & E2); auto.
    destruct (fmul_trig lm' (th_of p c) (r_of p c)) as (F1' & F2' & E1' & E2'); auto.
    apply Rabs_le_iff in E1, E2, E1', E2'.
    unfold near3, finite3, finite. cbn [fst snd]. rewrite !sg_fin. rewrite E18.
    split; [auto|]. split; [auto|]. split; [|split]; apply within_sg; apply Rabs_le_iff; try lra.
Qed.

(** Unit length, whatever the width. *)
Lemma unit_any lm p c : sin_cos_ok lm -> (1 <= p < 64)%nat ->
  (n_asine c < 2 ^ N.of_nat p)%N -> (n_z c < 2 ^ N.of_nat p)%N ->
  finite3 (normal_from_encoding lm c p) /\ Rabs (dot3 (normal_from_encoding lm c p) (normal_from_encoding lm c p) - 1) <= / 2 ^ 17.
Proof.
  intros SC B Ha Hz. pose proof u32_small as U.
  assert (E17 : / 2 ^ 17 = 128 * u32) by (unfold u32; simpl pow; lra).
  destruct (shape_any lm p c B Ha Hz) as [-> [T1 T2] [Z1 Z2] (R1 & R2 & R3)].
  destruct (fmul_trig lm (th_of p c) (r_of p c)) as (F1 & F2 & E1 & E2); auto.
  split; [unfold finite3, finite; cbn [fst snd]; rewrite !sg_fin; auto|].
  unfold dot3. cbn [fst snd]. change val with R32. rewrite !sg_R.
  set (X := R32 (fmul (fst _) _)) in *. set (Y := R32 (fmul (snd _) _)) in *. set (z := R32 (z_of p c)) in *.
  set (r := R32 (r_of p c)) in *. set (s := sin _) in *. set (k := cos _) in *.
  assert (SK : s * s + k * k = 1) by apply sin2_cos2.
  replace (sg (n_sx c) * X * (sg (n_sx c) * X) + sg (n_sy c) * Y * (sg (n_sy c) * Y) + sg (n_sz c) * z * (sg (n_sz c) * z))
    with (X * X + Y * Y + z * z) by (unfold sg; destruct (n_sx c), (n_sy c), (n_sz c); ring).
  assert (S1 : -1 <= s <= 1) by apply SIN_bound. assert (K1 : -1 <= k <= 1) by apply COS_bound.
  assert (SQ : forall A t, Rabs (A - t * r) <= 18 * u32 -> -1 <= t <= 1 -> Rabs (A * A - t * t * (r * r)) <= 40 * u32).
  { intros A t HA Ht. replace (A * A - t * t * (r * r)) with ((A - t * r) * ((A - t * r) + 2 * (t * r))) by ring.
    rewrite Rabs_mult. assert (Rabs ((A - t * r) + 2 * (t * r)) <= 2.1).
    { assert (-1 <= t * r <= 1).
      { assert (Rabs (t * r) <= 1 * 1) as G. { rewrite Rabs_mult. apply Rmult_le_compat; try apply Rabs_pos; apply Rabs_le_iff; lra. }
        apply Rabs_le_iff in G. lra. }
      apply Rabs_le_iff in HA. apply Rabs_le_iff. lra. }
    eapply Rle_trans; [apply Rmult_le_compat; [apply Rabs_pos|apply Rabs_pos|exact HA|eassumption]|]. lra. }
  pose proof (SQ X s E1 S1) as G1. pose proof (SQ Y k E2 K1) as G2.
  apply Rabs_le_iff in G1, G2, R3. rewrite E17. apply Rabs_le_iff.
  assert (s * s * (r * r) + k * k * (r * r) = r * r) by (rewrite <- Rmult_plus_distr_r, SK; ring).
  lra.
Qed.
