(** Normals decoded with the fast_trig feature. *)
From Coq Require Import List NArith ZArith Arith Lia Bool Reals Lra.
From Flocq Require Import Core IEEE754.BinarySingleNaN.
From Verif Require Import Base Floats Floats_proofs FloatReal_proofs ValueSpec Log2_proofs Trig_proofs Utilis Normals NormalReal_proofs
  FastTrig FastTrig_proofs FastTrig2_proofs FastTrigSpec PlatformSpec RangeSpec Range_proofs Range2_proofs.
Import ListNotations.
Local Open Scope R_scope.

Lemma rnd32_above_one x : x <= 1 + / 33554432 -> rnd32 x <= 1.
Proof.
  intros B. set (c := @binary_normalize 53 1024 gt0_53 lt_53_1024 mode_NE 33554433 (-25) false).
  destruct (SF_R64 c false 4503599761588224 (-52)) as [E F]; [vm_compute; reflexivity|].
  assert (E1 : R64 c = 1 + / 33554432).
  { rewrite E. unfold F2R. cbn [Fnum Fexp cond_Zopp]. change (bpow radix2 (-52)) with (/ 4503599627370496). lra. }
  destruct (f32_of_f64_R c F) as [G _]. { rewrite E1. apply fits32, Rabs_le_iff. lra. }
  replace (f32_of_f64 c) with f1 in G by (apply B2SF_inj; vm_compute; reflexivity).
  rewrite (proj1 f1_R), E1 in G. rewrite G. now apply rnd32_le.
Qed.
Lemma cos_low th : 0 <= th <= H -> - u32 <= cos th.
Proof.
  intros D6. pose proof PI_bounds as PB. pose proof H_bounds as HB. pose proof u32_small as U.
  destruct (Rle_lt_dec th (PI / 2)) as [G|G]; [assert (0 <= cos th) by (apply cos_ge_0; lra); lra|].
  replace th with (PI / 2 - (PI / 2 - th)) by ring. rewrite cos_shift.
  pose proof (sin_abs_le (PI / 2 - th)) as SA. apply Rabs_le_iff in SA.
  rewrite Rabs_left1 in SA by lra. unfold H in D6. unfold u32. lra.
Qed.
(** What replaces sine and cosine. *)
Lemma fast_R th : fin th -> 0 <= R32 th <= H ->
  let S := fst (fast_sin_cos th) in let C := snd (fast_sin_cos th) in
  fin S /\ fin C /\ 0 <= R32 S <= 1 /\ 0 <= R32 C <= 1 /\ Rabs (R32 C * R32 C - (1 - R32 S * R32 S)) <= 6 * u32 /\
  Rabs (R32 S - sin (R32 th)) <= 3.125 * / 10 ^ 4 /\ Rabs (R32 C - cos (R32 th)) <= 3.5 * / 10 ^ 3.
Proof.
  intros F B. unfold fast_sin_cos. cbv zeta. cbn [fst snd]. pose proof H_bounds as HB. pose proof u32_small as U.
  destruct (f64_of_f32_correct th F) as (T1 & T2 & _).
  destruct (fsin_R _ T2) as (G1 & G2 & G3 & G4); [rewrite T1; exact B|]. rewrite T1 in G3, G4.
  set (v := fsin (f64_of_f32 th)) in *. clearbody v.
  destruct (f32_of_f64_R v G1) as [S1 S2]. { apply fits32, Rabs_le_iff. lra. }
  set (x := f32_of_f64 v) in *.
  assert (SB : 0 <= R32 x <= 1).
  { rewrite S1. split; [rewrite <- rnd32_0; apply rnd32_le; lra|]. apply rnd32_above_one. lra. }
  destruct (radius_R x S2 SB) as (C1 & C2 & C3). set (C := fsqrt (fsub f1 (fmul x x))) in *.
  assert (E : Rabs (R32 x - R64 v) <= 1.1 * u32).
  { rewrite S1. eapply Rle_trans; [apply rnd32_err|]. pose proof tiny_u. rewrite Rabs_pos_eq by lra.
    assert (u32 * R64 v <= u32 * (1 + / 33554432)) by (apply Rmult_le_compat_l; lra). lra. }
  apply Rabs_le_iff in E, G3, G4. set (s := sin (R32 th)) in *. set (k := cos (R32 th)) in *.
  assert (K0 : - u32 <= k) by (apply cos_low; exact B). assert (K1 : k <= 1) by apply COS_bound.
  assert (SK : s * s + k * k = 1) by (apply (sin2_cos2 (R32 th))).
  assert (SI : -1 <= s <= 1) by apply SIN_bound.
  split; [exact S2|]. split; [exact C1|]. split; [exact SB|]. split; [exact C2|]. split; [exact C3|].
  assert (U' : u32 <= 0.6 * / 10 ^ 7) by (unfold u32; lra).
  split; [apply Rabs_le_iff; lra|].
  apply Rabs_le_iff in C3. set (X := R32 x) in *. set (Y := R32 C) in *.
  assert (AK : 0 <= Rabs k <= k + 2 * u32) by (split; [apply Rabs_pos|unfold Rabs; destruct (Rcase_abs k); lra]).
  assert (D1 : Rabs (X - s) <= 1.6 * / 10 ^ 3 * k + 3 * / 10 ^ 7) by (apply Rabs_le_iff; lra).
  assert (D2 : Rabs (X * X - s * s) <= (1.6 * / 10 ^ 3 * k + 3 * / 10 ^ 7) * 2).
  { replace (X * X - s * s) with ((X - s) * (X + s)) by ring. apply Rabs_prod; [exact D1|apply Rabs_le_iff; lra]. }
  apply Rabs_le_iff in D2.
  set (E0 := 3.5 * / 10 ^ 3).
  apply Rabs_le_iff. split; apply Rnot_lt_le; intros L.
  - (* Y is too small *)
    assert (E0 * k <= (k - Y) * (k + Y)).
    { apply Rle_trans with ((k - Y) * k); [apply Rmult_le_compat_r; unfold E0 in *; lra|].
      apply Rmult_le_compat_l; unfold E0 in *; lra. }
    assert (E0 * E0 <= E0 * k) by (apply Rmult_le_compat_l; unfold E0 in *; lra).
    unfold E0 in *. lra.
  - (* Y is too large *)
    assert (E0 * (2 * k + E0) <= (Y - k) * (Y + k)).
    { apply Rmult_le_compat; unfold E0 in *; lra. }
    unfold E0 in *. lra.
Qed.

Lemma trig_fast lm : m_sin_cos (fast lm) = fast_sin_cos. Proof. reflexivity. Qed.
Lemma mul_small s rf : fin s -> fin rf -> 0 <= R32 rf <= 1 -> 0 <= R32 s <= 1 ->
  fin (fmul s rf) /\ 0 <= R32 (fmul s rf) <= 1 /\ Rabs (R32 (fmul s rf) - R32 s * R32 rf) <= 1.1 * u32.
Proof.
  intros Fs Fr Br Bs. assert (B : 0 <= R32 s * R32 rf <= 1 * 1) by (split; [apply Rmult_le_pos|apply Rmult_le_compat]; lra).
  destruct (fmul_R s rf Fs Fr) as [E F]. { apply fits32, Rabs_le_iff. lra. }
  split; [exact F|]. rewrite E. split.
  - apply rnd32_between; [apply rnd32_0|apply rnd32_1|lra].
  - eapply Rle_trans; [apply rnd32_err|]. pose proof tiny_u. pose proof u32_small. rewrite Rabs_pos_eq by lra.
    assert (u32 * (R32 s * R32 rf) <= u32 * 1) by (apply Rmult_le_compat_l; lra). lra.
Qed.
Lemma sq_bound x a : Rabs x <= a -> x ^ 2 <= a * a.
Proof.
  intros B. replace (x ^ 2) with (Rabs x * Rabs x). { apply Rmult_le_compat; auto using Rabs_pos. }
  rewrite <- Rabs_mult, Rabs_pos_eq by apply Rle_0_sqr. ring.
Qed.
Lemma sg_sub b X Y : Rabs (sg b * X - sg b * Y) = Rabs (X - Y).
Proof.
  rewrite <- Rmult_minus_distr_l, Rabs_mult. unfold sg. destruct b; [rewrite Rabs_left by lra|rewrite Rabs_pos_eq by lra]; ring.
Qed.
(** Against any accurate library: at most 1/256 away. *)
Lemma fast_near lm lm' p c : sin_cos_ok lm' -> (p < 64)%nat ->
  (n_asine c < 2 ^ N.of_nat p)%N -> (n_z c < 2 ^ N.of_nat p)%N ->
  near_by (/ 256) (normal_from_encoding (fast lm) c p) (normal_from_encoding lm' c p).
Proof.
  intros SC B Ha Hz. pose proof u32_small as U. unfold near_by. assert (U' : u32 <= 0.6 * / 10 ^ 7) by (unfold u32; lra).
  destruct (Nat.eq_dec p 0) as [->|P0].
  - unfold normal_from_encoding. cbn [Nat.eqb]. unfold finite3, finite, dist3. cbn [fst snd].
    rewrite !Rminus_eq_0. rewrite !sg_fin. rewrite (proj2 f1_R). replace (0 ^ 2 + 0 ^ 2 + 0 ^ 2) with 0 by ring.
    rewrite sqrt_0. repeat split. lra.
  - destruct (shape_any (fast lm) p c ltac:(lia) Ha Hz) as [S1 T Z R]. destruct (shape_any lm' p c ltac:(lia) Ha Hz) as [S1' _ _ _].
    rewrite S1, S1'. destruct T as [T1 T2], R as (R1 & R2 & _), Z as [Z1 Z2].
    destruct (fmul_trig lm' (th_of p c) (r_of p c)) as (F1' & F2' & E1' & E2'); auto.
    change (m_sin_cos (fast lm)) with fast_sin_cos.
    destruct (fast_R (th_of p c) T1 T2) as (A1 & A2 & A3 & A4 & _ & A5 & A6).
    destruct (mul_small _ (r_of p c) A1 R1 R2 A3) as (F1 & _ & E1). destruct (mul_small _ (r_of p c) A2 R1 R2 A4) as (F2 & _ & E2).
    split; [unfold finite3, finite; cbn [fst snd]; rewrite !sg_fin; auto|].
    split; [unfold finite3, finite; cbn [fst snd]; rewrite !sg_fin; auto|].
    unfold dist3. cbn [fst snd]. change val with R32. rewrite !sg_R. rewrite (Rminus_eq_0 (sg (n_sz c) * _)).
    rewrite <- (sqrt_square (/ 256)) by lra. apply sqrt_le_1_alt.
    set (X := R32 (fmul (fst (fast_sin_cos _)) _)) in *. set (Y := R32 (fmul (snd (fast_sin_cos _)) _)) in *.
    set (X' := R32 (fmul (fst (m_sin_cos _ _)) _)) in *. set (Y' := R32 (fmul (snd (m_sin_cos _ _)) _)) in *.
    set (S0 := R32 (fst (fast_sin_cos _))) in *. set (C0 := R32 (snd (fast_sin_cos _))) in *.
    clearbody X Y X' Y' S0 C0.
    assert (G : forall a b r d, 0 <= r <= 1 -> Rabs (a - b) <= d -> Rabs (a * r - b * r) <= d).
    { intros a b r d Hr Hd. rewrite <- Rmult_minus_distr_r. replace d with (d * 1) by ring. apply Rabs_prod; [exact Hd|apply Rabs_le_iff; lra]. }
    pose proof (G _ _ _ _ R2 A5) as G1. pose proof (G _ _ _ _ R2 A6) as G2.
    apply Rabs_le_iff in G1, G2, E1, E2, E1', E2'.
    assert (DX : Rabs (sg (n_sx c) * X - sg (n_sx c) * X') <= 3.2 * / 10 ^ 4) by (rewrite sg_sub; apply Rabs_le_iff; lra).
    assert (DY : Rabs (sg (n_sy c) * Y - sg (n_sy c) * Y') <= 3.6 * / 10 ^ 3) by (rewrite sg_sub; apply Rabs_le_iff; lra).
    apply sq_bound in DX, DY. lra.
Qed.
(** The decoded normal is a unit vector. *)
Lemma unit_alg (bx bY bz : bool) X Y z r s k : 0 <= r <= 1 -> 0 <= X <= 1 -> 0 <= Y <= 1 -> 0 <= s <= 1 -> 0 <= k <= 1 ->
  Rabs (X - s * r) <= 1.1 * u32 -> Rabs (Y - k * r) <= 1.1 * u32 ->
  Rabs (k * k - (1 - s * s)) <= 6 * u32 -> Rabs (r * r - (1 - z * z)) <= 6 * u32 ->
  Rabs (sg bx * X * (sg bx * X) + sg bY * Y * (sg bY * Y) + sg bz * z * (sg bz * z) - 1) <= / 2 ^ 17.
Proof.
  intros R2 B1 B2 A3 A4 E1 E2 A5 R3. pose proof u32_small as U.
  assert (E17 : / 2 ^ 17 = 128 * u32) by (unfold u32; simpl pow; lra).
  replace (sg bx * X * (sg bx * X) + sg bY * Y * (sg bY * Y) + sg bz * z * (sg bz * z))
    with (X * X + Y * Y + z * z) by (unfold sg; destruct bx, bY, bz; ring).
  assert (SQ : forall A t, Rabs (A - t * r) <= 1.1 * u32 -> 0 <= A <= 1 -> 0 <= t <= 1 -> Rabs (A * A - t * t * (r * r)) <= 1.1 * u32 * 2).
  { intros A t HA Hb Ht. assert (0 <= t * r <= 1 * 1) by (split; [apply Rmult_le_pos|apply Rmult_le_compat]; lra).
    replace (A * A - t * t * (r * r)) with ((A - t * r) * (A + t * r)) by ring. apply Rabs_prod; [exact HA|apply Rabs_le_iff; lra]. }
  pose proof (SQ X s E1 B1 A3) as G1. pose proof (SQ Y k E2 B2 A4) as G2.
  assert (RR : 0 <= r * r <= 1 * 1) by (split; [apply Rmult_le_pos|apply Rmult_le_compat]; lra).
  assert (G3 : Rabs ((k * k - (1 - s * s)) * (r * r)) <= 6 * u32 * 1) by (apply Rabs_prod; [exact A5|apply Rabs_le_iff; lra]).
  apply Rabs_le_iff in G1, G2, G3, R3. rewrite E17. apply Rabs_le_iff. lra.
Qed.
Lemma dot3_R x y z : dot3 (x, y, z) (x, y, z) = R32 x * R32 x + R32 y * R32 y + R32 z * R32 z.
Proof. reflexivity. Qed.
Lemma fast_unit lm p c : (1 <= p < 64)%nat ->
  (n_asine c < 2 ^ N.of_nat p)%N -> (n_z c < 2 ^ N.of_nat p)%N ->
  finite3 (normal_from_encoding (fast lm) c p) /\
  Rabs (dot3 (normal_from_encoding (fast lm) c p) (normal_from_encoding (fast lm) c p) - 1) <= / 2 ^ 17.
Proof.
  intros B Ha Hz.
  destruct (shape_any (fast lm) p c B Ha Hz) as [S1 [T1 T2] [Z1 Z2] (R1 & R2 & R3)]. rewrite S1. clear S1.
  rewrite trig_fast. pose proof (fast_R (th_of p c) T1 T2) as FR. cbv zeta in FR.
  destruct (fast_sin_cos (th_of p c)) as [s k]. cbn [fst snd] in *.
  destruct FR as (A1 & A2 & A3 & A4 & A5 & _ & _).
  destruct (mul_small _ (r_of p c) A1 R1 R2 A3) as (F1 & B1 & E1). destruct (mul_small _ (r_of p c) A2 R1 R2 A4) as (F2 & B2 & E2).
  split; [unfold finite3, finite; cbn [fst snd]; rewrite !sg_fin; auto|].
  rewrite dot3_R, !sg_R. now apply (unit_alg _ _ _ _ _ _ (R32 (r_of p c)) (R32 s) (R32 k)).
Qed.
Lemma fast_ok lm : normals_ok (fast lm).
Proof.
  intros p c B Ha Hz. destruct (Nat.eq_dec p 0) as [->|P0].
  - right. unfold normal_from_encoding. cbn [Nat.eqb fst snd]. auto using sign_of.
  - left. apply fast_unit; auto. lia.
Qed.
