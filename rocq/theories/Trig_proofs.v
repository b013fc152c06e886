(** Facts about the real functions and the rounded square root that the bounds on
    normals need. *)
From Coq Require Import List NArith ZArith Arith Lia Bool Reals Lra Psatz Machin.
From Flocq Require Import Core Relative IEEE754.BinarySingleNaN.
From Verif Require Import Base Floats Floats_proofs FloatReal_proofs ValueSpec Log2_proofs.
Import ListNotations.
Local Open Scope R_scope.

(** ** Pi *)
Lemma PI_bounds : 3.14159264 < PI < 3.14159267.
Proof.
  pose proof (PI_2_3_7_ineq 4) as [A B]. cbn [Nat.mul Nat.add sum_f_R0] in A, B.
  unfold tg_alt, PI_2_3_7_tg, Ratan_seq in A, B. cbn [Nat.mul Nat.add INR] in A, B.
  simpl pow in A, B. split; lra.
Qed.

Lemma half_pi_R : R32 f32_FRAC_PI_2 = 13176795 / 8388608 /\ fin f32_FRAC_PI_2.
Proof.
  pose proof (binary_normalize_correct 24 128 gt0_24 lt_24_128 mode_NE 13176795 (-23) false) as C.
  cbv zeta in C. cbn [round_mode] in C.
  assert (E : F2R (Float radix2 13176795 (-23)) = 13176795 / 8388608) by (unfold F2R; cbn; lra).
  rewrite E in C.
  assert (G : rnd32 (13176795 / 8388608) = 13176795 / 8388608).
  { apply round_generic; [auto with typeclass_instances|]. rewrite <- E.
    change fexp32 with (FLT_exp (-149) 24). apply generic_format_FLT.
    exists (Float radix2 13176795 (-23)); [reflexivity|cbn; lia|cbn; lia]. }
  rewrite no_overflow32 in C.
  - destruct C as (C1 & C2 & _). split; [|exact C2]. unfold R32, f32_FRAC_PI_2. rewrite C1. exact G.
  - rewrite Rabs_pos_eq by lra. eapply Rle_trans; [|apply big32_ge]. cbn. lra.
Qed.

(** ** Angles *)
Lemma sin_abs_pos x : 0 < x -> Rabs (sin x) <= x.
Proof.
  intros H. pose proof (sin_lt_x x H). apply Rabs_le_iff. split; [|lra].
  destruct (Rle_dec x 1) as [L|L]; [|pose proof (SIN_bound x); lra].
  pose proof PI_bounds. assert (0 <= sin x) by (apply sin_ge_0; lra). lra.
Qed.
Lemma sin_abs_le x : Rabs (sin x) <= Rabs x.
Proof.
  destruct (Rtotal_order x 0) as [H|[->|H]].
  - rewrite (Rabs_left x) by lra. rewrite <- (Rabs_Ropp (sin x)), <- sin_neg. apply sin_abs_pos. lra.
  - rewrite sin_0. lra.
  - rewrite (Rabs_pos_eq x) by lra. now apply sin_abs_pos.
Qed.
Lemma cos_ge_parabola x : 1 - x * x / 2 <= cos x.
Proof.
  replace x with (2 * (x / 2)) at 3 by field. rewrite cos_2a_sin.
  pose proof (sin_abs_le (x / 2)) as S.
  assert (sin (x / 2) * sin (x / 2) <= x / 2 * (x / 2)).
  { rewrite <- (Rabs_pos_eq (sin (x / 2) * sin (x / 2))) by (apply Rle_0_sqr).
    rewrite <- (Rabs_pos_eq (x / 2 * (x / 2))) by (apply Rle_0_sqr).
    rewrite !Rabs_mult. apply Rmult_le_compat; auto using Rabs_pos. }
  lra.
Qed.

(** Two points of the first quadrant of the unit circle whose ordinates are [e] apart. *)
Lemma circle_dot a b r s : 0 <= a -> 0 <= b -> 0 <= r -> 0 <= s -> a * a + r * r = 1 -> b * b + s * s = 1 ->
  1 - Rabs (a - b) <= a * b + r * s.
Proof.
  intros. destruct (Rle_dec a b) as [L|L].
  - rewrite Rabs_left1 by lra. assert (s <= r) by nra. assert (a <= 1) by nra. assert (b <= 1) by nra. nra.
  - rewrite Rabs_pos_eq by lra. assert (r <= s) by nra. assert (a <= 1) by nra. assert (b <= 1) by nra. nra.
Qed.

(** cos(alpha+beta) for an alpha with cosine at least 1 - e. *)
Lemma cos_sum_ge al be e : 0 <= e <= 1 -> 1 - e <= cos al -> 1 - 5 * e - 5 / 8 * (be * be) <= cos (al + be).
Proof.
  intros He H. rewrite cos_plus. pose proof (cos_ge_parabola be). pose proof (COS_bound al). pose proof (COS_bound be).
  pose proof (sin2_cos2 al) as S1. unfold Rsqr in S1.
  pose proof (sin_abs_le be) as S2.
  assert (SA : sin al * sin al <= 2 * e) by nra.
  assert (SB : sin be * sin be <= be * be).
  { rewrite <- (Rabs_pos_eq (sin be * sin be)) by (apply Rle_0_sqr).
    rewrite <- (Rabs_pos_eq (be * be)) by (apply Rle_0_sqr).
    rewrite !Rabs_mult. apply Rmult_le_compat; auto using Rabs_pos. }
  assert (sin al * sin be <= 2 * (sin al * sin al) + / 8 * (sin be * sin be)).
  { assert (0 <= (2 * sin al - / 2 * sin be) * (2 * sin al - / 2 * sin be)) by apply Rle_0_sqr. nra. }
  assert (1 - e - be * be / 2 <= cos al * cos be).
  { assert (0 <= (1 - cos al) * (1 - cos be)) by (apply Rmult_le_pos; lra). lra. }
  lra.
Qed.

(** ** The rounded square root of a rounded square *)
Lemma rnd32_rel x : bpow radix2 (-126) <= Rabs x -> Rabs (rnd32 x - x) <= u32 * Rabs x.
Proof.
  intros H. eapply Rle_trans; [apply (relative_error_N_FLT radix2 (-149) 24); [reflexivity|exact H]|].
  apply Rmult_le_compat_r; [apply Rabs_pos|]. right. unfold u32.
  change (bpow radix2 (-24 + 1)) with (/ IZR (2 ^ 23)). cbn. lra.
Qed.

Lemma sqrt_square_ge x : generic_format radix2 fexp32 x -> bpow radix2 (-60) <= x ->
  x <= rnd32 (sqrt (rnd32 (x * x))).
Proof.
  intros Fx Hx. assert (Px : 0 < x) by (eapply Rlt_le_trans; [apply bpow_gt_0|exact Hx]).
  destruct (mag radix2 x) as [e He]. specialize (He (Rgt_not_eq _ _ Px)). rewrite Rabs_pos_eq in He by lra.
  assert (Le : (-60 < e)%Z). { apply (lt_bpow radix2). lra. }
  assert (Me : mag radix2 x = e :> Z).
  { apply mag_unique. now rewrite Rabs_pos_eq by lra. }
  assert (Ce : cexp radix2 fexp32 x = (e - 24)%Z).
  { unfold cexp. rewrite Me. unfold SpecFloat.fexp, SpecFloat.emin. lia. }
  destruct (Req_dec x (bpow radix2 (e - 1))) as [Ex|Nx].
  - rewrite Ex, <- bpow_plus.
    rewrite (round_generic radix2 fexp32 ZnearestE (bpow radix2 (e - 1 + (e - 1)))).
    2:{ apply generic_format_bpow. unfold SpecFloat.fexp, SpecFloat.emin. lia. }
    rewrite bpow_plus, sqrt_square by apply bpow_ge_0.
    rewrite round_generic; [lra|auto with typeclass_instances|]. apply generic_format_bpow.
    unfold SpecFloat.fexp, SpecFloat.emin. lia.
  - apply round_N_ge_midp; auto with typeclass_instances.
    rewrite pred_eq_pos by lra. unfold pred_pos. rewrite Me, Req_bool_false by exact Nx.
    rewrite ulp_neq_0 by lra. rewrite Ce.
    assert (X2 : bpow radix2 (-126) <= x * x).
    { apply Rle_trans with (bpow radix2 (-60) * bpow radix2 (-60)).
      - rewrite <- bpow_plus. apply bpow_le. lia.
      - apply Rmult_le_compat; auto using bpow_ge_0. }
    pose proof (rnd32_rel (x * x)) as Er. rewrite (Rabs_pos_eq (x * x)) in Er by nra. specialize (Er X2).
    apply Rabs_le_iff in Er.
    assert (Y : (1 - u32) * (x * x) <= rnd32 (x * x)) by lra. clear Er.
    set (P := bpow radix2 e) in *.
    assert (Pp : 0 < P) by apply bpow_gt_0.
    assert (PU : bpow radix2 (e - 24) = u32 * P).
    { unfold Z.sub. rewrite bpow_plus. fold P. unfold u32. change (bpow radix2 (- (24))) with (/ IZR (2 ^ 24)). cbn. lra. }
    assert (Ph : bpow radix2 (e - 1) = P / 2).
    { unfold Z.sub. rewrite bpow_plus. fold P. change (bpow radix2 (- (1))) with (/ 2). lra. }
    rewrite PU. rewrite Ph in He.
    assert (T : x <= P - u32 * P).
    { assert (L : x <= pred radix2 fexp32 P).
      { apply pred_ge_gt; auto with typeclass_instances; [|apply He]. apply generic_format_bpow.
        unfold SpecFloat.fexp, SpecFloat.emin. lia. }
      unfold P in L at 1. rewrite pred_bpow in L. fold P in L.
      replace (SpecFloat.fexp 24 128 e) with (e - 24)%Z in L by (unfold SpecFloat.fexp, SpecFloat.emin; lia).
      rewrite PU in L. exact L. }
    apply Rlt_le_trans with (sqrt ((1 - u32) * (x * x))); [|apply sqrt_le_1_alt; exact Y].
    assert (U : 0 < u32 < / 100) by (unfold u32; lra).
    replace ((x + (x - u32 * P)) / 2) with (x - u32 * P / 2) by field.
    assert (0 <= x - u32 * P / 2) by nra.
    rewrite <- (sqrt_square (x - u32 * P / 2)) by assumption. apply sqrt_lt_1_alt. split; [nra|].
    assert (x * P - x * x >= u32 * (P * P) / 2) by nra.
    assert (0 < u32 * (P * P)) by (apply Rmult_lt_0_compat; nra).
    nra.
Qed.

(** ** The correctly rounded library is accurate *)
Lemma rnd32_small x : Rabs x <= 2 -> Rabs (rnd32 x - x) <= / 2 ^ 20.
Proof.
  intros H. eapply Rle_trans; [apply rnd32_err|]. pose proof tiny32_bound as [_ T]. unfold u32. simpl pow. lra.
Qed.
Lemma fits32 x : Rabs x <= 2 -> Rabs x <= big32.
Proof. intros H. eapply Rle_trans; [exact H|]. eapply Rle_trans; [|apply big32_ge]. apply IZR_le. lia. Qed.
Lemma exact_asin_ok : asin_ok exact_libm.
Proof.
  intros x F P. cbn [m_asin exact_libm]. pose proof (asin_bound (val x)) as B. pose proof PI_bounds.
  assert (A : 0 <= asin (val x)).
  { destruct (Rle_lt_dec 0 (asin (val x))) as [G|G]; auto. exfalso.
    assert (sin (asin (val x)) < 0) by (apply sin_lt_0_var; lra). rewrite sin_asin in *; lra. }
  destruct (f32_of_R_R (asin (val x))) as [E1 E2]; [apply fits32, Rabs_le_iff; lra|].
  destruct half_pi_R as [H1 H2]. change val with R32 in *. split; [exact E2|]. rewrite E1. split.
  - apply rnd32_between; [apply rnd32_0|apply rnd32_R32|]. rewrite H1. lra.
  - apply rnd32_small. apply Rabs_le_iff. lra.
Qed.
Lemma exact_sin_cos_ok : sin_cos_ok exact_libm.
Proof.
  intros x F P. cbn [m_sin_cos exact_libm fst snd]. pose proof (SIN_bound (val x)). pose proof (COS_bound (val x)).
  destruct (f32_of_R_R (sin (val x))) as [A1 A2]; [apply fits32, Rabs_le_iff; lra|].
  destruct (f32_of_R_R (cos (val x))) as [B1 B2]; [apply fits32, Rabs_le_iff; lra|].
  split; [exact A2|]. split; [exact B2|]. change val with R32 in *. rewrite A1, B1.
  split; apply rnd32_small; apply Rabs_le_iff; lra.
Qed.
