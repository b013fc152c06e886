(** Widths computed with log2, and the correctly rounded library that shows the
    accuracy hypotheses can be met. *)
From Coq Require Import List NArith ZArith Arith Lia Bool Reals Lra Psatz.
From Flocq Require Import Core IEEE754.BinarySingleNaN.
From Verif Require Import Base Floats Floats_proofs FloatReal_proofs ValueSpec.
Import ListNotations.
Local Open Scope R_scope.

(** ** Rounding a real number to an f32 *)

Definition f32_of_R (x : R) : f32 :=
  @binary_normalize 24 128 gt0_24 lt_24_128 mode_NE (ZnearestE (scaled_mantissa radix2 fexp32 x)) (cexp radix2 fexp32 x) false.
Lemma f32_of_R_R x : Rabs x <= big32 -> R32 (f32_of_R x) = rnd32 x /\ fin (f32_of_R x).
Proof.
  intros B. pose proof (binary_normalize_correct 24 128 gt0_24 lt_24_128 mode_NE
    (ZnearestE (scaled_mantissa radix2 fexp32 x)) (cexp radix2 fexp32 x) false) as C.
  cbv zeta in C. cbn [round_mode] in C. change (F2R _) with (rnd32 x) in C.
  rewrite (round_generic radix2 fexp32 ZnearestE (rnd32 x)) in C by (apply generic_format_round; auto with typeclass_instances).
  rewrite (no_overflow32 x B) in C. split; apply C.
Qed.

Definition exact_libm : libm :=
  mk_libm (fun x => f32_of_R (log2 (val x))) (fun x => f32_of_R (asin (val x)))
          (fun x => (f32_of_R (sin (val x)), f32_of_R (cos (val x)))).

Lemma rnd32_accurate x : Rabs (rnd32 x - x) <= / 2 ^ 20 * (1 + Rabs x).
Proof.
  eapply Rle_trans; [apply rnd32_err|]. pose proof (Rabs_pos x). pose proof tiny32_bound as [_ T].
  unfold u32. simpl pow in *. lra.
Qed.

(** ** Bounds on log2 *)

Lemma ln2_bounds : / 2 < ln 2 < 1.
Proof.
  split; [exact ln_lt_2|].
  rewrite <- (ln_exp 1). apply ln_increasing; [lra|]. pose proof (exp_ineq1 1). lra.
Qed.
Lemma log2_bpow e : log2 (bpow radix2 e) = IZR e.
Proof.
  pose proof ln2_bounds. unfold log2. rewrite bpow_powerRZ. change (IZR radix2) with 2.
  assert (ln (powerRZ 2 e) = IZR e * ln 2) as ->; [|field; lra].
  rewrite powerRZ_Rpower by lra. unfold Rpower. apply ln_exp.
Qed.
Lemma log2_le x y : 0 < x -> x <= y -> log2 x <= log2 y.
Proof.
  intros. pose proof ln2_bounds. unfold log2. apply Rmult_le_compat_r; [left; apply Rinv_0_lt_compat; lra|].
  destruct (Rle_lt_or_eq_dec x y) as [L| ->]; [auto| |lra]. left. now apply ln_increasing.
Qed.
Lemma float_log2_bound (x : f32) : 0 < R32 x -> Rabs (log2 (R32 x)) <= 149.
Proof.
  intros P. apply Rabs_le_iff. split.
  - apply Rle_trans with (log2 (bpow radix2 (-149))); [rewrite log2_bpow; lra|]. apply log2_le; [apply bpow_gt_0|].
    destruct x as [s|s| |s m e H]; unfold R32, B2R in *; try lra.
    pose proof (bounded_ge_emin 24 128 m e H) as G. cbn in G.
    unfold R32, B2R. destruct s; [exfalso; revert P; apply Rle_not_lt; now apply F2R_le_0|].
    exact G.
  - apply Rle_trans with (log2 (bpow radix2 149)); [|rewrite log2_bpow; lra]. apply log2_le; [exact P|].
    pose proof (abs_B2R_lt_emax 24 128 x) as L. unfold R32 in *. rewrite Rabs_pos_eq in L by lra.
    left. eapply Rlt_le_trans; [exact L|]. apply bpow_le. lia.
Qed.

Lemma exact_log2_ok : log2_ok exact_libm.
Proof.
  intros x F P. cbn [m_log2 exact_libm]. destruct (f32_of_R_R (log2 (val x))) as [A B].
  - eapply Rle_trans; [apply (float_log2_bound x P)|]. eapply Rle_trans; [|apply big32_ge]. apply IZR_le. lia.
  - split; [exact B|]. change (val (f32_of_R (log2 (val x)))) with (R32 (f32_of_R (log2 (val x)))). rewrite A.
    apply rnd32_accurate.
Qed.

(** ** The width computed from a ratio *)

Lemma fceil_R x : fin x -> R32 (fceil x) = IZR (Zceil (R32 x)) /\ fin (fceil x).
Proof.
  intros F. destruct (Bnearbyint_correct 24 128 lt_24_128 mode_UP x) as (A & B & _).
  split; [|unfold fceil; now rewrite B]. unfold R32, fceil. rewrite A. cbn [round_mode].
  unfold round, scaled_mantissa, cexp, F2R, FIX_exp. cbn. now rewrite !Rmult_1_r.
Qed.
Lemma u8_ceil x : fin x -> Z.of_nat (u8_of_f32 (fceil x)) = Z.min 255 (Z.max 0 (Zceil (R32 x))).
Proof.
  intros F. destruct (fceil_R x F) as [A B]. unfold u8_of_f32. rewrite sat_cast_R by auto.
  rewrite A, Ztrunc_IZR. lia.
Qed.

Lemma pow2_nat (w : nat) : IZR (2 ^ Z.of_nat w) = bpow radix2 (Z.of_nat w).
Proof. rewrite <- IZR_Zpower by lia. reflexivity. Qed.

(** A width covers the ratio it was computed from, and is not two more than needed. *)
Lemma width_covers lm (x : f32) : log2_ok lm -> fin x -> 0 < R32 x ->
  let w := u8_of_f32 (fceil (m_log2 lm x)) in
  R32 x * (1 - / 5000) <= IZR (2 ^ Z.of_nat w) /\
  ((0 < w)%nat -> IZR (2 ^ Z.of_nat w) <= 2 * R32 x * (1 + / 5000)).
Proof.
  intros L F P w. destruct (L x F P) as [F1 A]. pose proof (float_log2_bound x P) as B.
  change (val x) with (R32 x) in A. change (val (m_log2 lm x)) with (R32 (m_log2 lm x)) in A.
  set (y := R32 (m_log2 lm x)) in *. set (l := log2 (R32 x)) in *.
  assert (A' : Rabs (y - l) <= / 6900).
  { eapply Rle_trans; [exact A|]. simpl pow. lra. }
  apply Rabs_le_iff in A', B.
  assert (W : Z.of_nat w = Z.max 0 (Zceil y)).
  { unfold w. rewrite u8_ceil by exact F1. fold y.
    assert (Zceil y <= 150)%Z by (apply Zceil_glb; lra). lia. }
  pose proof ln2_bounds as LN. pose proof (Zceil_ub y) as C1. pose proof (Zceil_lb y) as C2.
  assert (X : R32 x = exp (l * ln 2)).
  { unfold l, log2. replace (ln (R32 x) / ln 2 * ln 2) with (ln (R32 x)) by (field; lra). now rewrite exp_ln. }
  assert (Pw : IZR (2 ^ Z.of_nat w) = exp (IZR (Z.of_nat w) * ln 2)).
  { rewrite pow2_nat, bpow_powerRZ. change (IZR radix2) with 2. now rewrite powerRZ_Rpower by lra. }
  split.
  - assert (l - / 6900 <= IZR (Z.of_nat w)).
    { rewrite W. destruct (Z.max_spec 0 (Zceil y)) as [[H ->]|[H ->]]; [lra|].
      apply IZR_le in H. lra. }
    rewrite Pw. apply Rle_trans with (exp ((l - / 6900) * ln 2)).
    + rewrite Rmult_minus_distr_r. unfold Rminus. rewrite exp_plus, <- X. apply Rmult_le_compat_l; [lra|].
      pose proof (exp_ineq1_le (- (/ 6900 * ln 2))). nra.
    + destruct (Rle_lt_or_eq_dec ((l - / 6900) * ln 2) (IZR (Z.of_nat w) * ln 2)) as [G|G]; [nra| |].
      * left. now apply exp_increasing.
      * rewrite G. lra.
  - intros Wp. assert (IZR (Z.of_nat w) <= l + / 6900 + 1).
    { rewrite W. destruct (Z.max_spec 0 (Zceil y)) as [[H E]|[H E]]; rewrite E in *; [lra|lia]. }
    rewrite Pw. apply Rle_trans with (exp ((l + / 6900 + 1) * ln 2)).
    + destruct (Rle_lt_or_eq_dec (IZR (Z.of_nat w) * ln 2) ((l + / 6900 + 1) * ln 2)) as [G|G]; [nra| |].
      * left. now apply exp_increasing.
      * rewrite G. lra.
    + replace ((l + / 6900 + 1) * ln 2) with (l * ln 2 + ln 2 + / 6900 * ln 2) by ring.
      rewrite !exp_plus, <- X, exp_ln by lra. rewrite (Rmult_comm (R32 x)).
      apply Rmult_le_compat_l; [lra|].
      assert (exp (/ 6900 * ln 2) <= / (1 - / 6900 * ln 2)).
      { replace (/ 6900 * ln 2) with (- - (/ 6900 * ln 2)) at 1 by ring. rewrite exp_Ropp.
        apply Rinv_le; [lra|]. pose proof (exp_ineq1_le (- (/ 6900 * ln 2))). lra. }
      eapply Rle_trans; [eassumption|]. apply Rmult_le_reg_r with (1 - / 6900 * ln 2); [lra|].
      rewrite Rinv_l by lra. nra.
Qed.
