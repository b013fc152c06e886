(** Errors of the quantisers of a program built with [double_precision]. *)
From Coq Require Import List NArith ZArith Arith Lia Bool Reals Lra Psatz.
From Flocq Require Import Core Relative Plus_error IEEE754.BinarySingleNaN.
From Verif Require Import Base Floats Floats_proofs FloatReal_proofs ValueSpec VertexSpec Log2_proofs Save_proofs Codec_proofs Quant_proofs
  NormalReal_proofs VertexReal_proofs CustomReal_proofs Uv Double DoubleSpec DoubleSave DoubleValueSpec Double2_proofs DMerge_proofs DCodec_proofs.
Import ListNotations.
Local Open Scope R_scope.

(** ** f64 operations on the reals *)
Lemma u64_small : 0 < u64 <= / 9007199254740992. Proof. unfold u64. lra. Qed.
Lemma tiny_u_d : 0 < tiny64 <= / 1000 * u64.
Proof. pose proof tiny64_bound. unfold u64. split; [tauto|]. cbn in *. lra. Qed.
Lemma rnd64_1 : rnd64 1 = 1. Proof. apply (rnd64_Z 1). lia. Qed.
Lemma fits1_d x : 0 <= x <= 1 -> Rabs x <= big64.
Proof. intros. rewrite Rabs_pos_eq by lra. eapply Rle_trans; [|apply big64_ge]. apply Rle_trans with 1; [lra|]. apply IZR_le. lia. Qed.
Lemma dlt_R x y : fin x -> fin y -> dlt x y = Rlt_bool (R64 x) (R64 y).
Proof. apply Bltb_correct. Qed.
Lemma rnd64_diff (x y : f64) : Rabs (rnd64 (R64 x - R64 y) - (R64 x - R64 y)) <= u64 * Rabs (R64 x - R64 y).
Proof. apply rnd64_sub. Qed.
Lemma big64_pow : big64 = 2 ^ 1023.
Proof. unfold big64. change 1023%Z with (Z.of_nat 1023). rewrite bpow_powerRZ, <- pow_powerRZ. reflexivity. Qed.
Lemma rnd64_err1 x : Rabs x <= 1 -> Rabs (rnd64 x - x) <= 1.001 * u64.
Proof.
  intros B. eapply Rle_trans; [apply rnd64_err|]. pose proof tiny_u_d. pose proof u64_small. pose proof (Rabs_pos x). nra.
Qed.
Lemma dlit_R a b : (Z.abs a <= 2 ^ 53)%Z -> (0 < b <= 2 ^ 53)%Z ->
  R64 (dlit a b) = rnd64 (IZR a / IZR b) /\ fin (dlit a b).
Proof.
  intros Ha Hb. destruct (f64_of_Z_exact a Ha) as [A1 A2]. destruct (f64_of_Z_exact b) as [B1 B2]; [lia|].
  assert (1 <= IZR b) by (apply IZR_le; lia).
  unfold dlit. rewrite <- A1, <- B1. apply ddiv_R; auto; rewrite ?A1, B1; [lra|].
  unfold Rdiv. rewrite Rabs_mult, Rabs_inv, (Rabs_pos_eq (IZR b)) by lra.
  eapply Rle_trans; [|apply big64_ge]. eapply Rle_trans with (Rabs (IZR a) * 1).
  - apply Rmult_le_compat_l; [apply Rabs_pos|]. rewrite <- Rinv_1. apply Rinv_le; lra.
  - rewrite Rmult_1_r, <- abs_IZR. apply IZR_le. lia.
Qed.
Lemma sat_cast_R_d mx x : fin x -> sat_cast_d mx x = N.min mx (Z.to_N (Ztrunc (R64 x))).
Proof.
  intros F. unfold R64. rewrite <- (Btrunc_Z lt_53_1024). destruct x; try discriminate F; reflexivity.
Qed.
Lemma sat_cast_floor_d mx x : fin x -> 0 <= R64 x -> (Zfloor (R64 x) <= Z.of_N mx)%Z ->
  Z.of_N (sat_cast_d mx x) = Zfloor (R64 x).
Proof.
  intros F P B. rewrite sat_cast_R_d by auto. rewrite Ztrunc_floor by auto.
  assert (0 <= Zfloor (R64 x))%Z by (apply Zfloor_lub; exact P). lia.
Qed.
Lemma u64_floor_d x : fin x -> 0 <= R64 x -> R64 x < IZR (2 ^ 64) -> Z.of_N (u64_of_f64 x) = Zfloor (R64 x).
Proof.
  intros F P B. apply sat_cast_floor_d; auto.
  assert (Zfloor (R64 x) < 2 ^ 64)%Z.
  { apply lt_IZR. eapply Rle_lt_trans; [apply Zfloor_lb|exact B]. }
  unfold two64. lia.
Qed.
Lemma u64_neg_d x : fin x -> R64 x <= 0 -> u64_of_f64 x = 0%N.
Proof.
  intros F P. unfold u64_of_f64. rewrite sat_cast_R_d by auto. rewrite Ztrunc_ceil by auto.
  assert (Zceil (R64 x) <= 0)%Z by (apply Zceil_glb; exact P). lia.
Qed.
Lemma dmin_R (x y : f64) : fin x -> fin y -> R64 (dmin x y) = Rmin (R64 x) (R64 y) /\ fin (dmin x y).
Proof.
  intros Fx Fy. unfold dmin. assert (is_nan x = false) as -> by (destruct x; auto; discriminate).
  assert (is_nan y = false) as -> by (destruct y; auto; discriminate). rewrite (dlt_R y x Fy Fx).
  destruct (Rlt_bool_spec (R64 y) (R64 x)); split; auto; [rewrite Rmin_right|rewrite Rmin_left]; auto; lra.
Qed.
Lemma dmax_R (x y : f64) : fin x -> fin y -> R64 (dmax x y) = Rmax (R64 x) (R64 y) /\ fin (dmax x y).
Proof.
  intros Fx Fy. unfold dmax. assert (is_nan x = false) as -> by (destruct x; auto; discriminate).
  assert (is_nan y = false) as -> by (destruct y; auto; discriminate). rewrite (dlt_R x y Fx Fy).
  destruct (Rlt_bool_spec (R64 x) (R64 y)); split; auto; [rewrite Rmax_right|rewrite Rmax_left]; auto; lra.
Qed.

(** ** Widths *)
Lemma dceil_R x : fin x -> R64 (dceil x) = IZR (Zceil (R64 x)) /\ fin (dceil x).
Proof.
  intros F. destruct (Bnearbyint_correct 53 1024 lt_53_1024 mode_UP x) as (A & B & _).
  split; [|unfold dceil; now rewrite B]. unfold R64, dceil. rewrite A. cbn [round_mode].
  unfold round, scaled_mantissa, cexp, F2R, FIX_exp. cbn. now rewrite !Rmult_1_r.
Qed.
Lemma u8_ceil_d x : fin x -> Z.of_nat (u8_of_f64 (dceil x)) = Z.min 255 (Z.max 0 (Zceil (R64 x))).
Proof.
  intros F. destruct (dceil_R x F) as [A B]. unfold u8_of_f64. rewrite sat_cast_R_d by auto.
  rewrite A, Ztrunc_IZR. lia.
Qed.
Lemma float_log2_bound_d (x : f64) : 0 < R64 x -> Rabs (log2 (R64 x)) <= 1074.
Proof.
  intros P. apply Rabs_le_iff. split.
  - apply Rle_trans with (log2 (bpow radix2 (-1074))); [rewrite log2_bpow; lra|]. apply log2_le; [apply bpow_gt_0|].
    destruct x as [s|s| |s m e H]; unfold R64, B2R in *; try lra.
    pose proof (bounded_ge_emin 53 1024 m e H) as G. cbn in G.
    unfold R64, B2R. destruct s; [exfalso; revert P; apply Rle_not_lt; now apply F2R_le_0|].
    exact G.
  - apply Rle_trans with (log2 (bpow radix2 1074)); [|rewrite log2_bpow; lra]. apply log2_le; [exact P|].
    pose proof (abs_B2R_lt_emax 53 1024 x) as L. unfold R64 in *. rewrite Rabs_pos_eq in L by lra.
    left. eapply Rlt_le_trans; [exact L|]. apply bpow_le. lia.
Qed.
Lemma width_covers_wide_d lm (x : f64) : log2_64_ok lm -> fin x -> 0 < R64 x ->
  let w := u8_of_f64 (dceil (l_log2 lm x)) in
  ((w <= 254)%nat -> R64 x * (1 - / 5000) <= IZR (2 ^ Z.of_nat w)) /\
  ((0 < w)%nat -> IZR (2 ^ Z.of_nat w) <= 2 * R64 x * (1 + / 5000)).
Proof.
  intros L F P w. destruct (L x F P) as [F1 A]. pose proof (float_log2_bound_d x P) as B.
  change (val64 x) with (R64 x) in A. change (val64 (l_log2 lm x)) with (R64 (l_log2 lm x)) in A.
  set (y := R64 (l_log2 lm x)) in *. set (l := log2 (R64 x)) in *.
  assert (A' : Rabs (y - l) <= / 6900).
  { eapply Rle_trans; [exact A|]. simpl pow. lra. }
  apply Rabs_le_iff in A', B.
  assert (W : Z.of_nat w = Z.min 255 (Z.max 0 (Zceil y))) by (unfold w in *; apply (u8_ceil_d (l_log2 lm x) F1)).
  pose proof ln2_bounds as LN. pose proof (Zceil_ub y) as C1. pose proof (Zceil_lb y) as C2.
  assert (X : R64 x = exp (l * ln 2)).
  { unfold l, log2. replace (ln (R64 x) / ln 2 * ln 2) with (ln (R64 x)) by (field; lra). now rewrite exp_ln. }
  assert (Pw : IZR (2 ^ Z.of_nat w) = exp (IZR (Z.of_nat w) * ln 2)).
  { rewrite pow2_nat, bpow_powerRZ. change (IZR radix2) with 2. now rewrite powerRZ_Rpower by lra. }
  split.
  - intros HW. assert (l - / 6900 <= IZR (Z.of_nat w)).
    { replace (Z.of_nat w) with (Z.max 0 (Zceil y)) by lia. destruct (Z.max_spec 0 (Zceil y)) as [[H ->]|[H ->]]; [lra|].
      apply IZR_le in H. lra. }
    rewrite Pw. apply Rle_trans with (exp ((l - / 6900) * ln 2)).
    + rewrite Rmult_minus_distr_r. unfold Rminus. rewrite exp_plus, <- X. apply Rmult_le_compat_l; [lra|].
      pose proof (exp_ineq1_le (- (/ 6900 * ln 2))). nra.
    + destruct (Rle_lt_or_eq_dec ((l - / 6900) * ln 2) (IZR (Z.of_nat w) * ln 2)) as [G|G]; [nra| |].
      * left. now apply exp_increasing.
      * rewrite G. lra.
  - intros Wp. assert (IZR (Z.of_nat w) <= l + / 6900 + 1).
    { apply Rle_trans with (IZR (Zceil y)); [apply IZR_le; lia|lra]. }
    rewrite Pw. apply Rle_trans with (exp ((l + / 6900 + 1) * ln 2)).
    + destruct (Rle_lt_or_eq_dec (IZR (Z.of_nat w) * ln 2) ((l + / 6900 + 1) * ln 2)) as [G|G]; [nra| |].
      * left. now apply exp_increasing.
      * rewrite G. lra.
    + replace ((l + / 6900 + 1) * ln 2) with (l * ln 2 + ln 2 + / 6900 * ln 2) by ring.
      rewrite !exp_plus, <- X, exp_ln by lra. rewrite (Rmult_comm (R64 x)).
      apply Rmult_le_compat_l; [lra|].
      assert (exp (/ 6900 * ln 2) <= / (1 - / 6900 * ln 2)).
      { replace (/ 6900 * ln 2) with (- - (/ 6900 * ln 2)) at 1 by ring. rewrite exp_Ropp.
        apply Rinv_le; [lra|]. pose proof (exp_ineq1_le (- (/ 6900 * ln 2))). lra. }
      eapply Rle_trans; [eassumption|]. apply Rmult_le_reg_r with (1 - / 6900 * ln 2); [lra|].
      rewrite Rinv_l by lra. nra.
Qed.
Lemma width_covers_d lm (x : f64) : log2_64_ok lm -> fin x -> 0 < R64 x ->
  let w := u8_of_f64 (dceil (l_log2 lm x)) in (w <= 30)%nat ->
  R64 x * (1 - / 5000) <= IZR (2 ^ Z.of_nat w) /\
  ((0 < w)%nat -> IZR (2 ^ Z.of_nat w) <= 2 * R64 x * (1 + / 5000)).
Proof. intros L F P w HW. destruct (width_covers_wide_d lm x L F P) as [A B]. cbv zeta in *. split; [apply A; unfold w in HW; lia|exact B]. Qed.

(** ** Codes *)
Lemma steps_bounds_d p : (1 <= p <= 30)%nat -> (1 <= steps p < 2 ^ 30)%Z.
Proof.
  intros H. unfold steps. assert (2 ^ 1 <= 2 ^ Z.of_nat p <= 2 ^ 30)%Z; [|lia].
  split; apply Z.pow_le_mono_r; lia.
Qed.
Lemma mask_is_d {E} p mul : mask_f64 (E:=E) true p = Ok mul -> mul = f64_of_Z (steps p).
Proof.
  intros H. pose proof (mask_d30 _ _ H) as B. revert H. unfold mask_f64, mask_i32, steps.
  assert ((p <? 32)%nat = true) as -> by (apply Nat.ltb_lt; lia). cbn [bind].
  assert (0 < 2 ^ Z.of_nat p <= 2 ^ 30)%Z.
  { split; [apply Z.pow_pos_nonneg; lia|apply Z.pow_le_mono_r; lia]. }
  assert (wrap_i32 (2 ^ Z.of_nat p) = 2 ^ Z.of_nat p)%Z as ->.
  { unfold wrap_i32. rewrite Z.mod_small by lia. lia. }
  assert ((- 2 ^ 31 <=? 2 ^ Z.of_nat p - 1)%Z = true) as -> by (apply Z.leb_le; lia).
  cbn [bind]. intros H1. now injection H1 as <-.
Qed.
Lemma mask_R_d {E} p mul : mask_f64 (E:=E) true p = Ok mul -> (1 <= p <= 30)%nat ->
  R64 mul = IZR (steps p) /\ fin mul.
Proof.
  intros H B. rewrite (mask_is_d _ _ H). apply f64_of_Z_exact. pose proof (steps_bounds_d p B). lia.
Qed.
Lemma divisor_R_d p : (1 <= p <= 30)%nat ->
  R64 (f64_of_N (mask_u64 p)) = IZR (steps p) /\ fin (f64_of_N (mask_u64 p)).
Proof.
  intros B. unfold f64_of_N. rewrite steps_N. apply f64_of_Z_exact. pose proof (steps_bounds_d p B). lia.
Qed.
Lemma encode_R_d (M : Z) x : (1 <= M < 2 ^ 30)%Z -> 0 <= x <= 1 ->
  let t := rnd64 (x * IZR M) in
  0 <= t <= IZR M /\ (0 <= Zfloor t <= M)%Z /\ Rabs (IZR (Zfloor t) / IZR M - x) <= / IZR M + 2 * u64.
Proof.
  intros HM Hx t. assert (1 <= IZR M) by (apply IZR_le; lia).
  assert (T : 0 <= t <= IZR M).
  { apply rnd64_between; [apply rnd64_0|apply rnd64_Z; lia|]. nra. }
  split; [exact T|]. split.
  { split; [apply Zfloor_lub; exact (proj1 T)|]. apply le_IZR. eapply Rle_trans; [apply Zfloor_lb|apply T]. }
  pose proof (Zfloor_lb t). pose proof (Zfloor_ub t).
  pose proof (rnd64_err (x * IZR M)) as Er. fold t in Er.
  rewrite (Rabs_pos_eq (x * IZR M)) in Er by nra. pose proof tiny64_bound as [_ Ti].
  apply Rabs_le_iff in Er.
  assert (U : 0 < u64 < 1) by (unfold u64; lra).
  assert (Tu : tiny64 <= u64) by (unfold u64; lra).
  assert (Rabs (IZR (Zfloor t) - x * IZR M) <= 1 + 2 * u64 * IZR M).
  { apply Rabs_le_iff. assert (u64 * (x * IZR M) <= u64 * IZR M) by (apply Rmult_le_compat_l; nra).
    assert (u64 * 1 <= u64 * IZR M) by (apply Rmult_le_compat_l; lra). lra. }
  replace (IZR (Zfloor t) / IZR M - x) with ((IZR (Zfloor t) - x * IZR M) * / IZR M) by (field; lra).
  rewrite Rabs_mult, (Rabs_pos_eq (/ IZR M)) by (left; apply Rinv_0_lt_compat; lra).
  replace (/ IZR M + 2 * u64) with ((1 + 2 * u64 * IZR M) * / IZR M) by (field; lra).
  apply Rmult_le_compat_r; auto. left; apply Rinv_0_lt_compat; lra.
Qed.
Lemma code_R_d p mul x : (1 <= p <= 30)%nat -> R64 mul = IZR (steps p) -> fin mul -> fin x -> 0 <= R64 x <= 1 ->
  let q := u64_of_f64 (dmul x mul) in
  Z.of_N q = Zfloor (rnd64 (R64 x * IZR (steps p))) /\ low p q = q /\ (Z.of_N q <= steps p)%Z.
Proof.
  intros B M F Fx Hx q. pose proof (steps_bounds_d p B) as SB.
  destruct (encode_R_d (steps p) (R64 x) SB Hx) as (T & Q & _). cbv zeta in *.
  assert (1 <= IZR (steps p) < IZR (2 ^ 30)) by (split; [apply IZR_le|apply IZR_lt]; lia).
  destruct (dmul_R x mul Fx F) as [A1 A2].
  { rewrite M, Rabs_pos_eq by nra. eapply Rle_trans; [|apply big64_ge]. cbn in *. nra. }
  rewrite M in A1. assert (E : Z.of_N q = Zfloor (rnd64 (R64 x * IZR (steps p)))).
  { unfold q. rewrite u64_floor_d, A1; auto; rewrite A1; [apply T|].
    eapply Rle_lt_trans; [apply T|]. apply IZR_lt. lia. }
  split; [exact E|]. split; [apply low_id|]; rewrite E; apply Q.
Qed.
Lemma value_d p (q : N) : (1 <= p <= 30)%nat -> (Z.of_N q <= steps p)%Z ->
  let y := ddiv (f64_of_N q) (f64_of_N (mask_u64 p)) in
  R64 y = rnd64 (IZR (Z.of_N q) / IZR (steps p)) /\ fin y /\ 0 <= R64 y <= 1 /\
  Rabs (R64 y - IZR (Z.of_N q) / IZR (steps p)) <= 2 * u64.
Proof.
  intros B Hq y. pose proof (steps_bounds_d p B) as SB. destruct (divisor_R_d p B) as [D1 D2].
  assert (1 <= IZR (steps p)) by (apply IZR_le; lia).
  destruct (f64_of_Z_exact (Z.of_N q)) as [Q1 Q2]; [lia|]. fold (f64_of_N q) in Q1, Q2.
  assert (0 <= Z.of_N q)%Z by lia.
  assert (I : 0 <= IZR (Z.of_N q) / IZR (steps p) <= 1) by (apply quotient_01; lia).
  destruct (ddiv_R (f64_of_N q) (f64_of_N (mask_u64 p)) Q2) as [A1 A2].
  { rewrite D1. lra. }
  { rewrite Q1, D1, Rabs_pos_eq by lra.
    eapply Rle_trans; [apply I|]. eapply Rle_trans; [|apply big64_ge]. apply IZR_le. lia. }
  rewrite D1, Q1 in A1. fold y in A1, A2.
  assert (J : 0 <= R64 y <= 1).
  { rewrite A1. apply rnd64_between; [apply rnd64_0|apply (rnd64_Z 1); lia|exact I]. }
  split; [exact A1|]. split; [exact A2|]. split; [exact J|].
  rewrite A1. eapply Rle_trans; [apply rnd64_err|]. rewrite Rabs_pos_eq by lra.
  pose proof tiny64_bound as [_ Ti]. assert (tiny64 <= u64) by (unfold u64; lra).
  assert (0 < u64) by (unfold u64; lra). nra.
Qed.
Lemma uv_coordinate_d {E} p mul x : (1 <= p <= 30)%nat -> mask_f64 (E:=E) true p = Ok mul ->
  fin x -> 0 <= R64 x <= 1 ->
  let y := uv_value_d p (low p (uv_code_d mul x)) in
  fin y /\ 0 <= R64 y <= 1 /\ Rabs (R64 y - R64 x) <= / IZR (steps p) + 4 * u64.
Proof.
  intros B M Fx Hx y. destruct (mask_R_d _ _ M B) as [M1 M2].
  destruct (code_R_d p mul x B M1 M2 Fx Hx) as (C1 & C2 & C3). cbv zeta in *.
  unfold y, uv_code_d, uv_value_d. rewrite C2.
  destruct (value_d p _ B C3) as (V1 & V2 & V3 & V4). cbv zeta in *.
  split; [exact V2|]. split; [exact V3|].
  destruct (encode_R_d (steps p) (R64 x) (steps_bounds_d p B) Hx) as (_ & _ & Er). cbv zeta in Er.
  rewrite <- C1 in Er. apply Rabs_le_iff in Er, V4. apply Rabs_le_iff. lra.
Qed.
Lemma color_channel_d {E} p mul x : (1 <= p <= 30)%nat -> mask_f64 (E:=E) true p = Ok mul ->
  fin x -> 0 <= R64 x <= 1 ->
  let y := color_value_d p (low p (color_code_d mul x)) in
  fin y /\ 0 <= R64 y <= 1 /\ Rabs (R64 y - R64 x) <= / IZR (steps p) + 4 * u64.
Proof.
  intros B M Fx Hx y. destruct (mask_R_d _ _ M B) as [M1 M2].
  destruct (code_R_d p mul x B M1 M2 Fx Hx) as (C1 & C2 & C3). cbv zeta in *.
  unfold y, color_code_d, color_value_d. rewrite C2. fold (mask_u64 p).
  destruct (value_d p _ B C3) as (V1 & V2 & V3 & V4). cbv zeta in *.
  split; [exact V2|]. split; [exact V3|].
  destruct (encode_R_d (steps p) (R64 x) (steps_bounds_d p B) Hx) as (_ & _ & Er). cbv zeta in Er.
  rewrite <- C1 in Er. apply Rabs_le_iff in Er, V4. apply Rabs_le_iff. lra.
Qed.
