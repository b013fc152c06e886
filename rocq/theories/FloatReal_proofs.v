(** The operations on f32 and f64 as roundings of real operations, with their errors. *)
From Coq Require Import ZArith NArith List Bool Reals Lra Lia Psatz.
From Flocq Require Import Core Relative IEEE754.BinarySingleNaN.
From Verif Require Import Base Floats Floats_proofs.
Import ListNotations.
Local Open Scope R_scope.

#[global] Instance valid_NE : Valid_rnd ZnearestE := valid_rnd_N _.
#[global] Instance mono32 : Monotone_exp fexp32.
Proof. apply (FLT_exp_monotone (-149) 24). Qed.
#[global] Instance mono64 : Monotone_exp fexp64.
Proof. apply (FLT_exp_monotone (-1074) 53). Qed.

(** Unit roundoffs and half the smallest positive values. *)
Definition u32 : R := / 16777216.
Definition tiny32 : R := bpow radix2 (-150).
Definition u64 : R := / 9007199254740992.
Definition tiny64 : R := bpow radix2 (-1075).

Lemma tiny32_bound : 0 < tiny32 <= / IZR (2 ^ 100).
Proof.
  unfold tiny32. split; [apply bpow_gt_0|].
  change (/ IZR (2 ^ 100)) with (bpow radix2 (-100)). apply bpow_le. lia.
Qed.
Lemma tiny64_bound : 0 < tiny64 <= / IZR (2 ^ 100).
Proof.
  unfold tiny64. split; [apply bpow_gt_0|].
  change (/ IZR (2 ^ 100)) with (bpow radix2 (-100)). apply bpow_le. lia.
Qed.

Lemma rnd32_err x : Rabs (rnd32 x - x) <= u32 * Rabs x + tiny32.
Proof.
  destruct (error_N_FLT radix2 (-149) 24 eq_refl (fun z => negb (Z.even z)) x) as (e & h & He & Hh & _ & E).
  change (round radix2 (FLT_exp (-149) 24) _ x) with (rnd32 x) in E. rewrite E.
  replace (x * (1 + e) + h - x) with (e * x + h) by ring.
  eapply Rle_trans; [apply Rabs_triang|]. rewrite Rabs_mult. apply Rplus_le_compat.
  - apply Rmult_le_compat_r; [apply Rabs_pos|]. eapply Rle_trans; [exact He|].
    unfold u32. cbn [bpow Z.opp Z.add Z.pos_sub Pos.pred_double]. right.
    change (bpow radix2 (-24 + 1)) with (/ IZR (2 ^ 23)). cbn. lra.
  - eapply Rle_trans; [exact Hh|]. unfold tiny32. change (-150)%Z with (-1 + -149)%Z. rewrite bpow_plus.
    right. f_equal. 
Qed.
Lemma rnd64_err x : Rabs (rnd64 x - x) <= u64 * Rabs x + tiny64.
Proof.
  destruct (error_N_FLT radix2 (-1074) 53 eq_refl (fun z => negb (Z.even z)) x) as (e & h & He & Hh & _ & E).
  change (round radix2 (FLT_exp (-1074) 53) _ x) with (rnd64 x) in E. rewrite E.
  replace (x * (1 + e) + h - x) with (e * x + h) by ring.
  eapply Rle_trans; [apply Rabs_triang|]. rewrite Rabs_mult. apply Rplus_le_compat.
  - apply Rmult_le_compat_r; [apply Rabs_pos|]. eapply Rle_trans; [exact He|].
    unfold u64. right. change (bpow radix2 (-53 + 1)) with (/ IZR (2 ^ 52)). cbn. lra.
  - eapply Rle_trans; [exact Hh|]. unfold tiny64. change (-1075)%Z with (-1 + -1074)%Z. rewrite bpow_plus.
    right. f_equal.
Qed.

Lemma rnd32_le x y : x <= y -> rnd32 x <= rnd32 y.
Proof. intros. apply round_le; auto with typeclass_instances. Qed.
Lemma rnd64_le x y : x <= y -> rnd64 x <= rnd64 y.
Proof. intros. apply round_le; auto with typeclass_instances. Qed.
Lemma rnd32_0 : rnd32 0 = 0. Proof. apply round_0. auto with typeclass_instances. Qed.
Lemma rnd64_0 : rnd64 0 = 0. Proof. apply round_0. auto with typeclass_instances. Qed.
Lemma rnd32_R32 (x : f32) : rnd32 (R32 x) = R32 x.
Proof. apply round_generic; [auto with typeclass_instances|apply generic_format_B2R]. Qed.
Lemma rnd64_R64 (x : f64) : rnd64 (R64 x) = R64 x.
Proof. apply round_generic; [auto with typeclass_instances|apply generic_format_B2R]. Qed.

(** Integers of up to 24 (53) bits are representable. *)
Lemma format32_Z z : (Z.abs z <= 2 ^ 24)%Z -> generic_format radix2 fexp32 (IZR z).
Proof.
  intros H. destruct (Z.eq_dec (Z.abs z) (2 ^ 24)) as [E|E].
  - assert (G : generic_format radix2 fexp32 (IZR (2 ^ 24))).
    { change (IZR (2 ^ 24)) with (bpow radix2 24). apply generic_format_bpow. cbv. discriminate. }
    destruct (Z.abs_eq_or_opp z) as [A|A].
    + rewrite <- A, E. exact G.
    + replace z with (- Z.abs z)%Z by lia. rewrite E, opp_IZR. apply generic_format_opp. exact G.
  - change fexp32 with (FLT_exp (-149) 24). apply generic_format_FLT. exists (Float radix2 z 0).
    + unfold F2R. cbn. ring.
    + cbn. lia.
    + cbn. lia.
Qed.
Lemma format64_Z z : (Z.abs z <= 2 ^ 53)%Z -> generic_format radix2 fexp64 (IZR z).
Proof.
  intros H. destruct (Z.eq_dec (Z.abs z) (2 ^ 53)) as [E|E].
  - assert (G : generic_format radix2 fexp64 (IZR (2 ^ 53))).
    { change (IZR (2 ^ 53)) with (bpow radix2 53). apply generic_format_bpow. cbv. discriminate. }
    destruct (Z.abs_eq_or_opp z) as [A|A].
    + rewrite <- A, E. exact G.
    + replace z with (- Z.abs z)%Z by lia. rewrite E, opp_IZR. apply generic_format_opp. exact G.
  - change fexp64 with (FLT_exp (-1074) 53). apply generic_format_FLT. exists (Float radix2 z 0).
    + unfold F2R. cbn. ring.
    + cbn. lia.
    + cbn. lia.
Qed.
Lemma rnd32_Z z : (Z.abs z <= 2 ^ 24)%Z -> rnd32 (IZR z) = IZR z.
Proof. intros. apply round_generic; [auto with typeclass_instances|now apply format32_Z]. Qed.
Lemma rnd64_Z z : (Z.abs z <= 2 ^ 53)%Z -> rnd64 (IZR z) = IZR z.
Proof. intros. apply round_generic; [auto with typeclass_instances|now apply format64_Z]. Qed.

(** Bounds survive rounding when the bound is representable. *)
Lemma rnd32_abs_le_bpow x e : (-149 <= e)%Z -> Rabs x <= bpow radix2 e -> Rabs (rnd32 x) <= bpow radix2 e.
Proof.
  intros He H. apply abs_round_le_generic; auto with typeclass_instances.
  apply generic_format_bpow. unfold SpecFloat.fexp, SpecFloat.emin. lia.
Qed.
Lemma rnd64_abs_le_bpow x e : (-1074 <= e)%Z -> Rabs x <= bpow radix2 e -> Rabs (rnd64 x) <= bpow radix2 e.
Proof.
  intros He H. apply abs_round_le_generic; auto with typeclass_instances.
  apply generic_format_bpow. unfold SpecFloat.fexp, SpecFloat.emin. lia.
Qed.

(** No overflow: a result of at most 2^127 (2^1023) in absolute value. *)
Definition big32 : R := bpow radix2 127.
Definition big64 : R := bpow radix2 1023.
Lemma no_overflow32 x : Rabs x <= big32 -> Rlt_bool (Rabs (rnd32 x)) (bpow radix2 128) = true.
Proof.
  intros H. apply Rlt_bool_true. eapply Rle_lt_trans; [apply (rnd32_abs_le_bpow x 127); [lia|exact H]|].
  apply bpow_lt. lia.
Qed.
Lemma no_overflow64 x : Rabs x <= big64 -> Rlt_bool (Rabs (rnd64 x)) (bpow radix2 1024) = true.
Proof.
  intros H. apply Rlt_bool_true. eapply Rle_lt_trans; [apply (rnd64_abs_le_bpow x 1023); [lia|exact H]|].
  apply bpow_lt. lia.
Qed.
Lemma big32_ge : IZR (2 ^ 100) <= big32.
Proof. change (IZR (2 ^ 100)) with (bpow radix2 100). apply bpow_le. lia. Qed.
Lemma big64_ge : IZR (2 ^ 100) <= big64.
Proof. change (IZR (2 ^ 100)) with (bpow radix2 100). apply bpow_le. lia. Qed.

Lemma big32_pow : big32 = 2 ^ 127.
Proof.
  unfold big32. change 127%Z with (Z.of_nat 127). rewrite bpow_powerRZ, <- pow_powerRZ. reflexivity.
Qed.
Lemma pow2_le a b : (a <= b)%nat -> 2 ^ a <= 2 ^ b.
Proof. intros. apply Rle_pow; [lra|assumption]. Qed.

Lemma fadd_R x y : fin x -> fin y -> Rabs (R32 x + R32 y) <= big32 ->
  R32 (fadd x y) = rnd32 (R32 x + R32 y) /\ fin (fadd x y).
Proof.
  intros Fx Fy B. pose proof (Bplus_correct 24 128 gt0_24 lt_24_128 mode_NE x y Fx Fy) as C.
  cbn [round_mode] in C. unfold R32 in B. rewrite no_overflow32 in C by exact B. split; apply C.
Qed.
Lemma fsub_R x y : fin x -> fin y -> Rabs (R32 x - R32 y) <= big32 ->
  R32 (fsub x y) = rnd32 (R32 x - R32 y) /\ fin (fsub x y).
Proof.
  intros Fx Fy B. pose proof (Bminus_correct 24 128 gt0_24 lt_24_128 mode_NE x y Fx Fy) as C.
  cbn [round_mode] in C. unfold R32 in B. rewrite no_overflow32 in C by exact B. split; apply C.
Qed.
Lemma fmul_R x y : fin x -> fin y -> Rabs (R32 x * R32 y) <= big32 ->
  R32 (fmul x y) = rnd32 (R32 x * R32 y) /\ fin (fmul x y).
Proof.
  intros Fx Fy B. pose proof (Bmult_correct 24 128 gt0_24 lt_24_128 mode_NE x y) as C.
  cbn [round_mode] in C. unfold R32 in B. rewrite no_overflow32 in C by exact B. destruct C as (C1 & C2 & _).
  split; [exact C1|]. unfold fmul. now rewrite C2, Fx, Fy.
Qed.
Lemma fdiv_R x y : fin x -> R32 y <> 0 -> Rabs (R32 x / R32 y) <= big32 ->
  R32 (fdiv x y) = rnd32 (R32 x / R32 y) /\ fin (fdiv x y).
Proof.
  intros Fx Ny B. pose proof (Bdiv_correct 24 128 gt0_24 lt_24_128 mode_NE x y Ny) as C.
  cbn [round_mode] in C. unfold R32 in B. rewrite no_overflow32 in C by exact B. destruct C as (C1 & C2 & _).
  split; [exact C1|]. unfold fdiv. now rewrite C2, Fx.
Qed.
Lemma fsqrt_R x : fin x -> 0 <= R32 x -> R32 (fsqrt x) = rnd32 (sqrt (R32 x)) /\ fin (fsqrt x).
Proof.
  intros Fx P. destruct (Bsqrt_correct 24 128 gt0_24 lt_24_128 mode_NE x) as (C1 & C2 & _).
  cbn [round_mode] in C1. split; [exact C1|]. unfold fsqrt. rewrite C2.
  destruct x as [s|s| |[|] m e H]; try discriminate; auto.
  exfalso. revert P. unfold R32, B2R. apply Rlt_not_le. now apply F2R_lt_0.
Qed.
Lemma dadd_R x y : fin x -> fin y -> Rabs (R64 x + R64 y) <= big64 ->
  R64 (dadd x y) = rnd64 (R64 x + R64 y) /\ fin (dadd x y).
Proof.
  intros Fx Fy B. pose proof (Bplus_correct 53 1024 gt0_53 lt_53_1024 mode_NE x y Fx Fy) as C.
  cbn [round_mode] in C. unfold R64 in B. rewrite no_overflow64 in C by exact B. split; apply C.
Qed.
Lemma dsub_R x y : fin x -> fin y -> Rabs (R64 x - R64 y) <= big64 ->
  R64 (dsub x y) = rnd64 (R64 x - R64 y) /\ fin (dsub x y).
Proof.
  intros Fx Fy B. pose proof (Bminus_correct 53 1024 gt0_53 lt_53_1024 mode_NE x y Fx Fy) as C.
  cbn [round_mode] in C. unfold R64 in B. rewrite no_overflow64 in C by exact B. split; apply C.
Qed.
Lemma dmul_R x y : fin x -> fin y -> Rabs (R64 x * R64 y) <= big64 ->
  R64 (dmul x y) = rnd64 (R64 x * R64 y) /\ fin (dmul x y).
Proof.
  intros Fx Fy B. pose proof (Bmult_correct 53 1024 gt0_53 lt_53_1024 mode_NE x y) as C.
  cbn [round_mode] in C. unfold R64 in B. rewrite no_overflow64 in C by exact B. destruct C as (C1 & C2 & _).
  split; [exact C1|]. unfold dmul. now rewrite C2, Fx, Fy.
Qed.
Lemma ddiv_R x y : fin x -> R64 y <> 0 -> Rabs (R64 x / R64 y) <= big64 ->
  R64 (ddiv x y) = rnd64 (R64 x / R64 y) /\ fin (ddiv x y).
Proof.
  intros Fx Ny B. pose proof (Bdiv_correct 53 1024 gt0_53 lt_53_1024 mode_NE x y Ny) as C.
  cbn [round_mode] in C. unfold R64 in B. rewrite no_overflow64 in C by exact B. destruct C as (C1 & C2 & _).
  split; [exact C1|]. unfold ddiv. now rewrite C2, Fx.
Qed.

Lemma fneg_R x : R32 (fneg x) = - R32 x. Proof. apply B2R_Bopp. Qed.
Lemma fneg_fin x : is_finite (fneg x) = is_finite x. Proof. apply is_finite_Bopp. Qed.
Lemma fabs_R x : R32 (fabs x) = Rabs (R32 x). Proof. apply B2R_Babs. Qed.
Lemma fabs_fin x : is_finite (fabs x) = is_finite x. Proof. apply is_finite_Babs. Qed.
Lemma flt_R x y : fin x -> fin y -> flt x y = Rlt_bool (R32 x) (R32 y).
Proof. apply Bltb_correct. Qed.
Lemma fle_R x y : fin x -> fin y -> fle x y = Rle_bool (R32 x) (R32 y).
Proof. apply Bleb_correct. Qed.

(** ** Integers *)

Lemma f32_of_Z_R z : Rabs (IZR z) <= big32 -> R32 (f32_of_Z z) = rnd32 (IZR z) /\ fin (f32_of_Z z).
Proof.
  intros B. pose proof (binary_normalize_correct 24 128 gt0_24 lt_24_128 mode_NE z 0 false) as C.
  cbv zeta in C. cbn [round_mode] in C. replace (F2R (Float radix2 z 0)) with (IZR z) in C by (unfold F2R; cbn; ring).
  rewrite no_overflow32 in C by exact B. split; apply C.
Qed.
Lemma f32_of_Z_exact z : (Z.abs z <= 2 ^ 24)%Z -> R32 (f32_of_Z z) = IZR z /\ fin (f32_of_Z z).
Proof.
  intros H. destruct (f32_of_Z_R z) as [A B].
  - rewrite <- abs_IZR. eapply Rle_trans; [apply IZR_le, H|]. eapply Rle_trans; [|apply big32_ge]. apply IZR_le. lia.
  - split; auto. rewrite A. now apply rnd32_Z.
Qed.
Lemma f64_of_Z_R z : Rabs (IZR z) <= big64 -> R64 (f64_of_Z z) = rnd64 (IZR z) /\ fin (f64_of_Z z).
Proof.
  intros B. pose proof (binary_normalize_correct 53 1024 gt0_53 lt_53_1024 mode_NE z 0 false) as C.
  cbv zeta in C. cbn [round_mode] in C. replace (F2R (Float radix2 z 0)) with (IZR z) in C by (unfold F2R; cbn; ring).
  rewrite no_overflow64 in C by exact B. split; apply C.
Qed.
Lemma f64_of_Z_exact z : (Z.abs z <= 2 ^ 53)%Z -> R64 (f64_of_Z z) = IZR z /\ fin (f64_of_Z z).
Proof.
  intros H. destruct (f64_of_Z_R z) as [A B].
  - rewrite <- abs_IZR. eapply Rle_trans; [apply IZR_le, H|]. eapply Rle_trans; [|apply big64_ge]. apply IZR_le. lia.
  - split; auto. rewrite A. now apply rnd64_Z.
Qed.
Lemma f1_R : R32 f1 = 1 /\ fin f1. Proof. apply (f32_of_Z_exact 1). lia. Qed.
Lemma f0_R : R32 f0 = 0 /\ fin f0. Proof. split; reflexivity. Qed.

Lemma flit_R a b : (Z.abs a <= 2 ^ 24)%Z -> (0 < b <= 2 ^ 24)%Z ->
  R32 (flit a b) = rnd32 (IZR a / IZR b) /\ fin (flit a b).
Proof.
  intros Ha Hb. destruct (f32_of_Z_exact a Ha) as [A1 A2]. destruct (f32_of_Z_exact b) as [B1 B2]; [lia|].
  assert (1 <= IZR b) by (apply IZR_le; lia).
  unfold flit. rewrite <- A1, <- B1. apply fdiv_R; auto; rewrite ?A1, B1; [lra|].
  unfold Rdiv. rewrite Rabs_mult, Rabs_inv, (Rabs_pos_eq (IZR b)) by lra.
  eapply Rle_trans; [|apply big32_ge]. eapply Rle_trans with (Rabs (IZR a) * 1).
  - apply Rmult_le_compat_l; [apply Rabs_pos|]. rewrite <- Rinv_1. apply Rinv_le; lra.
  - rewrite Rmult_1_r, <- abs_IZR. apply IZR_le. lia.
Qed.

(** Casts to integers. *)
Lemma Btrunc_Z {p e} (H : Prec_lt_emax p e) (x : binary_float p e) : Btrunc x = Ztrunc (B2R x).
Proof.
  apply eq_IZR. rewrite (Btrunc_correct p e H x). unfold round, scaled_mantissa, F2R, cexp, FIX_exp. cbn.
  rewrite !Rmult_1_r. reflexivity.
Qed.
Lemma sat_cast_R mx x : fin x -> sat_cast mx x = N.min mx (Z.to_N (Ztrunc (R32 x))).
Proof.
  intros F. unfold R32. rewrite <- (Btrunc_Z lt_24_128). destruct x; try discriminate F; reflexivity.
Qed.
Lemma sat_cast_floor mx x : fin x -> 0 <= R32 x -> (Zfloor (R32 x) <= Z.of_N mx)%Z ->
  Z.of_N (sat_cast mx x) = Zfloor (R32 x).
Proof.
  intros F P B. rewrite sat_cast_R by auto. rewrite Ztrunc_floor by auto.
  assert (0 <= Zfloor (R32 x))%Z by (apply Zfloor_lub; exact P). lia.
Qed.
Lemma u64_floor x : fin x -> 0 <= R32 x -> R32 x < IZR (2 ^ 64) -> Z.of_N (u64_of_f32 x) = Zfloor (R32 x).
Proof.
  intros F P B. apply sat_cast_floor; auto.
  assert (Zfloor (R32 x) < 2 ^ 64)%Z.
  { apply lt_IZR. eapply Rle_lt_trans; [apply Zfloor_lb|exact B]. }
  unfold two64. lia.
Qed.
Lemma u64_neg x : fin x -> R32 x <= 0 -> u64_of_f32 x = 0%N.
Proof.
  intros F P. unfold u64_of_f32. rewrite sat_cast_R by auto. rewrite Ztrunc_ceil by auto.
  assert (Zceil (R32 x) <= 0)%Z by (apply Zceil_glb; exact P). lia.
Qed.

(** ** Mixed: f64 to f32 *)

Lemma f32_of_f64_R (x : f64) : fin x -> Rabs (R64 x) <= big32 ->
  R32 (f32_of_f64 x) = rnd32 (R64 x) /\ fin (f32_of_f64 x).
Proof.
  intros F B. destruct x as [s|s| |s m e H]; try discriminate F.
  - split; [|reflexivity]. cbn. now rewrite rnd32_0.
  - unfold f32_of_f64.
    pose proof (binary_normalize_correct 24 128 gt0_24 lt_24_128 mode_NE (cond_Zopp s (Zpos m)) e s) as C.
    cbv zeta in C. cbn [round_mode] in C. change (F2R _) with (R64 (B754_finite s m e H)) in C.
    rewrite no_overflow32 in C by exact B. split; apply C.
Qed.

(** ** Errors in convenient forms *)

Lemma rnd32_between x lo hi : rnd32 lo = lo -> rnd32 hi = hi -> lo <= x <= hi -> lo <= rnd32 x <= hi.
Proof. intros L H [A B]. rewrite <- L, <- H. split; now apply rnd32_le. Qed.
Lemma rnd64_between x lo hi : rnd64 lo = lo -> rnd64 hi = hi -> lo <= x <= hi -> lo <= rnd64 x <= hi.
Proof. intros L H [A B]. rewrite <- L, <- H. split; now apply rnd64_le. Qed.
Lemma Rabs_le_iff x y : Rabs x <= y <-> - y <= x <= y.
Proof. split; [apply Rabs_le_inv|apply Rabs_le]. Qed.
