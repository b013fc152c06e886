(** How far apart the values decoded in f32 and in f64 are. *)
From Coq Require Import ZArith NArith Arith List Bool Reals Lra Lia.
From Flocq Require Import Core IEEE754.BinarySingleNaN.
From Verif Require Import Base UnalignedRW ReadExt Floats Floats_proofs FloatReal_proofs ValueSpec Normals NormalReal_proofs
  Vertices Uv CustomData Log2_proofs Trig_proofs Range_proofs Range2_proofs FastTrig FastTrig2_proofs NoPanic_proofs Platform_proofs Double DoubleSpec Double_proofs.
Local Open Scope R_scope.

Lemma U32 : 0 < u32 <= / 16777216. Proof. exact u32_small. Qed.
Lemma U64 : 0 < u64 <= / 16777216. Proof. unfold u64. lra. Qed.
Lemma u64_u32 : 536870912 * u64 = u32. Proof. unfold u64, u32. lra. Qed.
Lemma T32 : 0 <= tiny32 <= / 1000 * u32. Proof. pose proof tiny_u. lra. Qed.
Lemma T64 : 0 <= tiny64 <= / 1000 * u64.
Proof. pose proof tiny64_bound as T. change (2 ^ 100)%Z with 1267650600228229401496703205376%Z in T. unfold u64. lra. Qed.
Lemma rnd64_1 : rnd64 1 = 1. Proof. apply (rnd64_Z 1). lia. Qed.
Lemma d1_R : R64 d1 = 1 /\ fin d1. Proof. apply (f64_of_Z_exact 1). lia. Qed.
Lemma big64_32 : big32 <= big64. Proof. unfold big32, big64. apply bpow_le. lia. Qed.

Definition ratio (q d : N) : R := IZR (Z.of_N q) / IZR (Z.of_N d).
Lemma ratio_unit q d : (q <= d)%N -> (1 <= d)%N -> 0 <= IZR (Z.of_N q) <= IZR (Z.of_N d) /\ 1 <= IZR (Z.of_N d) /\ 0 <= ratio q d <= 1.
Proof.
  intros Hq Hd. assert (A : 0 <= IZR (Z.of_N q) <= IZR (Z.of_N d)) by (split; apply IZR_le; lia).
  assert (B : 1 <= IZR (Z.of_N d)) by (apply (IZR_le 1); lia). split; [exact A|]. split; [exact B|].
  unfold ratio. split; [apply Rmult_le_pos; [lra|left; apply Rinv_0_lt_compat; lra]|].
  apply Rmult_le_reg_r with (IZR (Z.of_N d)); [lra|]. unfold Rdiv. rewrite Rmult_assoc, Rinv_l by lra. lra.
Qed.
Lemma quot32 (q d : N) : (q <= d)%N -> (1 <= d)%N -> (d < 2 ^ 64)%N ->
  let y := fdiv (f32_of_N q) (f32_of_N d) in fin y /\ 0 <= R32 y <= 1 /\ Rabs (R32 y - ratio q d) <= 3.1 * u32.
Proof.
  intros Hq Hd Hb y. destruct (quot_any q d Hq Hd Hb) as [F B]. fold y in F, B. split; [exact F|]. split; [exact B|].
  destruct (f32_of_Z_R (Z.of_N q)) as [Q1 Q2]; [apply code_bound32; lia|]. fold (f32_of_N q) in Q1, Q2.
  destruct (f32_of_Z_R (Z.of_N d)) as [D1 D2]; [apply code_bound32; lia|]. fold (f32_of_N d) in D1, D2.
  destruct (ratio_unit q d Hq Hd) as (A1 & A2 & _).
  assert (L0 : 0 <= R32 (f32_of_N q)). { rewrite Q1, <- rnd32_0. apply rnd32_le. lra. }
  assert (L1 : R32 (f32_of_N q) <= R32 (f32_of_N d)). { rewrite Q1, D1. apply rnd32_le. lra. }
  assert (L2 : 1 <= R32 (f32_of_N d)). { rewrite D1, <- rnd32_1. apply rnd32_le. lra. }
  assert (K : 0 <= R32 (f32_of_N q) / R32 (f32_of_N d) <= 1).
  { split; [apply Rmult_le_pos; [exact L0|left; apply Rinv_0_lt_compat; lra]|].
    apply Rmult_le_reg_r with (R32 (f32_of_N d)); [lra|]. unfold Rdiv. rewrite Rmult_assoc, Rinv_l by lra. lra. }
  destruct (fdiv_R (f32_of_N q) (f32_of_N d) Q2) as [X1 X2]; [lra|now apply fits1|].
  unfold y. rewrite X1, Q1, D1. apply (quot_err rnd32 u32 tiny32 U32 T32 rnd32_err); assumption.
Qed.
Lemma quot64 (q d : N) : (q <= d)%N -> (1 <= d)%N -> (d < 2 ^ 64)%N ->
  let y := ddiv (f64_of_N q) (f64_of_N d) in fin y /\ 0 <= R64 y <= 1 /\ Rabs (R64 y - ratio q d) <= 3.1 * u64.
Proof.
  intros Hq Hd Hb y.
  destruct (f64_of_Z_R (Z.of_N q)) as [Q1 Q2]; [apply code_bound64; lia|]. fold (f64_of_N q) in Q1, Q2.
  destruct (f64_of_Z_R (Z.of_N d)) as [D1 D2]; [apply code_bound64; lia|]. fold (f64_of_N d) in D1, D2.
  destruct (ratio_unit q d Hq Hd) as (A1 & A2 & _).
  assert (L0 : 0 <= R64 (f64_of_N q)). { rewrite Q1, <- rnd64_0. apply rnd64_le. lra. }
  assert (L1 : R64 (f64_of_N q) <= R64 (f64_of_N d)). { rewrite Q1, D1. apply rnd64_le. lra. }
  assert (L2 : 1 <= R64 (f64_of_N d)). { rewrite D1, <- rnd64_1. apply rnd64_le. lra. }
  assert (K : 0 <= R64 (f64_of_N q) / R64 (f64_of_N d) <= 1).
  { split; [apply Rmult_le_pos; [exact L0|left; apply Rinv_0_lt_compat; lra]|].
    apply Rmult_le_reg_r with (R64 (f64_of_N d)); [lra|]. unfold Rdiv. rewrite Rmult_assoc, Rinv_l by lra. lra. }
  destruct (ddiv_R (f64_of_N q) (f64_of_N d) Q2) as [X1 X2]; [lra|now apply fits64|].
  split; [exact X2|]. split; [unfold y; rewrite X1; apply rnd64_between; [apply rnd64_0|apply rnd64_1|exact K]|].
  unfold y. rewrite X1, Q1, D1. apply (quot_err rnd64 u64 tiny64 U64 T64 rnd64_err); assumption.
Qed.
Lemma mask_lt p : (p < 64)%nat -> (mask_u64 p < 2 ^ 64)%N.
Proof. intros L. pose proof (pow_le_64 p L). unfold mask_u64. change (2 ^ 64)%N with (2 * 2 ^ 63)%N. lia. Qed.
Lemma fits_mask p q : fits p q -> (q <= mask_u64 p)%N.
Proof. intros F. apply fits_lt in F. unfold mask_u64. lia. Qed.

(** ** UVs *)
Lemma uv_close p q : (1 <= p < 64)%nat -> fits p q ->
  close (/ 2 ^ 22) (uv_value (f32_of_N (mask_u64 p)) q) (ddiv (f64_of_N q) (f64_of_N (mask_u64 p))).
Proof.
  intros B F. pose proof (mask_lt p ltac:(lia)) as L. pose proof (mask_pos p ltac:(lia)) as P. apply fits_mask in F.
  destruct (quot32 q (mask_u64 p) F P L) as (F1 & _ & E1). destruct (quot64 q (mask_u64 p) F P L) as (F2 & _ & E2).
  split; [exact F1|]. split; [exact F2|]. change (val (uv_value (f32_of_N (mask_u64 p)) q)) with (R32 (fdiv (f32_of_N q) (f32_of_N (mask_u64 p)))).
  change val64 with R64. cbv zeta in E1, E2. apply Rabs_le_inv in E1, E2. pose proof u64_u32. pose proof U64.
  replace (/ 2 ^ 22) with (4 * u32) by (unfold u32; simpl pow; lra). apply Rabs_le. lra.
Qed.
Lemma zero_close : close (/ 2 ^ 22) f0 d0.
Proof. split; [reflexivity|]. split; [reflexivity|]. cbn. rewrite Rminus_0_r, Rabs_R0. left. apply Rinv_0_lt_compat. lra. Qed.

(** ** Vertices *)
Lemma nan_coord (s mn : f32) (s' mn' : f64) :
  dequantize 0 (f32_of_N 0) s mn = B754_nan /\ dequantize_d 0 (f64_of_N 0) s' mn' = B754_nan.
Proof.
  split; unfold dequantize, dequantize_d.
  - change (fdiv (f32_of_N 0) (f32_of_N 0)) with (@B754_nan 24 128). destruct s, mn; reflexivity.
  - change (ddiv (f64_of_N 0) (f64_of_N 0)) with (@B754_nan 53 1024). destruct s', mn'; reflexivity.
Qed.
Lemma pow_127 : big32 = 4 * 2 ^ 125. Proof. rewrite big32_pow. replace 127%nat with (2 + 125)%nat by reflexivity. rewrite pow_add. replace (2 ^ 2) with 4 by (simpl; lra). reflexivity. Qed.
Lemma tiny_140 : / 2 ^ 140 = 1024 * tiny32.
Proof.
  unfold tiny32. replace (bpow radix2 (-150)) with (/ 2 ^ 150).
  - replace 150%nat with (140 + 10)%nat by reflexivity. rewrite pow_add. rewrite Rinv_mult. replace (/ 2 ^ 10) with (/ 1024) by (f_equal; simpl; lra). lra.
  - change (-150)%Z with (- Z.of_nat 150)%Z. rewrite bpow_opp, bpow_powerRZ, <- pow_powerRZ. reflexivity.
Qed.
Lemma coord_close p q (lo hi : f64) : (p < 64)%nat -> fits p q ->
  near_coord lo hi
    (dequantize q (f32_of_N (mask_u64 p)) (fsub (f32_of_f64 hi) (f32_of_f64 lo)) (f32_of_f64 lo))
    (dequantize_d q (f64_of_N (mask_u64 p)) (dsub hi lo) lo).
Proof.
  intros P F. unfold near_coord. change val64 with R64. change finite64 with (fun x : f64 => fin x). cbv beta.
  set (M := Rmax (Rabs (R64 lo)) (Rabs (R64 hi))). intros Fl Fh HM.
  destruct (Nat.eq_dec p 0) as [->|P0].
  - left. assert (q = 0%N) as -> by (apply fits_lt in F; change (2 ^ N.of_nat 0)%N with 1%N in F; lia).
    change (mask_u64 0) with 0%N. apply nan_coord.
  - right. pose proof (mask_lt p P) as L. pose proof (mask_pos p ltac:(lia)) as L1. apply fits_mask in F.
    destruct (quot32 q (mask_u64 p) F L1 L) as (A1 & A2 & A3). destruct (quot64 q (mask_u64 p) F L1 L) as (B1 & B2 & B3).
    destruct (ratio_unit q (mask_u64 p) F L1) as (_ & _ & AL). cbv zeta in *.
    unfold dequantize, dequantize_d. set (al := ratio q (mask_u64 p)) in *.
    set (a := fdiv (f32_of_N q) _) in *. set (b := ddiv (f64_of_N q) _) in *.
    assert (M0 : 0 <= M) by (unfold M; eapply Rle_trans; [apply Rabs_pos|apply Rmax_l]).
    assert (Hl : Rabs (R64 lo) <= M) by apply Rmax_l. assert (Hh : Rabs (R64 hi) <= M) by apply Rmax_r.
    clearbody M a b al. pose proof pow_127 as P27. pose proof U32. pose proof U64. pose proof T32. pose proof T64.
    assert (P1 : 1 <= 2 ^ 125) by (apply pow_R1_Rle; lra). set (K := 2 ^ 125) in *. clearbody K.
    pose proof big64_32 as B64.
    destruct (f32_of_f64_R lo Fl) as [l1 l2]; [lra|]. destruct (f32_of_f64_R hi Fh) as [h1 h2]; [lra|].
    set (l := f32_of_f64 lo) in *. set (h := f32_of_f64 hi) in *. clearbody l h.
    assert (UM : forall x, Rabs x <= M -> u32 * Rabs x <= u32 * M) by (intros x X; apply Rmult_le_compat_l; lra).
    assert (E1 : Rabs (R32 l - R64 lo) <= u32 * M + tiny32).
    { rewrite l1. eapply Rle_trans; [apply rnd32_err|]. specialize (UM _ Hl). lra. }
    assert (E2 : Rabs (R32 h - R64 hi) <= u32 * M + tiny32).
    { rewrite h1. eapply Rle_trans; [apply rnd32_err|]. specialize (UM _ Hh). lra. }
    destruct (coord_err rnd32 u32 tiny32 U32 T32 rnd32_err M (R64 lo) (R64 hi) (R32 l) (R32 h) (R32 a) al) as (C1 & C2 & C3 & C4);
      auto; [lra|].
    destruct (fsub_R h l h2 l2) as [S1 S2]; [lra|]. rewrite <- S1 in C2, C3, C4.
    destruct (fmul_R a (fsub h l) A1 S2) as [S3 S4]; [lra|]. rewrite <- S3 in C3, C4.
    destruct (fadd_R (fmul a (fsub h l)) l S4 l2) as [S5 S6]; [lra|]. rewrite <- S5 in C4.
    assert (Z0 : forall x, Rabs (x - x) <= u64 * M + tiny64).
    { intros x. rewrite Rabs_sub_self. assert (0 <= u64 * M) by (apply Rmult_le_pos; lra). lra. }
    destruct (coord_err rnd64 u64 tiny64 U64 T64 rnd64_err M (R64 lo) (R64 hi) (R64 lo) (R64 hi) (R64 b) al) as (D1 & D2 & D3 & D4);
      auto; [lra|].
    destruct (dsub_R hi lo Fh Fl) as [V1 V2]; [lra|]. rewrite <- V1 in D2, D3, D4.
    destruct (dmul_R b (dsub hi lo) B1 V2) as [V3 V4]; [lra|]. rewrite <- V3 in D3, D4.
    destruct (dadd_R (dmul b (dsub hi lo)) lo V4 Fl) as [V5 V6]; [lra|]. rewrite <- V5 in D4.
    split; [exact S6|]. split; [exact V6|]. change val64 with R64. change val with R32.
    apply Rabs_le_inv in C4, D4. rewrite tiny_140.
    assert (T6 : tiny64 <= tiny32) by (unfold tiny64, tiny32; apply bpow_le; lia).
    assert (UU : 0 <= u32 * M) by (apply Rmult_le_pos; lra).
    assert (UV : u64 * M = / 536870912 * (u32 * M)) by (unfold u64, u32; lra).
    replace (M * / 2 ^ 19) with (32 * (u32 * M)) by (unfold u32; simpl pow; lra).
    apply Rabs_le. lra.
Qed.

(** ** Normals *)
Definition cH : R := 884279719003555 / 562949953421312.
Lemma d_half_pi_R : R64 d_half_pi = cH /\ fin d_half_pi.
Proof.
  destruct (SF_R64 d_half_pi false 7074237752028440 (-52)) as [E F]; [vm_compute; reflexivity|]. split; [|exact F].
  rewrite E. unfold F2R, cH. cbn [Fnum Fexp cond_Zopp]. change (bpow radix2 (-52)) with (/ 4503599627370496). lra.
Qed.
Lemma dneg_R x : R64 (dneg x) = - R64 x. Proof. apply B2R_Bopp. Qed.
Lemma dsqrt_R x : fin x -> 0 <= R64 x -> R64 (dsqrt x) = rnd64 (sqrt (R64 x)) /\ fin (dsqrt x).
Proof.
  intros Fx P. destruct (Bsqrt_correct 53 1024 gt0_53 lt_53_1024 mode_NE x) as (C1 & C2 & _).
  cbn [round_mode] in C1. split; [exact C1|]. unfold dsqrt. rewrite C2.
  destruct x as [s|s| |[|] m e H]; try discriminate; auto.
  exfalso. revert P. unfold R64, B2R. apply Rlt_not_le. now apply F2R_lt_0.
Qed.
Lemma sgd_R (b : bool) x : R64 (if b then dneg x else x) = sg b * R64 x.
Proof. destruct b; unfold sg; [rewrite dneg_R|]; lra. Qed.
Lemma sgd_fin (b : bool) x : is_finite (if b then dneg x else x) = is_finite x.
Proof. destruct b; [apply is_finite_Bopp|reflexivity]. Qed.
Lemma close_sg e (b : bool) x y : close e x y -> close e (if b then fneg x else x) (if b then dneg y else y).
Proof.
  intros (A & B & C). unfold close, finite, finite64. rewrite sg_fin, sgd_fin. split; [exact A|]. split; [exact B|].
  change val with R32 in *. change val64 with R64 in *. rewrite sg_R, sgd_R. apply Rabs_le_inv in C. apply Rabs_le. destruct b; unfold sg; lra.
Qed.
Lemma one_close e : 0 <= e -> close e f1 d1.
Proof.
  intros P. destruct f1_R as [A B], d1_R as [C D]. split; [exact B|]. split; [exact D|].
  change val with R32. change val64 with R64. rewrite A, C, Rabs_sub_self. exact P.
Qed.
Lemma cos_lip a b : Rabs (cos a - cos b) <= Rabs (a - b).
Proof. rewrite <- !sin_shift. replace (a - b) with (- ((PI / 2 - a) - (PI / 2 - b))) by ring. rewrite Rabs_Ropp. apply sin_lip. Qed.

(** The angle and the radius in f32. *)
Lemma parts32 lm p c : sin_cos_ok lm -> (1 <= p < 64)%nat -> (n_asine c < 2 ^ N.of_nat p)%N -> (n_z c < 2 ^ N.of_nat p)%N ->
  let th := ratio (n_asine c) (mask_u64 p) * cH in let ze := ratio (n_z c) (mask_u64 p) in
  let x := fmul (fst (m_sin_cos lm (th_of p c))) (r_of p c) in
  let y := fmul (snd (m_sin_cos lm (th_of p c))) (r_of p c) in
  fin x /\ fin y /\ fin (z_of p c) /\ Rabs (R32 x - sin th * sqrt (1 - ze * ze)) <= 9 * / 10 ^ 4 /\
  Rabs (R32 y - cos th * sqrt (1 - ze * ze)) <= 9 * / 10 ^ 4 /\ Rabs (R32 (z_of p c) - ze) <= 3.1 * u32.
Proof.
  intros SC B Ha Hz th ze x y. destruct (shape_any lm p c B Ha Hz) as [_ [T1 T2] [Z1 Z2] (R1 & R2 & _)].
  destruct (fmul_trig lm (th_of p c) (r_of p c)) as (F1 & F2 & _ & _); auto.
  fold x in F1. fold y in F2. split; [exact F1|]. split; [exact F2|]. split; [exact Z1|].
  pose proof (mask_lt p ltac:(lia)) as L. pose proof (mask_pos p ltac:(lia)) as L1.
  destruct (quot32 (n_asine c) (mask_u64 p)) as (A1 & A2 & A3); [unfold mask_u64; lia|exact L1|exact L|].
  destruct (quot32 (n_z c) (mask_u64 p)) as (B1 & B2 & B3); [unfold mask_u64; lia|exact L1|exact L|].
  destruct (ratio_unit (n_asine c) (mask_u64 p)) as (_ & _ & AL); [unfold mask_u64; lia|exact L1|].
  destruct (ratio_unit (n_z c) (mask_u64 p)) as (_ & _ & ZL); [unfold mask_u64; lia|exact L1|].
  cbv zeta in *. fold (z_of p c) in B1, B2, B3. fold ze in B3, ZL.
  pose proof H_bounds as HB. pose proof U32 as UB. pose proof T32 as TB.
  (* the angle *)
  destruct half_pi_is as [H1 H2]. unfold th_of in T1, T2, x, y.
  set (a := fdiv (f32_of_N (n_asine c)) (f32_of_N (mask_u64 p))) in *. set (al := ratio (n_asine c) (mask_u64 p)) in *.
  assert (AB : 0 <= R32 a * H <= H).
  { split; [apply Rmult_le_pos; lra|]. rewrite <- (Rmult_1_l H) at 2. apply Rmult_le_compat_r; lra. }
  destruct (fmul_R a half_pi A1 H2) as [M1 M2]; [rewrite H1; apply fits32, Rabs_le; lra|]. rewrite H1 in M1.
  pose proof (rnd32_err2 (R32 a * H) ltac:(apply Rabs_le; lra)) as ER. rewrite <- M1 in ER.
  assert (AN : Rabs (R32 (fmul a half_pi) - th) <= 8 * u32).
  { assert (HD : Rabs (H - cH) <= u32) by (unfold H, cH, u32; apply Rabs_le; lra).
    assert (P1 : Rabs ((R32 a - al) * H) <= 3.1 * u32 * 1.5708) by (apply Rabs_prod; [exact A3|apply Rabs_le; lra]).
    assert (P2 : Rabs (al * (H - cH)) <= 1 * u32) by (apply Rabs_prod; [apply Rabs_le; lra|exact HD]).
    apply Rabs_le_inv in ER, P1, P2. unfold th.
    replace (R32 (fmul a half_pi) - al * cH) with (R32 (fmul a half_pi) - R32 a * H + (R32 a - al) * H + al * (H - cH)) by ring.
    apply Rabs_le. lra. }
  destruct (SC (fmul a half_pi) T1) as (S1 & S2 & S3 & S4); [change (val (fmul a half_pi)) with (R32 (fmul a half_pi)); lra|].
  change val with R32 in S3, S4. replace (/ 2 ^ 20) with (16 * u32) in S3, S4 by (unfold u32; simpl pow; lra).
  pose proof (sin_lip (R32 (fmul a half_pi)) th) as SL. pose proof (cos_lip (R32 (fmul a half_pi)) th) as CL.
  set (s := fst (m_sin_cos lm (fmul a half_pi))) in *. set (k := snd (m_sin_cos lm (fmul a half_pi))) in *.
  assert (E1 : Rabs (R32 s - sin th) <= 24 * u32).
  { assert (X : Rabs (sin (R32 (fmul a half_pi)) - sin th) <= 8 * u32) by lra. apply Rabs_le_inv in X, S3. apply Rabs_le. lra. }
  assert (E2 : Rabs (R32 k - cos th) <= 24 * u32).
  { assert (X : Rabs (cos (R32 (fmul a half_pi)) - cos th) <= 8 * u32) by lra. apply Rabs_le_inv in X, S4. apply Rabs_le. lra. }
  (* the radius *)
  assert (ZZ : 0 <= R32 (z_of p c) * R32 (z_of p c) <= 1) by (split; [apply Rmult_le_pos; lra|rewrite <- (Rmult_1_l 1); apply Rmult_le_compat; lra]).
  destruct (fmul_R (z_of p c) (z_of p c) Z1 Z1) as [Q1 Q2]; [now apply fits1|].
  assert (QB : 0 <= R32 (fmul (z_of p c) (z_of p c)) <= 1).
  { rewrite Q1. apply rnd32_between; [apply rnd32_0|apply rnd32_1|exact ZZ]. }
  destruct f1_R as [O1 O2]. destruct (fsub_R f1 (fmul (z_of p c) (z_of p c)) O2 Q2) as [Q3 Q4]; [rewrite O1; apply fits1; lra|].
  rewrite O1 in Q3.
  assert (QC : 0 <= R32 (fsub f1 (fmul (z_of p c) (z_of p c)))) by (rewrite Q3, <- rnd32_0; apply rnd32_le; lra).
  destruct (fsqrt_R _ Q4 QC) as [Q5 Q6]. fold (r_of p c) in Q5, Q6.
  pose proof (radius_err rnd32 u32 tiny32 U32 T32 rnd32_err (R32 (z_of p c)) ze Z2 ZL) as RE.
  rewrite <- Q1, <- Q3, <- Q5 in RE. specialize (RE ltac:(apply Rabs_le; apply Rabs_le_inv in B3; lra) QC).
  assert (SQ : sqrt (11 * u32) <= 8.1 * / 10 ^ 4).
  { rewrite <- (sqrt_square (8.1 * / 10 ^ 4)) by (simpl; lra). apply sqrt_le_1_alt. unfold u32. simpl. lra. }
  assert (RO : 0 <= sqrt (1 - ze * ze) <= 1).
  { split; [apply sqrt_pos|]. rewrite <- sqrt_1 at 2. apply sqrt_le_1_alt. assert (0 <= ze * ze) by (apply Rmult_le_pos; lra). lra. }
  assert (RE' : Rabs (R32 (r_of p c) - sqrt (1 - ze * ze)) <= 8.11 * / 10 ^ 4).
  { eapply Rle_trans; [exact RE|]. unfold u32 in *. simpl pow in *. lra. }
  assert (SB : Rabs (sin th) <= 1) by (apply Rabs_le; apply SIN_bound).
  assert (CB : Rabs (cos th) <= 1) by (apply Rabs_le; apply COS_bound).
  destruct (part_err rnd32 u32 tiny32 U32 T32 rnd32_err (R32 s) (R32 (r_of p c)) (sin th) (sqrt (1 - ze * ze)) (24 * u32) (8.11 * / 10 ^ 4)) as [N1 N2];
    auto; [unfold u32; lra|simpl; lra|].
  destruct (part_err rnd32 u32 tiny32 U32 T32 rnd32_err (R32 k) (R32 (r_of p c)) (cos th) (sqrt (1 - ze * ze)) (24 * u32) (8.11 * / 10 ^ 4)) as [N3 N4];
    auto; [unfold u32; lra|simpl; lra|].
  destruct (fmul_R s (r_of p c) S1 R1) as [X1 _]; [apply fits32; lra|].
  destruct (fmul_R k (r_of p c) S2 R1) as [Y1 _]; [apply fits32; lra|].
  fold x in X1. fold y in Y1. rewrite <- X1 in N2. rewrite <- Y1 in N4.
  split; [eapply Rle_trans; [exact N2|]; unfold u32; simpl pow; lra|].
  split; [eapply Rle_trans; [exact N4|]; unfold u32; simpl pow; lra|]. exact B3.
Qed.

(** The same in f64. *)
Definition thd_of (p : nat) (c : ncode) : f64 := dmul (ddiv (f64_of_N (n_asine c)) (f64_of_N (mask_u64 p))) d_half_pi.
Definition zd_of (p : nat) (c : ncode) : f64 := ddiv (f64_of_N (n_z c)) (f64_of_N (mask_u64 p)).
Definition rd_of (p : nat) (c : ncode) : f64 := dsqrt (dsub d1 (dmul (zd_of p c) (zd_of p c))).
Lemma shape_d sc p c : (1 <= p)%nat -> normal_from_encoding_d sc c p =
  ((if n_sx c then dneg (dmul (fst (sc (thd_of p c))) (rd_of p c)) else dmul (fst (sc (thd_of p c))) (rd_of p c)),
   (if n_sy c then dneg (dmul (snd (sc (thd_of p c))) (rd_of p c)) else dmul (snd (sc (thd_of p c))) (rd_of p c)),
   (if n_sz c then dneg (zd_of p c) else zd_of p c)).
Proof.
  intros B. unfold normal_from_encoding_d. destruct (Nat.eqb_spec p 0) as [E|_]; [lia|]. cbv zeta.
  fold (thd_of p c). fold (zd_of p c). fold (rd_of p c). destruct (sc (thd_of p c)). reflexivity.
Qed.
Lemma parts64 sc p c : sin_cos64_ok sc -> (1 <= p < 64)%nat -> (n_asine c < 2 ^ N.of_nat p)%N -> (n_z c < 2 ^ N.of_nat p)%N ->
  let th := ratio (n_asine c) (mask_u64 p) * cH in let ze := ratio (n_z c) (mask_u64 p) in
  let x := dmul (fst (sc (thd_of p c))) (rd_of p c) in
  let y := dmul (snd (sc (thd_of p c))) (rd_of p c) in
  fin x /\ fin y /\ fin (zd_of p c) /\ Rabs (R64 x - sin th * sqrt (1 - ze * ze)) <= 2 * / 10 ^ 6 /\
  Rabs (R64 y - cos th * sqrt (1 - ze * ze)) <= 2 * / 10 ^ 6 /\ Rabs (R64 (zd_of p c) - ze) <= 3.1 * u64.
Proof.
  intros SC B Ha Hz th ze x y.
  pose proof (mask_lt p ltac:(lia)) as L. pose proof (mask_pos p ltac:(lia)) as L1.
  destruct (quot64 (n_asine c) (mask_u64 p)) as (A1 & A2 & A3); [unfold mask_u64; lia|exact L1|exact L|].
  destruct (quot64 (n_z c) (mask_u64 p)) as (Z1 & Z2 & B3); [unfold mask_u64; lia|exact L1|exact L|].
  destruct (ratio_unit (n_asine c) (mask_u64 p)) as (_ & _ & AL); [unfold mask_u64; lia|exact L1|].
  destruct (ratio_unit (n_z c) (mask_u64 p)) as (_ & _ & ZL); [unfold mask_u64; lia|exact L1|].
  cbv zeta in *. fold (zd_of p c) in Z1, Z2, B3. fold ze in B3, ZL.
  assert (HB : 1.5707963 < cH < 1.5707964) by (unfold cH; lra). pose proof U64 as UB. pose proof T64 as TB.
  destruct d_half_pi_R as [H1 H2]. unfold thd_of in x, y.
  set (a := ddiv (f64_of_N (n_asine c)) (f64_of_N (mask_u64 p))) in *. set (al := ratio (n_asine c) (mask_u64 p)) in *.
  assert (AB : 0 <= R64 a * cH <= cH).
  { split; [apply Rmult_le_pos; lra|]. rewrite <- (Rmult_1_l cH) at 2. apply Rmult_le_compat_r; lra. }
  assert (UE : e50 <= 8 * u64) by (unfold e50, u64; lra).
  destruct (dmul_R a d_half_pi A1 H2) as [M1 M2]; [rewrite H1; apply fit4, Rabs_le; lra|]. rewrite H1 in M1.
  pose proof (rnd64_e (R64 a * cH) ltac:(apply Rabs_le; lra)) as ER. rewrite <- M1 in ER.
  assert (AN : Rabs (R64 (dmul a d_half_pi) - th) <= 13 * u64).
  { assert (P1 : Rabs ((R64 a - al) * cH) <= 3.1 * u64 * 1.5708) by (apply Rabs_prod; [exact A3|apply Rabs_le; lra]).
    apply Rabs_le_inv in ER, P1. unfold th.
    replace (R64 (dmul a d_half_pi) - al * cH) with (R64 (dmul a d_half_pi) - R64 a * cH + (R64 a - al) * cH) by ring.
    apply Rabs_le. lra. }
  assert (T2 : 0 <= R64 (dmul a d_half_pi) <= 2).
  { rewrite M1. assert (R2 : rnd64 2 = 2) by (apply (rnd64_Z 2); lia). apply rnd64_between; [apply rnd64_0|exact R2|lra]. }
  destruct (SC (dmul a d_half_pi) M2 T2) as (S1 & S2 & S3 & S4).
  change val64 with R64 in S3, S4.
  pose proof (sin_lip (R64 (dmul a d_half_pi)) th) as SL. pose proof (cos_lip (R64 (dmul a d_half_pi)) th) as CL.
  set (s := fst (sc (dmul a d_half_pi))) in *. set (k := snd (sc (dmul a d_half_pi))) in *.
  assert (UV : 13 * u64 <= / 10 ^ 14) by (unfold u64; simpl; lra).
  assert (E1 : Rabs (R64 s - sin th) <= 1.1 * / 10 ^ 6).
  { assert (X : Rabs (sin (R64 (dmul a d_half_pi)) - sin th) <= / 10 ^ 14) by lra. apply Rabs_le_inv in X, S3. apply Rabs_le. simpl pow in *. lra. }
  assert (E2 : Rabs (R64 k - cos th) <= 1.1 * / 10 ^ 6).
  { assert (X : Rabs (cos (R64 (dmul a d_half_pi)) - cos th) <= / 10 ^ 14) by lra. apply Rabs_le_inv in X, S4. apply Rabs_le. simpl pow in *. lra. }
  assert (ZZ : 0 <= R64 (zd_of p c) * R64 (zd_of p c) <= 1) by (split; [apply Rmult_le_pos; lra|rewrite <- (Rmult_1_l 1); apply Rmult_le_compat; lra]).
  destruct (dmul_R (zd_of p c) (zd_of p c) Z1 Z1) as [Q1 Q2]; [now apply fits64|].
  assert (QB : 0 <= R64 (dmul (zd_of p c) (zd_of p c)) <= 1).
  { rewrite Q1. apply rnd64_between; [apply rnd64_0|apply rnd64_1|exact ZZ]. }
  destruct d1_R as [O1 O2]. destruct (dsub_R d1 (dmul (zd_of p c) (zd_of p c)) O2 Q2) as [Q3 Q4]; [rewrite O1; apply fits64; lra|].
  rewrite O1 in Q3.
  assert (QC : 0 <= R64 (dsub d1 (dmul (zd_of p c) (zd_of p c)))) by (rewrite Q3, <- rnd64_0; apply rnd64_le; lra).
  destruct (dsqrt_R _ Q4 QC) as [Q5 Q6]. fold (rd_of p c) in Q5, Q6.
  pose proof (radius_err rnd64 u64 tiny64 U64 T64 rnd64_err (R64 (zd_of p c)) ze Z2 ZL) as RE.
  rewrite <- Q1, <- Q3, <- Q5 in RE. specialize (RE ltac:(apply Rabs_le; apply Rabs_le_inv in B3; lra) QC).
  assert (SQ : sqrt (11 * u64) <= 4 * / 10 ^ 8).
  { rewrite <- (sqrt_square (4 * / 10 ^ 8)) by (simpl; lra). apply sqrt_le_1_alt. unfold u64. simpl. lra. }
  assert (RO : 0 <= sqrt (1 - ze * ze) <= 1).
  { split; [apply sqrt_pos|]. rewrite <- sqrt_1 at 2. apply sqrt_le_1_alt. assert (0 <= ze * ze) by (apply Rmult_le_pos; lra). lra. }
  assert (RE' : Rabs (R64 (rd_of p c) - sqrt (1 - ze * ze)) <= 5 * / 10 ^ 8).
  { eapply Rle_trans; [exact RE|]. unfold u64 in *. simpl pow in *. lra. }
  assert (SB : Rabs (sin th) <= 1) by (apply Rabs_le; apply SIN_bound).
  assert (CB : Rabs (cos th) <= 1) by (apply Rabs_le; apply COS_bound).
  destruct (part_err rnd64 u64 tiny64 U64 T64 rnd64_err (R64 s) (R64 (rd_of p c)) (sin th) (sqrt (1 - ze * ze)) (1.1 * / 10 ^ 6) (5 * / 10 ^ 8)) as [N1 N2];
    auto; [simpl; lra|simpl; lra|].
  destruct (part_err rnd64 u64 tiny64 U64 T64 rnd64_err (R64 k) (R64 (rd_of p c)) (cos th) (sqrt (1 - ze * ze)) (1.1 * / 10 ^ 6) (5 * / 10 ^ 8)) as [N3 N4];
    auto; [simpl; lra|simpl; lra|].
  destruct (dmul_R s (rd_of p c) S1 Q6) as [X1 X2]; [apply fit4; lra|].
  destruct (dmul_R k (rd_of p c) S2 Q6) as [Y1 Y2]; [apply fit4; lra|].
  fold x in X1, X2. fold y in Y1, Y2. rewrite <- X1 in N2. rewrite <- Y1 in N4.
  split; [exact X2|]. split; [exact Y2|]. split; [exact Z1|].
  split; [eapply Rle_trans; [exact N2|]; unfold u64; simpl pow; lra|].
  split; [eapply Rle_trans; [exact N4|]; unfold u64; simpl pow; lra|]. exact B3.
Qed.
Lemma direction_close lm sc p c : sin_cos_ok lm -> sin_cos64_ok sc -> (p < 64)%nat ->
  (n_asine c < 2 ^ N.of_nat p)%N -> (n_z c < 2 ^ N.of_nat p)%N ->
  near_direction (normal_from_encoding lm c p) (normal_from_encoding_d sc c p).
Proof.
  intros S1 S2 B Ha Hz. unfold near_direction.
  assert (P10 : 0 <= / 2 ^ 10) by (left; apply Rinv_0_lt_compat; lra). assert (P22 : 0 <= / 2 ^ 22) by (left; apply Rinv_0_lt_compat; lra).
  destruct (Nat.eq_dec p 0) as [->|P0].
  - unfold normal_from_encoding, normal_from_encoding_d. cbn [Nat.eqb fst snd]. split; [|split]; apply close_sg, one_close; assumption.
  - rewrite shape_d by lia. destruct (shape_any lm p c ltac:(lia) Ha Hz) as [-> _ _ _]. cbn [fst snd].
    destruct (parts32 lm p c S1 ltac:(lia) Ha Hz) as (F1 & F2 & F3 & E1 & E2 & E3).
    destruct (parts64 sc p c S2 ltac:(lia) Ha Hz) as (G1 & G2 & G3 & D1 & D2 & D3). cbv zeta in *.
    apply Rabs_le_inv in E1, E2, E3, D1, D2, D3.
    split; [|split]; apply close_sg; (split; [assumption|split; [assumption|]]); change val with R32; change val64 with R64; apply Rabs_le.
    + simpl pow in *. lra.
    + simpl pow in *. lra.
    + replace (/ 2 ^ 22) with (4 * u32) by (unfold u32; simpl pow; lra). pose proof u64_u32. pose proof U64. lra.
Qed.

(** ** The precision recorded with custom data *)
Lemma d099999_R : Rabs (R64 d099999 - 0.99999) <= / 2 ^ 50 /\ fin d099999.
Proof.
  destruct (SF_R64 d099999 false 9007109182748445 (-53)) as [E F]; [vm_compute; reflexivity|]. split; [|exact F].
  rewrite E. unfold F2R. cbn [Fnum Fexp cond_Zopp]. change (bpow radix2 (-53)) with (/ 9007199254740992). simpl pow. apply Rabs_le. lra.
Qed.

Lemma f099999_R : Rabs (R32 f099999 - 0.99999) <= 1.1 * u32 /\ fin f099999.
Proof.
  destruct (flit_R 99999 100000) as [E F]; [lia|lia|]. fold f099999 in E, F. split; [|exact F]. rewrite E.
  replace (99999 / 100000) with 0.99999 by lra. eapply Rle_trans; [apply rnd32_err1; apply Rabs_le; lra|]. pose proof U32. lra.
Qed.
Lemma dmul_finite x y : fin y -> fin (dmul x y) -> fin x /\ R64 (dmul x y) = rnd64 (R64 x * R64 y).
Proof.
  intros Fy F. pose proof (Bmult_correct 53 1024 gt0_53 lt_53_1024 mode_NE x y) as C.
  cbn [round_mode] in C. destruct (Rlt_bool _ _).
  - destruct C as (C1 & C2 & _). change (Bmult mode_NE x y) with (dmul x y) in C1, C2. rewrite F, Fy, andb_true_r in C2. split; [now symmetry|exact C1].
  - change (Bmult mode_NE x y) with (dmul x y) in C. rewrite <- is_finite_SF_B2SF in F. rewrite C in F.
    destruct (xorb _ _); discriminate F.
Qed.
Lemma precision_close (x : f64) : near_precision (fmul (f32_of_f64 x) f099999) (dmul x d099999).
Proof.
  unfold near_precision. change finite64 with (fun x : f64 => fin x). change val64 with R64. change val with R32. cbv beta.
  intros F B. destruct d099999_R as [K1 K2], f099999_R as [L1 L2]. destruct (dmul_finite x d099999 K2 F) as [Fx E].
  pose proof (rnd64_err (R64 x * R64 d099999)) as ER. rewrite <- E in ER.
  set (k := R64 d099999) in *. set (k' := R32 f099999) in *. set (P := R64 (dmul x d099999)) in *. clearbody k P. clear E F.
  replace (/ 2 ^ 50) with (8 * u64) in K1 by (unfold u64; simpl pow; lra). replace (/ 2 ^ 22) with (4 * u32) by (unfold u32; simpl pow; lra).
  pose proof U32 as UB. pose proof U64 as UC. pose proof u64_u32 as UU.
  apply Rabs_le_inv in K1, L1.
  (* the size of x *)
  assert (AX : Rabs (R64 x * k) = Rabs (R64 x) * k) by (rewrite Rabs_mult, (Rabs_pos_eq k) by lra; reflexivity).
  set (X := Rabs (R64 x)) in *. assert (X0 : 0 <= X) by apply Rabs_pos. rewrite AX in ER.
  assert (KX : 0.9999 * X <= X * k <= X) by (split; [rewrite Rmult_comm; apply Rmult_le_compat_l; lra|rewrite <- (Rmult_1_r X) at 2; apply Rmult_le_compat_l; lra]).
  set (kx := X * k) in *.
  assert (UK : 0 <= u64 * kx <= / 16777216 * kx) by (split; [apply Rmult_le_pos; lra|apply Rmult_le_compat_r; lra]).
  assert (TT : 0 <= tiny64 <= / 2 ^ 100 * / 2 ^ 40 /\ 0 <= tiny32 <= / 2 ^ 100 * / 2 ^ 40).
  { assert (T6 : tiny64 <= tiny32) by (unfold tiny64, tiny32; apply bpow_le; lia).
    pose proof tiny64_bound as T1. pose proof tiny32_bound as T2.
    assert (T3 : / 2 ^ 100 * / 2 ^ 40 = 1024 * tiny32) by (rewrite <- tiny_140, <- Rinv_mult, <- pow_add; reflexivity).
    rewrite T3. lra. }
  destruct TT as [TA TB]. set (D := / 2 ^ 100) in *. assert (D0 : 0 < D) by (apply Rinv_0_lt_compat, pow_lt; lra).
  replace (/ 2 ^ 40) with (/ 1099511627776) in TA, TB by (f_equal; simpl; lra).
  set (G := 2 ^ 100) in *.
  assert (G1 : 1 <= G) by (apply pow_R1_Rle; lra). assert (DG : D <= 1) by (unfold D; rewrite <- Rinv_1; apply Rinv_le; lra).
  assert (PK : Rabs (Rabs P - kx) <= u64 * kx + tiny64).
  { eapply Rle_trans; [|exact ER]. rewrite <- AX. apply Rabs_triang_inv2. }
  apply Rabs_le_inv in PK.
  assert (XP : 0.9998 * X <= Rabs P + tiny64) by lra. assert (PX : Rabs P <= 1.01 * X + tiny64) by lra.
  assert (PP : X <= 1.001 * Rabs P) by lra. assert (PD : 0.9 * D <= X) by lra.
  (* the f32 *)
  assert (GB : 1.01 * G <= big32).
  { rewrite pow_127. unfold G. pose proof (pow2_le 100 125 ltac:(lia)) as LE. assert (0 < 2 ^ 100) by (apply pow_lt; lra). lra. }
  clearbody D G.
  destruct (f32_of_f64_R x Fx) as [Y1 Y2]; [fold X; lra|].
  pose proof (rnd32_err (R64 x)) as EY. rewrite <- Y1 in EY. fold X in EY.
  set (y := f32_of_f64 x) in *. clearbody y.
  assert (UX : 0 <= u32 * X <= / 16777216 * X) by (split; [apply Rmult_le_pos; lra|apply Rmult_le_compat_r; lra]).
  assert (TX : tiny32 <= / 1000 * (u32 * X) /\ tiny64 <= / 1000 * (u32 * X)).
  { assert (Q : u32 * (0.9 * D) <= u32 * X) by (apply Rmult_le_compat_l; lra). unfold u32 in *. lra. }
  assert (EY' : Rabs (R32 y - R64 x) <= 1.001 * (u32 * X)) by lra.
  assert (YK : Rabs (R32 y * k' - R64 x * k) <= 2.2 * (u32 * X)).
  { replace (R32 y * k' - R64 x * k) with ((R32 y - R64 x) * k' + R64 x * (k' - k)) by ring.
    eapply Rle_trans; [apply Rabs_triang|].
    assert (Q1 : Rabs ((R32 y - R64 x) * k') <= 1.001 * (u32 * X) * 1) by (apply Rabs_prod; [exact EY'|apply Rabs_le; lra]).
    assert (Q2 : Rabs (R64 x * (k' - k)) <= X * (1.11 * u32)) by (apply Rabs_prod; [apply Rle_refl|apply Rabs_le; lra]). lra. }
  assert (YB : Rabs (R32 y * k') <= 1.0001 * X).
  { replace (R32 y * k') with (R64 x * k + (R32 y * k' - R64 x * k)) by ring.
    eapply Rle_trans; [apply Rabs_triang|]. rewrite AX. lra. }
  destruct (fmul_R y f099999 Y2 L2) as [Z1 Z2]; [fold k'; lra|]. split; [exact Z2|]. rewrite Z1. fold k'.
  pose proof (rnd32_err (R32 y * k')) as EZ.
  assert (UZ : u32 * Rabs (R32 y * k') <= u32 * (1.0001 * X)) by (apply Rmult_le_compat_l; lra).
  assert (UP : u32 * X <= u32 * (1.001 * Rabs P)) by (apply Rmult_le_compat_l; lra).
  assert (U6 : u64 * kx <= / 1000 * (u32 * X)).
  { assert (Q : u64 * kx <= u64 * X) by (apply Rmult_le_compat_l; lra). unfold u64, u32 in *. lra. }
  assert (E3 : Rabs (P - R64 x * k) <= / 100 * (u32 * X)) by lra.
  apply Rabs_le_inv in E3, EZ, YK. set (f := rnd32 (R32 y * k')) in *.
  assert (FIN : Rabs (f - P) <= 3.5 * (u32 * X)) by (apply Rabs_le; lra).
  eapply Rle_trans; [exact FIN|]. lra.
Qed.
