(** How far a normal stored by a program built with [double_precision] is from the original. *)
From Coq Require Import List NArith ZArith Arith Lia Bool Reals Lra Psatz Machin.
From Flocq Require Import Core Relative IEEE754.BinarySingleNaN.
From Verif Require Import Base UnalignedRW ReadExt Floats Floats_proofs FloatReal_proofs ValueSpec Log2_proofs Trig_proofs
  Utilis Normals Save_proofs Codec_proofs Quant_proofs NormalReal_proofs VertexReal_proofs
  Double DoubleSpec DoubleSave DoubleValueSpec DoubleNormalSpec Double2_proofs DMerge_proofs DCodec_proofs DQuant_proofs DVertex_proofs.
Import ListNotations.
Local Open Scope R_scope.

Lemma dabs_R x : R64 (dabs x) = Rabs (R64 x). Proof. apply B2R_Babs. Qed.
Lemma dabs_fin x : is_finite (dabs x) = is_finite x. Proof. apply is_finite_Babs. Qed.
(** pi/2 is above the f64 nearest to it. *)
Lemma PI_above : 2 * cH < PI.
Proof.
  pose proof (PI_2_3_7_ineq 9) as [A _]. cbn [Nat.mul Nat.add sum_f_R0] in A.
  unfold tg_alt, PI_2_3_7_tg, Ratan_seq in A. cbn [Nat.mul Nat.add INR] in A.
  simpl pow in A. unfold cH. lra.
Qed.
Lemma cH_bounds : 1.5707963 < cH < 1.5707964. Proof. unfold cH. lra. Qed.
Lemma rnd64_cH : rnd64 cH = cH.
Proof. destruct d_half_pi_R as [A _]. rewrite <- A. apply rnd64_R64. Qed.
Lemma tiny64_200 : 0 < tiny64 <= / IZR (2 ^ 200).
Proof.
  unfold tiny64. split; [apply bpow_gt_0|].
  change (/ IZR (2 ^ 200)) with (bpow radix2 (-200)). apply bpow_le. lia.
Qed.
Lemma fit4 x : Rabs x <= 4 -> Rabs x <= big64.
Proof. intros B. eapply Rle_trans; [exact B|]. eapply Rle_trans; [|apply big64_ge]. apply IZR_le. lia. Qed.
Lemma rnd64_err2 x : Rabs x <= 2 -> Rabs (rnd64 x - x) <= 2.001 * u64.
Proof.
  intros B. eapply Rle_trans; [apply rnd64_err|]. pose proof tiny_u_d. pose proof u64_small. pose proof (Rabs_pos x). nra.
Qed.
Lemma sqrt_square_ge_d x : generic_format radix2 fexp64 x -> bpow radix2 (-110) <= x ->
  x <= rnd64 (sqrt (rnd64 (x * x))).
Proof.
  intros Fx Hx. assert (Px : 0 < x) by (eapply Rlt_le_trans; [apply bpow_gt_0|exact Hx]).
  destruct (mag radix2 x) as [e He]. specialize (He (Rgt_not_eq _ _ Px)). rewrite Rabs_pos_eq in He by lra.
  assert (Le : (-110 < e)%Z). { apply (lt_bpow radix2). lra. }
  assert (Me : mag radix2 x = e :> Z).
  { apply mag_unique. now rewrite Rabs_pos_eq by lra. }
  assert (Ce : cexp radix2 fexp64 x = (e - 53)%Z).
  { unfold cexp. rewrite Me. unfold SpecFloat.fexp, SpecFloat.emin. lia. }
  destruct (Req_dec x (bpow radix2 (e - 1))) as [Ex|Nx].
  - rewrite Ex, <- bpow_plus.
    rewrite (round_generic radix2 fexp64 ZnearestE (bpow radix2 (e - 1 + (e - 1)))).
    2:{ apply generic_format_bpow. unfold SpecFloat.fexp, SpecFloat.emin. lia. }
    rewrite bpow_plus, sqrt_square by apply bpow_ge_0.
    rewrite round_generic; [lra|auto with typeclass_instances|]. apply generic_format_bpow.
    unfold SpecFloat.fexp, SpecFloat.emin. lia.
  - apply round_N_ge_midp; auto with typeclass_instances.
    rewrite pred_eq_pos by lra. unfold pred_pos. rewrite Me, Req_bool_false by exact Nx.
    rewrite ulp_neq_0 by lra. rewrite Ce.
    assert (X2 : bpow radix2 (-1022) <= x * x).
    { apply Rle_trans with (bpow radix2 (-110) * bpow radix2 (-110)).
      - rewrite <- bpow_plus. apply bpow_le. lia.
      - apply Rmult_le_compat; auto using bpow_ge_0. }
    pose proof (rnd64_rel (x * x)) as Er. rewrite (Rabs_pos_eq (x * x)) in Er by nra. specialize (Er X2).
    apply Rabs_le_iff in Er.
    assert (Y : (1 - u64) * (x * x) <= rnd64 (x * x)) by lra. clear Er.
    set (P := bpow radix2 e) in *.
    assert (Pp : 0 < P) by apply bpow_gt_0.
    assert (PU : bpow radix2 (e - 53) = u64 * P).
    { unfold Z.sub. rewrite bpow_plus. fold P. unfold u64. change (bpow radix2 (- (24))) with (/ IZR (2 ^ 30)). cbn. lra. }
    assert (Ph : bpow radix2 (e - 1) = P / 2).
    { unfold Z.sub. rewrite bpow_plus. fold P. change (bpow radix2 (- (1))) with (/ 2). lra. }
    rewrite PU. rewrite Ph in He.
    assert (T : x <= P - u64 * P).
    { assert (L : x <= pred radix2 fexp64 P).
      { apply pred_ge_gt; auto with typeclass_instances; [|apply He]. apply generic_format_bpow.
        unfold SpecFloat.fexp, SpecFloat.emin. lia. }
      unfold P in L at 1. rewrite pred_bpow in L. fold P in L.
      replace (SpecFloat.fexp 53 1024 e) with (e - 53)%Z in L by (unfold SpecFloat.fexp, SpecFloat.emin; lia).
      rewrite PU in L. exact L. }
    apply Rlt_le_trans with (sqrt ((1 - u64) * (x * x))); [|apply sqrt_le_1_alt; exact Y].
    assert (U : 0 < u64 < / 100) by (unfold u64; lra).
    replace ((x + (x - u64 * P)) / 2) with (x - u64 * P / 2) by field.
    assert (0 <= x - u64 * P / 2) by nra.
    rewrite <- (sqrt_square (x - u64 * P / 2)) by assumption. apply sqrt_lt_1_alt. split; [nra|].
    assert (x * P - x * x >= u64 * (P * P) / 2) by nra.
    assert (0 < u64 * (P * P)) by (apply Rmult_lt_0_compat; nra).
    nra.
Qed.
Lemma radius_R_d z : fin z -> 0 <= R64 z <= 1 ->
  let rf := dsqrt (dsub d1 (dmul z z)) in
  fin rf /\ 0 <= R64 rf <= 1 /\ Rabs (R64 rf * R64 rf - (1 - R64 z * R64 z)) <= 6 * u64.
Proof.
  intros F B rf. pose proof u64_small as U.
  assert (Z2 : 0 <= R64 z * R64 z <= 1) by nra.
  destruct (dmul_R z z F F) as [M1 M2]; [now apply fits1_d|].
  assert (MB : 0 <= R64 (dmul z z) <= 1).
  { rewrite M1. apply rnd64_between; [apply rnd64_0|apply rnd64_1|exact Z2]. }
  destruct d1_R as [O1 O2].
  destruct (dsub_R d1 (dmul z z) O2 M2) as [S1 S2]; [rewrite O1; apply fits1_d; lra|].
  rewrite O1 in S1.
  assert (SB : 0 <= R64 (dsub d1 (dmul z z)) <= 1).
  { rewrite S1. apply rnd64_between; [apply rnd64_0|apply rnd64_1|lra]. }
  destruct (dsqrt_R _ S2 (proj1 SB)) as [Q1 Q2]. fold rf in Q1, Q2.
  set (w := R64 (dsub d1 (dmul z z))) in *.
  assert (QB : 0 <= sqrt w <= 1).
  { split; [apply sqrt_pos|]. rewrite <- sqrt_1. apply sqrt_le_1_alt. lra. }
  assert (RB : 0 <= R64 rf <= 1).
  { rewrite Q1. apply rnd64_between; [apply rnd64_0|apply rnd64_1|exact QB]. }
  split; [exact Q2|]. split; [exact RB|].
  pose proof (rnd64_err1 (R64 z * R64 z)) as E1. rewrite (Rabs_pos_eq (R64 z * R64 z)) in E1 by lra.
  rewrite <- M1 in E1. specialize (E1 (proj2 Z2)).
  pose proof (rnd64_err1 (1 - R64 (dmul z z))) as E2. rewrite (Rabs_pos_eq (1 - _)) in E2 by lra.
  rewrite <- S1 in E2. fold w in E2.
  assert (E2' := E2 ltac:(lra)). clear E2.
  pose proof (rnd64_err1 (sqrt w)) as E3. rewrite (Rabs_pos_eq (sqrt w)) in E3 by lra.
  rewrite <- Q1 in E3. specialize (E3 (proj2 QB)).
  assert (W : sqrt w * sqrt w = w) by (apply sqrt_sqrt; lra).
  apply Rabs_le_iff in E1, E2', E3. set (r := R64 rf) in *. set (q := sqrt w) in *.
  assert (E4 : Rabs (r * r - w) <= 2.01 * u64).
  { rewrite <- W. replace (r * r - q * q) with ((r - q) * (r + q)) by ring.
    rewrite Rabs_mult. rewrite (Rabs_pos_eq (r + q)) by lra.
    assert (Rabs (r - q) <= 1.001 * u64) by (apply Rabs_le_iff; lra).
    pose proof (Rabs_pos (r - q)). nra. }
  apply Rabs_le_iff in E4. apply Rabs_le_iff. lra.
Qed.
Record decoded_d (p : nat) (c : ncode) (n : dvec3) (th z rf : R) : Prop := {
  dd_fin : finite3_d n;
  dd_z01 : 0 <= z <= 1;
  dd_z : Rabs (z - IZR (Z.of_N (n_z c)) / IZR (steps p)) <= 2 * u64;
  dd_r01 : 0 <= rf <= 1;
  dd_r : Rabs (rf * rf - (1 - z * z)) <= 6 * u64;
  dd_th0 : 0 <= th <= cH;
  dd_th : Rabs (th - IZR (Z.of_N (n_asine c)) / IZR (steps p) * cH) <= 6 * u64;
  dd_vx : exists X, R64 (dvx n) = sg (n_sx c) * X /\ Rabs (X - sin th * rf) <= 18 * u64;
  dd_vy : exists Y, R64 (dvy n) = sg (n_sy c) * Y /\ Rabs (Y - cos th * rf) <= 18 * u64;
  dd_vz : R64 (dvz n) = sg (n_sz c) * z }.
Lemma mul_trig_d s t rf : fin s -> fin rf -> 0 <= R64 rf <= 1 -> Rabs t <= 1 -> Rabs (R64 s - t) <= 16 * u64 ->
  fin (dmul s rf) /\ Rabs (R64 (dmul s rf) - t * R64 rf) <= 18 * u64.
Proof.
  intros Fs Fr Br Bt E. pose proof u64_small as U. apply Rabs_le_iff in Bt. apply Rabs_le_iff in E.
  assert (B : Rabs (R64 s * R64 rf) <= 1.001).
  { rewrite Rabs_mult, (Rabs_pos_eq (R64 rf)) by lra. assert (Rabs (R64 s) <= 1.001) by (apply Rabs_le_iff; lra).
    pose proof (Rabs_pos (R64 s)). nra. }
  destruct (dmul_R s rf Fs Fr) as [A1 A2]; [apply fit4; lra|]. split; [exact A2|]. rewrite A1.
  assert (E1 : Rabs (rnd64 (R64 s * R64 rf) - R64 s * R64 rf) <= 1.1 * u64).
  { eapply Rle_trans; [apply rnd64_err|]. pose proof tiny_u_d. nra. }
  apply Rabs_le_iff in E1. apply Rabs_le_iff.
  assert (- 16 * u64 <= (R64 s - t) * R64 rf <= 16 * u64) by nra. lra.
Qed.
Lemma ndecode_R_d sc p c : (1 <= p <= 30)%nat -> sin_cos64_sharp sc ->
  (Z.of_N (n_asine c) <= steps p)%Z -> (Z.of_N (n_z c) <= steps p)%Z ->
  exists th z rf, decoded_d p c (normal_from_encoding_d sc c p) th z rf.
Proof.
  intros B SC Ha Hz. pose proof u64_small as U. pose proof cH_bounds as HB.
  unfold normal_from_encoding_d. destruct (Nat.eqb_spec p 0) as [E|_]; [lia|]. cbv zeta.
  destruct (value_d p (n_asine c) B Ha) as (_ & A2 & A3 & A4). cbv zeta in *.
  destruct (value_d p (n_z c) B Hz) as (_ & Z2 & Z3 & Z4). cbv zeta in *.
  set (a := ddiv (f64_of_N (n_asine c)) (f64_of_N (mask_u64 p))) in *.
  set (z := ddiv (f64_of_N (n_z c)) (f64_of_N (mask_u64 p))) in *.
  destruct d_half_pi_R as [P1 P2].
  assert (AB : 0 <= R64 a * cH <= cH) by nra.
  destruct (dmul_R a d_half_pi A2 P2) as [T1 T2]; [rewrite P1; apply fit4, Rabs_le_iff; lra|].
  rewrite P1 in T1. set (th := dmul a d_half_pi) in *.
  assert (TB : 0 <= R64 th <= cH).
  { rewrite T1. apply rnd64_between; [apply rnd64_0|apply rnd64_cH|exact AB]. }
  destruct (SC th T2) as (S1 & S2 & S3 & S4); [change (val64 th) with (R64 th); lra|].
  destruct (sc th) as [sf cf]. cbn [fst snd] in *.
  destruct (radius_R_d z Z2 Z3) as (R1 & R2 & R3). cbv zeta in *.
  set (rf := dsqrt (dsub d1 (dmul z z))) in *.
  change val64 with R64 in *.
  assert (E49 : / 2 ^ 49 = 16 * u64) by (unfold u64; simpl pow; lra). rewrite E49 in S3, S4.
  destruct (mul_trig_d sf (sin (R64 th)) rf) as [X1 X2]; auto.
  { pose proof (SIN_bound (R64 th)). apply Rabs_le_iff. lra. }
  destruct (mul_trig_d cf (cos (R64 th)) rf) as [Y1 Y2]; auto.
  { pose proof (COS_bound (R64 th)). apply Rabs_le_iff. lra. }
  exists (R64 th), (R64 z), (R64 rf). constructor; auto.
  - unfold finite3_d, finite64. cbn [fst snd]. rewrite !sgd_fin. auto.
  - pose proof (rnd64_err2 (R64 a * cH)) as E. rewrite (Rabs_pos_eq (R64 a * cH)) in E by lra. rewrite <- T1 in E.
    specialize (E ltac:(lra)). apply Rabs_le_iff in E, A4. apply Rabs_le_iff. nra.
  - exists (R64 (dmul sf rf)). split; [apply sgd_R|exact X2].
  - exists (R64 (dmul cf rf)). split; [apply sgd_R|exact Y2].
  - apply sgd_R.
Qed.
Lemma projection_R_d (x y : f64) : fin x -> fin y -> 0 <= R64 x <= 1 -> 0 <= R64 y <= 1 ->
  / IZR (2 ^ 110) <= R64 x * R64 x + R64 y * R64 y ->
  let xy := dsqrt (dadd (dmul x x) (dmul y y)) in
  let rho := sqrt (R64 x * R64 x + R64 y * R64 y) in
  fin xy /\ 0 < rho /\ Rabs (R64 xy - rho) <= 3 * u64 * rho /\ (bpow radix2 (-110) <= R64 x -> R64 x <= R64 xy).
Proof.
  intros Fx Fy Bx By L xy rho. pose proof u64_small as U. pose proof tiny64_200 as [T0 T1].
  set (X := R64 x) in *. set (Y := R64 y) in *. set (S := X * X + Y * Y) in *.
  assert (T2 : tiny64 <= / 1000 * (u64 * S)).
  { assert (/ 1000 * u64 * / IZR (2 ^ 110) <= / 1000 * u64 * S) by (apply Rmult_le_compat_l; lra).
    eapply Rle_trans; [exact T1|]. rewrite <- Rmult_assoc. eapply Rle_trans; [|eassumption]. unfold u64. cbn. lra. }
  assert (X2 : 0 <= X * X <= 1) by nra. assert (Y2 : 0 <= Y * Y <= 1) by nra.
  destruct (dmul_R x x Fx Fx) as [M1 M2]; [now apply fits1_d|].
  destruct (dmul_R y y Fy Fy) as [N1 N2]; [now apply fits1_d|].
  fold X in M1. fold Y in N1.
  assert (MB : 0 <= R64 (dmul x x) <= 1).
  { rewrite M1. apply rnd64_between; [apply rnd64_0|apply rnd64_1|exact X2]. }
  assert (NB : 0 <= R64 (dmul y y) <= 1).
  { rewrite N1. apply rnd64_between; [apply rnd64_0|apply rnd64_1|exact Y2]. }
  destruct (dadd_R _ _ M2 N2) as [A1 A2]; [apply fit4, Rabs_le_iff; lra|].
  assert (AB : 0 <= R64 (dadd (dmul x x) (dmul y y))).
  { rewrite A1, <- rnd64_0. apply rnd64_le. lra. }
  destruct (dsqrt_R _ A2 AB) as [Q1 Q2]. fold xy in Q1, Q2.
  set (m := R64 (dmul x x)) in *. set (n := R64 (dmul y y)) in *.
  set (s := R64 (dadd (dmul x x) (dmul y y))) in *.
  assert (SP : 0 < S). { assert (0 < / IZR (2 ^ 110)) by (apply Rinv_0_lt_compat, IZR_lt; lia). lra. }
  assert (RP : 0 < rho) by (apply sqrt_lt_R0; exact SP).
  assert (RR : rho * rho = S) by (apply sqrt_sqrt; lra).
  pose proof (rnd64_err (X * X)) as E1. rewrite <- M1, (Rabs_pos_eq (X * X)) in E1 by lra.
  pose proof (rnd64_err (Y * Y)) as E2. rewrite <- N1, (Rabs_pos_eq (Y * Y)) in E2 by lra.
  pose proof (rnd64_err (m + n)) as E3. rewrite <- A1, (Rabs_pos_eq (m + n)) in E3 by lra.
  apply Rabs_le_iff in E1, E2, E3.
  assert (C : Rabs (s - S) <= 2.1 * (u64 * S)).
  { assert (Rabs (m + n - S) <= 1.01 * (u64 * S)) as E4 by (apply Rabs_le_iff; unfold S in *; lra).
    apply Rabs_le_iff in E4. apply Rabs_le_iff.
    assert (u64 * (m + n) <= 1.01 * (u64 * S)).
    { assert (m + n <= 1.01 * S) by (pose proof (Rmult_le_compat_r S u64 (/ 9007199254740992) ltac:(lra) (proj2 U)); lra).
      pose proof (Rmult_le_compat_l u64 (m + n) (1.01 * S) ltac:(lra) ltac:(lra)). lra. }
    lra. }
  assert (US : 0 < u64 * S) by (apply Rmult_lt_0_compat; lra).
  assert (UR : 0 < u64 * rho) by (apply Rmult_lt_0_compat; lra).
  assert (UR2 : u64 * rho <= / 9007199254740992 * rho) by (apply Rmult_le_compat_r; lra).
  assert (UUS : 0 <= u64 * (u64 * S)) by (apply Rmult_le_pos; lra).
  assert (UUS2 : u64 * (u64 * S) <= / 9007199254740992 * (u64 * S)) by (apply Rmult_le_compat_r; lra).
  assert (D : Rabs (sqrt s - rho) <= 1.1 * u64 * rho).
  { apply Rabs_le_iff in C. split_Rabs.
    - idtac. assert (rho - 1.1 * u64 * rho <= sqrt s); [|lra].
      rewrite <- (sqrt_square (rho - 1.1 * u64 * rho)) by lra. apply sqrt_le_1_alt.
      rewrite sq_minus, RR.
      lra.
    - assert (sqrt s <= rho + 1.1 * u64 * rho); [|lra].
      rewrite <- (sqrt_square (rho + 1.1 * u64 * rho)) by lra. apply sqrt_le_1_alt.
      rewrite sq_plus, RR.
      lra. }
  split; [exact Q2|]. split; [exact RP|].
  assert (R40 : / IZR (2 ^ 55) <= rho).
  { unfold rho. rewrite <- (sqrt_square (/ IZR (2 ^ 55))) by (left; apply Rinv_0_lt_compat, IZR_lt; lia).
    apply sqrt_le_1_alt. eapply Rle_trans; [|exact L]. right. rewrite <- Rinv_mult.
    rewrite <- mult_IZR. reflexivity. }
  split.
  - pose proof (rnd64_err (sqrt s)) as E4. rewrite <- Q1, (Rabs_pos_eq (sqrt s)) in E4 by apply sqrt_pos.
    assert (tiny64 <= / 1000 * (u64 * rho)).
    { assert (/ 1000 * u64 * / IZR (2 ^ 55) <= / 1000 * u64 * rho) by (apply Rmult_le_compat_l; lra).
      eapply Rle_trans; [exact T1|]. rewrite <- Rmult_assoc. eapply Rle_trans; [|eassumption]. unfold u64. cbn. lra. }
    apply Rabs_le_iff in E4, D. apply Rabs_le_iff.
    assert (sqrt s <= 1.01 * rho) by lra.
    pose proof (Rmult_le_compat_l u64 (sqrt s) (1.01 * rho) ltac:(lra) ltac:(lra)). lra.
  - intros LX. eapply Rle_trans; [apply (sqrt_square_ge_d X); [apply generic_format_B2R|exact LX]|].
    rewrite Q1. apply rnd64_le. apply sqrt_le_1_alt. rewrite A1.
    rewrite <- M1. rewrite <- (rnd64_R64 (dmul x x) : rnd64 m = m) at 1. apply rnd64_le. lra.
Qed.
Lemma ratio_R_d (x y : f64) : fin x -> fin y -> 0 <= R64 x <= 1 -> 0 <= R64 y <= 1 ->
  / IZR (2 ^ 110) <= R64 x * R64 x + R64 y * R64 y ->
  let r := ddiv x (dsqrt (dadd (dmul x x) (dmul y y))) in
  let rho := sqrt (R64 x * R64 x + R64 y * R64 y) in
  fin r /\ 0 <= R64 r <= 1 /\ Rabs (R64 x / rho - R64 r) <= 5 * u64.
Proof.
  intros Fx Fy Bx By L r rho. pose proof u64_small as U.
  destruct (projection_R_d x y Fx Fy Bx By L) as (P1 & P2 & P3 & P4). cbv zeta in *.
  fold rho in P2, P3. set (xy := dsqrt (dadd (dmul x x) (dmul y y))) in *.
  set (X := R64 x) in *. set (W := R64 xy) in *. apply Rabs_le_iff in P3.
  assert (WP : 0 < W) by nra.
  assert (XR : X <= rho).
  { unfold rho. rewrite <- (sqrt_square X) at 1 by lra. apply sqrt_le_1_alt. nra. }
  assert (XW : 0 <= X / W <= 1.001).
  { split; [apply Rmult_le_pos; [lra|left; now apply Rinv_0_lt_compat]|].
    apply Rmult_le_reg_r with W; auto. unfold Rdiv. rewrite Rmult_assoc, Rinv_l by lra. nra. }
  assert (XQ : 0 <= X / rho <= 1).
  { split; [apply Rmult_le_pos; [lra|left; now apply Rinv_0_lt_compat]|].
    apply Rmult_le_reg_r with rho; auto. unfold Rdiv. rewrite Rmult_assoc, Rinv_l by lra. lra. }
  destruct (ddiv_R x xy Fx) as [D1 D2].
  { fold W. lra. }
  { fold X W. apply fit4, Rabs_le_iff. lra. }
  fold r in D1, D2. fold X W in D1.
  assert (DE : Rabs (X / W - X / rho) <= 3.1 * u64).
  { replace (X / W - X / rho) with ((X / rho) * ((rho - W) / W)) by (field; lra).
    rewrite Rabs_mult, (Rabs_pos_eq (X / rho)) by lra.
    assert (Rabs ((rho - W) / W) <= 3.1 * u64).
    { unfold Rdiv. rewrite Rabs_mult, Rabs_inv, (Rabs_pos_eq W) by lra. apply Rmult_le_reg_r with W; auto.
      rewrite Rmult_assoc, Rinv_l, Rmult_1_r by lra. apply Rabs_le_iff. nra. }
    pose proof (Rabs_pos ((rho - W) / W)). nra. }
  pose proof (rnd64_err2 (X / W)) as E. rewrite <- D1, (Rabs_pos_eq (X / W)) in E by lra.
  assert (E' : Rabs (R64 r - X / W) <= 1.1 * u64).
  { rewrite D1. eapply Rle_trans; [apply rnd64_err|]. rewrite (Rabs_pos_eq (X / W)) by lra. pose proof tiny_u_d. nra. }
  split; [exact D2|].
  assert (RN : 0 <= R64 r). { rewrite D1, <- rnd64_0. apply rnd64_le. lra. }
  apply Rabs_le_iff in DE, E'. split; [|apply Rabs_le_iff; lra]. split; [exact RN|].
  destruct (Rle_lt_dec (bpow radix2 (-110)) X) as [G|G].
  - rewrite D1. rewrite <- rnd64_1. apply rnd64_le. specialize (P4 G).
    apply Rmult_le_reg_r with W; auto. unfold Rdiv. rewrite Rmult_assoc, Rinv_l by lra. lra.
  - assert (R40 : / IZR (2 ^ 55) <= rho).
    { unfold rho. rewrite <- (sqrt_square (/ IZR (2 ^ 55))) by (left; apply Rinv_0_lt_compat, IZR_lt; lia).
      apply sqrt_le_1_alt. eapply Rle_trans; [|exact L]. right. rewrite <- Rinv_mult.
      rewrite <- mult_IZR. reflexivity. }
    assert (X / rho <= / 2).
    { apply Rmult_le_reg_r with rho; auto. unfold Rdiv. rewrite Rmult_assoc, Rinv_l by lra.
      change (bpow radix2 (-110)) with (/ IZR (2 ^ 110)) in G. cbn in *. lra. }
    lra.
Qed.
Lemma angle_code_d p (mul A : f64) : (1 <= p <= 30)%nat -> R64 mul = IZR (steps p) -> fin mul ->
  fin A -> 0 <= R64 A <= cH ->
  let q := u64_of_f64 (dmul (ddiv A d_half_pi) mul) in
  low p q = q /\ (Z.of_N q <= steps p)%Z /\
  Rabs (IZR (Z.of_N q) / IZR (steps p) * cH - R64 A) <= cH * (/ IZR (steps p) + 4 * u64).
Proof.
  intros B M1 M2 F HA q. pose proof u64_small as U. pose proof cH_bounds as HB.
  destruct d_half_pi_R as [P1 P2].
  assert (AH : 0 <= R64 A / cH <= 1).
  { split; [apply Rmult_le_pos; [lra|left; apply Rinv_0_lt_compat; lra]|].
    apply Rmult_le_reg_r with cH; [lra|]. unfold Rdiv. rewrite Rmult_assoc, Rinv_l by lra. lra. }
  destruct (ddiv_R A d_half_pi F) as [D1 D2]; [rewrite P1; lra|rewrite P1; now apply fits1_d|].
  rewrite P1 in D1.
  assert (DB : 0 <= R64 (ddiv A d_half_pi) <= 1).
  { rewrite D1. apply rnd64_between; [apply rnd64_0|apply rnd64_1|exact AH]. }
  destruct (code_R_d p mul (ddiv A d_half_pi) B M1 M2 D2 DB) as (C1 & C2 & C3). fold q in C1, C2, C3.
  split; [exact C2|]. split; [exact C3|].
  destruct (encode_R_d (steps p) _ (steps_bounds_d p B) DB) as (_ & _ & E). cbv zeta in E. rewrite <- C1 in E.
  pose proof (rnd64_err1 (R64 A / cH)) as E2. rewrite <- D1, (Rabs_pos_eq (R64 A / cH)) in E2 by lra.
  specialize (E2 (proj2 AH)).
  set (k := IZR (Z.of_N q) / IZR (steps p)) in *.
  replace (k * cH - R64 A) with (cH * (k - R64 A / cH)) by (field; lra).
  rewrite Rabs_mult, (Rabs_pos_eq cH) by lra. apply Rmult_le_compat_l; [lra|].
  apply Rabs_le_iff in E, E2. apply Rabs_le_iff. lra.
Qed.
Lemma angle_dot_d x y rho r A th s :
  0 <= x -> 0 <= y -> 0 < rho -> rho * rho = x * x + y * y ->
  0 <= r <= 1 -> Rabs (x / rho - r) <= 5 * u64 -> Rabs (A - asin r) <= 16 * u64 -> Rabs (th - A) <= cH * s + 16 * u64 ->
  0 <= s <= 1 ->
  1 - 2 * (s * s) - 110 * u64 <= x / rho * sin th + y / rho * cos th.
Proof.
  intros Hx Hy Hr RR Br E1 E2 E3 Hs. pose proof u64_small as U. pose proof cH_bounds as HB.
  set (a := x / rho) in *. set (b := y / rho) in *.
  assert (A0 : 0 <= a) by (apply Rmult_le_pos; [lra|left; now apply Rinv_0_lt_compat]).
  assert (B0 : 0 <= b) by (apply Rmult_le_pos; [lra|left; now apply Rinv_0_lt_compat]).
  assert (AB : a * a + b * b = 1).
  { unfold a, b. replace (x / rho * (x / rho) + y / rho * (y / rho)) with ((x * x + y * y) / (rho * rho)) by (field; lra).
    rewrite <- RR. field. lra. }
  assert (A1 : a <= 1) by nra.
  assert (SA : sin (asin a) = a) by (apply sin_asin; lra).
  assert (CA : cos (asin a) = b).
  { rewrite cos_asin by lra. replace (1 - a²) with (b * b) by (unfold Rsqr; lra). now apply sqrt_square. }
  assert (SR : sin (asin r) = r) by (apply sin_asin; lra).
  assert (CR : cos (asin r) = sqrt (1 - r * r)) by (rewrite cos_asin by lra; reflexivity).
  assert (SQ : sqrt (1 - r * r) * sqrt (1 - r * r) = 1 - r * r) by (apply sqrt_sqrt; nra).
  assert (D : 1 - 5 * u64 <= cos (asin a - asin r)).
  { rewrite cos_minus, SA, CA, SR, CR.
    pose proof (circle_dot a r b (sqrt (1 - r * r)) A0 (proj1 Br) B0 (sqrt_pos _) AB) as C.
    specialize (C ltac:(lra)). lra. }
  assert (E : a * sin th + b * cos th = cos (asin a - asin r + (asin r - th))).
  { replace (asin a - asin r + (asin r - th)) with (asin a - th) by ring. rewrite cos_minus, SA, CA. ring. }
  rewrite E.
  assert (T : Rabs (asin r - th) <= cH * s + 32 * u64).
  { apply Rabs_le_iff in E2, E3. apply Rabs_le_iff. lra. }
  set (be := asin r - th) in *. set (al := asin a - asin r) in *.
  assert (BE : be * be <= (cH * s + 32 * u64) * (cH * s + 32 * u64)).
  { rewrite <- (Rabs_pos_eq (be * be)) by apply Rle_0_sqr. rewrite Rabs_mult.
    pose proof (Rabs_pos be). apply Rmult_le_compat; auto. }
  pose proof (cos_sum_ge al be (5 * u64)) as C. specialize (C ltac:(lra) D).
  eapply Rle_trans; [|exact C].
  assert (cH * cH <= 2.4675) by nra.
  assert ((cH * s + 32 * u64) * (cH * s + 32 * u64) <= 2.4675 * (s * s) + 102 * u64).
  { replace ((cH * s + 32 * u64) * (cH * s + 32 * u64)) with (cH * cH * (s * s) + (64 * cH * s) * u64 + 1024 * u64 * u64) by ring.
    assert (64 * cH * s <= 101) by nra. assert (0 <= s * s) by nra.
    assert (cH * cH * (s * s) <= 2.4675 * (s * s)) by (apply Rmult_le_compat_r; lra).
    assert (64 * cH * s * u64 <= 101 * u64) by (apply Rmult_le_compat_r; lra). nra. }
  assert (0 <= s * s) by nra. lra.
Qed.
Lemma z_square_d z z' : 0 <= z <= 1 -> 0 <= z' -> z' <= z + 4 * u64 -> z' * z' <= z * z + 8.1 * u64.
Proof.
  intros A B C. pose proof u64_small as U.
  assert (H0 : z' * z' <= (z + 4 * u64) * (z + 4 * u64)) by (apply mul_le; lra).
  replace ((z + 4 * u64) * (z + 4 * u64)) with (z * z + (8 * z + 16 * u64) * u64) in H0 by ring.
  assert ((8 * z + 16 * u64) * u64 <= 8.1 * u64) by (apply Rmult_le_compat_r; lra). lra.
Qed.
Lemma final_dot_d x y z rho z' rf X Y C s e0 :
  0 <= x <= 1 -> 0 <= y <= 1 -> 0 <= z <= 1 -> 0 <= rho -> rho * rho = x * x + y * y ->
  Rabs (x * x + y * y + z * z - 1) <= e0 -> 0 <= e0 <= 16 * u64 ->
  0 <= z' <= 1 -> z' <= z + 4 * u64 -> z - z' <= s + 4 * u64 -> 0 <= s <= 1 ->
  0 <= rf <= 1 -> Rabs (rf * rf - (1 - z' * z')) <= 6 * u64 ->
  x * X + y * Y >= rho * rf * C - 40 * u64 ->
  (1 - 2 * (s * s) - 110 * u64 <= C \/ (rho <= u64 /\ -1 <= C)) ->
  1 - s - 2 * (s * s) - 256 * u64 <= x * X + y * Y + z * z'.
Proof.
  intros Hx Hy Hz Hr RR E0 He0 Hz' L1 L2 Hs Hrf ER XY HC. pose proof u64_small as U.
  apply Rabs_le_iff in E0, ER.
  pose proof (z_square_d z z' Hz (proj1 Hz') L1) as ZQ.
  assert (Q0 : 0 <= z * z) by (apply Rmult_le_pos; lra).
  assert (RB : rho <= 1 + 8 * u64).
  { apply le_of_sq; [lra|]. replace ((1 + 8 * u64) * (1 + 8 * u64)) with (1 + 16 * u64 + 64 * (u64 * u64)) by ring.
    assert (0 <= u64 * u64) by (apply Rmult_le_pos; lra). lra. }
  set (w := rho * rf) in *.
  assert (W0 : 0 <= w) by (apply Rmult_le_pos; lra).
  assert (W1 : w <= 1 + 8 * u64).
  { unfold w. pose proof (Rmult_le_compat_l rho rf 1 ltac:(lra) ltac:(lra)). lra. }
  assert (KW : rho * rho - 48 * u64 <= w).
  { destruct (Rle_lt_dec (rho * rho) (48 * u64)) as [G|G]; [lra|].
    apply radii_product; lra. }
  assert (ZZ : z * z - s - 4 * u64 <= z * z').
  { replace (z * z') with (z * z - z * (z - z')) by ring.
    destruct (Rle_lt_dec (z - z') 0) as [G|G].
    - assert (0 <= z * (z' - z)) by (apply Rmult_le_pos; lra). replace (z * (z - z')) with (- (z * (z' - z))) by ring. lra.
    - assert (z * (z - z') <= 1 * (s + 4 * u64)) by (apply mul_le; lra). lra. }
  assert (SS : 0 <= s * s <= 1) by (split; [apply Rmult_le_pos; lra|replace 1 with (1 * 1) by ring; apply mul_le; lra]).
  destruct HC as [HC|[HR HC]].
  - set (d := 2 * (s * s) + 110 * u64) in *.
    assert (WC : w * (1 - d) <= w * C) by (apply Rmult_le_compat_l; unfold d; lra).
    assert (WD : w * d <= (1 + 8 * u64) * d) by (apply Rmult_le_compat_r; unfold d; lra).
    assert (UD : u64 * d <= u64 * 2.1) by (apply Rmult_le_compat_l; unfold d; lra).
    replace (w * (1 - d)) with (w - w * d) in WC by ring.
    replace ((1 + 8 * u64) * d) with (d + 8 * (u64 * d)) in WD by ring. unfold d in *. lra.
  - assert (w <= u64). { unfold w. pose proof (Rmult_le_compat_l rho rf 1 ltac:(lra) ltac:(lra)). lra. }
    assert (w * -1 <= w * C) by (apply Rmult_le_compat_l; lra).
    assert (rho * rho <= u64 * 1) by (apply mul_le; lra). lra.
Qed.
Lemma encode_upper_d (M : Z) x : (1 <= M < 2 ^ 30)%Z -> 0 <= x <= 1 ->
  IZR (Zfloor (rnd64 (x * IZR M))) / IZR M <= x + 2 * u64.
Proof.
  intros HM Hx. assert (1 <= IZR M) by (apply IZR_le; lia). pose proof u64_small as U. pose proof tiny_u_d.
  pose proof (Zfloor_lb (rnd64 (x * IZR M))). pose proof (rnd64_err (x * IZR M)) as Er.
  assert (0 <= x * IZR M) by (apply Rmult_le_pos; lra). rewrite (Rabs_pos_eq (x * IZR M)) in Er by auto.
  apply Rabs_le_iff in Er. apply Rmult_le_reg_r with (IZR M); [lra|]. unfold Rdiv. rewrite Rmult_assoc, Rinv_l by lra.
  assert (u64 * (x * IZR M) <= u64 * IZR M).
  { apply Rmult_le_compat_l; [lra|]. pose proof (Rmult_le_compat_r (IZR M) x 1 ltac:(lra) ltac:(lra)). lra. }
  assert (u64 * 1 <= u64 * IZR M) by (apply Rmult_le_compat_l; lra). lra.
Qed.
Lemma sg_abs_d x : fin x -> R64 x = sg (dlt x d0) * Rabs (R64 x).
Proof.
  intros F. rewrite (dlt_R x d0 F eq_refl). change (R64 d0) with 0. unfold sg.
  destruct (Rlt_bool_spec (R64 x) 0); split_Rabs; lra.
Qed.
Record normal_close_d (s : R) (a b : dvec3) : Prop := {
  ndc_fin : finite3_d b;
  ndc_unit : Rabs (dot3_d b b - 1) <= 64 * u64;
  ndc_dot : 1 - s - 2 * (s * s) - 256 * u64 <= dot3_d a b;
  ndc_z : Rabs (R64 (dvz b) - R64 (dvz a)) <= s + 4 * u64;
  ndc_sx : same_side_d (19 * u64) (dvx a) (dvx b);
  ndc_sy : same_side_d (19 * u64) (dvy a) (dvy b);
  ndc_sz : same_side_d 0 (dvz a) (dvz b) }.
Lemma side_d e a b X : fin a -> R64 b = sg (dlt a d0) * X -> - e <= X -> same_side_d e a b.
Proof.
  intros F E L. rewrite (dlt_R a d0 F eq_refl) in E. change (R64 d0) with 0 in E.
  unfold same_side_d. change val64 with R64. rewrite E. unfold sg. destruct (Rlt_bool_spec (R64 a) 0); split; lra.
Qed.
Lemma normal_accuracy_d {E} lm sc p a c : (1 <= p <= 30)%nat -> asin_64_ok lm -> sin_cos64_sharp sc -> unit_vector_d a ->
  normal_to_encoding_d (E:=E) lm true a p = Ok c ->
  normal_close_d (/ IZR (steps p)) a (normal_from_encoding_d sc (low_code p c) p).
Proof.
  intros B AS SC UV EN. pose proof u64_small as U. pose proof cH_bounds as HB.
  destruct UV as ((Fx & Fy & Fz) & UN & Bx & By & Bz). change val64 with R64 in *. unfold finite64 in Fx, Fy, Fz.
  unfold normal_to_encoding_d in EN. destruct (mask_f64 true p) as [mul| |] eqn:M; try discriminate EN. cbn [bind] in EN.
  destruct (mask_R_d p mul M B) as [M1 M2].
  destruct a as [[ax ay] az]. unfold dvx, dvy, dvz in EN. cbn [fst snd] in *. unfold dot3_d in UN. cbn [fst snd] in UN.
  change val64 with R64 in UN.
  set (x := Rabs (R64 ax)). set (y := Rabs (R64 ay)). set (z := Rabs (R64 az)).
  assert (Hx : 0 <= x <= 1) by (split; [apply Rabs_pos|exact Bx]).
  assert (Hy : 0 <= y <= 1) by (split; [apply Rabs_pos|exact By]).
  assert (Hz : 0 <= z <= 1) by (split; [apply Rabs_pos|exact Bz]).
  assert (UN' : Rabs (x * x + y * y + z * z - 1) <= 16 * u64).
  { unfold x, y, z. rewrite !abs_sq. eapply Rle_trans; [exact UN|]. unfold u64. simpl pow. lra. }
  pose proof (steps_bounds_d p B) as SB.
  assert (S1 : 1 <= IZR (steps p)) by (apply IZR_le; lia).
  set (s := / IZR (steps p)).
  assert (Hs : 0 <= s <= 1).
  { unfold s. split; [left; apply Rinv_0_lt_compat; lra|]. rewrite <- Rinv_1. apply Rinv_le_contravar; lra. }
  assert (AX : R64 (dabs ax) = x) by apply dabs_R. assert (AY : R64 (dabs ay) = y) by apply dabs_R.
  assert (AZ : R64 (dabs az) = z) by apply dabs_R.
  assert (FX : fin (dabs ax)) by now rewrite dabs_fin.
  assert (FY : fin (dabs ay)) by now rewrite dabs_fin.
  assert (FZ : fin (dabs az)) by now rewrite dabs_fin.
  apply Ok_inj in EN. subst c. unfold low_code. cbn [n_asine n_z n_sx n_sy n_sz].
  set (qa := u64_of_f64 (dmul (ddiv (l_asin lm _) d_half_pi) mul)).
  set (qz := u64_of_f64 (dmul (dabs az) mul)).
  destruct (ndecode_R_d sc p (mk_ncode (low p qa) (low p qz) (dlt ax d0) (dlt ay d0) (dlt az d0)) B SC)
    as (th & z' & rf & D); [apply low_steps; lia|apply low_steps; lia|].
  set (b := normal_from_encoding_d _ _ _) in *.
  destruct D as [D1 D2 D3 D4 D5 D6 D7 (X & D8 & D9) (Y & D10 & D11) D12]. cbn [n_asine n_z n_sx n_sy n_sz] in *.
  (* z *)
  destruct (code_R_d p mul (dabs az) B M1 M2 FZ) as (C1 & C2 & C3); [rewrite AZ; exact Hz|].
  fold qz in C1, C2, C3. rewrite C2, C1, AZ in D3.
  destruct (encode_R_d (steps p) z SB Hz) as (_ & _ & E1). cbv zeta in E1.
  pose proof (encode_upper_d (steps p) z SB Hz) as E2. fold s in E1.
  set (kz := IZR (Zfloor (rnd64 (z * IZR (steps p)))) / IZR (steps p)) in *.
  apply Rabs_le_iff in D3, E1.
  assert (Z1 : z' <= z + 4 * u64) by lra. assert (Z2 : z - z' <= s + 4 * u64) by lra.
  (* trig *)
  assert (PI1 : cH <= 1.5708) by lra. pose proof PI_bounds as PB.
  assert (SN : 0 <= sin th) by (apply sin_ge_0; lra).
  assert (S1' : sin th <= 1) by apply SIN_bound. assert (C1' : cos th <= 1) by apply COS_bound.
  assert (CN : - u64 <= cos th) by (pose proof PI_above; assert (0 <= cos th) by (apply cos_ge_0; lra); lra).
  assert (SC1 : sin th * sin th + cos th * cos th = 1) by (pose proof (sin2_cos2 th); unfold Rsqr in *; lra).
  set (sn := sin th) in *. set (cs := cos th) in *.
  apply Rabs_le_iff in D5, D9, D11.
  assert (P1 : 0 <= sn * rf) by (apply Rmult_le_pos; lra).
  assert (P2 : - u64 <= cs * rf).
  { destruct (Rle_lt_dec 0 cs) as [G|G]; [assert (0 <= cs * rf) by (apply Rmult_le_pos; lra); lra|].
    assert (- u64 * 1 <= cs * rf); [|lra]. replace (cs * rf) with (- (- cs * rf)) by ring.
    replace (- u64 * 1) with (- (u64 * 1)) by ring. apply Ropp_le_contravar. apply mul_le; lra. }
  assert (P3 : sn * rf <= 1) by (replace 1 with (1 * 1) by ring; apply mul_le; lra).
  assert (P4 : cs * rf <= 1).
  { destruct (Rle_lt_dec 0 cs) as [G|G]; [replace 1 with (1 * 1) by ring; apply mul_le; lra|].
    assert (0 <= - cs * rf) by (apply Rmult_le_pos; lra). lra. }
  assert (XA : R64 ax = sg (dlt ax d0) * x) by now apply sg_abs_d.
  assert (YA : R64 ay = sg (dlt ay d0) * y) by now apply sg_abs_d.
  assert (ZA : R64 az = sg (dlt az d0) * z) by now apply sg_abs_d.
  assert (DX : R64 ax * R64 (dvx b) = x * X).
  { rewrite D8, XA. replace (sg (dlt ax d0) * x * (sg (dlt ax d0) * X)) with (sg (dlt ax d0) * sg (dlt ax d0) * (x * X)) by ring.
    rewrite sg_sq. ring. }
  assert (DY : R64 ay * R64 (dvy b) = y * Y).
  { rewrite D10, YA. replace (sg (dlt ay d0) * y * (sg (dlt ay d0) * Y)) with (sg (dlt ay d0) * sg (dlt ay d0) * (y * Y)) by ring.
    rewrite sg_sq. ring. }
  assert (DZ : R64 az * R64 (dvz b) = z * z').
  { rewrite D12, ZA. replace (sg (dlt az d0) * z * (sg (dlt az d0) * z')) with (sg (dlt az d0) * sg (dlt az d0) * (z * z')) by ring.
    rewrite sg_sq. ring. }
  assert (XX : x * (sn * rf) - 18 * u64 <= x * X).
  { assert (x * (sn * rf - X) <= 18 * u64); [|lra].
    destruct (Rle_lt_dec 0 (sn * rf - X)) as [G|G].
    - replace (18 * u64) with (1 * (18 * u64)) by ring. apply mul_le; lra.
    - assert (0 <= x * (X - sn * rf)) by (apply Rmult_le_pos; lra). lra. }
  assert (YY : y * (cs * rf) - 18 * u64 <= y * Y).
  { assert (y * (cs * rf - Y) <= 18 * u64); [|lra].
    destruct (Rle_lt_dec 0 (cs * rf - Y)) as [G|G].
    - replace (18 * u64) with (1 * (18 * u64)) by ring. apply mul_le; lra.
    - assert (0 <= y * (Y - cs * rf)) by (apply Rmult_le_pos; lra). lra. }
  assert (YU : - u64 <= y * (cs * rf)).
  { destruct (Rle_lt_dec 0 (cs * rf)) as [G|G]; [assert (0 <= y * (cs * rf)) by (apply Rmult_le_pos; lra); lra|].
    assert (y * - (cs * rf) <= 1 * u64) by (apply mul_le; lra). lra. }
  assert (XU : 0 <= x * (sn * rf)) by (apply Rmult_le_pos; lra).
  constructor; cbn [fst snd]; auto.
  - (* length *)
    unfold dot3_d. change (val64 (fst (fst b))) with (R64 (dvx b)). change (val64 (snd (fst b))) with (R64 (dvy b)).
    change (val64 (snd b)) with (R64 (dvz b)).
    assert (EX : R64 (dvx b) * R64 (dvx b) = X * X).
    { rewrite D8. replace (sg (dlt ax d0) * X * (sg (dlt ax d0) * X)) with (sg (dlt ax d0) * sg (dlt ax d0) * (X * X)) by ring. rewrite sg_sq. ring. }
    assert (EY : R64 (dvy b) * R64 (dvy b) = Y * Y).
    { rewrite D10. replace (sg (dlt ay d0) * Y * (sg (dlt ay d0) * Y)) with (sg (dlt ay d0) * sg (dlt ay d0) * (Y * Y)) by ring. rewrite sg_sq. ring. }
    assert (EZ : R64 (dvz b) * R64 (dvz b) = z' * z').
    { rewrite D12. replace (sg (dlt az d0) * z' * (sg (dlt az d0) * z')) with (sg (dlt az d0) * sg (dlt az d0) * (z' * z')) by ring. rewrite sg_sq. ring. }
    rewrite EX, EY, EZ. set (e := X - sn * rf) in *. set (f := Y - cs * rf) in *.
    replace (X * X + Y * Y + z' * z' - 1)
      with (rf * rf * (sn * sn + cs * cs) - (1 - z' * z') + (2 * (sn * rf) + e) * e + (2 * (cs * rf) + f) * f)
      by (unfold e, f; ring).
    rewrite SC1.
    (* the two cross terms: |sn rf| e + |cs rf| f with sn^2+cs^2 = 1 *)
    assert (T1 : Rabs ((2 * (sn * rf) + e) * e) <= (2 * (sn * rf) + 18 * u64) * (18 * u64)).
    { rewrite Rabs_mult. apply mul_le; try apply Rabs_pos; apply Rabs_le_iff; lra. }
    assert (T2 : Rabs ((2 * (cs * rf) + f) * f) <= (2 * (cs * rf) + 22 * u64) * (18 * u64)).
    { rewrite Rabs_mult. apply mul_le; try apply Rabs_pos; apply Rabs_le_iff; lra. }
    assert (T3 : sn * rf + cs * rf <= 1.45).
    { assert (sn + cs <= 1.4143).
      { apply le_of_sq; [lra|]. assert (0 <= (sn - cs) * (sn - cs)) by apply Rle_0_sqr. lra. }
      destruct (Rle_lt_dec 0 (sn + cs)) as [G|G].
      - replace (sn * rf + cs * rf) with ((sn + cs) * rf) by ring.
        assert ((sn + cs) * rf <= 1.4143 * 1) by (apply mul_le; lra). lra.
      - assert (0 <= - (sn + cs) * rf) by (apply Rmult_le_pos; lra). lra. }
    apply Rabs_le_iff in T1, T2. apply Rabs_le_iff.
    assert (T4 : (2 * (sn * rf) + 18 * u64) * (18 * u64) + (2 * (cs * rf) + 22 * u64) * (18 * u64) <= 2.91 * (18 * u64)).
    { rewrite <- Rmult_plus_distr_r. apply Rmult_le_compat_r; lra. }
    lra.
  - (* dot *)
    unfold dot3_d. cbn [fst snd]. change val64 with R64. change (fst (fst b)) with (dvx b). change (snd (fst b)) with (dvy b).
    change (snd b) with (dvz b). rewrite DX, DY, DZ.
    set (rho := sqrt (x * x + y * y)).
    assert (Q0 : 0 <= x * x + y * y) by (assert (0 <= x * x) by apply Rle_0_sqr; assert (0 <= y * y) by apply Rle_0_sqr; lra).
    assert (RR : rho * rho = x * x + y * y) by (apply sqrt_sqrt; exact Q0).
    assert (R0 : 0 <= rho) by apply sqrt_pos.
    assert (D5' : Rabs (rf * rf - (1 - z' * z')) <= 6 * u64) by (apply Rabs_le_iff; lra).
    destruct (Rle_lt_dec (/ IZR (2 ^ 110)) (x * x + y * y)) as [L|L].
    + assert (RP : 0 < rho).
      { apply sqrt_lt_R0. assert (0 < / IZR (2 ^ 110)) by (apply Rinv_0_lt_compat, IZR_lt; lia). lra. }
      destruct (ratio_R_d (dabs ax) (dabs ay) FX FY) as (G1 & G2 & G3); try (rewrite ?AX, ?AY; assumption).
      cbv zeta in *. rewrite AX, AY in G3. fold rho in G3.
      set (r := ddiv (dabs ax) _) in *.
      destruct (AS r G1 G2) as (A1 & A2 & A3). change val64 with R64 in *.
      fold cH in A2.
      destruct (angle_code_d p mul (l_asin lm r) B M1 M2 A1 A2) as (K1 & K2 & K3).
      fold qa in K1, K2, K3. rewrite K1 in D7.
      assert (E49 : / 2 ^ 49 = 16 * u64) by (unfold u64; simpl pow; lra). rewrite E49 in A3.
      pose proof (angle_dot_d x y rho (R64 r) (R64 (l_asin lm r)) th s (proj1 Hx) (proj1 Hy) RP RR G2 G3 A3) as AD.
      assert (TH : Rabs (th - R64 (l_asin lm r)) <= cH * s + 16 * u64).
      { fold s in K3. apply Rabs_le_iff in K3, D7. apply Rabs_le_iff.
        replace (cH * (s + 4 * u64)) with (cH * s + cH * 4 * u64) in K3 by ring.
        assert (cH * 4 * u64 <= 6.3 * u64) by (apply Rmult_le_compat_r; lra). lra. }
      specialize (AD TH Hs). fold sn cs in AD.
      refine (final_dot_d x y z rho z' rf X Y (x / rho * sn + y / rho * cs) s (16 * u64) Hx Hy Hz R0 RR UN' _ D2 Z1 Z2 Hs D4 D5' _ (or_introl AD)).
      { lra. }
      apply Rle_ge. replace (rho * rf * (x / rho * sn + y / rho * cs)) with (x * (sn * rf) + y * (cs * rf)) by (field; lra). lra.
    + assert (RU : rho <= u64).
      { apply le_of_sq; [lra|]. rewrite RR. unfold u64. cbn in L. lra. }
      refine (final_dot_d x y z rho z' rf X Y 0 s (16 * u64) Hx Hy Hz R0 RR UN' _ D2 Z1 Z2 Hs D4 D5' _ (or_intror (conj RU _))); lra.
  - change (dvz (ax, ay, az)) with az. rewrite D12, ZA.
    replace (sg (dlt az d0) * z' - sg (dlt az d0) * z) with (sg (dlt az d0) * (z' - z)) by ring.
    rewrite Rabs_mult. assert (Rabs (sg (dlt az d0)) = 1) as -> by (destruct (dlt az d0); unfold sg; split_Rabs; lra).
    rewrite Rmult_1_l. apply Rabs_le_iff. lra.
  - apply (side_d _ ax _ X Fx D8). lra.
  - apply (side_d _ ay _ Y Fy D10). lra.
  - apply (side_d _ az _ z' Fz D12). lra.
Qed.
