(** Rounding in the fast_trig feature. *)
From Coq Require Import List NArith ZArith Arith Lia Bool Reals Lra.
From Flocq Require Import Core IEEE754.BinarySingleNaN.
From Verif Require Import Base Floats Floats_proofs FloatReal_proofs ValueSpec Log2_proofs Trig_proofs NormalReal_proofs FastTrig FastTrig_proofs.
Import ListNotations.
Local Open Scope R_scope.

(** ** Near a right angle *)
Lemma cos_quad t : -2 <= t <= 2 -> 1 - t * t / 2 <= cos t <= 1 - t * t / 2 + t * t * (t * t) / 24.
Proof.
  intros B. destruct (pre_cos_bound t 0 ltac:(lra) ltac:(lra)) as [L U].
  unfold cos_approx, cos_term in L, U. cbn [Nat.mul Nat.add sum_f_R0 fact] in L, U.
  cbn [INR] in L, U. cbn [pow] in L, U. lra.
Qed.
Lemma sin_cubic t : 0 <= t <= 2 -> t - t * t * t / 6 <= sin t.
Proof.
  intros B. pose proof PI_bounds. destruct (sin_bound t 0 ltac:(lra) ltac:(lra)) as [L _].
  unfold sin_approx, sin_term in L. cbn [Nat.mul Nat.add sum_f_R0 fact] in L.
  cbn [INR] in L. cbn [pow] in L. lra.
Qed.
Lemma fp_cos x : 0 <= x <= 1.5708 -> Rabs (fp x - sin x) <= 1.6 * / 10 ^ 3 * Rabs (cos x) + 5 * / 10 ^ 8.
Proof.
  intros B. pose proof PI_bounds as PB. destruct (Rle_lt_dec x 1.33) as [X|X].
  - eapply Rle_trans; [apply fp_sin; lra|].
    assert (S : 0.238 <= cos x).
    { rewrite <- sin_shift. apply Rle_trans with (sin 0.2407).
      - pose proof (sin_cubic 0.2407 ltac:(lra)). lra.
      - apply sin_incr_1; lra. }
    rewrite Rabs_pos_eq by lra. lra.
  - set (t := PI / 2 - x). set (x0 := 1.570796327). set (v := x0 - x).
    assert (T : - 0.000005 <= t <= 0.2408) by (unfold t; lra).
    assert (V : - 0.000005 <= v <= 0.2408) by (unfold v, x0; lra).
    assert (TV : - 0.00000001 <= t - v <= 0.00000001) by (unfold t, v, x0; lra).
    replace (sin x) with (cos t) by (unfold t; apply cos_shift).
    replace (cos x) with (sin t) by (unfold t; apply sin_shift).
    destruct (cos_quad t ltac:(lra)) as [C1 C2].
    set (K := cA * (x * x * x + 2 * x0 * (x * x) + 3 * x0 * x0 * x + 4 * x0 * x0 * x0) - cB * (x + 2 * x0)).
    assert (XL : 1.33 * 1.33 <= x * x <= 1.5708 * 1.5708) by (split; apply Rmult_le_compat; lra).
    assert (XC : 1.33 * 1.33 * 1.33 <= x * x * x <= 1.5708 * 1.5708 * 1.5708) by (split; apply Rmult_le_compat; lra).
    assert (KB : - 0.5 <= K <= - 0.4935).
    { assert (X2 : x * x = x0 * x0 - 2 * x0 * v + v * v) by (unfold v; ring).
      assert (X3 : x * x * x = x0 * x0 * x0 - 3 * x0 * x0 * v + 3 * x0 * (v * v) - v * v * v) by (unfold v; ring).
      assert (V2 : 0 <= v * v) by apply Rle_0_sqr.
      assert (V2' : 0 <= (v + 0.000005) * (0.2408 - v)) by (apply Rmult_le_pos; lra).
      assert (V3 : - 0.00001 <= v * v * v <= 0.2408 * (v * v)).
      { split.
        - assert (0 <= v * v * (v + 0.000005)) by (apply Rmult_le_pos; lra). lra.
        - assert (0 <= v * v * (0.2408 - v)) by (apply Rmult_le_pos; lra). lra. }
      unfold K. rewrite X3, X2. replace x with (x0 - v) by (unfold v; ring). unfold cA, cB, x0. split; lra. }
    assert (E : fp x = fp x0 - (5 * cA * x0 ^ 4 - 3 * cB * x0 ^ 2 + cC) * v + v * v * K).
    { unfold fp, K, v. simpl pow. ring. }
    assert (F0 : 1 - / 10 ^ 8 <= fp x0 <= 1 + / 10 ^ 8) by (unfold fp, cA, cB, cC, x0; lra).
    assert (F1 : - / 10 ^ 8 <= 5 * cA * x0 ^ 4 - 3 * cB * x0 ^ 2 + cC <= / 10 ^ 8) by (unfold cA, cB, cC, x0; simpl pow; lra).
    set (d := 5 * cA * x0 ^ 4 - 3 * cB * x0 ^ 2 + cC) in *.
    assert (DV : Rabs (d * v) <= / 10 ^ 8 * 1).
    { rewrite Rabs_mult. apply Rmult_le_compat; try apply Rabs_pos; apply Rabs_le_iff; lra. }
    apply Rabs_le_iff in DV.
    assert (VT : Rabs (v * v - t * t) <= / 10 ^ 8).
    { replace (v * v - t * t) with ((v - t) * (v + t)) by ring. rewrite Rabs_mult.
      replace (/ 10 ^ 8) with (/ 10 ^ 8 * 1) by ring. apply Rmult_le_compat; try apply Rabs_pos; apply Rabs_le_iff; lra. }
    apply Rabs_le_iff in VT. assert (VV : 0 <= v * v) by apply Rle_0_sqr. assert (TT : 0 <= t * t) by apply Rle_0_sqr.
    assert (K1 : - 0.5 * (v * v) <= v * v * K).
    { rewrite (Rmult_comm (v * v)). apply Rmult_le_compat_r; lra. }
    assert (K2 : v * v * K <= - 0.4935 * (v * v)).
    { rewrite (Rmult_comm (v * v)). apply Rmult_le_compat_r; lra. }
    assert (UP : fp x - cos t <= 0.0065 * (t * t) + 3.5 * / 10 ^ 8) by (rewrite E; lra).
    assert (LO : - (t * t * (t * t) / 24) - 3.5 * / 10 ^ 8 <= fp x - cos t) by (rewrite E; lra).
    assert (G : 0.0065 * (t * t) <= 1.6 * / 10 ^ 3 * Rabs (sin t) + / 10 ^ 8 /\ t * t <= 0.06).
    { destruct (Rle_lt_dec 0 t) as [P|P].
      - pose proof (sin_cubic t ltac:(lra)) as S.
        assert (T2 : t * t <= 0.2408 * t) by (apply Rmult_le_compat_r; lra).
        assert (T3 : t * t * t <= 0.058 * t) by (apply Rmult_le_compat_r; lra).
        rewrite Rabs_pos_eq by lra. split; lra.
      - assert (T2 : 0 <= (t + 0.000005) * - t) by (apply Rmult_le_pos; lra).
        pose proof (Rabs_pos (sin t)). split; lra. }
    destruct G as [G1 G2].
    assert (T4 : t * t * (t * t) <= 0.06 * (t * t)) by (apply Rmult_le_compat_r; lra).
    pose proof (Rabs_pos (sin t)). apply Rabs_le_iff. split; lra.
Qed.

(** ** Constants *)
Lemma SF_R64 (x : f64) s m e : B2SF x = SpecFloat.S754_finite s m e -> R64 x = F2R (Float radix2 (cond_Zopp s (Zpos m)) e) /\ fin x.
Proof. intros E. destruct x; try discriminate E. injection E as -> -> ->. split; reflexivity. Qed.
Lemma d_a_R : R64 d_a = cA /\ fin d_a.
Proof.
  destruct (SF_R64 d_a false 8476818696109467 (-60)) as [E F]; [vm_compute; reflexivity|]. split; [|exact F].
  rewrite E. unfold F2R, cA. cbn [Fnum Fexp cond_Zopp]. change (bpow radix2 (-60)) with (/ 1152921504606846976). lra.
Qed.
Lemma d_b_R : R64 d_b = cB /\ fin d_b.
Proof.
  destruct (SF_R64 d_b false 5955167936674842 (-55)) as [E F]; [vm_compute; reflexivity|]. split; [|exact F].
  rewrite E. unfold F2R, cB. cbn [Fnum Fexp cond_Zopp]. change (bpow radix2 (-55)) with (/ 36028797018963968). lra.
Qed.
Lemma d_c_R : R64 d_c = cC /\ fin d_c.
Proof.
  destruct (SF_R64 d_c false 9004424913935581 (-53)) as [E F]; [vm_compute; reflexivity|]. split; [|exact F].
  rewrite E. unfold F2R, cC. cbn [Fnum Fexp cond_Zopp]. change (bpow radix2 (-53)) with (/ 9007199254740992). lra.
Qed.
Definition cI : R := 5734161139222659 / 18014398509481984.
Lemma d_inv_R : R64 d_inv_pi = cI /\ fin d_inv_pi.
Proof.
  destruct (SF_R64 d_inv_pi false 5734161139222659 (-54)) as [E F]; [vm_compute; reflexivity|]. split; [|exact F].
  rewrite E. unfold F2R, cI. cbn [Fnum Fexp cond_Zopp]. change (bpow radix2 (-54)) with (/ 18014398509481984). lra.
Qed.
Definition cP : R := 884279719003555 / 281474976710656.
Lemma d_PI_R : R64 d_PI = cP /\ fin d_PI.
Proof.
  destruct (SF_R64 d_PI false 7074237752028440 (-51)) as [E F]; [vm_compute; reflexivity|]. split; [|exact F].
  rewrite E. unfold F2R, cP. cbn [Fnum Fexp cond_Zopp]. change (bpow radix2 (-51)) with (/ 2251799813685248). lra.
Qed.

Definition e50 : R := / 1125899906842624.
Lemma rnd64_e x : Rabs x <= 4 -> Rabs (rnd64 x - x) <= e50.
Proof.
  intros B. eapply Rle_trans; [apply rnd64_err|]. pose proof tiny64_bound as T. pose proof (Rabs_pos x).
  change (2 ^ 100)%Z with 1267650600228229401496703205376%Z in T. unfold u64, e50. lra.
Qed.
Lemma fit4 x : Rabs x <= 4 -> Rabs x <= big64.
Proof. intros B. pose proof big64_ge as G. change (2 ^ 100)%Z with 1267650600228229401496703205376%Z in G. lra. Qed.
(** An operation with a result of at most 4: finite, and off by at most 2^-50. *)
Lemma mul_e x y : fin x -> fin y -> Rabs (R64 x * R64 y) <= 4 ->
  fin (dmul x y) /\ exists e, R64 (dmul x y) = R64 x * R64 y + e /\ Rabs e <= e50.
Proof.
  intros Fx Fy B. destruct (dmul_R x y Fx Fy (fit4 _ B)) as [E F]. split; auto.
  exists (rnd64 (R64 x * R64 y) - R64 x * R64 y). split; [lra|]. now apply rnd64_e.
Qed.
Lemma add_e x y : fin x -> fin y -> Rabs (R64 x + R64 y) <= 4 ->
  fin (dadd x y) /\ exists e, R64 (dadd x y) = R64 x + R64 y + e /\ Rabs e <= e50.
Proof.
  intros Fx Fy B. destruct (dadd_R x y Fx Fy (fit4 _ B)) as [E F]. split; auto.
  exists (rnd64 (R64 x + R64 y) - (R64 x + R64 y)). split; [lra|]. now apply rnd64_e.
Qed.
Lemma sub_e x y : fin x -> fin y -> Rabs (R64 x - R64 y) <= 4 ->
  fin (dsub x y) /\ exists e, R64 (dsub x y) = R64 x - R64 y + e /\ Rabs e <= e50.
Proof.
  intros Fx Fy B. destruct (dsub_R x y Fx Fy (fit4 _ B)) as [E F]. split; auto.
  exists (rnd64 (R64 x - R64 y) - (R64 x - R64 y)). split; [lra|]. now apply rnd64_e.
Qed.
Lemma Rabs_prod a b A B : Rabs a <= A -> Rabs b <= B -> Rabs (a * b) <= A * B.
Proof. intros. rewrite Rabs_mult. apply Rmult_le_compat; auto using Rabs_pos. Qed.

(** ** The polynomial in f64 *)
Definition dpoly (x : f64) : f64 :=
  let y := dmul x x in dmul x (dadd (dmul (dsub (dmul d_a y) d_b) y) d_c).
Lemma poly_R x : fin x -> Rabs (R64 x) <= 1.5708 ->
  fin (dpoly x) /\ Rabs (R64 (dpoly x) - fp (R64 x)) <= 20 * e50 /\ (0 <= R64 x -> 0 <= R64 (dpoly x)).
Proof.
  intros F B. destruct d_a_R as [A1 A2], d_b_R as [B1 B2], d_c_R as [C1 C2].
  assert (UE : 0 < e50 <= / 10 ^ 15) by (unfold e50; lra).
  assert (UA : 0 < cA <= 0.0074) by (unfold cA; lra). assert (UB : 0.1652 <= cB <= 0.1653) by (unfold cB; lra).
  assert (UC : 0.9996 <= cC <= 1) by (unfold cC; lra).
  unfold dpoly. cbv zeta. set (r := R64 x) in *.
  assert (XX : Rabs (r * r) <= 2.4675). { eapply Rle_trans; [apply Rabs_prod; exact B|lra]. }
  assert (X0 : 0 <= r * r) by apply Rle_0_sqr. rewrite Rabs_pos_eq in XX by lra.
  destruct (mul_e x x F F) as (Fy & e1 & Ey & H1). { fold r. rewrite Rabs_pos_eq; lra. } fold r in Ey.
  set (y := dmul x x) in *. apply Rabs_le_iff in H1.
  assert (AY : 0 <= cA * (r * r) <= 0.0074 * 2.4675) by (split; [apply Rmult_le_pos|apply Rmult_le_compat]; lra).
  assert (AE : Rabs (cA * e1) <= 0.0074 * e50). { apply Rabs_prod; apply Rabs_le_iff; lra. } apply Rabs_le_iff in AE.
  destruct (mul_e d_a y A2 Fy) as (F1 & e2 & E1 & H2). { rewrite A1, Ey. apply Rabs_le_iff. lra. }
  rewrite A1, Ey in E1. set (p1 := dmul d_a y) in *. apply Rabs_le_iff in H2.
  destruct (sub_e p1 d_b F1 B2) as (F2 & e3 & E2 & H3). { rewrite E1, B1. apply Rabs_le_iff. lra. }
  rewrite E1, B1 in E2. set (p2 := dsub p1 d_b) in *. apply Rabs_le_iff in H3.
  assert (P2 : Rabs (R64 p2) <= 0.17) by (rewrite E2; apply Rabs_le_iff; lra).
  assert (YB : Rabs (R64 y) <= 2.4676) by (rewrite Ey; apply Rabs_le_iff; lra).
  assert (PY : Rabs (R64 p2 * R64 y) <= 0.17 * 2.4676) by (apply Rabs_prod; auto).
  destruct (mul_e p2 y F2 Fy) as (F3 & e4 & E3 & H4); [lra|]. set (p3 := dmul p2 y) in *. apply Rabs_le_iff in H4.
  apply Rabs_le_iff in PY.
  destruct (add_e p3 d_c F3 C2) as (F4 & e5 & E4 & H5). { rewrite E3, C1. apply Rabs_le_iff. lra. }
  rewrite E3, C1 in E4. set (p4 := dadd p3 d_c) in *. apply Rabs_le_iff in H5.
  assert (P4 : 0.5 <= R64 p4 <= 1.5) by (rewrite E4; lra).
  assert (XP : Rabs (r * R64 p4) <= 1.5708 * 1.5). { apply Rabs_prod; [exact B|apply Rabs_le_iff; lra]. }
  destruct (mul_e x p4 F F4) as (F5 & e6 & E5 & H6). { fold r. lra. } fold r in E5.
  split; [exact F5|]. split.
  - rewrite E5, E4, E2, Ey. apply Rabs_le_iff in H6.
    replace (r * ((cA * (r * r + e1) + e2 - cB + e3) * (r * r + e1) + e4 + cC + e5) + e6 - fp r)
      with (r * ((cA * (r * r) - cB) * e1 + (cA * e1 + e2 + e3) * (r * r + e1) + e4 + e5) + e6) by (unfold fp; ring).
    assert (T1 : Rabs ((cA * (r * r) - cB) * e1) <= 0.17 * e50). { apply Rabs_prod; apply Rabs_le_iff; lra. }
    assert (T2 : Rabs ((cA * e1 + e2 + e3) * (r * r + e1)) <= (3 * e50) * 2.4676). { apply Rabs_prod; apply Rabs_le_iff; lra. }
    apply Rabs_le_iff in T1, T2.
    set (w := (cA * (r * r) - cB) * e1 + (cA * e1 + e2 + e3) * (r * r + e1) + e4 + e5).
    assert (W : Rabs (r * w) <= 1.5708 * (10 * e50)). { apply Rabs_prod; [exact B|]. apply Rabs_le_iff. unfold w. lra. }
    apply Rabs_le_iff in W. apply Rabs_le_iff. lra.
  - intros P. assert (R64 (dmul x p4) = rnd64 (r * R64 p4)) as ->. { apply dmul_R; auto. fold r. apply fit4. lra. }
    rewrite <- rnd64_0. apply rnd64_le. apply Rmult_le_pos; lra.
Qed.

(** ** The range reduction *)
Definition cS : Z := 6755399441055744.
Lemma near_shift w : 0 <= w <= 0.51 ->
  rnd64 (w + IZR cS) = IZR cS \/ (rnd64 (w + IZR cS) = IZR (cS + 1) /\ / 2 <= w).
Proof.
  intros B. set (v := w + IZR cS).
  assert (M : mag radix2 v = 53%Z :> Z).
  { apply mag_unique_pos. change (bpow radix2 (53 - 1)) with 4503599627370496. change (bpow radix2 53) with 9007199254740992.
    unfold v, cS. lra. }
  assert (E : rnd64 v = IZR (Znearest (fun z => negb (Z.even z)) v)).
  { unfold rnd64, round, scaled_mantissa, cexp. rewrite M. unfold SpecFloat.fexp, SpecFloat.emin.
    change (Z.max (53 - 53) (3 - 1024 - 53)) with 0%Z. unfold F2R. cbn [Fnum Fexp Z.opp bpow]. rewrite !Rmult_1_r. reflexivity. }
  pose proof (Znearest_half (fun z => negb (Z.even z)) v) as N. rewrite E.
  set (n := Znearest _ v) in *. apply Rabs_le_iff in N. change (v - IZR n) with (w + IZR cS - IZR n) in N.
  assert (L : (cS <= n)%Z).
  { apply Z.lt_succ_r. apply lt_IZR. unfold Z.succ. rewrite plus_IZR. lra. }
  assert (U : (n <= cS + 1)%Z).
  { apply Z.lt_succ_r. apply lt_IZR. unfold Z.succ. rewrite !plus_IZR. lra. }
  destruct (Z.eq_dec n cS) as [->|D]; [now left|]. right. assert (n = cS + 1)%Z as -> by lia.
  split; auto. rewrite plus_IZR in N. lra.
Qed.
Lemma is_of_Z (z : f64) k : fin z -> R64 z = IZR k -> (0 < k <= 2 ^ 53)%Z -> z = f64_of_Z k.
Proof.
  intros F E B. destruct (f64_of_Z_exact k) as [A G]; [lia|].
  apply B2R_inj.
  - destruct z; try discriminate F; auto. exfalso. change (0 = IZR k) in E. apply (eq_IZR 0) in E. lia.
  - destruct (f64_of_Z k); try discriminate G; auto. exfalso. change (0 = IZR k) in A. apply (eq_IZR 0) in A. lia.
  - fold (R64 z). fold (R64 (f64_of_Z k)). now rewrite E, A.
Qed.
Lemma reduce x : fin x -> 0 <= R64 x <= H ->
  low_i32 (dadd (dmul x d_inv_pi) d_shift) = 0%Z \/
  (low_i32 (dadd (dmul x d_inv_pi) d_shift) = 1%Z /\ 1.5707963 <= R64 x).
Proof.
  intros F B. pose proof H_bounds as HB. destruct d_inv_R as [I1 I2].
  assert (UI : 0.3183098 <= cI <= 0.3183099) by (unfold cI; lra).
  assert (P : 0 <= R64 x * cI <= 1.5707964 * 0.3183099) by (split; [apply Rmult_le_pos|apply Rmult_le_compat]; lra).
  destruct (dmul_R x d_inv_pi F I2) as [W1 W2]. { rewrite I1. apply fit4, Rabs_le_iff. lra. }
  rewrite I1 in W1. set (w := dmul x d_inv_pi) in *.
  assert (WE : Rabs (R64 w - R64 x * cI) <= e50) by (rewrite W1; apply rnd64_e, Rabs_le_iff; lra).
  assert (W0 : 0 <= R64 w). { rewrite W1, <- rnd64_0. apply rnd64_le. lra. }
  apply Rabs_le_iff in WE. assert (UE : 0 < e50 <= / 10 ^ 15) by (unfold e50; lra).
  destruct (f64_of_Z_exact cS) as [S1 S2]; [unfold cS; lia|]. fold d_shift in S1, S2. change (f64_of_Z cS) with d_shift in *.
  destruct (dadd_R w d_shift W2 S2) as [Z1 Z2].
  { rewrite S1. pose proof big64_ge as G. change (2 ^ 100)%Z with 1267650600228229401496703205376%Z in G.
    unfold cS. apply Rabs_le_iff. lra. }
  rewrite S1 in Z1. destruct (near_shift (R64 w) ltac:(lra)) as [E|[E N]]; rewrite E in Z1.
  - left. rewrite (is_of_Z _ cS Z2 Z1) by (unfold cS; lia). vm_compute. reflexivity.
  - right. rewrite (is_of_Z _ (cS + 1) Z2 Z1) by (unfold cS; lia). split; [vm_compute; reflexivity|].
    apply Rnot_lt_le. intros L. assert (R64 x * cI <= 1.5707963 * cI) by (apply Rmult_le_compat_r; lra).
    unfold cI in *. lra.
Qed.
Lemma fp_odd x : fp (- x) = - fp x. Proof. unfold fp. ring. Qed.
Lemma sin_lip a b : Rabs (sin a - sin b) <= Rabs (a - b).
Proof.
  assert (G : forall x, Rabs (sin x) <= Rabs x).
  { intros x. pose proof (SIN_bound x). destruct (Rle_lt_dec 0 x) as [P|P].
    - rewrite (Rabs_pos_eq x) by lra. destruct (Rle_lt_dec x 1) as [Q1|Q1]; [|apply Rabs_le_iff; lra].
      pose proof PI_bounds. rewrite Rabs_pos_eq by (apply sin_ge_0; lra).
      destruct P as [P|<-]; [left; now apply sin_lt_x|rewrite sin_0; lra].
    - rewrite (Rabs_left x) by lra. destruct (Rle_lt_dec (-1) x) as [Q1|Q1]; [|apply Rabs_le_iff; lra].
      pose proof PI_bounds. rewrite <- Rabs_Ropp, <- sin_neg. rewrite Rabs_pos_eq by (apply sin_ge_0; lra).
      left. apply sin_lt_x. lra. }
  rewrite form4, !Rabs_mult. rewrite (Rabs_pos_eq 2) by lra.
  pose proof (COS_bound ((a + b) / 2)) as C. specialize (G ((a - b) / 2)).
  assert (Rabs (cos ((a + b) / 2)) <= 1) by (apply Rabs_le_iff; lra).
  replace (Rabs (a - b)) with (2 * 1 * Rabs ((a - b) / 2)).
  - apply Rmult_le_compat; try apply Rmult_le_pos; try apply Rmult_le_compat; try apply Rabs_pos; lra.
  - unfold Rdiv. rewrite Rabs_mult, (Rabs_pos_eq (/ 2)) by lra. lra.
Qed.
(** The sine of an angle between 0 and a right angle. *)
Lemma fsin_R x : fin x -> 0 <= R64 x <= H ->
  fin (fsin x) /\ 0 <= R64 (fsin x) <= 1 + / 33554432 /\
  Rabs (R64 (fsin x) - sin (R64 x)) <= 3.121 * / 10 ^ 4 /\
  Rabs (R64 (fsin x) - sin (R64 x)) <= 1.6 * / 10 ^ 3 * Rabs (cos (R64 x)) + 20 * / 10 ^ 8.
Proof.
  intros F B. pose proof H_bounds as HB. pose proof PI_bounds as PB. assert (UE : 0 < e50 <= / 10 ^ 15) by (unfold e50; lra).
  destruct d_PI_R as [P1 P2]. unfold fsin. cbv zeta.
  destruct (reduce x F B) as [->|[-> X]].
  - change (Z.land 0 1 + Z.land 0 1)%Z with 0%Z. destruct (f64_of_Z_exact 0) as [Z1 Z2]; [lia|]. change (IZR 0) with 0 in Z1.
    destruct (dmul_R (f64_of_Z 0) d_PI Z2 P2) as [M1 M2]. { rewrite Z1, Rmult_0_l. apply fit4. rewrite Rabs_R0. lra. }
    rewrite Z1, Rmult_0_l, rnd64_0 in M1.
    destruct (dsub_R x _ F M2) as [X1 X2]. { rewrite M1. apply fit4, Rabs_le_iff. lra. }
    rewrite M1, Rminus_0_r, rnd64_R64 in X1.
    set (x1 := dsub x _) in *. clearbody x1. fold (dpoly x1).
    destruct (poly_R x1 X2) as (Q1 & Q2 & Q3). { rewrite X1. apply Rabs_le_iff. lra. }
    rewrite X1 in Q2, Q3. specialize (Q3 ltac:(lra)).
    pose proof (fp_range (R64 x) ltac:(lra)) as FR. pose proof (fp_sin (R64 x) ltac:(lra)) as FS. pose proof (fp_cos (R64 x) ltac:(lra)) as FC.
    apply Rabs_le_iff in Q2, FS, FC.
    set (r := dpoly x1) in *. change (dmul x1 (dadd (dmul (dsub (dmul d_a (dmul x1 x1)) d_b) (dmul x1 x1)) d_c)) with r.
    assert (RB : Rabs (R64 r) <= 4) by (apply Rabs_le_iff; lra).
    destruct (dmul_R (f64_of_Z 0) r Z2 Q1) as [N1 N2]. { rewrite Z1, Rmult_0_l. apply fit4. rewrite Rabs_R0. lra. }
    rewrite Z1, Rmult_0_l, rnd64_0 in N1.
    destruct (dsub_R r _ Q1 N2) as [D1 D2]. { rewrite N1, Rminus_0_r. now apply fit4. }
    rewrite N1, Rminus_0_r, rnd64_R64 in D1. rewrite D1. split; [exact D2|]. split; [lra|].
    pose proof (Rabs_pos (cos (R64 x))). split; apply Rabs_le_iff; lra.
  - change (Z.land 1 1 + Z.land 1 1)%Z with 2%Z. destruct (f64_of_Z_exact 1) as [Z1 Z2]; [lia|]. change (IZR 1) with 1 in Z1.
    destruct (f64_of_Z_exact 2) as [T1 T2]; [lia|]. change (IZR 2) with 2 in T1.
    assert (UP : 3.141592653 <= cP <= 3.141592654) by (unfold cP; lra).
    destruct (dmul_R (f64_of_Z 1) d_PI Z2 P2) as [M1 M2]. { rewrite Z1, P1, Rmult_1_l. apply fit4, Rabs_le_iff. lra. }
    rewrite Z1, Rmult_1_l, rnd64_R64, P1 in M1.
    destruct (sub_e x _ F M2) as (X2 & e1 & X1 & H1). { rewrite M1. apply Rabs_le_iff. lra. }
    rewrite M1 in X1. apply Rabs_le_iff in H1.
    set (x1 := dsub x _) in *. clearbody x1. fold (dpoly x1).
    set (t := - R64 x1). assert (ET : t = cP - R64 x - e1) by (unfold t; lra).
    assert (TB : 1.57079625 <= t <= 1.5707964) by (rewrite ET; lra).
    destruct (poly_R x1 X2) as (Q1 & Q2 & _). { unfold t in TB. apply Rabs_le_iff. lra. }
    replace (fp (R64 x1)) with (- fp t) in Q2 by (unfold t; rewrite fp_odd; ring).
    pose proof (fp_range t ltac:(lra)) as FR. pose proof (fp_sin t ltac:(lra)) as FS. pose proof (fp_cos t ltac:(lra)) as FC.
    apply Rabs_le_iff in Q2, FS, FC.
    set (r := dpoly x1) in *. change (dmul x1 (dadd (dmul (dsub (dmul d_a (dmul x1 x1)) d_b) (dmul x1 x1)) d_c)) with r.
    destruct (mul_e (f64_of_Z 2) r T2 Q1) as (N2 & e2 & N1 & H2). { rewrite T1. apply Rabs_le_iff. lra. }
    rewrite T1 in N1. apply Rabs_le_iff in H2.
    destruct (sub_e r _ Q1 N2) as (D2 & e3 & D1 & H3). { rewrite N1. apply Rabs_le_iff. lra. }
    rewrite N1 in D1. apply Rabs_le_iff in H3. split; [exact D2|]. rewrite D1.
    assert (SL : Rabs (sin t - sin (R64 x)) <= 3 * / 10 ^ 8).
    { replace (sin (R64 x)) with (sin (PI - R64 x)) by (rewrite sin_PI_x; reflexivity).
      eapply Rle_trans; [apply sin_lip|]. apply Rabs_le_iff. rewrite ET. lra. }
    assert (CT : Rabs (cos t) <= 2 * / 10 ^ 7).
    { rewrite <- sin_shift. replace (sin (PI / 2 - t)) with (sin (PI / 2 - t) - sin 0) by (rewrite sin_0; ring).
      eapply Rle_trans; [apply sin_lip|]. apply Rabs_le_iff. lra. }
    apply Rabs_le_iff in SL. pose proof (Rabs_pos (cos (R64 x))).
    assert (FP : 0.9 <= fp t). { pose proof (SIN_bound t). pose proof (cos_quad (PI / 2 - t) ltac:(lra)) as CQ.
      rewrite cos_shift in CQ. assert ((PI / 2 - t) * (PI / 2 - t) <= 0.001 * 0.001) by (apply Rle_trans with (Rabs (PI/2 - t) * Rabs (PI / 2 - t)); [rewrite <- Rabs_mult; apply RRle_abs|apply Rmult_le_compat; try apply Rabs_pos; apply Rabs_le_iff; lra]). lra. }
    split; [lra|]. split; apply Rabs_le_iff; lra.
Qed.
