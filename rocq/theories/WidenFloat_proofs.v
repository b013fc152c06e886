(** Float custom data saved again and again. *)
From Coq Require Import List NArith ZArith Arith Lia Bool Reals Lra.
From Flocq Require Import Core IEEE754.BinarySingleNaN.
From Verif Require Import Base UnalignedRW ReadExt Floats Floats_proofs FloatReal_proofs Utilis CustomData Codec_proofs Image_proofs Save_proofs ValueSpec VertexSpec WidenSpec Log2_proofs Quant_proofs
  NormalReal_proofs CustomReal_proofs VertexReal_proofs Double2_proofs P_Vertices P_Uv P_Custom Widen_proofs.
Import ListNotations.
Local Open Scope R_scope.

(** A number very near a float rounds to it. *)
Lemma near_pos h t : generic_format radix2 fexp32 h -> 0 < h -> Rabs (t - h) <= / 2 ^ 27 * h -> rnd32 t = h.
Proof.
  intros F P D. apply Rabs_le_iff in D. assert (P27 : / 2 ^ 27 = / 134217728) by (simpl pow; lra). rewrite P27 in D.
  assert (U : forall x, 0 <= x -> x * / 16777216 < ulp radix2 fexp32 x).
  { intros x X. change fexp32 with (FLT_exp (-149) 24). pose proof (@ulp_FLT_gt radix2 (-149) 24 eq_refl x) as G.
    rewrite Rabs_pos_eq in G by lra. change (bpow radix2 (-24)) with (/ 16777216) in G. exact G. }
  unfold rnd32. apply Rle_antisym.
  - apply round_N_le_midp; auto with typeclass_instances. rewrite succ_eq_pos by lra. pose proof (U h ltac:(lra)). lra.
  - apply round_N_ge_midp; auto with typeclass_instances.
    assert (V0 : 0 <= pred radix2 fexp32 h) by (apply pred_ge_0; auto with typeclass_instances).
    assert (S : succ radix2 fexp32 (pred radix2 fexp32 h) = h) by (apply succ_pred; auto with typeclass_instances).
    rewrite succ_eq_pos in S by exact V0. set (v := pred radix2 fexp32 h) in *. pose proof (U v V0). lra.
Qed.
Lemma near_id (h : f32) t : Rabs (t - R32 h) <= / 2 ^ 27 * Rabs (R32 h) -> rnd32 t = R32 h.
Proof.
  intros D. assert (F : generic_format radix2 fexp32 (R32 h)) by apply generic_format_B2R.
  destruct (Rtotal_order (R32 h) 0) as [N|[Z|P]].
  - assert (E : rnd32 (- t) = - R32 h).
    { apply near_pos; [now apply generic_format_opp|lra|]. rewrite (Rabs_left (R32 h)) in D by lra.
      replace (- t - - R32 h) with (- (t - R32 h)) by ring. now rewrite Rabs_Ropp. }
    assert (O : rnd32 (- t) = - rnd32 t) by apply round_NE_opp. rewrite O in E. lra.
  - rewrite Z, Rabs_R0, Rmult_0_r, Rminus_0_r in D. assert (t = 0) by (apply Rabs_le_iff in D; lra). subst t. rewrite Z. apply rnd32_0.
  - rewrite (Rabs_pos_eq (R32 h)) in D by lra. now apply near_pos.
Qed.

(** The greatest code decodes to the greatest number, and no code to more. *)
Lemma decode_top p (mn mx : f32) (q : N) (B : R) : (1 <= p <= 24)%nat -> (Z.of_N q <= steps p)%Z -> fin mn -> fin mx ->
  R32 mn <= R32 mx -> Rabs (R32 mn) <= B -> Rabs (R32 mx) <= B -> B <= 2 ^ 60 -> Rabs (R32 mn) <= 2 ^ 20 * Rabs (R32 mx) \/ R32 mx = 0 ->
  let y := float_value1 mn mx p q in
  R32 y <= R32 mx /\ (Z.of_N q = steps p -> R32 y = R32 mx).
Proof.
  intros HP Hq Fn Fx Hab Bn Bx HB HR y. unfold y, float_value1. clear y.
  destruct (f64_of_f32_correct mn Fn) as (N1 & N2 & _). destruct (f64_of_f32_correct mx Fx) as (X1 & X2 & _).
  set (dn := f64_of_f32 mn) in *. set (dx := f64_of_f32 mx) in *.
  set (a := R32 mn) in *. set (b := R32 mx) in *.
  apply Rabs_le_iff in Bn, Bx. assert (B0 : 0 <= B) by lra. assert (U4 : u64 = / 9007199254740992) by reflexivity.
  destruct (value64_R p q HP Hq) as (W1 & W2 & W3 & W4). cbv zeta in *.
  set (w := ddiv (f64_of_N q) (f64_of_N (mask_u64 p))) in *. set (wr := R64 w) in *.
  destruct (dsub_R dx dn X2 N2) as [S1 S2].
  { apply (fits64 B); auto. rewrite X1, N1. apply Rabs_le_iff. lra. }
  pose proof (rnd64_sub dx dn) as SE. rewrite <- S1 in SE. rewrite X1, N1 in SE, S1.
  set (s := R64 (dsub dx dn)) in *. rewrite (Rabs_pos_eq (b - a)) in SE by lra.
  assert (s0 : 0 <= s) by (rewrite S1, <- rnd64_0; apply rnd64_le; lra).
  apply Rabs_le_iff in SE. assert (SB : s <= 2.1 * B) by (rewrite U4 in SE; lra).
  assert (WS : 0 <= wr * s <= s).
  { split; [apply Rmult_le_pos; lra|]. pose proof (Rmult_le_compat_r s wr 1 ltac:(lra) ltac:(lra)). lra. }
  destruct (dmul_R w (dsub dx dn) W2 S2) as [G1 G2]; [apply (fits64 B); auto; fold wr s; apply Rabs_le_iff; lra|].
  fold wr s in G1. set (g := R64 (dmul w (dsub dx dn))) in *.
  assert (g0 : 0 <= g <= s) by (rewrite G1; apply rnd64_between; [apply rnd64_0|apply rnd64_R64|exact WS]).
  destruct (dadd_R (dmul w (dsub dx dn)) dn G2 N2) as [Y1 Y2].
  { apply (fits64 B); auto. fold g. rewrite N1. apply Rabs_le_iff. lra. }
  fold g in Y1. rewrite N1 in Y1. set (z := R64 (dadd (dmul w (dsub dx dn)) dn)) in *.
  (* what the top code gives *)
  assert (TOP : rnd32 (rnd64 (s + a)) = b).
  { pose proof (rnd64_sum (dsub dx dn) dn) as TE. fold s in TE. rewrite N1 in TE. set (t := rnd64 (s + a)) in *.
    destruct HR as [HR|HR].
    - apply near_id. fold b. assert (A1 : Rabs (s - (b - a)) <= u64 * (b - a)) by (apply Rabs_le_iff; exact SE).
      assert (A2 : b - a <= Rabs b + Rabs a) by (pose proof (Rle_abs b); pose proof (Rle_abs (- a)) as Q; rewrite Rabs_Ropp in Q; lra).
      assert (A3 : Rabs (s + a) <= Rabs b + u64 * (b - a)).
      { replace (s + a) with (b + (s - (b - a))) by ring. eapply Rle_trans; [apply Rabs_triang|]. lra. }
      replace (t - b) with ((t - (s + a)) + (s - (b - a))) by ring. eapply Rle_trans; [apply Rabs_triang|].
      replace (/ 2 ^ 27) with (/ 134217728) by (simpl pow; lra). replace (2 ^ 20) with 1048576 in HR by (simpl pow; lra).
      rewrite U4 in *. pose proof (Rabs_pos b). lra.
    - assert (E : s = - a). { rewrite S1, HR. replace (0 - a) with (- a) by ring. transitivity (- rnd64 a); [apply round_NE_opp|]. f_equal. apply (rnd64_R32 mn Fn). }
      unfold t. rewrite E. replace (- a + a) with 0 by ring. rewrite rnd64_0, HR. apply rnd32_0. }
  assert (az : a <= z).
  { rewrite Y1. unfold a at 1. rewrite <- (rnd64_R32 mn Fn). fold a. apply rnd64_le. lra. }
  assert (zt : z <= rnd64 (s + a)) by (rewrite Y1; apply rnd64_le; lra).
  assert (ZB : Rabs z <= 8 * B).
  { pose proof (rnd64_sum (dmul w (dsub dx dn)) dn) as YE. fold g in YE. rewrite N1, <- Y1 in YE.
    assert (GA : Rabs (g + a) <= 3.2 * B) by (apply Rabs_le_iff; lra). apply Rabs_le_iff in GA, YE. rewrite U4 in *.
    assert (Rabs (g + a) <= 3.2 * B) by (apply Rabs_le_iff; lra). apply Rabs_le_iff. lra. }
  assert (ZF : Rabs z <= big32).
  { eapply Rle_trans; [exact ZB|]. pose proof big32_ge as G.
    change (2 ^ 100)%Z with 1267650600228229401496703205376%Z in G. simpl pow in HB. lra. }
  destruct (f32_of_f64_R _ Y2 ZF) as [F1 F2]. fold z in F1. rewrite F1. split.
  - rewrite <- TOP. now apply rnd32_le.
  - intros E. assert (WR : wr = 1).
    { rewrite W1, E. unfold Rdiv. pose proof (steps_bounds p HP). rewrite Rinv_r by (apply IZR_neq; lia). apply rnd64_1. }
    rewrite <- TOP. f_equal. rewrite Y1, G1, WR, Rmult_1_l. f_equal. f_equal. apply rnd64_R64.
Qed.
(** The greatest number gets the greatest code, the least gets 0. *)
Lemma code_ends p (mul mn mx x : f32) (B : R) : (1 <= p <= 24)%nat -> R32 mul = IZR (steps p) -> fin mul ->
  fin mn -> fin mx -> fin x -> R32 mn < R32 mx -> Rabs (R32 mn) <= B -> Rabs (R32 mx) <= B -> B <= 2 ^ 60 ->
  (R32 x = R32 mx -> Z.of_N (float_code1 mn mx mul x) = steps p) /\ (R32 x = R32 mn -> float_code1 mn mx mul x = 0%N).
Proof.
  intros HP M1 M2 Fn Fx Fv Hab Bn Bx HB. apply Rabs_le_iff in Bn, Bx. pose proof (steps_bounds p HP) as SB.
  destruct (fsub_R mx mn Fx Fn) as [D1 D2]; [apply (fits_B B); auto; apply Rabs_le_iff; lra|].
  pose proof (rnd32_diff mx mn) as DE. rewrite <- D1, (Rabs_pos_eq (R32 mx - R32 mn)) in DE by lra.
  assert (Dp : R32 (fsub mx mn) <> 0) by (apply Rabs_le_iff in DE; unfold u32 in DE; lra).
  split; intros V.
  - destruct (fsub_R x mn Fv Fn) as [V1 V2]; [rewrite V; apply (fits_B B); auto; apply Rabs_le_iff; lra|]. rewrite V, <- D1 in V1.
    assert (Q : R32 (fsub x mn) / R32 (fsub mx mn) = 1) by (rewrite V1; field; exact Dp).
    destruct (fdiv_R (fsub x mn) (fsub mx mn) V2 Dp) as [T1 T2]; [rewrite Q, Rabs_R1, big32_pow; apply pow_R1_Rle; lra|].
    rewrite Q, rnd32_1 in T1. destruct (code_R p mul _ HP M1 M2 T2 ltac:(lra)) as (C1 & _ & _). cbv zeta in C1. unfold float_code1.
    rewrite T1, Rmult_1_l, rnd32_Z, Zfloor_IZR in C1 by lia. exact C1.
  - destruct (fsub_R x mn Fv Fn) as [V1 V2]; [rewrite V, Rminus_diag_eq, Rabs_R0 by reflexivity; apply bpow_ge_0|].
    rewrite V, Rminus_diag_eq, rnd32_0 in V1 by reflexivity.
    assert (Q : R32 (fsub x mn) / R32 (fsub mx mn) = 0) by (rewrite V1; field; exact Dp).
    destruct (fdiv_R (fsub x mn) (fsub mx mn) V2 Dp) as [T1 T2]; [rewrite Q, Rabs_R0; apply bpow_ge_0|].
    rewrite Q, rnd32_0 in T1. destruct (code_R p mul _ HP M1 M2 T2 ltac:(lra)) as (C1 & _ & _). cbv zeta in C1. unfold float_code1.
    rewrite T1, Rmult_0_l, rnd32_0, (Zfloor_IZR 0) in C1. lia.
Qed.

(** The reported precision of floats stored with [w] bits. *)
Definition reports (span : R) (w : nat) (q : f32) : Prop := fin q /\ 0.9999897 * span <= 2 ^ w * R32 q <= 0.9999903 * span.
Lemma tiny_small x : / 2 ^ 86 <= x -> tiny32 <= 0.000000001 * x /\ tiny64 <= 0.000000001 * x.
Proof.
  intros X. assert (P : 0 < / 2 ^ 86) by (apply Rinv_0_lt_compat, pow_lt; lra).
  assert (T : tiny64 <= tiny32) by (apply bpow_le; lia).
  assert (H : tiny32 <= 0.000000001 * / 2 ^ 86); [|lra].
  unfold tiny32. change (-150)%Z with (-64 + (-86))%Z. rewrite bpow_plus.
  assert (E : bpow radix2 (-86) = / 2 ^ 86).
  { change (-86)%Z with (- (86))%Z. rewrite bpow_opp. f_equal. rewrite bpow_powerRZ. change (IZR radix2) with 2. reflexivity. }
  rewrite E. apply Rmult_le_compat_r; [lra|]. change (bpow radix2 (-64)) with (/ IZR (2 ^ 64)). cbn [Z.pow Z.pow_pos Pos.iter Z.mul Pos.mul]. lra.
Qed.
Lemma float_prec_R l B lo hi w : ranges B lo hi l -> B <= 2 ^ 60 -> / 2 ^ 60 <= hi - lo -> (w <= 25)%nat -> reports (hi - lo) w (float_prec l w).
Proof.
  intros HR HB HS HW. destruct (ranges_is _ _ _ _ HR) as (A1 & A2 & E1 & E2 & B1 & B2 & LH & _). unfold float_prec.
  set (mx := fst (float_range l)) in *. set (mn := snd (float_range l)) in *.
  destruct (f64_of_f32_correct mn A2) as (N1 & N2 & _). destruct (f64_of_f32_correct mx A1) as (X1 & X2 & _).
  set (dn := f64_of_f32 mn) in *. set (dx := f64_of_f32 mx) in *. rewrite E2 in N1. rewrite E1 in X1.
  apply Rabs_le_iff in B1, B2. assert (U4 : u64 = / 9007199254740992) by reflexivity. assert (U3 : u32 = / 16777216) by reflexivity.
  destruct (dsub_R dx dn X2 N2) as [S1 S2].
  { apply (fits64 B); auto. rewrite X1, N1. apply Rabs_le_iff. lra. }
  pose proof (rnd64_sub dx dn) as SE. rewrite <- S1 in SE. rewrite X1, N1 in SE. clear S1.
  set (s := R64 (dsub dx dn)) in *. set (span := hi - lo) in *.
  assert (P60 : 0 < / 2 ^ 60) by (apply Rinv_0_lt_compat, pow_lt; lra).
  rewrite (Rabs_pos_eq span) in SE by lra. apply Rabs_le_iff in SE.
  assert (S0 : (1 - 0.000000001) * span <= s <= (1 + 0.000000001) * span) by (rewrite U4 in SE; lra). clear SE.
  assert (D : R64 (f64_of_N (2 ^ N.of_nat w)) = 2 ^ w).
  { unfold f64_of_N. rewrite (proj1 (f64_of_Z_exact (Z.of_N (2 ^ N.of_nat w)) ltac:(rewrite N2Z.inj_pow, nat_N_Z; change (Z.of_N 2) with 2%Z; assert (0 < 2 ^ Z.of_nat w <= 2 ^ 25)%Z by (split; [apply Z.pow_pos_nonneg; lia|apply Z.pow_le_mono_r; lia]); lia))).
    rewrite N2Z.inj_pow, nat_N_Z. apply pow_IZR2. }
  assert (PW : 1 <= 2 ^ w <= 2 ^ 25) by (split; [apply pow_R1_Rle; lra|apply pow2_le; lia]).
  set (W := 2 ^ w) in *. assert (SW : s / W * W = s) by (field; lra).
  assert (span60 : span <= 2 ^ 61) by (replace (2 ^ 61) with (2 * 2 ^ 60) by (simpl pow; lra); unfold span; lra).
  assert (Q0 : 0 < s / W) by (apply Rdiv_lt_0_compat; lra).
  assert (SB : s / W <= 2 ^ 62).
  { apply Rmult_le_reg_r with W; [lra|]. rewrite SW. replace (2 ^ 62) with (2 * 2 ^ 61) by (simpl pow; lra).
    assert (2 * 2 ^ 61 * 1 <= 2 * 2 ^ 61 * W) by (apply Rmult_le_compat_l; [|lra]; assert (0 < 2 ^ 61) by (apply pow_lt; lra); lra). lra. }
  assert (big : 2 ^ 64 <= big32) by (rewrite big32_pow; apply pow2_le; lia).
  assert (bb : big32 <= big64) by (apply bpow_le; lia). assert (p64 : 2 ^ 64 = 4 * 2 ^ 62) by (simpl pow; lra).
  assert (p62 : 0 < 2 ^ 62) by (apply pow_lt; lra).
  destruct (ddiv_R (dsub dx dn) (f64_of_N (2 ^ N.of_nat w)) S2) as [V1 V2]; [rewrite D; lra|rewrite D; fold s; rewrite Rabs_pos_eq; lra|].
  rewrite D in V1. fold s in V1. set (v := R64 (ddiv (dsub dx dn) (f64_of_N (2 ^ N.of_nat w)))) in *.
  assert (L86 : / 2 ^ 86 <= s / W).
  { apply Rmult_le_reg_r with W; [lra|]. rewrite SW. replace (/ 2 ^ 86) with (/ 2 ^ 60 * / 2 ^ 26) by (rewrite <- Rinv_mult, <- pow_add; reflexivity).
    apply Rle_trans with (/ 2 ^ 60 * / 2 ^ 26 * 2 ^ 25); [apply Rmult_le_compat_l; [|lra]; apply Rmult_le_pos; [lra|]; left; apply Rinv_0_lt_compat, pow_lt; lra|].
    replace (/ 2 ^ 60 * / 2 ^ 26 * 2 ^ 25) with (/ 2 ^ 60 * 0.5) by (simpl (2 ^ 26); simpl (2 ^ 25); set (t := / 2 ^ 60); lra). lra. }
  destruct (tiny_small _ L86) as [T1 T2].
  pose proof (rnd64_err (s / W)) as VE. rewrite <- V1, (Rabs_pos_eq (s / W)) in VE by lra. apply Rabs_le_iff in VE.
  assert (V0 : (1 - 0.000000002) * (s / W) <= v <= (1 + 0.000000002) * (s / W)) by (rewrite U4 in VE; lra). clear VE V1.
  destruct (f32_of_f64_R _ V2) as [G1 G2]; [fold v; rewrite Rabs_pos_eq; lra|]. fold v in G1.
  set (g := R32 (f32_of_f64 (ddiv (dsub dx dn) (f64_of_N (2 ^ N.of_nat w))))) in *.
  pose proof (rnd32_err v) as GE. rewrite <- G1, (Rabs_pos_eq v) in GE by lra. apply Rabs_le_iff in GE.
  assert (G0 : (1 - 0.000000065) * (s / W) <= g <= (1 + 0.000000065) * (s / W)) by (rewrite U3 in GE; lra). clear GE G1.
  destruct f099999_R as [K1 K2]. apply Rabs_le_iff in K1. set (k := R32 f099999) in *. rewrite U3 in K1.
  assert (KB : 0.99998993 <= k <= 0.99999007) by lra.
  assert (GK : 0.99998993 * g <= g * k <= 0.99999007 * g) by (split; rewrite (Rmult_comm g); apply Rmult_le_compat_r; lra).
  destruct (fmul_R (f32_of_f64 (ddiv (dsub dx dn) (f64_of_N (2 ^ N.of_nat w)))) f099999 G2 K2) as [R1 R2]; [fold g k; rewrite Rabs_pos_eq; lra|].
  fold g k in R1. unfold reports. fold W. split; [exact R2|]. set (r := R32 (fmul _ _)) in *.
  pose proof (rnd32_err (g * k)) as RE. rewrite <- R1, (Rabs_pos_eq (g * k)) in RE by lra. apply Rabs_le_iff in RE.
  assert (R0 : (1 - 0.000000065) * (g * k) <= r <= (1 + 0.000000065) * (g * k)) by (rewrite U3 in RE; lra).
  assert (RR : 0.99998977 * (s / W) <= r <= 0.99999023 * (s / W)) by lra. rewrite Rmult_comm.
  assert (0.99998977 * (s / W) * W <= r * W <= 0.99999023 * (s / W) * W) by (split; apply Rmult_le_compat_r; lra).
  rewrite !Rmult_assoc, SW in H. lra.
Qed.
Lemma float_next lm l B lo hi w q : log2_sharp lm -> ranges B lo hi l -> B <= 2 ^ 60 -> / 2 ^ 60 <= hi - lo -> (w <= 24)%nat ->
  reports (hi - lo) w q -> float_width lm l q = S w.
Proof.
  intros L HR HB HS HW [Fq Hq]. destruct (ranges_is _ _ _ _ HR) as (A1 & A2 & E1 & E2 & B1 & B2 & LH & _). unfold float_width.
  set (mx := fst (float_range l)) in *. set (mn := snd (float_range l)) in *. apply Rabs_le_iff in B1, B2. assert (U3 : u32 = / 16777216) by reflexivity.
  assert (P60 : 0 < / 2 ^ 60) by (apply Rinv_0_lt_compat, pow_lt; lra).
  destruct (fsub_R mx mn A1 A2) as [D1 D2]; [rewrite E1, E2; apply (fits_B B); auto; apply Rabs_le_iff; lra|].
  pose proof (rnd32_diff mx mn) as DE. rewrite <- D1, E1, E2, (Rabs_pos_eq (hi - lo)) in DE by lra. apply Rabs_le_iff in DE. clear D1.
  set (D := R32 (fsub mx mn)) in *. set (span := hi - lo) in *.
  assert (DB : 0.99999994 * span <= D <= 1.00000006 * span) by (rewrite U3 in DE; lra).
  assert (PW : 1 <= 2 ^ w <= 2 ^ 24) by (split; [apply pow_R1_Rle; lra|apply pow2_le; lia]). set (W := 2 ^ w) in *.
  assert (Q0 : 0 < R32 q). { apply Rmult_lt_reg_l with W; lra. }
  set (c := D / R32 q / W). assert (CE : D / R32 q = W * c) by (unfold c; field; lra).
  assert (CB : 1.00000963 <= c <= 1.00001037).
  { unfold c. split; apply Rmult_le_reg_r with (W * R32 q); try (apply Rmult_lt_0_compat; lra);
      replace (D / R32 q / W * (W * R32 q)) with D by (field; lra); lra. }
  assert (CP : W * 1 <= W * c <= W * 2) by (split; apply Rmult_le_compat_l; lra).
  destruct (fdiv_R (fsub mx mn) q D2) as [Q1 Q2]; [lra| |].
  { fold D. rewrite CE, Rabs_pos_eq, big32_pow by lra. apply Rle_trans with (2 ^ 25); [simpl pow in *; lra|apply pow2_le; lia]. }
  fold D in Q1. rewrite CE in Q1. pose proof (rnd32_err (W * c)) as Er. rewrite <- Q1, (Rabs_pos_eq (W * c)) in Er by lra. apply Rabs_le_iff in Er.
  destruct (tiny_small (W * c)) as [T _].
  { apply Rle_trans with 1; [|lra]. rewrite <- Rinv_1. apply Rinv_le; [lra|]. apply pow_R1_Rle. lra. }
  set (r := R32 (fdiv (fsub mx mn) q)) in *.
  rewrite (next_width lm (fdiv (fsub mx mn) q) w (r / W) L ltac:(lia) Q2).
  - lia.
  - fold r W. field. lra.
  - assert (RB : (1 - 0.000000062) * (W * c) <= r <= (1 + 0.000000062) * (W * c)) by (rewrite U3 in Er; lra).
    split; apply Rmult_le_reg_r with W; try lra; unfold Rdiv; rewrite Rmult_assoc, Rinv_l by lra.
    + assert (W * 1.00000963 <= W * c) by (apply Rmult_le_compat_l; lra). lra.
    + assert (W * c <= W * 1.00001037) by (apply Rmult_le_compat_l; lra). lra.
Qed.

(** One save and load of a float array. *)
Definition float_step (lo hi e : R) (p : nat) (x y : f32) : Prop :=
  finite y /\ lo <= val y <= hi /\ (val x = hi -> val y = hi) /\ (val x = lo -> val y = lo) /\ Rabs (val y - val x) <= (hi - lo) / (2 ^ p - 1) + e.
Lemma step_fine lm l q d B lo hi : data_rel lm (CFloat l q) d -> ranges B lo hi l -> B <= 2 ^ 60 -> lo < hi ->
  Rabs lo <= 2 ^ 20 * Rabs hi \/ hi = 0 -> (1 <= float_width lm l q <= 24)%nat ->
  exists l', d = CFloat l' (float_prec l (float_width lm l q)) /\ ranges B lo hi l' /\
    Forall2 (float_step lo hi (/ 2 ^ 20 * B + / 2 ^ 99) (float_width lm l q)) l l'.
Proof.
  intros R HR HB LH RT W. destruct d as [| |l' q'|]; try contradiction. cbn [data_rel] in R. destruct R as (mul & M & -> & ->).
  exists (map (float_image lm l q mul) l). split; [reflexivity|].
  destruct (ranges_is _ _ _ _ HR) as (A1 & A2 & E1 & E2 & B1 & B2 & _ & FR). destruct (mask_R _ _ M W) as [M1 M2].
  assert (S : forall x, In x l -> float_step lo hi (/ 2 ^ 20 * B + / 2 ^ 99) (float_width lm l q) x (float_image lm l q mul x)).
  { intros x I. rewrite image1. set (w := float_width lm l q) in *. set (mx := fst (float_range l)) in *. set (mn := snd (float_range l)) in *.
    destruct HR as (FF & FB & _). rewrite Forall_forall in FF, FR. specialize (FF x I). specialize (FR x I).
    destruct (float_R w mul mn mx x B W M1 M2 A2 A1 FF) as (Y1 & Y2 & Y3); try (rewrite ?E1, ?E2; assumption).
    destruct (fcode_R w mul mn mx x B W M1 M2 A2 A1 FF) as (L & Q & _); try (rewrite ?E1, ?E2; assumption).
    cbv zeta in *. rewrite L in *. set (c := float_code1 mn mx mul x) in *.
    destruct (decode_top w mn mx c B W Q A2 A1) as [T1 T2]; try (rewrite ?E1, ?E2; lra || assumption).
    destruct (code_ends w mul mn mx x B W M1 M2 A2 A1 FF) as [C1 C2]; try (rewrite ?E1, ?E2; assumption). fold c in C1, C2.
    rewrite E1, E2 in *. unfold float_step. change val with R32 in *. split; [exact Y1|]. split; [lra|].
    split; [auto|]. split; [|rewrite <- steps_pow; lra].
    intros V. destruct (decode_low w mn mx c B ltac:(lia) A2 A1) as [_ Z]; rewrite ?E1, ?E2; auto. cbv zeta in Z. now rewrite Z, E2. }
  split; [|apply F2_map; exact S]. destruct HR as (FF & FB & [L1 L2] & [G1 G2]).
  apply Rabs_le_iff in B1, B2. rewrite Forall_forall in FF.
  split; [|split; [|split]].
  - apply Forall_forall. intros y Y. apply in_map_iff in Y as (x & <- & I). apply (S x I).
  - apply Forall_forall. intros y Y. apply in_map_iff in Y as (x & <- & I). destruct (S x I) as (_ & H & _). apply Rabs_le_iff. lra.
  - split.
    + apply in_map_iff in L1 as (x & V & I). destruct (S x I) as (_ & _ & _ & H & _). rewrite <- (H V). now apply in_map, in_map.
    + intros z Z. apply in_map_iff in Z as (y & <- & Y). apply in_map_iff in Y as (x & <- & I). apply (S x I).
  - split.
    + apply in_map_iff in G1 as (x & V & I). destruct (S x I) as (_ & _ & H & _). rewrite <- (H V). now apply in_map, in_map.
    + intros z Z. apply in_map_iff in Z as (y & <- & Y). apply in_map_iff in Y as (x & <- & I). apply (S x I).
Qed.
Lemma step_coarse lm l q d B lo hi : data_rel lm (CFloat l q) d -> ranges B lo hi l -> B <= 2 ^ 60 -> lo < hi -> (25 <= float_width lm l q)%nat ->
  exists l', d = CFloat l' (float_prec l (float_width lm l q)) /\ Forall2 (fun x y => val x = hi -> finite y /\ val y = lo) l l'.
Proof.
  intros R HR HB LH W. destruct d as [| |l' q'|]; try contradiction. cbn [data_rel] in R. destruct R as (mul & M & -> & ->).
  exists (map (float_image lm l q mul) l). split; [reflexivity|]. pose proof (mask_30 _ _ M) as W30.
  destruct (ranges_is _ _ _ _ HR) as (A1 & A2 & E1 & E2 & B1 & B2 & _ & _). destruct HR as (FF & _). rewrite Forall_forall in FF.
  apply F2_map. intros x I V. rewrite image1. rewrite (top_float _ mul _ _ x B W M A2 A1 (FF x I)); rewrite ?E1, ?E2; auto.
  destruct (decode_low (float_width lm l q) (snd (float_range l)) (fst (float_range l)) 0 B) as [Y1 Y2]; rewrite ?E1, ?E2; auto; [lia|].
  cbv zeta in *. split; [exact Y1|]. change val with R32. now rewrite Y2, E2.
Qed.

(** [n] saves and loads of an array whose reported precision was that of [w] bits. *)
Definition float_fate (lo hi e : R) (p n : nat) (x y : f32) : Prop :=
  ((p + n <= 25)%nat -> finite y /\ lo <= val y <= hi /\ (val x = hi -> val y = hi) /\ (val x = lo -> val y = lo) /\
     Rabs (val y - val x) <= 2 * (hi - lo) / (2 ^ p - 1) + INR n * e) /\
  ((p + n = 26)%nat -> (1 <= n)%nat -> val x = hi -> finite y /\ val y = lo).
Lemma fate_cons lo hi e p n x y z : lo < hi -> 0 <= e -> (1 <= p)%nat -> (p <= 24)%nat -> float_step lo hi e p x y -> float_fate lo hi e (S p) n y z -> float_fate lo hi e p (S n) x z.
Proof.
  intros LH E0 P P24 (Y1 & Y2 & Y3 & Y4 & Y5) [F1 F2]. split.
  - intros N. destruct (F1 ltac:(lia)) as (Z1 & Z2 & Z3 & Z4 & Z5). split; [exact Z1|]. split; [exact Z2|]. split; [auto|]. split; [auto|].
    replace (val z - val x) with ((val z - val y) + (val y - val x)) by ring. eapply Rle_trans; [apply Rabs_triang|]. rewrite S_INR.
    assert (P2 : 2 ^ 1 <= 2 ^ p) by (apply pow2_le; lia).
    assert (H : 2 * (hi - lo) / (2 ^ S p - 1) <= (hi - lo) / (2 ^ p - 1)).
    { simpl (2 ^ S p). apply Rmult_le_reg_r with (2 * 2 ^ p - 1); [lra|]. unfold Rdiv. rewrite Rmult_assoc, Rinv_l by lra.
      apply Rmult_le_reg_l with (2 ^ p - 1); [lra|].
      replace ((2 ^ p - 1) * ((hi - lo) * / (2 ^ p - 1) * (2 * 2 ^ p - 1))) with ((hi - lo) * (2 * 2 ^ p - 1)) by (field; lra).
      assert (0 <= (hi - lo) * 1) by lra. replace ((2 ^ p - 1) * (2 * (hi - lo) * 1)) with ((hi - lo) * (2 * 2 ^ p - 1) - (hi - lo) * 1) by ring. lra. }
    unfold Rdiv in *. lra.
  - intros N _ V. apply F2; [lia|lia|auto].
Qed.
Lemma float_run B lo hi n : B <= 2 ^ 60 -> / 2 ^ 60 <= hi - lo -> Rabs lo <= 2 ^ 20 * Rabs hi \/ hi = 0 ->
  forall w l q d, data_chain log2_sharp n (CFloat l q) d -> ranges B lo hi l -> reports (hi - lo) w q -> (w + n <= 25)%nat ->
  exists l' q', d = CFloat l' q' /\ reports (hi - lo) (w + n) q' /\ Forall2 (float_fate lo hi (/ 2 ^ 20 * B + / 2 ^ 99) (S w) n) l l'.
Proof.
  intros HB HS RT. assert (P60 : 0 < / 2 ^ 60) by (apply Rinv_0_lt_compat, pow_lt; lra).
  assert (P99 : 0 < / 2 ^ 99) by (apply Rinv_0_lt_compat, pow_lt; lra). assert (P20 : 0 < / 2 ^ 20) by (apply Rinv_0_lt_compat, pow_lt; lra).
  induction n as [|n IH]; intros w l q d C HR RQ W.
  - inversion C; subst. exists l, q. rewrite Nat.add_0_r. split; [reflexivity|]. split; [exact RQ|].
    destruct (ranges_is _ _ _ _ HR) as (_ & _ & _ & _ & B1 & B2 & _ & FR). destruct HR as (FF & _).
    assert (I : forall x, In x l -> float_fate lo hi (/ 2 ^ 20 * B + / 2 ^ 99) (S w) 0 x x).
    { intros x X. rewrite Forall_forall in FF, FR. specialize (FF x X). specialize (FR x X). split; [|lia]. intros _. split; [exact FF|]. split; [exact FR|].
      split; [auto|]. split; [auto|]. rewrite Rminus_diag_eq, Rabs_R0 by reflexivity. cbn [INR]. rewrite Rmult_0_l, Rplus_0_r.
      assert (2 ^ 1 <= 2 ^ S w) by (apply pow2_le; lia). left. apply Rdiv_lt_0_compat; lra. }
    clear - I. induction l as [|x l IHl]; constructor; [apply I; now left|apply IHl; intros; apply I; now right].
  - inversion C as [|n' lm d0 d1 d2 L R K]; subst.
    pose proof (float_next lm l B lo hi w q L HR HB HS ltac:(lia) RQ) as E.
    assert (E0 : 0 <= / 2 ^ 20 * B + / 2 ^ 99).
    { destruct (ranges_is _ _ _ _ HR) as (_ & _ & _ & _ & B1 & _). pose proof (Rabs_pos lo). apply Rplus_le_le_0_compat; [apply Rmult_le_pos|]; lra. }
    destruct (le_lt_dec (S w) 24) as [W24|W24].
    + destruct (step_fine lm l q d1 B lo hi R HR HB ltac:(lra) RT ltac:(lia)) as (l1 & -> & HR1 & F). rewrite E in *.
      destruct (IH (S w) l1 _ d K HR1) as (l' & q' & -> & RQ' & F'); [apply (float_prec_R l B); auto; lia|lia|].
      exists l', q'. split; [reflexivity|]. replace (w + S n)%nat with (S w + n)%nat by lia. split; [exact RQ'|].
      eapply F2_comp; [|exact F|exact F']. intros x y z X Y. eapply fate_cons; eauto; try lia. lra.
    + assert (n = 0)%nat as -> by lia. inversion K; subst. destruct (step_coarse lm l q d B lo hi R HR HB ltac:(lra) ltac:(lia)) as (l1 & -> & F). rewrite E in *.
      exists l1. eexists. split; [reflexivity|]. replace (w + 1)%nat with (S w) by lia. split; [apply (float_prec_R l B); auto; lia|].
      eapply F2_impl; [|exact F]. intros x y X. split; [lia|]. intros _ _. exact X.
Qed.
Lemma float_chain B lo hi n l q d : B <= 2 ^ 60 -> / 2 ^ 60 <= hi - lo -> Rabs lo <= 2 ^ 20 * Rabs hi \/ hi = 0 ->
  data_chain log2_sharp (S n) (CFloat l q) d -> ranges B lo hi l ->
  exists lm, log2_sharp lm /\ ((float_width lm l q + n <= 25)%nat ->
    exists l' q', d = CFloat l' q' /\ reports (hi - lo) (float_width lm l q + n) q' /\
      Forall2 (float_fate lo hi (/ 2 ^ 20 * B + / 2 ^ 99) (float_width lm l q) (S n)) l l').
Proof.
  intros HB HS RT C HR. inversion C as [|n' lm d0 d1 d2 L R K]; subst. exists lm. split; [exact L|]. intros W.
  assert (P60 : 0 < / 2 ^ 60) by (apply Rinv_0_lt_compat, pow_lt; lra).
  assert (P99 : 0 < / 2 ^ 99) by (apply Rinv_0_lt_compat, pow_lt; lra). assert (P20 : 0 < / 2 ^ 20) by (apply Rinv_0_lt_compat, pow_lt; lra).
  assert (W1 : (1 <= float_width lm l q)%nat) by (unfold float_width; lia).
  assert (E0 : 0 <= / 2 ^ 20 * B + / 2 ^ 99).
  { destruct (ranges_is _ _ _ _ HR) as (_ & _ & _ & _ & B1 & _). pose proof (Rabs_pos lo). apply Rplus_le_le_0_compat; [apply Rmult_le_pos|]; lra. }
  destruct (le_lt_dec (float_width lm l q) 24) as [W24|W24].
  - destruct (step_fine lm l q d1 B lo hi R HR HB ltac:(lra) RT ltac:(lia)) as (l1 & -> & HR1 & F).
    destruct (float_run B lo hi n HB HS RT (float_width lm l q) l1 _ d K HR1) as (l' & q' & -> & RQ' & F'); [apply (float_prec_R l B); auto; lia|lia|].
    exists l', q'. split; [reflexivity|]. split; [exact RQ'|].
    eapply F2_comp; [|exact F|exact F']. intros x y z X Y. eapply fate_cons; eauto; try lia. lra.
  - assert (n = 0)%nat as -> by lia. inversion K; subst. destruct (step_coarse lm l q d B lo hi R HR HB ltac:(lra) ltac:(lia)) as (l1 & -> & F).
    exists l1. eexists. split; [reflexivity|]. rewrite Nat.add_0_r. split; [apply (float_prec_R l B); auto; lia|].
    eapply F2_impl; [|exact F]. intros x y X. split; [lia|]. intros _ _. exact X.
Qed.
