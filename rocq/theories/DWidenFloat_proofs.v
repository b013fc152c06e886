(** Float custom data saved again and again in a build with [double_precision]. *)
From Coq Require Import List NArith ZArith Arith Lia Bool Reals Lra.
From Flocq Require Import Core IEEE754.BinarySingleNaN.
From Verif Require Import Base UnalignedRW ReadExt Floats Floats_proofs FloatReal_proofs Codec_proofs Save_proofs Image_proofs VertexSpec ValueSpec Log2_proofs Quant_proofs
  CustomReal_proofs P_Custom P_Vertices P_Uv VertexReal_proofs Widen_proofs WidenFloat_proofs Double DoubleSpec DoubleSave DoubleSaveSpec DoubleValueSpec Double2_proofs DMerge_proofs DCodec_proofs DSave_proofs
  DQuant_proofs DVertex_proofs DPiece_proofs DCustom_proofs P_Double P_DoubleSave P_DoubleValue DWiden_proofs.
Import ListNotations.
Local Open Scope R_scope.

(** What the greatest code decodes to; no code gives more. *)
Definition top_d (mn mx : f64) : R := rnd64 (R64 (dsub mx mn) + R64 mn).
Lemma decode_top_d p (mn mx : f64) (q : N) (B : R) : (1 <= p <= 30)%nat -> (Z.of_N q <= steps p)%Z -> fin mn -> fin mx ->
  R64 mn <= R64 mx -> Rabs (R64 mn) <= B -> Rabs (R64 mx) <= B -> B <= 2 ^ 60 ->
  let y := dequantize_d q (f64_of_N (mask_u64 p)) (dsub mx mn) mn in
  R64 y <= top_d mn mx /\ (Z.of_N q = steps p -> R64 y = top_d mn mx) /\ Rabs (top_d mn mx - R64 mx) <= / 2 ^ 49 * B + / 2 ^ 99.
Proof.
  intros HP Hq Fn Fx Hab Bn Bx HB y. pose proof (steps_bounds_d p HP) as SB0.
  assert (T : forall c, (Z.of_N c <= steps p)%Z -> let y := dequantize_d c (f64_of_N (mask_u64 p)) (dsub mx mn) mn in
    R64 y <= top_d mn mx /\ (Z.of_N c = steps p -> R64 y = top_d mn mx)).
  { clear q Hq y. intros q Hq y. unfold y, dequantize_d, top_d. clear y.
    set (a := R64 mn) in *. set (b := R64 mx) in *. pose proof Bn as Bn'. pose proof Bx as Bx'.
    apply Rabs_le_iff in Bn', Bx'. assert (B0 : 0 <= B) by lra. assert (U4 : u64 = / 9007199254740992) by reflexivity.
    destruct (value_d p q HP Hq) as (W1 & W2 & W3 & W4). cbv zeta in *.
    set (w := ddiv (f64_of_N q) (f64_of_N (mask_u64 p))) in *. set (wr := R64 w) in *.
    destruct (dsub_R mx mn Fx Fn) as [S1 S2].
    { apply (fits64 B); auto. fold a b. apply Rabs_le_iff. lra. }
    pose proof (rnd64_sub mx mn) as SE. rewrite <- S1 in SE. fold a b in SE, S1.
    set (s := R64 (dsub mx mn)) in *. rewrite (Rabs_pos_eq (b - a)) in SE by lra.
    assert (s0 : 0 <= s) by (rewrite S1, <- rnd64_0; apply rnd64_le; lra).
    apply Rabs_le_iff in SE. assert (SB : s <= 2.1 * B) by (rewrite U4 in SE; lra).
    assert (WS : 0 <= wr * s <= s).
    { split; [apply Rmult_le_pos; lra|]. pose proof (Rmult_le_compat_r s wr 1 ltac:(lra) ltac:(lra)). lra. }
    destruct (dmul_R w (dsub mx mn) W2 S2) as [G1 G2]; [apply (fits64 B); auto; fold wr s; apply Rabs_le_iff; lra|].
    fold wr s in G1. set (g := R64 (dmul w (dsub mx mn))) in *.
    assert (g0 : 0 <= g <= s) by (rewrite G1; apply rnd64_between; [apply rnd64_0|apply rnd64_R64|exact WS]).
    destruct (dadd_R (dmul w (dsub mx mn)) mn G2 Fn) as [Y1 Y2].
    { apply (fits64 B); auto. fold g a. apply Rabs_le_iff. lra. }
    fold g a in Y1. rewrite Y1. split; [apply rnd64_le; lra|].
    intros E. assert (WR : wr = 1).
    { rewrite W1, E. unfold Rdiv. rewrite Rinv_r by (apply IZR_neq; lia). apply rnd64_1. }
    f_equal. f_equal. rewrite G1, WR, Rmult_1_l. apply rnd64_R64. }
  destruct (T q Hq) as [T1 T2]. split; [exact T1|]. split; [exact T2|].
  set (c := Z.to_N (steps p)). assert (C : Z.of_N c = steps p) by (unfold c; apply Z2N.id; lia).
  destruct (T c ltac:(lia)) as [_ T3]. destruct (decode_R_d p mn mx c B HP ltac:(lia) Fn Fx Hab Bn Bx HB) as (_ & _ & D). cbv zeta in *.
  rewrite (T3 C), C in D. unfold Rdiv in D. rewrite Rinv_r in D by (apply IZR_neq; lia).
  replace (R64 mn + 1 * (R64 mx - R64 mn)) with (R64 mx) in D by ring. exact D.
Qed.
(** The greatest number gets the greatest code, the least gets 0. *)
Lemma code_ends_d p (mul mn mx x : f64) (B : R) : (1 <= p <= 30)%nat -> R64 mul = IZR (steps p) -> fin mul ->
  fin mn -> fin mx -> fin x -> R64 mn < R64 mx -> Rabs (R64 mn) <= B -> Rabs (R64 mx) <= B -> B <= 2 ^ 60 ->
  (R64 x = R64 mx -> Z.of_N (float_code1_d mn mx mul x) = steps p) /\ (R64 x = R64 mn -> float_code1_d mn mx mul x = 0%N).
Proof.
  intros HP M1 M2 Fn Fx Fv Hab Bn Bx HB. apply Rabs_le_iff in Bn, Bx. pose proof (steps_bounds_d p HP) as SB.
  destruct (dsub_R mx mn Fx Fn) as [D1 D2]; [apply (fits_B_d B); auto; apply Rabs_le_iff; lra|].
  pose proof (rnd64_diff mx mn) as DE. rewrite <- D1, (Rabs_pos_eq (R64 mx - R64 mn)) in DE by lra.
  assert (Dp : R64 (dsub mx mn) <> 0) by (apply Rabs_le_iff in DE; unfold u64 in DE; lra).
  split; intros V.
  - destruct (dsub_R x mn Fv Fn) as [V1 V2]; [rewrite V; apply (fits_B_d B); auto; apply Rabs_le_iff; lra|]. rewrite V, <- D1 in V1.
    assert (Q : R64 (dsub x mn) / R64 (dsub mx mn) = 1) by (rewrite V1; field; exact Dp).
    destruct (ddiv_R (dsub x mn) (dsub mx mn) V2 Dp) as [T1 T2]; [rewrite Q, Rabs_R1, big64_pow; apply pow_R1_Rle; lra|].
    rewrite Q, rnd64_1 in T1. destruct (code_R_d p mul _ HP M1 M2 T2 ltac:(lra)) as (C1 & _ & _). cbv zeta in C1. unfold float_code1_d.
    rewrite T1, Rmult_1_l, rnd64_Z, Zfloor_IZR in C1 by lia. exact C1.
  - destruct (dsub_R x mn Fv Fn) as [V1 V2]; [rewrite V, Rminus_diag_eq, Rabs_R0 by reflexivity; apply bpow_ge_0|].
    rewrite V, Rminus_diag_eq, rnd64_0 in V1 by reflexivity.
    assert (Q : R64 (dsub x mn) / R64 (dsub mx mn) = 0) by (rewrite V1; field; exact Dp).
    destruct (ddiv_R (dsub x mn) (dsub mx mn) V2 Dp) as [T1 T2]; [rewrite Q, Rabs_R0; apply bpow_ge_0|].
    rewrite Q, rnd64_0 in T1. destruct (code_R_d p mul _ HP M1 M2 T2 ltac:(lra)) as (C1 & _ & _). cbv zeta in C1. unfold float_code1_d.
    rewrite T1, Rmult_0_l, rnd64_0, (Zfloor_IZR 0) in C1. lia.
Qed.

(** The reported precision of floats stored with [w] bits. *)
Definition reports_d (span : R) (w : nat) (q : f64) : Prop := fin q /\ 0.99998999 * span <= 2 ^ w * R64 q <= 0.99999001 * span.
Lemma float_prec_R_d l B lo hi w : ranges_d B lo hi l -> B <= 2 ^ 60 -> / 2 ^ 60 <= hi - lo -> (w <= 30)%nat -> reports_d (hi - lo) w (float_prec_d l w).
Proof.
  intros HR HB HS HW. destruct (ranges_is_d _ _ _ _ HR) as (A1 & A2 & E1 & E2 & B1 & B2 & LH & _). unfold float_prec_d.
  set (mx := fst (float_range_d l)) in *. set (mn := snd (float_range_d l)) in *.
  apply Rabs_le_iff in B1, B2. assert (U4 : u64 = / 9007199254740992) by reflexivity.
  destruct (dsub_R mx mn A1 A2) as [S1 S2].
  { apply (fits64 B); auto. rewrite E1, E2. apply Rabs_le_iff. lra. }
  pose proof (rnd64_sub mx mn) as SE. rewrite <- S1 in SE. rewrite E1, E2 in SE. clear S1.
  set (s := R64 (dsub mx mn)) in *. set (span := hi - lo) in *.
  assert (P60 : 0 < / 2 ^ 60) by (apply Rinv_0_lt_compat, pow_lt; lra).
  rewrite (Rabs_pos_eq span) in SE by lra. apply Rabs_le_iff in SE.
  assert (S0 : (1 - 0.000000001) * span <= s <= (1 + 0.000000001) * span) by (rewrite U4 in SE; lra). clear SE.
  assert (D : R64 (f64_of_N (2 ^ N.of_nat w)) = 2 ^ w).
  { unfold f64_of_N. rewrite (proj1 (f64_of_Z_exact (Z.of_N (2 ^ N.of_nat w)) ltac:(rewrite N2Z.inj_pow, nat_N_Z; change (Z.of_N 2) with 2%Z; assert (0 < 2 ^ Z.of_nat w <= 2 ^ 30)%Z by (split; [apply Z.pow_pos_nonneg; lia|apply Z.pow_le_mono_r; lia]); lia))).
    rewrite N2Z.inj_pow, nat_N_Z. apply pow_IZR2. }
  assert (PW : 1 <= 2 ^ w <= 2 ^ 30) by (split; [apply pow_R1_Rle; lra|apply pow2_le; lia]).
  set (W := 2 ^ w) in *. assert (SW : s / W * W = s) by (field; lra).
  assert (span60 : span <= 2 ^ 61) by (replace (2 ^ 61) with (2 * 2 ^ 60) by (simpl pow; lra); unfold span; lra).
  assert (Q0 : 0 < s / W) by (apply Rdiv_lt_0_compat; lra).
  assert (SB : s / W <= 2 ^ 62).
  { apply Rmult_le_reg_r with W; [lra|]. rewrite SW. replace (2 ^ 62) with (2 * 2 ^ 61) by (simpl pow; lra).
    assert (2 * 2 ^ 61 * 1 <= 2 * 2 ^ 61 * W) by (apply Rmult_le_compat_l; [|lra]; assert (0 < 2 ^ 61) by (apply pow_lt; lra); lra). lra. }
  assert (big : 2 ^ 64 <= big64) by (rewrite big64_pow; apply pow2_le; lia).
  assert (p64 : 2 ^ 64 = 4 * 2 ^ 62) by (simpl pow; lra).
  assert (p62 : 0 < 2 ^ 62) by (apply pow_lt; lra).
  destruct (ddiv_R (dsub mx mn) (f64_of_N (2 ^ N.of_nat w)) S2) as [V1 V2]; [rewrite D; lra|rewrite D; fold s; rewrite Rabs_pos_eq; lra|].
  rewrite D in V1. fold s in V1. set (v := R64 (ddiv (dsub mx mn) (f64_of_N (2 ^ N.of_nat w)))) in *.
  assert (L92 : / 2 ^ 92 <= s / W).
  { apply Rmult_le_reg_r with W; [lra|]. rewrite SW. replace (/ 2 ^ 92) with (/ 2 ^ 60 * / 2 ^ 32) by (rewrite <- Rinv_mult, <- pow_add; reflexivity).
    apply Rle_trans with (/ 2 ^ 60 * / 2 ^ 32 * 2 ^ 30); [apply Rmult_le_compat_l; [|lra]; apply Rmult_le_pos; [lra|]; left; apply Rinv_0_lt_compat, pow_lt; lra|].
    replace (/ 2 ^ 60 * / 2 ^ 32 * 2 ^ 30) with (/ 2 ^ 60 * 0.25) by (simpl (2 ^ 32); simpl (2 ^ 30); set (t := / 2 ^ 60); lra). lra. }
  assert (T2 : tiny64 <= 0.000000001 * (s / W)).
  { apply Rle_trans with (0.000000001 * / 2 ^ 92); [|apply Rmult_le_compat_l; lra].
    assert (E : bpow radix2 (-92) = / 2 ^ 92).
    { change (-92)%Z with (- (92))%Z. rewrite bpow_opp. f_equal. rewrite bpow_powerRZ. change (IZR radix2) with 2. reflexivity. }
    apply Rle_trans with (bpow radix2 (-64 + -92)); [apply bpow_le; lia|]. rewrite bpow_plus, E. apply Rmult_le_compat_r; [left; apply Rinv_0_lt_compat, pow_lt; lra|].
    change (bpow radix2 (-64)) with (/ IZR (2 ^ 64)). cbn [Z.pow Z.pow_pos Pos.iter Z.mul Pos.mul]. lra. }
  pose proof (rnd64_err (s / W)) as VE. rewrite <- V1, (Rabs_pos_eq (s / W)) in VE by lra. apply Rabs_le_iff in VE.
  assert (V0 : (1 - 0.000000002) * (s / W) <= v <= (1 + 0.000000002) * (s / W)) by (rewrite U4 in VE; lra). clear VE V1.
  destruct d099999_R as [K1 K2]. apply Rabs_le_iff in K1. set (k := R64 d099999) in *. simpl pow in K1.
  assert (KB : 0.999989999 <= k <= 0.999990001) by lra. clear K1.
  assert (GK : 0.999989999 * v <= v * k <= 0.999990001 * v) by (split; rewrite (Rmult_comm v); apply Rmult_le_compat_r; lra).
  destruct (dmul_R (ddiv (dsub mx mn) (f64_of_N (2 ^ N.of_nat w))) d099999 V2 K2) as [R1 R2]; [fold v k; rewrite Rabs_pos_eq; lra|].
  fold v k in R1. unfold reports_d. fold W. split; [exact R2|]. set (r := R64 (dmul _ _)) in *.
  pose proof (rnd64_err (v * k)) as RE. rewrite <- R1, (Rabs_pos_eq (v * k)) in RE by lra. apply Rabs_le_iff in RE.
  assert (R0 : (1 - 0.0000000015) * (v * k) <= r <= (1 + 0.0000000015) * (v * k)) by (rewrite U4 in RE; lra).
  assert (RR : 0.999989994 * (s / W) <= r <= 0.999990006 * (s / W)) by lra. rewrite Rmult_comm.
  assert (0.999989994 * (s / W) * W <= r * W <= 0.999990006 * (s / W) * W) by (split; apply Rmult_le_compat_r; lra).
  rewrite !Rmult_assoc, SW in H. lra.
Qed.
(** [span]: the span whose precision is reported; that of the array may differ a little. *)
Lemma float_next_d lm l B lo hi span w q : log2_64_ok lm -> ranges_d B lo hi l -> B <= 2 ^ 60 -> / 2 ^ 60 <= span -> (w <= 30)%nat ->
  Rabs (hi - lo - span) <= 0.0000001 * span -> reports_d span w q -> float_width_d lm l q = S w.
Proof.
  intros L HR HB HS HW HD [Fq Hq]. destruct (ranges_is_d _ _ _ _ HR) as (A1 & A2 & E1 & E2 & B1 & B2 & LH & _). unfold float_width_d.
  set (mx := fst (float_range_d l)) in *. set (mn := snd (float_range_d l)) in *. apply Rabs_le_iff in B1, B2, HD. assert (U3 : u64 = / 9007199254740992) by reflexivity.
  assert (P60 : 0 < / 2 ^ 60) by (apply Rinv_0_lt_compat, pow_lt; lra).
  destruct (dsub_R mx mn A1 A2) as [D1 D2]; [rewrite E1, E2; apply (fits_B_d B); auto; apply Rabs_le_iff; lra|].
  pose proof (rnd64_diff mx mn) as DE. rewrite <- D1, E1, E2, (Rabs_pos_eq (hi - lo)) in DE by lra. apply Rabs_le_iff in DE. clear D1.
  set (D := R64 (dsub mx mn)) in *.
  assert (DB : 0.99999989 * span <= D <= 1.00000011 * span) by (rewrite U3 in DE; lra).
  assert (PW : 1 <= 2 ^ w <= 2 ^ 30) by (split; [apply pow_R1_Rle; lra|apply pow2_le; lia]). set (W := 2 ^ w) in *.
  assert (Q0 : 0 < R64 q). { apply Rmult_lt_reg_l with W; lra. }
  set (c := D / R64 q / W). assert (CE : D / R64 q = W * c) by (unfold c; field; lra).
  assert (CB : 1.00000986 <= c <= 1.0000102).
  { unfold c. split; apply Rmult_le_reg_r with (W * R64 q); try (apply Rmult_lt_0_compat; lra);
      replace (D / R64 q / W * (W * R64 q)) with D by (field; lra); lra. }
  assert (CP : W * 1 <= W * c <= W * 2) by (split; apply Rmult_le_compat_l; lra).
  destruct (ddiv_R (dsub mx mn) q D2) as [Q1 Q2]; [lra| |].
  { fold D. rewrite CE, Rabs_pos_eq, big64_pow by lra. apply Rle_trans with (2 ^ 31); [simpl pow in *; lra|apply pow2_le; lia]. }
  fold D in Q1. rewrite CE in Q1. pose proof (rnd64_err (W * c)) as Er. rewrite <- Q1, (Rabs_pos_eq (W * c)) in Er by lra. apply Rabs_le_iff in Er.
  destruct (tiny_small (W * c)) as [_ T].
  { apply Rle_trans with 1; [|lra]. rewrite <- Rinv_1. apply Rinv_le; [lra|]. apply pow_R1_Rle. lra. }
  set (r := R64 (ddiv (dsub mx mn) q)) in *.
  rewrite (next_width_d lm (ddiv (dsub mx mn) q) w (r / W) L ltac:(lia) Q2).
  - lia.
  - fold r W. field. lra.
  - assert (RB : (1 - 0.000000002) * (W * c) <= r <= (1 + 0.000000002) * (W * c)) by (rewrite U3 in Er; lra).
    split; apply Rmult_le_reg_r with W; try lra; unfold Rdiv; rewrite Rmult_assoc, Rinv_l by lra.
    + assert (W * 1.00000986 <= W * c) by (apply Rmult_le_compat_l; lra). lra.
    + assert (W * c <= W * 1.0000102) by (apply Rmult_le_compat_l; lra). lra.
Qed.

(** One save and load of a float array. *)
Definition float_step_d (lo hi hi' e : R) (p : nat) (x y : f64) : Prop :=
  finite64 y /\ lo <= val64 y <= hi' /\ (val64 x = hi -> val64 y = hi') /\ (val64 x = lo -> val64 y = lo) /\ Rabs (val64 y - val64 x) <= (hi - lo) / (2 ^ p - 1) + e.
Lemma float_image1_d lm l q mul x : float_image_d lm l q mul x =
  dequantize_d (low (float_width_d lm l q) (float_code1_d (snd (float_range_d l)) (fst (float_range_d l)) mul x)) (f64_of_N (mask_u64 (float_width_d lm l q)))
    (dsub (fst (float_range_d l)) (snd (float_range_d l))) (snd (float_range_d l)).
Proof. unfold float_image_d, float_value_d, float_code_d, float_code1_d, dequantize_d. destruct (float_range_d l). reflexivity. Qed.
Lemma step_fine_d lm l q d B lo hi : data_rel_d lm (XFloat l q) d -> ranges_d B lo hi l -> B <= 2 ^ 60 -> lo < hi ->
  (float_width_d lm l q <= 30)%nat /\
  exists l' hi', d = XFloat l' (float_prec_d l (float_width_d lm l q)) /\ Rabs (hi' - hi) <= / 2 ^ 49 * B + / 2 ^ 99 /\
    (forall B', B + (/ 2 ^ 49 * B + / 2 ^ 99) <= B' -> ranges_d B' lo hi' l') /\
    Forall2 (float_step_d lo hi hi' (/ 2 ^ 48 * B + / 2 ^ 99) (float_width_d lm l q)) l l'.
Proof.
  intros R HR HB LH. destruct d as [| |l' q'|]; try contradiction. cbn [data_rel_d] in R. destruct R as (-> & mul & M & ->).
  pose proof (mask_d30 _ _ M) as W30. split; [exact W30|].
  assert (W : (1 <= float_width_d lm l q <= 30)%nat) by (split; [unfold float_width_d; lia|exact W30]).
  destruct (ranges_is_d _ _ _ _ HR) as (A1 & A2 & E1 & E2 & B1 & B2 & _ & FR). destruct (mask_R_d _ _ M W) as [M1 M2].
  exists (map (float_image_d lm l q mul) l), (top_d (snd (float_range_d l)) (fst (float_range_d l))). split; [reflexivity|].
  set (hi' := top_d _ _).
  assert (HI : Rabs (hi' - hi) <= / 2 ^ 49 * B + / 2 ^ 99).
  { destruct (decode_top_d (float_width_d lm l q) (snd (float_range_d l)) (fst (float_range_d l)) 0 B W) as (_ & _ & H); try (rewrite ?E1, ?E2; lra || assumption).
    - pose proof (steps_bounds_d _ W). lia.
    - rewrite E1 in H. exact H. }
  assert (S : forall x, In x l -> float_step_d lo hi hi' (/ 2 ^ 48 * B + / 2 ^ 99) (float_width_d lm l q) x (float_image_d lm l q mul x)).
  { intros x I. rewrite float_image1_d. unfold hi' in *. clear hi'. set (w := float_width_d lm l q) in *. set (mx := fst (float_range_d l)) in *. set (mn := snd (float_range_d l)) in *.
    destruct HR as (FF & FB & _). rewrite Forall_forall in FF, FR. specialize (FF x I). specialize (FR x I).
    destruct (float_R_d w mul mn mx x B W M1 M2 A2 A1 FF) as (Y1 & Y2 & Y3); try (rewrite ?E1, ?E2; assumption).
    destruct (fcode_R_d w mul mn mx x B W M1 M2 A2 A1 FF) as (L & Q & _); try (rewrite ?E1, ?E2; assumption).
    cbv zeta in *. rewrite L in *. set (c := float_code1_d mn mx mul x) in *.
    destruct (decode_top_d w mn mx c B W Q A2 A1) as (T1 & T2 & _); try (rewrite ?E1, ?E2; lra || assumption).
    destruct (code_ends_d w mul mn mx x B W M1 M2 A2 A1 FF) as [C1 C2]; try (rewrite ?E1, ?E2; assumption). fold c in C1, C2.
    rewrite E1, E2 in *. unfold float_step_d. change val64 with R64 in *. split; [exact Y1|]. split; [lra|].
    split; [auto|]. split; [|rewrite <- steps_pow; lra].
    intros V. rewrite (C2 V). pose proof B1 as B1'. pose proof B2 as B2'. apply Rabs_le_iff in B1', B2'.
    destruct (dsub_R mx mn A1 A2) as [_ D2]; [rewrite E1, E2; apply (fits_B_d B); auto; apply Rabs_le_iff; lra|].
    destruct (dequantize_low_d w 0 (dsub mx mn) mn B) as [_ Z]; [lia|exact D2|exact A2|rewrite E2; exact B1|exact HB| |].
    { left. apply N.mod_0_l, N.pow_nonzero. lia. }
    pose proof L as L0. rewrite (C2 V) in L0. cbv zeta in Z. rewrite L0 in Z. now rewrite Z, E2. }
  split; [exact HI|]. split; [|apply F2_map; exact S]. intros B' HB'. destruct HR as (FF & FB & [L1 L2] & [G1 G2]).
  apply Rabs_le_iff in B1, B2, HI. rewrite Forall_forall in FF.
  assert (0 <= / 2 ^ 49 * B + / 2 ^ 99) by lra.
  split; [|split; [|split]].
  - apply Forall_forall. intros y Y. apply in_map_iff in Y as (x & <- & I). apply (S x I).
  - apply Forall_forall. intros y Y. apply in_map_iff in Y as (x & <- & I). destruct (S x I) as (_ & H' & _). apply Rabs_le_iff. lra.
  - split.
    + apply in_map_iff in L1 as (x & V & I). destruct (S x I) as (_ & _ & _ & H' & _). rewrite <- (H' V). now apply in_map, in_map.
    + intros z Z. apply in_map_iff in Z as (y & <- & Y). apply in_map_iff in Y as (x & <- & I). apply (S x I).
  - split.
    + apply in_map_iff in G1 as (x & V & I). destruct (S x I) as (_ & _ & H' & _). rewrite <- (H' V). now apply in_map, in_map.
    + intros z Z. apply in_map_iff in Z as (y & <- & Y). apply in_map_iff in Y as (x & <- & I). apply (S x I).
Qed.

(** [n] saves and loads of an array. [h]: its greatest value, [h']: that of the result, [S]: a
    bound of the span at every save. *)
Definition float_fate_d (lo h h' S e : R) (p n : nat) (x y : f64) : Prop :=
  finite64 y /\ lo <= val64 y <= h' /\ (val64 x = h -> val64 y = h') /\ (val64 x = lo -> val64 y = lo) /\
  Rabs (val64 y - val64 x) <= 2 * S / (2 ^ p - 1) + INR n * e.
Lemma fate_cons_d lo h h1 h' S e p n x y z : 0 <= S -> h - lo <= S -> (1 <= p)%nat ->
  float_step_d lo h h1 e p x y -> float_fate_d lo h1 h' S e (Datatypes.S p) n y z -> float_fate_d lo h h' S e p (Datatypes.S n) x z.
Proof.
  intros S0 LH P (Y1 & Y2 & Y3 & Y4 & Y5) (Z1 & Z2 & Z3 & Z4 & Z5). split; [exact Z1|]. split; [exact Z2|]. split; [auto|]. split; [auto|].
  replace (val64 z - val64 x) with ((val64 z - val64 y) + (val64 y - val64 x)) by ring. eapply Rle_trans; [apply Rabs_triang|]. rewrite S_INR.
  assert (P2 : 2 ^ 1 <= 2 ^ p) by (apply pow2_le; lia). assert (I : 0 < / (2 ^ p - 1)) by (apply Rinv_0_lt_compat; lra).
  assert (H : 2 * S / (2 ^ Datatypes.S p - 1) <= S / (2 ^ p - 1)).
  { simpl (2 ^ Datatypes.S p). apply Rmult_le_reg_r with (2 * 2 ^ p - 1); [lra|]. unfold Rdiv. rewrite Rmult_assoc, Rinv_l by lra.
    apply Rmult_le_reg_l with (2 ^ p - 1); [lra|].
    replace ((2 ^ p - 1) * (S * / (2 ^ p - 1) * (2 * 2 ^ p - 1))) with (S * (2 * 2 ^ p - 1)) by (field; lra).
    replace ((2 ^ p - 1) * (2 * S * 1)) with (S * (2 * 2 ^ p - 1) - S) by ring. lra. }
  assert (H2 : (h - lo) / (2 ^ p - 1) <= S / (2 ^ p - 1)) by (apply Rmult_le_compat_r; lra).
  unfold Rdiv in *. lra.
Qed.
Definition drift_d (B : R) : R := / 2 ^ 47 * B + / 2 ^ 99.
Lemma drift_small B lo hi : Rabs lo <= B -> Rabs hi <= B -> / 2 ^ 59 <= hi - lo -> B <= 2 ^ 20 * (hi - lo) ->
  0 < drift_d B /\ drift_d B <= 0.00000001 * (hi - lo) /\ drift_d B <= 0.00000002 * B /\ 0 < B.
Proof.
  intros B1 B2 S R. apply Rabs_le_iff in B1, B2. assert (P59 : 0 < / 2 ^ 59) by (apply Rinv_0_lt_compat, pow_lt; lra).
  assert (B0 : 0 < B) by lra. unfold drift_d. assert (P99 : / 2 ^ 99 = / 2 ^ 59 * / 2 ^ 40) by (rewrite <- Rinv_mult, <- pow_add; reflexivity).
  assert (P40 : / 2 ^ 40 <= 0.000000001) by (simpl pow; lra). assert (I40 : 0 < / 2 ^ 40) by (apply Rinv_0_lt_compat, pow_lt; lra).
  assert (/ 2 ^ 59 * / 2 ^ 40 <= (hi - lo) * 0.000000001) by (apply Rmult_le_compat; lra).
  assert (I47 : 0 < / 2 ^ 47) by (apply Rinv_0_lt_compat, pow_lt; lra).
  assert (/ 2 ^ 47 * B <= / 2 ^ 47 * (2 ^ 20 * (hi - lo))) by (apply Rmult_le_compat_l; lra).
  assert (E : / 2 ^ 47 * (2 ^ 20 * (hi - lo)) = / 134217728 * (hi - lo)) by (simpl pow; lra).
  assert (0 < / 2 ^ 47 * B) by (apply Rmult_lt_0_compat; lra). assert (0 < / 2 ^ 59 * / 2 ^ 40) by (apply Rmult_lt_0_compat; lra).
  rewrite P99. repeat split; lra.
Qed.
Section Chain.
Variables (B lo hi : R).
Hypothesis HB : B <= 2 ^ 59.
Hypothesis Blo : Rabs lo <= B.
Hypothesis Bhi : Rabs hi <= B.
Hypothesis HS : / 2 ^ 59 <= hi - lo.
Hypothesis RT : B <= 2 ^ 20 * (hi - lo).
Let e := drift_d B.
Let S1 := 1.0001 * (hi - lo).
Lemma step_chain_d j lm l q d h : (j <= 31)%nat -> data_rel_d lm (XFloat l q) d -> ranges_d (B + INR j * e) lo h l -> Rabs (h - hi) <= INR j * e ->
  (float_width_d lm l q <= 30)%nat /\ h - lo <= S1 /\
  exists l' h1, d = XFloat l' (float_prec_d l (float_width_d lm l q)) /\ Rabs (h1 - h) <= e /\ ranges_d (B + INR (S j) * e) lo h1 l' /\
    Forall2 (float_step_d lo h h1 e (float_width_d lm l q)) l l'.
Proof.
  intros J R HR HH. destruct (drift_small B lo hi Blo Bhi HS RT) as (E0 & E1 & E2 & B0). fold e in E0, E1, E2.
  assert (JR : 0 <= INR j <= 31). { split; [apply pos_INR|]. replace 31 with (INR 31) by (cbn; lra). now apply le_INR. }
  assert (JE : 0 <= INR j * e <= 31 * e) by (split; [apply Rmult_le_pos|apply Rmult_le_compat_r]; lra).
  assert (P59 : 0 < / 2 ^ 59) by (apply Rinv_0_lt_compat, pow_lt; lra). apply Rabs_le_iff in HH.
  assert (P60 : 2 ^ 60 = 2 * 2 ^ 59) by (simpl pow; lra).
  set (B1 := B + INR j * e) in *. assert (B12 : B1 <= 2 * B) by (unfold B1; lra).
  assert (EB : / 2 ^ 48 * B1 + / 2 ^ 99 <= e).
  { unfold e, drift_d. apply Rplus_le_compat_r. replace (/ 2 ^ 47) with (/ 2 ^ 48 * 2) by (simpl pow; lra). rewrite Rmult_assoc. apply Rmult_le_compat_l; [left; apply Rinv_0_lt_compat, pow_lt|]; lra. }
  assert (EB' : / 2 ^ 49 * B1 + / 2 ^ 99 <= e).
  { eapply Rle_trans; [|exact EB]. apply Rplus_le_compat_r, Rmult_le_compat_r; [unfold B1; lra|]. simpl pow. lra. }
  destruct (step_fine_d lm l q d B1 lo h R HR ltac:(lra) ltac:(lra)) as (W & l' & h1 & -> & H1 & H2 & F).
  split; [exact W|]. split; [unfold S1; lra|]. exists l', h1. split; [reflexivity|]. split; [lra|]. split.
  - apply H2. rewrite S_INR. unfold B1 in *. lra.
  - eapply F2_impl; [|exact F]. intros x y (X1 & X2 & X3 & X4 & X5). repeat split; try assumption; try apply X2. lra.
Qed.
Lemma float_run_d n : forall j w l q d h sp, data_chain_d n (XFloat l q) d -> (j <= w)%nat -> (w <= 30)%nat ->
  ranges_d (B + INR j * e) lo h l -> Rabs (h - hi) <= INR j * e -> Rabs (h - lo - sp) <= e -> reports_d sp w q ->
  exists l' q' h' sp', d = XFloat l' q' /\ (w + n <= 30)%nat /\ reports_d sp' (w + n) q' /\ Rabs (h' - hi) <= INR (j + n) * e /\ Rabs (h' - lo - sp') <= e /\
    Forall2 (float_fate_d lo h h' S1 e (S w) n) l l'.
Proof.
  destruct (drift_small B lo hi Blo Bhi HS RT) as (E0 & E1 & E2 & B0). fold e in E0, E1, E2.
  assert (P59 : 0 < / 2 ^ 59) by (apply Rinv_0_lt_compat, pow_lt; lra).
  assert (P59' : / 2 ^ 59 = 2 * / 2 ^ 60).
  { assert (D : 2 ^ 60 = 2 * 2 ^ 59) by (simpl pow; lra). rewrite D, Rinv_mult. lra. }
  induction n as [|n IH]; intros j w l q d h sp C J W HR HH HP RQ.
  - inversion C; subst. exists l, q, h, sp. rewrite !Nat.add_0_r. split; [reflexivity|]. split; [exact W|]. split; [exact RQ|]. split; [exact HH|]. split; [exact HP|].
    assert (JR : 0 <= INR j <= 31). { split; [apply pos_INR|]. replace 31 with (INR 31) by (cbn; lra). apply le_INR. lia. }
    assert (JE : 0 <= INR j * e <= 31 * e) by (split; [apply Rmult_le_pos|apply Rmult_le_compat_r]; lra).
    destruct (ranges_is_d _ _ _ _ HR) as (_ & _ & _ & _ & _ & _ & _ & FR). destruct HR as (FF & _).
    assert (I : forall x, In x l -> float_fate_d lo h h S1 e (S w) 0 x x).
    { intros x X. rewrite Forall_forall in FF, FR. specialize (FF x X). specialize (FR x X). split; [exact FF|]. split; [exact FR|].
      split; [auto|]. split; [auto|]. rewrite Rminus_diag_eq, Rabs_R0 by reflexivity. cbn [INR]. rewrite Rmult_0_l, Rplus_0_r.
      assert (2 ^ 1 <= 2 ^ S w) by (apply pow2_le; lia). left. apply Rdiv_lt_0_compat; unfold S1; lra. }
    clear - I. induction l as [|x l IHl]; constructor; [apply I; now left|apply IHl; intros; apply I; now right].
  - inversion C as [|n' lm d0 d1 d2 L R K]; subst.
    destruct (step_chain_d j lm l q d1 h ltac:(lia) R HR HH) as (W1 & HS1 & l1 & h1 & -> & D1 & HR1 & F).
    assert (JR : 0 <= INR j <= 31). { split; [apply pos_INR|]. replace 31 with (INR 31) by (cbn; lra). apply le_INR. lia. }
    assert (JE : 0 <= INR j * e <= 31 * e) by (split; [apply Rmult_le_pos|apply Rmult_le_compat_r]; lra).
    pose proof HH as HH'. pose proof HP as HP'. pose proof D1 as D1'. apply Rabs_le_iff in HH', HP', D1'.
    assert (P60 : 2 ^ 60 = 2 * 2 ^ 59) by (simpl pow; lra).
    assert (B12 : B + INR j * e <= 2 ^ 60) by lra.
    assert (E : float_width_d lm l q = S w).
    { apply (float_next_d lm l (B + INR j * e) lo h sp w q L HR B12); [lra|exact W| |exact RQ]. eapply Rle_trans; [exact HP|]. lra. }
    rewrite E in *.
    destruct (IH (S j) (S w) l1 _ d h1 (h - lo) K ltac:(lia) W1 HR1) as (l' & q' & h' & sp' & -> & W' & RQ' & DH & DS & F').
    + rewrite S_INR. apply Rabs_le_iff. lra.
    + apply Rabs_le_iff. lra.
    + apply (float_prec_R_d l (B + INR j * e)); auto. lra.
    + exists l', q', h', sp'. split; [reflexivity|]. replace (w + S n)%nat with (S w + n)%nat by lia. replace (j + S n)%nat with (S j + n)%nat by lia.
      split; [exact W'|]. split; [exact RQ'|]. split; [exact DH|]. split; [exact DS|].
      eapply F2_comp; [|exact F|exact F']. intros x y z X Y. eapply fate_cons_d; [| | |exact X|exact Y]; [unfold S1; lra|exact HS1|lia].
Qed.
Lemma float_chain_d n l q d : data_chain_d (S n) (XFloat l q) d -> ranges_d B lo hi l ->
  exists lm l' q' h' sp', log2_64_ok lm /\ d = XFloat l' q' /\ (float_width_d lm l q + n <= 30)%nat /\
    reports_d sp' (float_width_d lm l q + n) q' /\ Rabs (h' - hi) <= INR (S n) * e /\ Rabs (h' - lo - sp') <= e /\
    Forall2 (float_fate_d lo hi h' S1 e (float_width_d lm l q) (S n)) l l'.
Proof.
  intros C HR. inversion C as [|n' lm d0 d1 d2 L R K]; subst. exists lm.
  destruct (drift_small B lo hi Blo Bhi HS RT) as (E0 & E1 & E2 & B0). fold e in E0, E1, E2.
  assert (P59 : 0 < / 2 ^ 59) by (apply Rinv_0_lt_compat, pow_lt; lra).
  assert (HR0 : ranges_d (B + INR 0 * e) lo hi l) by (cbn [INR]; rewrite Rmult_0_l, Rplus_0_r; exact HR).
  destruct (step_chain_d 0 lm l q d1 hi ltac:(lia) R HR0) as (W1 & HS1 & l1 & h1 & -> & D1 & HR1 & F).
  { cbn [INR]. rewrite Rminus_diag_eq, Rabs_R0 by reflexivity. lra. }
  assert (P60 : 2 ^ 59 <= 2 ^ 60) by (apply pow2_le; lia).
  assert (P60' : / 2 ^ 60 <= / 2 ^ 59) by (apply Rinv_le; [apply pow_lt; lra|exact P60]).
  assert (W : (1 <= float_width_d lm l q)%nat) by (unfold float_width_d; lia).
  destruct (float_run_d n 1 (float_width_d lm l q) l1 _ d h1 (hi - lo) K W W1 HR1) as (l' & q' & h' & sp' & -> & W' & RQ' & DH & DS & F').
  - cbn [INR]. lra.
  - apply Rabs_le_iff in D1. apply Rabs_le_iff. lra.
  - apply (float_prec_R_d l B); auto; lra.
  - exists l', q', h', sp'. split; [exact L|]. split; [reflexivity|]. split; [exact W'|]. split; [exact RQ'|]. split; [exact DH|]. split; [exact DS|].
    eapply F2_comp; [|exact F|exact F']. intros x y z X Y. eapply fate_cons_d; [| | |exact X|exact Y]; [unfold S1; lra|exact HS1|exact W].
Qed.
End Chain.
