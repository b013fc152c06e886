(** Lemmas for C81 in double precision: floats written with 33 to 61 bits by a release build. *)
From Coq Require Import List NArith ZArith Arith Lia Bool Reals Lra ZifyN ZifyNat ZifyBool.
From Flocq Require Import Core IEEE754.BinarySingleNaN.
From Verif Require Import Base UnalignedRW UnalignedRW_proofs BitIOSpec Floats Floats_proofs ValueSpec Codec_proofs FloatReal_proofs NormalReal_proofs VertexReal_proofs CustomReal_proofs Quant_proofs
  Double DoubleSpec DoubleSave DoubleValueSpec Double2_proofs DCodec_proofs DQuant_proofs DVertex_proofs DCustom_proofs.
Import ListNotations.
Local Open Scope R_scope.

Lemma decode_wide_d p (mn mx : f64) (q : N) (B : R) : (33 <= p <= 61)%nat -> (q <= 2 ^ N.of_nat (p - 32))%N -> fin mn -> fin mx ->
  R64 mn <= R64 mx -> Rabs (R64 mn) <= B -> Rabs (R64 mx) <= B -> B <= 2 ^ 60 ->
  let y := dequantize_d q (f64_of_N (mask_u64 p)) (dsub mx mn) mn in
  fin y /\ R64 mn <= R64 y <= R64 mn + / 2 ^ 29 * B + / 2 ^ 99.
Proof.
  intros HP Hq Fn Fx Hab Bn Bx HB y. unfold y, dequantize_d. clear y.
  set (a := R64 mn) in *. set (b := R64 mx) in *.
  apply Rabs_le_iff in Bn, Bx. assert (B0 : 0 <= B) by lra.
  assert (U4 : u64 = / 9007199254740992) by reflexivity.
  assert (WW : fin (ddiv (f64_of_N q) (f64_of_N (mask_u64 p))) /\ 0 <= R64 (ddiv (f64_of_N q) (f64_of_N (mask_u64 p))) <= / 2 ^ 31).
  { assert (P1 : (2 ^ N.of_nat p = 2 ^ 32 * 2 ^ N.of_nat (p - 32))%N) by (rewrite <- N.pow_add_r; f_equal; lia).
    assert (P2 : (2 ^ N.of_nat (p - 32) <= 2 ^ 29)%N) by (apply N.pow_le_mono_r; lia).
    assert (P3 : (2 ^ 1 <= 2 ^ N.of_nat (p - 32))%N) by (apply N.pow_le_mono_r; lia).
    unfold mask_u64. rewrite P1. set (k := (2 ^ N.of_nat (p - 32))%N) in *.
    change (2 ^ 32)%N with 4294967296%N in *. change (2 ^ 29)%N with 536870912%N in *. change (2 ^ 1)%N with 2%N in *.
    destruct (quot64 q (4294967296 * k - 1)) as (R1 & R2 & R3); try lia.
    split; [exact R1|]. split; [lra|].
    assert (RB : ratio q (4294967296 * k - 1) <= / 2 ^ 31 - / 2 ^ 33).
    { unfold ratio. assert (K : 2 <= IZR (Z.of_N k)) by (apply IZR_le; lia).
      assert (Q : IZR (Z.of_N q) <= IZR (Z.of_N k)) by (apply IZR_le; lia).
      replace (Z.of_N (4294967296 * k - 1)) with (4294967296 * Z.of_N k - 1)%Z by lia. rewrite minus_IZR, mult_IZR.
      apply Rmult_le_reg_r with (4294967296 * IZR (Z.of_N k) - 1); [lra|].
      unfold Rdiv. rewrite Rmult_assoc, Rinv_l by lra. simpl pow. lra. }
    apply Rabs_le_iff in R3. rewrite U4 in R3. simpl pow in *. lra. }
  destruct WW as [W2 W3].
  set (w := ddiv (f64_of_N q) (f64_of_N (mask_u64 p))) in *. set (wr := R64 w) in *.
  assert (I31 : / 2 ^ 31 = / 2147483648) by (simpl pow; lra). rewrite I31 in W3.
  destruct (dsub_R mx mn Fx Fn) as [S1 S2].
  { apply (fits64 B); auto. fold a b. apply Rabs_le_iff. lra. }
  pose proof (rnd64_sub mx mn) as SE. rewrite <- S1 in SE. fold a b in SE, S1.
  set (s := R64 (dsub mx mn)) in *. rewrite (Rabs_pos_eq (b - a)) in SE by lra.
  assert (s0 : 0 <= s) by (rewrite S1, <- rnd64_0; apply rnd64_le; lra).
  apply Rabs_le_iff in SE. assert (SB : s <= 2.1 * B) by (rewrite U4 in SE; lra).
  assert (WS : 0 <= wr * s <= / 2147483648 * s).
  { split; [apply Rmult_le_pos; lra|]. apply Rmult_le_compat_r; lra. }
  destruct (dmul_R w (dsub mx mn) W2 S2) as [G1 G2]; [apply (fits64 B); auto; fold wr s; apply Rabs_le_iff; lra|].
  fold wr s in G1. set (g := R64 (dmul w (dsub mx mn))) in *.
  assert (g0 : 0 <= g) by (rewrite G1, <- rnd64_0; apply rnd64_le; lra).
  pose proof (rnd64_err (wr * s)) as GE. rewrite <- G1, (Rabs_pos_eq (wr * s)) in GE by lra. apply Rabs_le_iff in GE.
  destruct tiny_100 as [_ [T3 T4]].
  assert (E101 : / 2 ^ 101 = / 2 ^ 99 / 4) by (replace 101%nat with (2 + 99)%nat by reflexivity; rewrite pow_add; assert (0 < 2 ^ 99) by (apply pow_lt; lra); simpl (2 ^ 2); field; lra).
  assert (E99 : 0 < / 2 ^ 99 <= / 1024).
  { split; [apply Rinv_0_lt_compat, pow_lt; lra|]. replace 1024 with (2 ^ 10) by (simpl pow; lra).
    apply Rinv_le_contravar; [apply pow_lt; lra|]. apply pow2_le. lia. }
  rewrite E101 in T4. set (eps := / 2 ^ 99) in *.
  assert (u64 * (wr * s) <= u64 * (/ 2147483648 * s)) by (apply Rmult_le_compat_l; [rewrite U4|]; lra).
  assert (gU : g <= / 2147483648 * (2.2 * B) + eps / 4) by (rewrite U4 in *; lra).
  assert (EB : eps / 4 <= 2 ^ 60) by (apply Rle_trans with 1; [lra|]; change 1 with (2 ^ 0); apply pow2_le; lia).
  assert (FitG : forall x, Rabs x <= 8 * 2 ^ 60 -> Rabs x <= big64) by (intros x Hx; apply (fits64 (2 ^ 60)); [lra|exact Hx]).
  destruct (dadd_R (dmul w (dsub mx mn)) mn G2 Fn) as [Y1 Y2].
  { apply FitG. fold g a. apply Rabs_le_iff. lra. }
  fold g a in Y1. set (z := R64 (dadd (dmul w (dsub mx mn)) mn)) in *.
  pose proof (rnd64_sum (dmul w (dsub mx mn)) mn) as YE. fold g a in YE. rewrite <- Y1 in YE.
  assert (GA : Rabs (g + a) <= 1.1 * B + eps / 4) by (apply Rabs_le_iff; lra).
  assert (YE' : Rabs (z - (g + a)) <= u64 * (1.1 * B + eps / 4)).
  { eapply Rle_trans; [exact YE|]. apply Rmult_le_compat_l; [rewrite U4; lra|exact GA]. }
  apply Rabs_le_iff in YE'.
  assert (az : a <= z).
  { rewrite Y1. unfold a at 1. rewrite <- (rnd64_R64 mn). fold a. apply rnd64_le. lra. }
  assert (E29 : / 2 ^ 29 = / 536870912) by (simpl pow; lra). rewrite E29.
  split; [exact Y2|]. split; [exact az|]. rewrite U4 in *. lra.
Qed.

(** The mask of a release build for 33 to 61 bits. *)
Lemma mask_wraps_d {E} w mul : (33 <= w <= 61)%nat -> mask_f64 (E:=E) false w = Ok mul ->
  mul = f64_of_Z (2 ^ Z.of_nat (w - 32) - 1).
Proof.
  intros W. replace w with (32 + (w - 32))%nat by lia. set (k := (w - 32)%nat). assert (K : (k <= 29)%nat) by lia. clearbody k. clear W w.
  replace (32 + k - 32)%nat with k by lia.
  unfold mask_f64, mask_i32. replace ((32 + k <? 32)%nat) with false by (symmetry; apply Nat.ltb_ge; lia).
  replace ((32 + k) mod 32)%nat with k by (rewrite <- (Nat.mul_1_l 32) at 1; rewrite Nat.add_comm, Nat.mod_add, Nat.mod_small; lia).
  assert (P : (1 <= 2 ^ Z.of_nat k <= 2 ^ 29)%Z).
  { split; [change 1%Z with (2 ^ 0)%Z|]; apply Z.pow_le_mono_r; lia. }
  change (2 ^ 29)%Z with 536870912%Z in P.
  replace (wrap_i32 (2 ^ Z.of_nat k)) with (2 ^ Z.of_nat k)%Z.
  2: { unfold wrap_i32. set (z := (2 ^ Z.of_nat k)%Z) in *. change (2 ^ 32)%Z with 4294967296%Z. change (2 ^ 31)%Z with 2147483648%Z.
       rewrite Z.mod_small by lia. lia. }
  set (z := (2 ^ Z.of_nat k)%Z) in *. cbn [bind]. change (- 2 ^ 31)%Z with (-2147483648)%Z.
  replace (-2147483648 <=? z - 1)%Z with true by (symmetry; apply Z.leb_le; lia). cbn [bind]. congruence.
Qed.
Lemma wide_code_d {E} w mul (mn mx x : f64) B : (33 <= w <= 61)%nat -> mask_f64 (E:=E) false w = Ok mul ->
  fin mn -> fin mx -> fin x -> R64 mn < R64 mx -> R64 mn <= R64 x <= R64 mx -> Rabs (R64 mn) <= B -> Rabs (R64 mx) <= B -> B <= 2 ^ 60 ->
  (low w (float_code1_d mn mx mul x) <= 2 ^ N.of_nat (w - 32))%N.
Proof.
  intros HW M Fn Fx Fv Hab Hv Bn Bx HB. rewrite (mask_wraps_d w mul HW M). clear M mul.
  set (a := R64 mn) in *. set (b := R64 mx) in *. set (v := R64 x) in *. apply Rabs_le_iff in Bn, Bx.
  destruct (dsub_R mx mn Fx Fn) as [D1 D2]; [apply (fits_B_d B); auto; apply Rabs_le_iff; fold a b; lra|].
  fold a b in D1. set (D := R64 (dsub mx mn)) in *.
  destruct (dsub_R x mn Fv Fn) as [V1 V2]; [apply (fits_B_d B); auto; apply Rabs_le_iff; fold a v; lra|].
  fold a v in V1. set (d := R64 (dsub x mn)) in *.
  assert (d0 : 0 <= d) by (rewrite V1, <- rnd64_0; apply rnd64_le; lra).
  assert (dD : d <= D) by (rewrite V1, D1; apply rnd64_le; lra).
  pose proof (rnd64_diff mx mn) as DE. fold a b in DE. rewrite <- D1, (Rabs_pos_eq (b - a)) in DE by lra.
  assert (Dp : 0.9 * (b - a) <= D) by (apply Rabs_le_iff in DE; unfold u64 in DE; lra).
  assert (Q : 0 <= d / D <= 1) by (apply div_01; lra).
  destruct (ddiv_R (dsub x mn) (dsub mx mn) V2) as [T1 T2]; [fold D; lra|fold d D; now apply fits1_d|].
  fold d D in T1. set (t := R64 (ddiv (dsub x mn) (dsub mx mn))) in *.
  assert (t01 : 0 <= t <= 1) by (rewrite T1; apply rnd64_between; [apply rnd64_0|apply rnd64_1|exact Q]).
  assert (K : (1 <= w - 32 <= 29)%nat) by lia. unfold low, float_code1_d.
  eapply N.le_trans; [apply N.mod_le, N.pow_nonzero; lia|]. set (k := (w - 32)%nat) in *. clearbody k.
  assert (P : 1 <= IZR (2 ^ Z.of_nat k) <= 536870912).
  { split; [change 1 with (IZR (2 ^ 0))|change 536870912 with (IZR (2 ^ 29))]; apply IZR_le, Z.pow_le_mono_r; lia. }
  assert (BP : bpow radix2 (Z.of_nat k) = IZR (2 ^ Z.of_nat k)) by (rewrite <- (IZR_Zpower radix2) by lia; reflexivity).
  assert (G : 1073741824 <= big64).
  { rewrite big64_pow. replace 1073741824 with (2 ^ 30) by (simpl pow; lra). apply pow2_le. lia. }
  destruct (f64_of_Z_R (2 ^ Z.of_nat k - 1)) as [M1 M2].
  { rewrite minus_IZR, Rabs_pos_eq by lra. lra. }
  assert (M3 : 0 <= R64 (f64_of_Z (2 ^ Z.of_nat k - 1)) <= IZR (2 ^ Z.of_nat k)).
  { rewrite M1, minus_IZR. split; [rewrite <- rnd64_0; apply rnd64_le; lra|].
    rewrite <- BP at 2. eapply Rle_trans; [apply Rle_abs|]. apply rnd64_abs_le_bpow; [lia|]. rewrite BP, Rabs_pos_eq; lra. }
  set (mul := f64_of_Z (2 ^ Z.of_nat k - 1)) in *. clearbody mul.
  assert (TM : 0 <= t * R64 mul <= IZR (2 ^ Z.of_nat k)).
  { split; [apply Rmult_le_pos; lra|]. apply Rle_trans with (1 * R64 mul); [apply Rmult_le_compat_r; lra|lra]. }
  destruct (dmul_R _ mul T2 M2) as [C1 C2].
  { fold t. rewrite Rabs_pos_eq by lra. lra. }
  fold t in C1. set (c := dmul (ddiv (dsub x mn) (dsub mx mn)) mul) in *.
  assert (C3 : 0 <= R64 c <= IZR (2 ^ Z.of_nat k)).
  { rewrite C1. split; [rewrite <- rnd64_0; apply rnd64_le; lra|].
    rewrite <- BP. eapply Rle_trans; [apply Rle_abs|]. apply rnd64_abs_le_bpow; [lia|]. rewrite BP, Rabs_pos_eq; lra. }
  assert (C4 : (Z.of_N (u64_of_f64 c) <= 2 ^ Z.of_nat k)%Z).
  { rewrite u64_floor_d; auto; [|lra|apply Rle_lt_trans with 536870912; [lra|apply IZR_lt; lia]]. apply le_IZR. eapply Rle_trans; [apply Zfloor_lb|apply C3]. }
  apply N2Z.inj_le. rewrite N2Z.inj_pow, nat_N_Z. exact C4.
Qed.
