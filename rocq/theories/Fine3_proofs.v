(** Lemmas for C81: floats written with 33 to 61 bits by a release build. *)
From Coq Require Import List NArith ZArith Arith Lia Bool Reals Lra ZifyN ZifyNat ZifyBool.
From Flocq Require Import Core IEEE754.BinarySingleNaN.
From Verif Require Import Base UnalignedRW UnalignedRW_proofs BitIOSpec Floats Floats_proofs ValueSpec Codec_proofs FloatReal_proofs NormalReal_proofs VertexReal_proofs CustomReal_proofs Quant_proofs Double2_proofs.
Import ListNotations.
Local Open Scope R_scope.

Lemma decode_wide p (mn mx : f32) (q : N) (B : R) : (33 <= p <= 61)%nat -> (q <= 2 ^ N.of_nat (p - 32))%N -> fin mn -> fin mx ->
  R32 mn <= R32 mx -> Rabs (R32 mn) <= B -> Rabs (R32 mx) <= B -> B <= 2 ^ 60 ->
  let y := float_value1 mn mx p q in
  fin y /\ R32 mn <= R32 y <= R32 mn + / 2 ^ 22 * B + / 2 ^ 99.
Proof.
  intros HP Hq Fn Fx Hab Bn Bx HB y. unfold y, float_value1. clear y.
  destruct (f64_of_f32_correct mn Fn) as (N1 & N2 & _). destruct (f64_of_f32_correct mx Fx) as (X1 & X2 & _).
  set (dn := f64_of_f32 mn) in *. set (dx := f64_of_f32 mx) in *.
  set (a := R32 mn) in *. set (b := R32 mx) in *.
  apply Rabs_le_iff in Bn, Bx. assert (B0 : 0 <= B) by lra.
  assert (U4 : u64 = / 9007199254740992) by reflexivity. assert (U3 : u32 = / 16777216) by reflexivity.
  assert (WW : fin (ddiv (f64_of_N q) (f64_of_N (mask_u64 p))) /\ 0 <= R64 (ddiv (f64_of_N q) (f64_of_N (mask_u64 p))) <= / 2 ^ 31).
  { assert (P1 : (2 ^ N.of_nat p = 2 ^ 32 * 2 ^ N.of_nat (p - 32))%N) by (rewrite <- N.pow_add_r; f_equal; lia).
    assert (P2 : (2 ^ N.of_nat (p - 32) <= 2 ^ 29)%N) by (apply N.pow_le_mono_r; lia).
    assert (P3 : (2 ^ 1 <= 2 ^ N.of_nat (p - 32))%N) by (apply N.pow_le_mono_r; lia).
    unfold mask_u64. rewrite P1. set (k := (2 ^ N.of_nat (p - 32))%N) in *.
    change (2 ^ 32)%N with 4294967296%N in *. change (2 ^ 29)%N with 536870912%N in *. change (2 ^ 1)%N with 2%N in *.
    destruct (quot64 q (4294967296 * k - 1)) as (R1 & R2 & R3); try lia.
    split; [exact R1|]. split; [lra|].
    assert (RB : ratio q (4294967296 * k - 1) <= / 2 ^ 31 - / 2 ^ 33).
    { unfold ratio. assert (K : 2 <= IZR (Z.of_N k)) by (apply IZR_le; lia).
      assert (Q : IZR (Z.of_N q) <= IZR (Z.of_N k)) by (apply IZR_le; lia).
      replace (Z.of_N (4294967296 * k - 1)) with (4294967296 * Z.of_N k - 1)%Z by lia. rewrite minus_IZR, mult_IZR.
      apply Rmult_le_reg_r with (4294967296 * IZR (Z.of_N k) - 1); [lra|].
      unfold Rdiv. rewrite Rmult_assoc, Rinv_l by lra. simpl pow. lra. }
    apply Rabs_le_iff in R3. rewrite U4 in R3. simpl pow in *. lra. }
  destruct WW as [W2 W3].
  set (w := ddiv (f64_of_N q) (f64_of_N (mask_u64 p))) in *. set (wr := R64 w) in *.
  assert (I31 : / 2 ^ 31 = / 2147483648) by (simpl pow; lra). rewrite I31 in W3.
  destruct (dsub_R dx dn X2 N2) as [S1 S2].
  { apply (fits64 B); auto. rewrite X1, N1. apply Rabs_le_iff. lra. }
  pose proof (rnd64_sub dx dn) as SE. rewrite <- S1 in SE. rewrite X1, N1 in SE, S1.
  set (s := R64 (dsub dx dn)) in *. rewrite (Rabs_pos_eq (b - a)) in SE by lra.
  assert (s0 : 0 <= s) by (rewrite S1, <- rnd64_0; apply rnd64_le; lra).
  apply Rabs_le_iff in SE. assert (SB : s <= 2.1 * B) by (rewrite U4 in SE; lra).
  assert (WS : 0 <= wr * s <= / 2147483648 * s).
  { split; [apply Rmult_le_pos; lra|]. apply Rmult_le_compat_r; lra. }
  destruct (dmul_R w (dsub dx dn) W2 S2) as [G1 G2]; [apply (fits64 B); auto; fold wr s; apply Rabs_le_iff; lra|].
  fold wr s in G1. set (g := R64 (dmul w (dsub dx dn))) in *.
  assert (g0 : 0 <= g) by (rewrite G1, <- rnd64_0; apply rnd64_le; lra).
  pose proof (rnd64_err (wr * s)) as GE. rewrite <- G1, (Rabs_pos_eq (wr * s)) in GE by lra. apply Rabs_le_iff in GE.
  destruct tiny_100 as [[T1 T2] [T3 T4]].
  assert (E101 : / 2 ^ 101 = / 2 ^ 99 / 4) by (replace 101%nat with (2 + 99)%nat by reflexivity; rewrite pow_add; assert (0 < 2 ^ 99) by (apply pow_lt; lra); simpl (2 ^ 2); field; lra).
  assert (E100 : / 2 ^ 100 = / 2 ^ 99 / 2) by (replace 100%nat with (1 + 99)%nat by reflexivity; rewrite pow_add; assert (0 < 2 ^ 99) by (apply pow_lt; lra); simpl (2 ^ 1); field; lra).
  assert (E99 : 0 < / 2 ^ 99 <= / 1024).
  { split; [apply Rinv_0_lt_compat, pow_lt; lra|]. replace 1024 with (2 ^ 10) by (simpl pow; lra).
    apply Rinv_le_contravar; [apply pow_lt; lra|]. apply pow2_le. lia. }
  rewrite E100 in T2. rewrite E101 in T4. set (eps := / 2 ^ 99) in *.
  assert (u64 * (wr * s) <= u64 * (/ 2147483648 * s)) by (apply Rmult_le_compat_l; [rewrite U4|]; lra).
  assert (gU : g <= / 1073741824 * (2.1 * B) + eps / 4) by (rewrite U4 in *; lra).
  assert (EB : eps / 4 <= 2 ^ 60) by (apply Rle_trans with 1; [lra|]; change 1 with (2 ^ 0); apply pow2_le; lia).
  assert (FitG : forall x, Rabs x <= 8 * 2 ^ 60 -> Rabs x <= big64) by (intros x Hx; apply (fits64 (2 ^ 60)); [lra|exact Hx]).
  destruct (dadd_R (dmul w (dsub dx dn)) dn G2 N2) as [Y1 Y2].
  { apply FitG. fold g. rewrite N1. apply Rabs_le_iff. lra. }
  fold g in Y1. rewrite N1 in Y1. set (z := R64 (dadd (dmul w (dsub dx dn)) dn)) in *.
  pose proof (rnd64_sum (dmul w (dsub dx dn)) dn) as YE. fold g in YE. rewrite N1, <- Y1 in YE.
  assert (GA : Rabs (g + a) <= 1.1 * B + eps / 4) by (apply Rabs_le_iff; lra).
  assert (YE' : Rabs (z - (g + a)) <= u64 * (1.1 * B + eps / 4)).
  { eapply Rle_trans; [exact YE|]. apply Rmult_le_compat_l; [rewrite U4; lra|exact GA]. }
  apply Rabs_le_iff in YE'.
  assert (az : a <= z).
  { rewrite Y1. unfold a at 1. rewrite <- (rnd64_R32 mn Fn). fold a. apply rnd64_le. lra. }
  assert (ZB : Rabs z <= 1.2 * B + eps / 3) by (apply Rabs_le_iff; rewrite U4 in *; lra).
  assert (ZF : Rabs z <= big32).
  { eapply Rle_trans; [exact ZB|]. pose proof big32_ge as G.
    change (2 ^ 100)%Z with 1267650600228229401496703205376%Z in G. simpl pow in HB. lra. }
  destruct (f32_of_f64_R _ Y2 ZF) as [F1 F2]. fold z in F1.
  set (y := R32 (f32_of_f64 (dadd (dmul w (dsub dx dn)) dn))) in *.
  pose proof (rnd32_err z) as FE. rewrite <- F1 in FE.
  assert (FE' : Rabs (y - z) <= u32 * (1.2 * B + eps / 3) + tiny32).
  { eapply Rle_trans; [exact FE|]. apply Rplus_le_compat_r. apply Rmult_le_compat_l; [rewrite U3; lra|exact ZB]. }
  apply Rabs_le_iff in FE'.
  assert (E22 : / 2 ^ 22 = 4 * u32) by (unfold u32; simpl pow; lra). rewrite E22.
  split; [exact F2|]. split.
  - rewrite F1. apply Rle_trans with (rnd32 a); [right; symmetry; apply rnd32_R32|]. now apply rnd32_le.
  - rewrite U4, U3 in *. lra.
Qed.

(** The mask of a release build for 33 to 61 bits. *)
Lemma mask_wraps {E} w mul : (33 <= w <= 61)%nat -> mask_f32 (E:=E) false w = Ok mul ->
  mul = f32_of_Z (2 ^ Z.of_nat (w - 32) - 1).
Proof.
  intros W. replace w with (32 + (w - 32))%nat by lia. set (k := (w - 32)%nat). assert (K : (k <= 29)%nat) by lia. clearbody k. clear W w.
  replace (32 + k - 32)%nat with k by lia.
  unfold mask_f32, mask_i32. replace ((32 + k <? 32)%nat) with false by (symmetry; apply Nat.ltb_ge; lia).
  replace ((32 + k) mod 32)%nat with k by (rewrite <- (Nat.mul_1_l 32) at 1; rewrite Nat.add_comm, Nat.mod_add, Nat.mod_small; lia).
  assert (P : (1 <= 2 ^ Z.of_nat k <= 2 ^ 29)%Z).
  { split; [change 1%Z with (2 ^ 0)%Z|]; apply Z.pow_le_mono_r; lia. }
  change (2 ^ 29)%Z with 536870912%Z in P.
  replace (wrap_i32 (2 ^ Z.of_nat k)) with (2 ^ Z.of_nat k)%Z.
  2: { unfold wrap_i32. set (z := (2 ^ Z.of_nat k)%Z) in *. change (2 ^ 32)%Z with 4294967296%Z. change (2 ^ 31)%Z with 2147483648%Z.
       rewrite Z.mod_small by lia. lia. }
  set (z := (2 ^ Z.of_nat k)%Z) in *. cbn [bind]. change (- 2 ^ 31)%Z with (-2147483648)%Z.
  replace (-2147483648 <=? z - 1)%Z with true by (symmetry; apply Z.leb_le; lia). cbn [bind]. congruence.
Qed.
Lemma wide_code {E} w mul (mn mx x : f32) B : (33 <= w <= 61)%nat -> mask_f32 (E:=E) false w = Ok mul ->
  fin mn -> fin mx -> fin x -> R32 mn < R32 mx -> R32 mn <= R32 x <= R32 mx -> Rabs (R32 mn) <= B -> Rabs (R32 mx) <= B -> B <= 2 ^ 60 ->
  (low w (float_code1 mn mx mul x) <= 2 ^ N.of_nat (w - 32))%N.
Proof.
  intros HW M Fn Fx Fv Hab Hv Bn Bx HB. rewrite (mask_wraps w mul HW M). clear M mul.
  set (a := R32 mn) in *. set (b := R32 mx) in *. set (v := R32 x) in *. apply Rabs_le_iff in Bn, Bx.
  destruct (fsub_R mx mn Fx Fn) as [D1 D2]; [apply (fits_B B); auto; apply Rabs_le_iff; fold a b; lra|].
  fold a b in D1. set (D := R32 (fsub mx mn)) in *.
  destruct (fsub_R x mn Fv Fn) as [V1 V2]; [apply (fits_B B); auto; apply Rabs_le_iff; fold a v; lra|].
  fold a v in V1. set (d := R32 (fsub x mn)) in *.
  assert (d0 : 0 <= d) by (rewrite V1, <- rnd32_0; apply rnd32_le; lra).
  assert (dD : d <= D) by (rewrite V1, D1; apply rnd32_le; lra).
  pose proof (rnd32_diff mx mn) as DE. fold a b in DE. rewrite <- D1, (Rabs_pos_eq (b - a)) in DE by lra.
  assert (Dp : 0.9 * (b - a) <= D) by (apply Rabs_le_iff in DE; unfold u32 in DE; lra).
  assert (Q : 0 <= d / D <= 1) by (apply div_01; lra).
  destruct (fdiv_R (fsub x mn) (fsub mx mn) V2) as [T1 T2]; [fold D; lra|fold d D; now apply fits1|].
  fold d D in T1. set (t := R32 (fdiv (fsub x mn) (fsub mx mn))) in *.
  assert (t01 : 0 <= t <= 1) by (rewrite T1; apply rnd32_between; [apply rnd32_0|apply rnd32_1|exact Q]).
  assert (K : (1 <= w - 32 <= 29)%nat) by lia. unfold low, float_code1.
  eapply N.le_trans; [apply N.mod_le, N.pow_nonzero; lia|]. set (k := (w - 32)%nat) in *. clearbody k.
  assert (P : 1 <= IZR (2 ^ Z.of_nat k) <= 536870912).
  { split; [change 1 with (IZR (2 ^ 0))|change 536870912 with (IZR (2 ^ 29))]; apply IZR_le, Z.pow_le_mono_r; lia. }
  assert (BP : bpow radix2 (Z.of_nat k) = IZR (2 ^ Z.of_nat k)) by (rewrite <- (IZR_Zpower radix2) by lia; reflexivity).
  destruct (f32_of_Z_R (2 ^ Z.of_nat k - 1)) as [M1 M2].
  { rewrite minus_IZR, Rabs_pos_eq by lra. pose proof big32_ge as G. change (2 ^ 100)%Z with 1267650600228229401496703205376%Z in G. lra. }
  assert (M3 : 0 <= R32 (f32_of_Z (2 ^ Z.of_nat k - 1)) <= IZR (2 ^ Z.of_nat k)).
  { rewrite M1, minus_IZR. split; [rewrite <- rnd32_0; apply rnd32_le; lra|].
    rewrite <- BP at 2. eapply Rle_trans; [apply Rle_abs|]. apply rnd32_abs_le_bpow; [lia|]. rewrite BP, Rabs_pos_eq; lra. }
  set (mul := f32_of_Z (2 ^ Z.of_nat k - 1)) in *. clearbody mul.
  assert (TM : 0 <= t * R32 mul <= IZR (2 ^ Z.of_nat k)).
  { split; [apply Rmult_le_pos; lra|]. apply Rle_trans with (1 * R32 mul); [apply Rmult_le_compat_r; lra|lra]. }
  destruct (fmul_R _ mul T2 M2) as [C1 C2].
  { fold t. rewrite Rabs_pos_eq by lra. pose proof big32_ge as G. change (2 ^ 100)%Z with 1267650600228229401496703205376%Z in G. lra. }
  fold t in C1. set (c := fmul (fdiv (fsub x mn) (fsub mx mn)) mul) in *.
  assert (C3 : 0 <= R32 c <= IZR (2 ^ Z.of_nat k)).
  { rewrite C1. split; [rewrite <- rnd32_0; apply rnd32_le; lra|].
    rewrite <- BP. eapply Rle_trans; [apply Rle_abs|]. apply rnd32_abs_le_bpow; [lia|]. rewrite BP, Rabs_pos_eq; lra. }
  assert (C4 : (Z.of_N (u64_of_f32 c) <= 2 ^ Z.of_nat k)%Z).
  { rewrite u64_floor; auto; [|lra|apply Rle_lt_trans with 536870912; [lra|apply IZR_lt; lia]]. apply le_IZR. eapply Rle_trans; [apply Zfloor_lb|apply C3]. }
  apply N2Z.inj_le. rewrite N2Z.inj_pow, nat_N_Z. exact C4.
Qed.
