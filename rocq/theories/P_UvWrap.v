(** Property C33: what happens to UV coordinates above 1. *)
From Coq Require Import List NArith ZArith Arith Lia Bool Reals Lra.
From Flocq Require Import Core IEEE754.BinarySingleNaN.
From Verif Require Import Base UnalignedRW ReadExt Floats Floats_proofs FloatReal_proofs Uv CustomData Mesh Tmf File FileSpec SaveSpec
  ValueSpec Demo Save_proofs Save2_proofs Codec_proofs Image_proofs Quant_proofs Log2_proofs P_Save P_Uv.
Import ListNotations.
Open Scope res_scope.
Local Open Scope R_scope.

(** The code of any coordinate from 0 to 2^30, before its high bits are cut off. *)
Lemma code_above p mul x : (1 <= p <= 24)%nat -> R32 mul = IZR (steps p) -> fin mul -> fin x -> 0 <= R32 x <= 2 ^ 30 ->
  let q := u64_of_f32 (fmul x mul) in
  Rabs (IZR (Z.of_N q) / IZR (steps p) - R32 x) <= / IZR (steps p) + (R32 x + 1) * u32.
Proof.
  intros B M F Fx Hx q. pose proof (steps_bounds p B) as SB.
  set (S := IZR (steps p)) in *.
  assert (HS : 1 <= S < 2 ^ 24).
  { unfold S. split; [apply IZR_le; lia|]. replace (2 ^ 24) with (IZR (2 ^ 24)) by (simpl; lra). apply IZR_lt. lia. }
  assert (HM : 0 <= R32 x * S <= 2 ^ 54).
  { split; [apply Rmult_le_pos; lra|]. replace (2 ^ 54) with (2 ^ 30 * 2 ^ 24) by (simpl; lra).
    apply Rmult_le_compat; lra. }
  destruct (fmul_R x mul Fx F) as [A1 A2].
  { rewrite M, Rabs_pos_eq by lra. eapply Rle_trans; [apply HM|]. rewrite big32_pow. apply pow2_le. lia. }
  rewrite M in A1. set (t := rnd32 (R32 x * S)) in *.
  pose proof (rnd32_err (R32 x * S)) as Er. fold t in Er. rewrite (Rabs_pos_eq (R32 x * S)) in Er by lra.
  pose proof tiny32_bound as [_ Ti]. apply Rabs_le_iff in Er.
  assert (U : 0 < u32 < 1) by (unfold u32; lra). assert (Tu : tiny32 <= u32) by (unfold u32; lra).
  assert (T : 0 <= t < 2 ^ 64).
  { split; [unfold t; rewrite <- rnd32_0; apply rnd32_le; lra|].
    assert (u32 * (R32 x * S) <= 1 * (R32 x * S)) by (apply Rmult_le_compat_r; lra).
    simpl pow in *. lra. }
  assert (E : Z.of_N q = Zfloor t).
  { unfold q. rewrite u64_floor, A1; auto; rewrite A1; [apply T|].
    eapply Rlt_le_trans; [apply T|]. simpl. lra. }
  rewrite E. pose proof (Zfloor_lb t). pose proof (Zfloor_ub t).
  assert (Rabs (IZR (Zfloor t) - R32 x * S) <= 1 + (R32 x + 1) * u32 * S).
  { apply Rabs_le_iff. assert (u32 * 1 <= u32 * S) by (apply Rmult_le_compat_l; lra).
    replace ((R32 x + 1) * u32 * S) with (u32 * (R32 x * S) + u32 * S) by ring. lra. }
  replace (IZR (Zfloor t) / S - R32 x) with ((IZR (Zfloor t) - R32 x * S) * / S) by (field; lra).
  rewrite Rabs_mult, (Rabs_pos_eq (/ S)) by (left; apply Rinv_0_lt_compat; lra).
  replace (/ S + (R32 x + 1) * u32) with ((1 + (R32 x + 1) * u32 * S) * / S) by (field; lra).
  apply Rmult_le_compat_r; auto. left; apply Rinv_0_lt_compat; lra.
Qed.

(** C33. A coordinate above 1 wraps around: it loads inside [0,1], moved down by a
    whole number of turns of 2^p/(2^p-1) each (up to one step and the rounding of the
    coordinate itself). *)
Theorem C33_wraps : forall lm lm' oc' p l out,
  precision_ok p -> list_ok lm l -> saved lm true p l = Ok out -> (1 <= uv_prec p <= 24)%nat ->
  exists l', read_tmf lm' oc' out = Ok l' /\
    Forall2 (on_uvs (fun x y => finite x /\ 0 <= val x <= 2 ^ 30 ->
       in_unit y /\ exists turns : nat,
         Rabs (val x - INR turns * (2 ^ uv_prec p / (2 ^ uv_prec p - 1)) - val y) <=
           / (2 ^ uv_prec p - 1) + (val x + 3) / 2 ^ 24)) l l'.
Proof.
  intros lm lm' oc' p l out HP HL S B. apply (uvs_load _ lm lm' oc' p l out HP HL S).
  intros u u' U. unfold uv_rel in U. destruct (Nat.eqb_spec (uv_prec p) 0) as [E|_]; [lia|].
  destruct U as (mul & M & ->). unfold uv_image. cbn [fst snd].
  destruct (mask_R _ _ M B) as [M1 M2]. revert B M1. generalize (uv_prec p) as w. intros w B M1.
  assert (G : forall x, finite x /\ 0 <= val x <= 2 ^ 30 ->
    in_unit (uv_value (f32_of_N (mask_u64 w)) (low w (uv_code mul x))) /\ exists turns : nat,
    Rabs (val x - INR turns * (2 ^ w / (2 ^ w - 1)) - val (uv_value (f32_of_N (mask_u64 w)) (low w (uv_code mul x)))) <=
      / (2 ^ w - 1) + (val x + 3) / 2 ^ 24).
  { intros x (Fx & Hx). change val with R32 in *.
    pose proof (code_above w mul x B M1 M2 Fx Hx) as C. cbv zeta in C. fold (uv_code mul x) in C.
    set (q := uv_code mul x) in *.
    assert (P : (2 ^ N.of_nat w <> 0)%N) by (apply N.pow_nonzero; lia).
    assert (Hl : (Z.of_N (low w q) <= steps w)%Z).
    { unfold low, steps. pose proof (N.mod_lt q _ P) as L. apply N2Z.inj_lt in L.
      rewrite N2Z.inj_pow, nat_N_Z in L. change (Z.of_N 2) with 2%Z in L. lia. }
    destruct (value32_R w (low w q) B Hl) as (_ & V2 & V3 & V4). cbv zeta in *. fold (uv_value (f32_of_N (mask_u64 w)) (low w q)) in V2, V3, V4.
    split; [split; [exact V2|exact V3]|]. exists (N.to_nat (q / 2 ^ N.of_nat w)).
    assert (D : IZR (Z.of_N q) = 2 ^ w * INR (N.to_nat (q / 2 ^ N.of_nat w)) + IZR (Z.of_N (low w q))).
    { rewrite (N.div_mod' q (2 ^ N.of_nat w)) at 1. unfold low.
      rewrite N2Z.inj_add, N2Z.inj_mul, plus_IZR, mult_IZR, N2Z.inj_pow, nat_N_Z.
      change (Z.of_N 2) with 2%Z. rewrite <- pow_IZR, INR_IZR_INZ, N_nat_Z. reflexivity. }
    rewrite D in C. rewrite <- steps_pow. pose proof (steps_bounds w B) as SB.
    assert (1 <= IZR (steps w)) by (apply IZR_le; lia).
    set (k := INR (N.to_nat (q / 2 ^ N.of_nat w))) in *. set (m := IZR (Z.of_N (low w q))) in *.
    replace ((2 ^ w * k + m) / IZR (steps w)) with (k * (2 ^ w / IZR (steps w)) + m / IZR (steps w)) in C by (field; lra).
    apply Rabs_le_iff in C, V4. apply Rabs_le_iff. unfold u32 in *. simpl pow in *. unfold Rdiv in *. lra. }
  split; apply G.
Qed.
Print Assumptions C33_wraps.
(** The coordinate 2.0 of [C33_above_one_refuted] meets the hypotheses. *)
Example C33_wraps_case : finite f2 /\ 0 <= val f2 <= 2 ^ 30 /\
  (exists out, saved demo true demo_prec [(uv_mesh f2 f0, [])] = Ok out) /\ (1 <= uv_prec demo_prec <= 24)%nat.
Proof.
  destruct (f32_of_Z_exact 2) as [A B]; [lia|]. split; [exact B|].
  change (val f2) with (R32 (f32_of_Z 2)). rewrite A. split; [simpl pow; lra|].
  split; [eexists; vm_compute; reflexivity|cbn; lia].
Qed.

(** Coordinates that are not numbers: NaN and minus infinity load as 0.0, plus infinity
    as 1.0. *)
Lemma special_codes w : (1 <= w <= 24)%nat ->
  uv_value (f32_of_N (mask_u64 w)) (low w (uv_code (f32_of_Z (steps w)) B754_nan)) = f0 /\
  uv_value (f32_of_N (mask_u64 w)) (low w (uv_code (f32_of_Z (steps w)) (B754_infinity true))) = f0 /\
  uv_value (f32_of_N (mask_u64 w)) (low w (uv_code (f32_of_Z (steps w)) (B754_infinity false))) = f1.
Proof.
  intros B. assert (H : In w (seq 1 24)) by (apply in_seq; lia). clear B. cbn in H.
  repeat (destruct H as [<-|H]; [repeat split; apply B2SF_inj; vm_compute; reflexivity|]). contradiction.
Qed.
Theorem C33_not_numbers : forall lm lm' oc' p l out,
  precision_ok p -> list_ok lm l -> saved lm true p l = Ok out -> (1 <= uv_prec p <= 24)%nat ->
  exists l', read_tmf lm' oc' out = Ok l' /\
    Forall2 (on_uvs (fun x y =>
      (x = B754_nan -> y = f0) /\ (x = B754_infinity true -> y = f0) /\ (x = B754_infinity false -> y = f1))) l l'.
Proof.
  intros lm lm' oc' p l out HP HL S B. apply (uvs_load _ lm lm' oc' p l out HP HL S).
  intros u u' U. unfold uv_rel in U. destruct (Nat.eqb_spec (uv_prec p) 0) as [E|_]; [lia|].
  destruct U as (mul & M & ->). unfold uv_image. cbn [fst snd].
  rewrite (mask_is _ _ M). destruct (special_codes _ B) as (S1 & S2 & S3).
  split; (split; [intros ->; exact S1|split; intros ->; [exact S2|exact S3]]).
Qed.
Print Assumptions C33_not_numbers.
Example C33_not_numbers_case : exists out, saved demo true demo_prec [(uv_mesh B754_nan (B754_infinity false), [])] = Ok out.
Proof. eexists. vm_compute. reflexivity. Qed.
