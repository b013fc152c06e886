(** Dividing a code by the number of steps and multiplying again gives the code back: the rounding
    errors of the two operations never add up to half a unit. *)
From Coq Require Import List NArith ZArith Arith Lia Bool Reals Lra.
From Flocq Require Import Core IEEE754.BinarySingleNaN.
From Verif Require Import Base Floats Floats_proofs FloatReal_proofs Codec_proofs Quant_proofs DoubleSave DQuant_proofs Uv Utilis Vertices Normals NormalReal_proofs Image_proofs Save_proofs Double Double_proofs DoubleSave Double2_proofs DQuant_proofs DCodec_proofs DNormal_proofs.
Import ListNotations.
Local Open Scope R_scope.

Section Generic.
Variables prec emin : Z.
Hypothesis Hprec : (1 < prec)%Z.
Hypothesis Hemin : (emin <= - 2 * prec)%Z.
Definition fe (e : Z) : Z := Z.max (e - prec) emin.
Local Notation rnd := (round radix2 fe ZnearestE).
Instance fe_valid : Valid_exp fe.
Proof. change fe with (FLT_exp emin prec). apply FLT_exp_valid. unfold Prec_gt_0. lia. Qed.

Lemma round_scale e x : x <> 0 -> (0 <= e)%Z -> (emin <= mag radix2 x - prec)%Z -> rnd (bpow radix2 e * x) = bpow radix2 e * rnd x.
Proof.
  intros N0 He Hx. unfold round, scaled_mantissa, cexp, fe.
  rewrite (Rmult_comm (bpow radix2 e) x), mag_mult_bpow by auto.
  rewrite !Z.max_l by lia.
  replace (x * bpow radix2 e * bpow radix2 (- (mag radix2 x + e - prec))) with (x * bpow radix2 (- (mag radix2 x - prec))).
  2: { rewrite Rmult_assoc, <- bpow_plus. f_equal. f_equal. lia. }
  unfold F2R. cbn [Fnum Fexp]. rewrite <- Rmult_assoc, (Rmult_comm (bpow radix2 e)), Rmult_assoc, <- bpow_plus.
  f_equal. f_equal. lia.
Qed.

Lemma again (p q : Z) : (1 <= p <= prec)%Z -> (0 <= q <= 2 ^ p - 1)%Z ->
  rnd (rnd (1 / IZR (2 ^ p - 1)) * IZR (2 ^ p - 1)) = 1 ->
  rnd (rnd (IZR q / IZR (2 ^ p - 1)) * IZR (2 ^ p - 1)) = IZR q.
Proof.
  intros Hp Hq One. set (S := (2 ^ p - 1)%Z) in *.
  assert (P2 : (2 <= 2 ^ p)%Z) by (change 2%Z with (2 ^ 1)%Z at 1; apply Z.pow_le_mono_r; lia).
  assert (S1 : 1 <= IZR S) by (apply IZR_le; unfold S; lia).
  assert (SB : IZR S = bpow radix2 p - 1) by (unfold S; rewrite minus_IZR, (IZR_Zpower radix2) by lia; reflexivity).
  destruct (Z.eq_dec q 0) as [->|Q0].
  { unfold Rdiv. rewrite Rmult_0_l, !round_0, Rmult_0_l, round_0 by auto with typeclass_instances. reflexivity. }
  assert (Q1 : 1 <= IZR q) by (apply IZR_le; lia).
  assert (QS : IZR q <= IZR S) by (apply IZR_le; lia).
  destruct (mag radix2 (IZR q)) as [e1 He1]. specialize (He1 ltac:(lra)). rewrite Rabs_pos_eq in He1 by lra.
  set (e := (e1 - 1)%Z). assert (He : bpow radix2 e <= IZR q < bpow radix2 (e + 1)) by (unfold e; replace (e1 - 1 + 1)%Z with e1 by lia; exact He1).
  assert (E0 : (0 <= e)%Z).
  { destruct (Z.le_gt_cases 0 e) as [|L]; auto. exfalso.
    pose proof (bpow_le radix2 (e + 1) 0 ltac:(lia)) as X. change (bpow radix2 0) with 1 in X. lra. }
  assert (EP : (e < p)%Z).
  { apply (lt_bpow radix2). eapply Rle_lt_trans; [apply He|]. lra. }
  pose proof (IZR_Zpower radix2 e ltac:(lia)) as ZE. change (radix2 ^ e)%Z with (2 ^ e)%Z in ZE.
  assert (QE : (2 ^ e <= q < 2 ^ (e + 1))%Z).
  { rewrite <- ZE in He. rewrite <- (IZR_Zpower radix2 (e + 1)) in He by lia. change (radix2 ^ (e + 1))%Z with (2 ^ (e + 1))%Z in He.
    split; [now apply le_IZR|now apply lt_IZR]. }
  destruct (Z.eq_dec q (2 ^ e)) as [QQ|QQ].
  { (* a power of two *)
    assert (I : 0 < / IZR S) by (apply Rinv_0_lt_compat; lra).
    rewrite QQ, ZE. unfold Rdiv in *. rewrite Rmult_1_l in One.
    assert (MG : (emin <= mag radix2 (/ IZR S) - prec)%Z).
    { assert (- p < mag radix2 (/ IZR S))%Z; [|lia]. apply mag_gt_bpow. rewrite Rabs_pos_eq by lra. rewrite bpow_opp.
      apply Rinv_le; lra. }
    rewrite round_scale by (auto; lra). rewrite Rmult_assoc.
    assert (V : bpow radix2 (- p) <= rnd (/ IZR S)).
    { apply round_ge_generic; auto with typeclass_instances; [|rewrite bpow_opp; apply Rinv_le; lra].
      apply generic_format_bpow. unfold fe. lia. }
    rewrite round_scale; auto.
    - rewrite One. lra.
    - pose proof (bpow_gt_0 radix2 (- p)) as B. assert (0 < rnd (/ IZR S) * IZR S) by (apply Rmult_lt_0_compat; lra). lra.
    - assert (- p < mag radix2 (rnd (/ IZR S) * IZR S))%Z; [|lia]. apply mag_gt_bpow. pose proof (bpow_gt_0 radix2 (- p)) as B.
      rewrite Rabs_pos_eq by (apply Rmult_le_pos; lra). rewrite <- (Rmult_1_r (bpow radix2 (- p))). apply Rmult_le_compat; lra. }
  destruct (Z.eq_dec q S) as [QS'|QS'].
  { rewrite QS'. unfold Rdiv. rewrite Rinv_r by lra.
    assert (G1 : rnd 1 = 1).
    { apply round_generic; auto with typeclass_instances. change 1 with (bpow radix2 0). apply generic_format_bpow. unfold fe. lia. }
    rewrite G1, Rmult_1_l. apply round_generic; auto with typeclass_instances.
    change fe with (FLT_exp emin prec). apply generic_format_FLT. exists (Float radix2 S 0); [unfold F2R; cbn; lra| |cbn; lia].
    cbn [Fnum]. change (radix_val radix2) with 2%Z. rewrite Z.abs_eq by lia.
    apply Z.lt_le_trans with (2 ^ p)%Z; [unfold S; lia|apply Z.pow_le_mono_r; lia]. }
  (* the general case *)
  set (x := IZR q / IZR S). assert (X0 : 0 < x) by (unfold x; apply Rmult_lt_0_compat; [lra|apply Rinv_0_lt_compat; lra]).
  assert (XS : x * IZR S = IZR q) by (unfold x, Rdiv; rewrite Rmult_assoc, Rinv_l by lra; lra).
  assert (Hk1 : bpow radix2 (mag radix2 x - 1) <= x < bpow radix2 (mag radix2 x)).
  { pose proof (bpow_mag_le radix2 x ltac:(lra)) as H1. pose proof (bpow_mag_gt radix2 x) as H2. rewrite Rabs_pos_eq in H1, H2 by lra. lra. }
  remember (mag radix2 x : Z) as k1 eqn:MX. set (k := (k1 - 1)%Z) in *. assert (K1 : k1 = (k + 1)%Z) by (unfold k; lia).
  assert (LQ : (q < S)%Z) by lia.
  assert (KN : (k < 0)%Z).
  { apply (lt_bpow radix2). eapply Rle_lt_trans; [apply Hk1|]. change (bpow radix2 0) with 1.
    apply Rmult_lt_reg_r with (IZR S); [lra|]. rewrite XS, Rmult_1_l. now apply IZR_lt. }
  assert (KP : (- p <= k)%Z).
  { enough (- p < k + 1)%Z by lia. apply (lt_bpow radix2). rewrite <- K1. eapply Rle_lt_trans; [|apply Hk1].
    rewrite bpow_opp. apply Rle_trans with (/ IZR S); [apply Rinv_le; lra|]. unfold x, Rdiv.
    rewrite <- (Rmult_1_l (/ IZR S)) at 1. apply Rmult_le_compat_r; [left; apply Rinv_0_lt_compat; lra|lra]. }
  assert (PK : (p + k <= e)%Z).
  { assert (A : bpow radix2 (p + k) - bpow radix2 k <= IZR q).
    { rewrite <- XS. replace (bpow radix2 (p + k) - bpow radix2 k) with (bpow radix2 k * IZR S) by (rewrite SB, bpow_plus; ring).
      apply Rmult_le_compat_r; [lra|apply Hk1]. }
    assert (BK : bpow radix2 k < 1) by (change 1 with (bpow radix2 0); apply bpow_lt; lia).
    rewrite <- (IZR_Zpower radix2 (p + k)) in A by lia. change (radix2 ^ (p + k))%Z with (2 ^ (p + k))%Z in A.
    assert (2 ^ (p + k) < q + 1)%Z by (apply lt_IZR; rewrite plus_IZR; lra).
    enough (p + k < e + 1)%Z by lia. apply (Z.pow_lt_mono_r_iff 2); lia. }
  (* the error of the quotient *)
  assert (CX : cexp radix2 fe x = (k + 1 - prec)%Z) by (unfold cexp; rewrite <- MX; unfold fe; lia).
  pose proof (error_le_half_ulp radix2 fe (fun x => negb (Z.even x)) x) as ER.
  rewrite ulp_neq_0, CX in ER by lra. set (v := rnd x) in *.
  set (h := bpow radix2 (e - prec)).
  assert (VB : Rabs (v * IZR S - IZR q) < h).
  { replace (v * IZR S - IZR q) with ((v - x) * IZR S) by (rewrite Rmult_minus_distr_r, XS; ring).
    rewrite Rabs_mult, (Rabs_pos_eq (IZR S)) by lra.
    apply Rle_lt_trans with (bpow radix2 (k - prec) * IZR S).
    - apply Rmult_le_compat_r; [lra|]. replace (bpow radix2 (k - prec)) with (/ 2 * bpow radix2 (k + 1 - prec)); [exact ER|].
      replace (k + 1 - prec)%Z with (k - prec + 1)%Z by lia. rewrite bpow_plus. change (bpow radix2 1) with 2. field.
    - apply Rlt_le_trans with (bpow radix2 (k - prec) * bpow radix2 p); [apply Rmult_lt_compat_l; [apply bpow_gt_0|lra]|].
      rewrite <- bpow_plus. apply bpow_le. lia. }
  assert (HP : 0 < h) by apply bpow_gt_0.
  assert (GP : 0 < bpow radix2 (e + 1 - prec)) by apply bpow_gt_0.
  assert (H2 : bpow radix2 (e + 1 - prec) = 2 * h).
  { unfold h. replace (e + 1 - prec)%Z with (1 + (e - prec))%Z by lia. rewrite bpow_plus. reflexivity. }
  assert (H1 : 2 * h <= 1) by (rewrite <- H2; change 1 with (bpow radix2 0); apply bpow_le; lia).
  assert (QL : bpow radix2 e + 1 <= IZR q) by (rewrite <- ZE, <- plus_IZR; apply IZR_le; lia).
  assert (QU : IZR q + 1 <= bpow radix2 (e + 1)).
  { rewrite <- (IZR_Zpower radix2 (e + 1)) by lia. change (radix2 ^ (e + 1))%Z with (2 ^ (e + 1))%Z. rewrite <- plus_IZR. apply IZR_le. lia. }
  apply Rabs_def2 in VB as [V1 V2].
  assert (MY : mag radix2 (v * IZR S) = (e + 1)%Z :> Z).
  { apply mag_unique. replace (e + 1 - 1)%Z with e by lia. assert (0 < bpow radix2 e) by apply bpow_gt_0. rewrite Rabs_pos_eq by lra. lra. }
  unfold round, scaled_mantissa, cexp. rewrite MY. unfold fe. rewrite Z.max_l by lia.
  rewrite (Znearest_imp _ _ (q * 2 ^ (prec - (e + 1)))).
  - unfold F2R. cbn [Fnum Fexp]. rewrite mult_IZR, (IZR_Zpower radix2) by lia. rewrite Rmult_assoc, <- bpow_plus.
    replace (prec - (e + 1) + (e + 1 - prec))%Z with 0%Z by lia. cbn. lra.
  - rewrite mult_IZR, (IZR_Zpower radix2) by lia. replace (- (e + 1 - prec))%Z with (prec - (e + 1))%Z by lia.
    rewrite <- Rmult_minus_distr_r, Rabs_mult, (Rabs_pos_eq (bpow radix2 (prec - (e + 1)))) by apply bpow_ge_0.
    apply Rmult_lt_reg_r with (bpow radix2 (e + 1 - prec)); [apply bpow_gt_0|].
    rewrite Rmult_assoc, <- bpow_plus. replace (prec - (e + 1) + (e + 1 - prec))%Z with 0%Z by lia.
    change (bpow radix2 0) with 1. rewrite Rmult_1_r, H2. apply Rabs_def1; lra.
Qed.
End Generic.

(** ** f32 *)
Lemma again32_one p : (1 <= p <= 24)%nat -> rnd32 (rnd32 (1 / IZR (steps p)) * IZR (steps p)) = 1.
Proof.
  intros B. pose proof (steps_bounds p B) as SB. assert (S1 : 1 <= IZR (steps p)) by (apply IZR_le; lia).
  destruct (f32_of_Z_exact (steps p)) as [D1 D2]; [lia|]. destruct (f32_of_Z_exact 1) as [O1 O2]; [lia|].
  assert (I : 0 < 1 / IZR (steps p) <= 1).
  { unfold Rdiv. rewrite Rmult_1_l. split; [apply Rinv_0_lt_compat; lra|]. rewrite <- Rinv_1. apply Rinv_le; lra. }
  assert (BG : 16777216 <= big32) by (eapply Rle_trans; [|apply big32_ge]; apply IZR_le; lia).
  destruct (fdiv_R (f32_of_Z 1) (f32_of_Z (steps p)) O2) as [A1 A2]; [rewrite D1; lra|rewrite O1, D1, Rabs_pos_eq; lra|].
  rewrite O1, D1 in A1.
  assert (V : 0 <= rnd32 (1 / IZR (steps p)) <= 1) by (apply rnd32_between; [apply rnd32_0|apply (rnd32_Z 1); lia|lra]).
  assert (SU : IZR (steps p) <= 16777216) by (apply IZR_le; lia).
  destruct (fmul_R (fdiv (f32_of_Z 1) (f32_of_Z (steps p))) (f32_of_Z (steps p)) A2 D2) as [M1 M2].
  { rewrite A1, D1, Rabs_pos_eq by (apply Rmult_le_pos; lra). apply Rle_trans with (1 * IZR (steps p)); [apply Rmult_le_compat_r; lra|lra]. }
  rewrite A1, D1 in M1. rewrite <- M1. transitivity (R32 (f32_of_Z 1)); [|exact O1]. unfold R32. rewrite <- !SF2R_B2SF. f_equal.
  clear -B. assert (C : p = 1%nat \/ p = 2%nat \/ p = 3%nat \/ p = 4%nat \/ p = 5%nat \/ p = 6%nat \/ p = 7%nat \/ p = 8%nat \/ p = 9%nat \/
    p = 10%nat \/ p = 11%nat \/ p = 12%nat \/ p = 13%nat \/ p = 14%nat \/ p = 15%nat \/ p = 16%nat \/ p = 17%nat \/ p = 18%nat \/
    p = 19%nat \/ p = 20%nat \/ p = 21%nat \/ p = 22%nat \/ p = 23%nat \/ p = 24%nat) by lia.
  repeat (destruct C as [->|C]; [vm_compute; reflexivity|]). subst p. vm_compute. reflexivity.
Qed.
Lemma again32 p (q : Z) : (1 <= p <= 24)%nat -> (0 <= q <= steps p)%Z ->
  rnd32 (rnd32 (IZR q / IZR (steps p)) * IZR (steps p)) = IZR q.
Proof.
  intros B Hq. unfold steps in *. apply (again 24 (-149)); try lia. exact (again32_one p B).
Qed.

(** ** A loaded UV or normal component saved again *)
Lemma code_again p (mul : f32) (q : N) : (1 <= p <= 24)%nat -> R32 mul = IZR (steps p) -> fin mul -> (Z.of_N q <= steps p)%Z ->
  u64_of_f32 (fmul (fdiv (f32_of_N q) (f32_of_N (mask_u64 p))) mul) = q.
Proof.
  intros B M F Hq. destruct (value32_R p q B Hq) as (V1 & V2 & V3 & _). cbv zeta in *.
  destruct (code_R p mul _ B M F V2 V3) as (C1 & _ & _). cbv zeta in *.
  rewrite V1, again32, Zfloor_IZR in C1 by (auto; lia). lia.
Qed.
Lemma uv_again {E} p mul x : (1 <= p <= 24)%nat -> mask_f32 (E:=E) true p = Ok mul ->
  low p (uv_code mul (uv_value (f32_of_N (mask_u64 p)) (low p (uv_code mul x)))) = low p (uv_code mul x).
Proof.
  intros B M. destruct (mask_R _ _ M B) as [M1 M2].
  pose proof (low_steps p (uv_code mul x) ltac:(lia)) as L. unfold uv_code at 1, uv_value.
  rewrite (code_again p mul _ B M1 M2 L). now apply low_id.
Qed.
Lemma uv_settled p a b c : (p <= 24)%nat -> uv_rel p a b -> uv_rel p b c -> c = b.
Proof.
  intros HP. unfold uv_rel. destruct (Nat.eqb_spec p 0) as [->|N0]; [congruence|].
  intros (mul & M & ->) (mul' & M' & ->). rewrite M in M'. apply Ok_inj in M'. subst mul'.
  unfold uv_image. cbn [fst snd]. rewrite !(uv_again p mul _ ltac:(lia) M). reflexivity.
Qed.

Lemma fabs_sg (b : bool) (x : f32) : fin x -> 0 <= R32 x -> R32 (fabs (if b then fneg x else x)) = R32 x /\ fin (fabs (if b then fneg x else x)).
Proof.
  intros F P. unfold R32, fabs, fneg in *. rewrite B2R_Babs, is_finite_Babs.
  destruct b; rewrite ?B2R_Bopp, ?is_finite_Bopp, ?Rabs_Ropp; split; auto; now apply Rabs_pos_eq.
Qed.
Lemma normal_z lm p c : (1 <= p <= 24)%nat ->
  let y := fdiv (f32_of_N (n_z (low_code p c))) (f32_of_N (mask_u64 p)) in
  vz (normal_from_encoding lm (low_code p c) p) = (if n_sz c then fneg y else y) /\ fin y /\ 0 <= R32 y <= 1.
Proof.
  intros B y. split.
  - unfold normal_from_encoding. destruct (Nat.eqb_spec p 0); [lia|]. destruct (m_sin_cos lm _) as [s k]. reflexivity.
  - destruct (value32_R p (n_z (low_code p c)) B) as (_ & V2 & V3 & _); [apply low_steps; lia|]. auto.
Qed.
Lemma normal_again lm1 lm2 lm3 lm4 p a b c : (1 <= p <= 24)%nat -> normal_rel lm1 lm2 p a b -> normal_rel lm3 lm4 p b c ->
  fin (vz b) /\ fin (vz c) /\ R32 (vz c) = R32 (vz b).
Proof.
  intros B (k & K & ->) (k' & K' & ->).
  destruct (normal_z lm2 p k B) as (Zb & F & P). destruct (normal_z lm4 p k' B) as (Zc & F' & P').
  set (q := n_z (low_code p k)) in *. assert (Lq : (Z.of_N q <= steps p)%Z) by (apply low_steps; lia).
  unfold normal_to_encoding in K'. destruct (mask_f32 true p) as [mul| |] eqn:M; try discriminate K'. cbn [bind] in K'.
  destruct (mask_R p mul M B) as [M1 M2]. apply Ok_inj in K'. rewrite Zb in K'. cbv zeta in *.
  set (y := fdiv (f32_of_N q) (f32_of_N (mask_u64 p))) in *.
  destruct (fabs_sg (n_sz k) y F (proj1 P)) as [A1 A2].
  assert (Q : n_z (low_code p k') = q).
  { rewrite <- K'. unfold low_code. cbn [n_z].
    destruct (code_R p mul (fabs (if n_sz k then fneg y else y)) B M1 M2 A2) as (C1 & C2 & _); [rewrite A1; exact P|]. cbv zeta in *.
    rewrite C2. rewrite A1 in C1. destruct (value32_R p q B Lq) as (V1 & _). cbv zeta in V1. fold y in V1. rewrite V1, again32, Zfloor_IZR in C1 by (auto; lia). lia. }
  rewrite Q in *. fold y in Zc, F', P'. rewrite Zb, Zc, !sg_fin, !sg_R. split; [exact F|]. split; [exact F|].
  assert (S : n_sz k' = flt (if n_sz k then fneg y else y) f0) by (rewrite <- K'; reflexivity).
  rewrite S, flt_R by (rewrite ?sg_fin; auto). change (R32 f0) with 0. rewrite sg_R. unfold sg.
  destruct (n_sz k); destruct (Rlt_bool_spec (-1 * R32 y) 0); destruct (Rlt_bool_spec (1 * R32 y) 0); lra.
Qed.
(** Width 0 keeps only the signs. *)
Lemma normal_again_0 lm1 lm2 lm3 lm4 a b c : normal_rel lm1 lm2 0 a b -> normal_rel lm3 lm4 0 b c -> c = b.
Proof.
  intros (k & K & ->) (k' & K' & ->). unfold normal_from_encoding in *. cbn [Nat.eqb] in *. destruct k as [k1 k2 sx sy sz].
  unfold low_code in *. cbn [n_sx n_sy n_sz] in *.
  unfold normal_to_encoding in K'. destruct (mask_f32 true 0) as [mul| |] eqn:M; try discriminate K'. cbn [bind] in K'. apply Ok_inj in K'.
  rewrite <- K'. cbn [n_sx n_sy n_sz]. unfold vx, vy, vz. cbn [fst snd].
  assert (S : forall s : bool, flt (if s then fneg f1 else f1) f0 = s) by (intros []; vm_compute; reflexivity).
  rewrite !S. reflexivity.
Qed.
Lemma handed_again (h : f32) : ht_from_bool (ht_to_bool (ht_from_bool (ht_to_bool h))) = ht_from_bool (ht_to_bool h).
Proof. unfold ht_to_bool at 2 3. destruct (Bsign h); reflexivity. Qed.

(** ** f64 *)
Lemma again64_one p : (1 <= p <= 30)%nat -> rnd64 (rnd64 (1 / IZR (steps p)) * IZR (steps p)) = 1.
Proof.
  intros B. pose proof (steps_bounds_d p B) as SB. assert (S1 : 1 <= IZR (steps p)) by (apply IZR_le; lia).
  destruct (f64_of_Z_exact (steps p)) as [D1 D2]; [lia|]. destruct (f64_of_Z_exact 1) as [O1 O2]; [lia|].
  assert (I : 0 < 1 / IZR (steps p) <= 1).
  { unfold Rdiv. rewrite Rmult_1_l. split; [apply Rinv_0_lt_compat; lra|]. rewrite <- Rinv_1. apply Rinv_le; lra. }
  assert (BG : IZR (2 ^ 30) <= big64) by (eapply Rle_trans; [|apply big64_ge]; apply IZR_le; lia).
  destruct (ddiv_R (f64_of_Z 1) (f64_of_Z (steps p)) O2) as [A1 A2]; [rewrite D1; lra|rewrite O1, D1, Rabs_pos_eq; lra|].
  rewrite O1, D1 in A1.
  assert (V : 0 <= rnd64 (1 / IZR (steps p)) <= 1) by (apply rnd64_between; [apply rnd64_0|apply (rnd64_Z 1); lia|lra]).
  assert (SU : IZR (steps p) <= IZR (2 ^ 30)) by (apply IZR_le; lia).
  destruct (dmul_R (ddiv (f64_of_Z 1) (f64_of_Z (steps p))) (f64_of_Z (steps p)) A2 D2) as [M1 M2].
  { rewrite A1, D1, Rabs_pos_eq by (apply Rmult_le_pos; lra). apply Rle_trans with (1 * IZR (steps p)); [apply Rmult_le_compat_r; lra|lra]. }
  rewrite A1, D1 in M1. rewrite <- M1. transitivity (R64 (f64_of_Z 1)); [|exact O1]. unfold R64. rewrite <- !SF2R_B2SF. f_equal.
  clear -B. do 31 (destruct p as [|p]; [first [exfalso; clear -B; lia | vm_compute; reflexivity]|]). exfalso. lia.
Qed.
Lemma again64 p (q : Z) : (1 <= p <= 30)%nat -> (0 <= q <= steps p)%Z ->
  rnd64 (rnd64 (IZR q / IZR (steps p)) * IZR (steps p)) = IZR q.
Proof.
  intros B Hq. unfold steps in *. apply (again 53 (-1074)); try lia. exact (again64_one p B).
Qed.
Lemma code_again_d p (mul : f64) (q : N) : (1 <= p <= 30)%nat -> R64 mul = IZR (steps p) -> fin mul -> (Z.of_N q <= steps p)%Z ->
  u64_of_f64 (dmul (ddiv (f64_of_N q) (f64_of_N (mask_u64 p))) mul) = q.
Proof.
  intros B M F Hq. destruct (value_d p q B Hq) as (V1 & V2 & V3 & _). cbv zeta in *.
  destruct (code_R_d p mul _ B M F V2 V3) as (C1 & _ & _). cbv zeta in *.
  rewrite V1, again64, Zfloor_IZR in C1 by (auto; lia). lia.
Qed.
Lemma uv_settled_d p a b c : uv_rel_d p a b -> uv_rel_d p b c -> c = b.
Proof.
  unfold uv_rel_d. destruct (Nat.eqb_spec p 0) as [->|N0]; [congruence|].
  intros (mul & M & ->) (mul' & M' & ->). rewrite M in M'. apply Ok_inj in M'. subst mul'.
  pose proof (mask_d30 _ _ M) as P30. destruct (mask_R_d p mul M ltac:(lia)) as [M1 M2].
  assert (G : forall x, low p (uv_code_d mul (uv_value_d p (low p x))) = low p x).
  { intros x. pose proof (low_steps p x ltac:(lia)) as L. unfold uv_code_d, uv_value_d.
    rewrite (code_again_d p mul _ ltac:(lia) M1 M2 L). now apply low_id. }
  cbn [fst snd]. rewrite !G. reflexivity.
Qed.
Lemma sgd_R (b : bool) x : R64 (if b then dneg x else x) = sg b * R64 x.
Proof. destruct b; unfold sg; rewrite ?dneg_R; ring. Qed.
Lemma sgd_fin (b : bool) (x : f64) : is_finite (if b then dneg x else x) = is_finite x.
Proof. destruct b; [apply is_finite_Bopp|reflexivity]. Qed.
Lemma dabs_sg (b : bool) (x : f64) : fin x -> 0 <= R64 x -> R64 (Babs (if b then dneg x else x)) = R64 x /\ fin (Babs (if b then dneg x else x)).
Proof.
  intros F P. unfold R64, dneg in *. rewrite B2R_Babs, is_finite_Babs.
  destruct b; rewrite ?B2R_Bopp, ?is_finite_Bopp, ?Rabs_Ropp; split; auto; now apply Rabs_pos_eq.
Qed.
Lemma normal_z_d sc p c : (1 <= p <= 30)%nat ->
  let y := ddiv (f64_of_N (n_z (low_code p c))) (f64_of_N (mask_u64 p)) in
  snd (normal_from_encoding_d sc (low_code p c) p) = (if n_sz c then dneg y else y) /\ fin y /\ 0 <= R64 y <= 1.
Proof.
  intros B y. split.
  - unfold normal_from_encoding_d. destruct (Nat.eqb_spec p 0); [lia|]. destruct (sc _) as [s k]. reflexivity.
  - destruct (value_d p (n_z (low_code p c)) B) as (_ & V2 & V3 & _); [apply low_steps; lia|]. auto.
Qed.
Lemma normal_again_d lm1 sc1 lm2 sc2 p a b c : (1 <= p)%nat -> normal_rel_d lm1 sc1 p a b -> normal_rel_d lm2 sc2 p b c ->
  fin (dvz b) /\ fin (dvz c) /\ R64 (dvz c) = R64 (dvz b).
Proof.
  intros P1 (k & K & ->) (k' & K' & ->).
  unfold normal_to_encoding_d in K'. destruct (mask_f64 true p) as [mul| |] eqn:M; try discriminate K'. cbn [bind] in K'.
  pose proof (mask_d30 _ _ M) as P30. assert (B : (1 <= p <= 30)%nat) by lia. clear P1 P30.
  destruct (normal_z_d sc1 p k B) as (Zb & F & P). destruct (normal_z_d sc2 p k' B) as (Zc & F' & P').
  set (q := n_z (low_code p k)) in *. assert (Lq : (Z.of_N q <= steps p)%Z) by (apply low_steps; lia).
  destruct (mask_R_d p mul M B) as [M1 M2]. apply Ok_inj in K'. unfold dvz in *. rewrite Zb in K'. cbv zeta in *.
  set (y := ddiv (f64_of_N q) (f64_of_N (mask_u64 p))) in *.
  destruct (dabs_sg (n_sz k) y F (proj1 P)) as [A1 A2].
  assert (Q : n_z (low_code p k') = q).
  { rewrite <- K'. unfold low_code. cbn [n_z].
    assert (A3 : 0 <= R64 (dabs (if n_sz k then dneg y else y)) <= 1) by (change (R64 (dabs (if n_sz k then dneg y else y)) = R64 y) in A1; rewrite A1; exact P).
    destruct (code_R_d p mul (dabs (if n_sz k then dneg y else y)) B M1 M2 A2 A3) as (C1 & C2 & _). cbv zeta in *.
    rewrite C2. change (R64 (dabs (if n_sz k then dneg y else y)) = R64 y) in A1. rewrite A1 in C1. destruct (value_d p q B Lq) as (V1 & _). cbv zeta in V1. fold y in V1. rewrite V1, again64, Zfloor_IZR in C1 by (auto; lia). lia. }
  rewrite Q in *. fold y in Zc, F', P'. rewrite Zb, Zc, !sgd_fin, !sgd_R. split; [exact F|]. split; [exact F|].
  assert (S : n_sz k' = dlt (if n_sz k then dneg y else y) d0) by (rewrite <- K'; reflexivity).
  rewrite S, dlt_R by (rewrite ?sgd_fin; auto). change (R64 d0) with 0. rewrite sgd_R. unfold sg.
  destruct (n_sz k); destruct (Rlt_bool_spec (-1 * R64 y) 0); destruct (Rlt_bool_spec (1 * R64 y) 0); lra.
Qed.
Lemma normal_z_finite_d lm sc p a b : (1 <= p)%nat -> normal_rel_d lm sc p a b -> fin (dvz b).
Proof.
  intros P1 (c & K & ->). unfold normal_to_encoding_d in K. destruct (mask_f64 true p) as [mul| |] eqn:M; try discriminate K.
  pose proof (mask_d30 _ _ M). destruct (normal_z_d sc p c ltac:(lia)) as (E & F & _). unfold dvz. rewrite E, sgd_fin. exact F.
Qed.
Lemma handed_again_d (h : f64) : ht_from_bool_d (Bsign (ht_from_bool_d (Bsign h))) = ht_from_bool_d (Bsign h).
Proof. destruct (Bsign h); reflexivity. Qed.
