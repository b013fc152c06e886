(** Proofs about printing and parsing floats (FloatText.v). *)
From Coq Require Import List NArith ZArith Arith Lia Bool Reals Lra.
From Flocq Require Import Core Core.Digits Calc.Bracket Calc.Div Calc.Operations IEEE754.BinarySingleNaN.
From Verif Require Import Base Floats Unify FileSpec File_proofs Obj ObjSpec Obj_proofs FloatText FloatTextSpec.
Import ListNotations.
Local Open Scope R_scope.

Section Text.
Variables prec emax : Z.
Context (P0 : Prec_gt_0 prec) (PE : Prec_lt_emax prec emax).
Notation fexp := (SpecFloat.fexp prec emax).
Notation bf := (binary_float prec emax).
Notation rnd := (round radix2 fexp ZnearestE).

(** [x] is the float nearest to [v], with sign [neg]: ties to even, infinity if that is too large. *)
Definition is_nearest (neg : bool) (v : R) (x : bf) : Prop :=
  if Rlt_bool (rnd v) (bpow radix2 emax)
  then is_finite x = true /\ Bsign x = neg /\ B2R x = (if neg then - rnd v else rnd v)
  else x = B754_infinity neg.

Lemma of_SF_finite s m e (H : SpecFloat.bounded prec emax m e = true) : of_SF prec emax (SpecFloat.S754_finite s m e) = B754_finite s m e H.
Proof.
  cbn [of_SF].
  assert (A : forall b (q : SpecFloat.bounded prec emax m e = b),
    match b as b' return SpecFloat.bounded prec emax m e = b' -> bf with
    | true => fun K => B754_finite s m e K
    | false => fun _ => B754_nan
    end q = B754_finite s m e H).
  { intros [|] q; [f_equal; apply Eqdep_dec.UIP_dec, bool_dec|congruence]. }
  apply A.
Qed.
Lemma of_SF_valid z : SpecFloat.valid_binary prec emax z = true -> B2SF (of_SF prec emax z) = z.
Proof. destruct z as [s|s| |s m e]; intros V; try reflexivity. now rewrite (of_SF_finite s m e V). Qed.

(** The quotient of two positive integers. *)
Lemma nearest_correct neg n d : (0 < n)%Z -> (0 < d)%Z -> is_nearest neg (IZR n / IZR d) (nearest prec emax neg n d).
Proof.
  intros Hn Hd. unfold nearest.
  assert (Fn : F2R (Float radix2 n 0) = IZR n) by (unfold F2R; cbn; ring).
  assert (Fd : F2R (Float radix2 d 0) = IZR d) by (unfold F2R; cbn; ring).
  pose proof (IZR_lt _ _ Hn) as Rn. pose proof (IZR_lt _ _ Hd) as Rd.
  pose proof (Fdiv_correct fexp (Float radix2 n 0) (Float radix2 d 0)) as D. rewrite Fn, Fd in D. specialize (D Rn Rd).
  destruct (Fdiv fexp (Float radix2 n 0) (Float radix2 d 0)) as [[m e] l]. destruct D as [D1 D2].
  assert (Pv : 0 < IZR n / IZR d) by (apply Rdiv_lt_0_compat; assumption).
  set (v := IZR n / IZR d) in *. set (x := if neg then - v else v).
  assert (X0 : x <> 0) by (unfold x; destruct neg; lra).
  assert (XA : Rabs x = v) by (unfold x; destruct neg; [rewrite Rabs_Ropp|]; apply Rabs_pos_eq; lra).
  assert (XS : Rlt_bool x 0 = neg) by (unfold x; destruct neg; [apply Rlt_bool_true|apply Rlt_bool_false]; lra).
  pose proof (binary_round_aux_correct' prec emax P0 PE mode_NE x m e l X0) as B. rewrite XA, XS in B.
  assert (CE : cexp radix2 fexp x = cexp radix2 fexp v) by (unfold x; destruct neg; [apply cexp_opp|reflexivity]).
  rewrite CE in B. specialize (B D2 D1). cbv zeta in B. destruct B as [V B].
  change (round_mode mode_NE) with ZnearestE in B.
  assert (RX : rnd x = if neg then - rnd v else rnd v) by (unfold x; destruct neg; [apply round_NE_opp|reflexivity]).
  assert (R0 : 0 <= rnd v) by (apply round_ge_generic; [apply fexp_correct; exact P0|apply valid_rnd_N|apply generic_format_0|lra]).
  assert (RA : Rabs (rnd x) = rnd v) by (rewrite RX; destruct neg; [rewrite Rabs_Ropp|]; now apply Rabs_pos_eq).
  rewrite RA, RX in B. pose proof (of_SF_valid _ V) as E.
  unfold is_nearest. destruct (Rlt_bool (rnd v) (bpow radix2 emax)).
  - destruct B as (B1 & B2 & B3). rewrite <- E in B1, B2, B3. rewrite SF2R_B2SF in B1. rewrite is_finite_SF_B2SF in B2.
    split; [exact B2|]. split; [|exact B1]. destruct (of_SF prec emax _); try discriminate B2; exact B3.
  - rewrite B. reflexivity.
Qed.

Lemma ten_pow j : (0 <= j)%Z -> IZR (10 ^ j) = bpow ten j.
Proof. intros H. now rewrite <- (IZR_Zpower ten j H). Qed.
Lemma two_pow j : (0 <= j)%Z -> IZR (2 ^ j) = bpow radix2 j.
Proof. intros H. now rewrite <- (IZR_Zpower radix2 j H). Qed.
Lemma dec_pos d j : (d <> 0)%N -> 0 < dec d j.
Proof. intros H. apply Rmult_lt_0_compat; [apply IZR_lt; lia|apply bpow_gt_0]. Qed.
Lemma dec_nonneg d j : 0 <= dec d j.
Proof. apply Rmult_le_pos; [apply IZR_le; lia|apply bpow_ge_0]. Qed.
Lemma rnd_0 : rnd 0 = 0.
Proof. apply round_0, valid_rnd_N. Qed.
Lemma emax_pos : 0 < bpow radix2 emax.
Proof. apply bpow_gt_0. Qed.
Lemma of_decimal_correct neg d j : is_nearest neg (dec d j) (of_decimal prec emax neg d j).
Proof.
  unfold of_decimal. destruct (N.eqb_spec d 0) as [->|H].
  - unfold is_nearest, dec. rewrite Rmult_0_l, rnd_0, Rlt_bool_true by apply emax_pos. repeat split. destruct neg; cbn; lra.
  - destruct (Z.leb_spec 0 j) as [J|J].
    + replace (dec d j) with (IZR (Z.of_N d * 10 ^ j) / 1) by (unfold dec; rewrite mult_IZR, ten_pow by exact J; lra).
      apply (nearest_correct neg _ 1); [|lia]. apply Z.mul_pos_pos; [lia|]. apply Z.pow_pos_nonneg; lia.
    + replace (dec d j) with (IZR (Z.of_N d) / IZR (10 ^ (- j))).
      * apply nearest_correct; [lia|]. apply Z.pow_pos_nonneg; lia.
      * unfold dec. rewrite ten_pow by lia. rewrite bpow_opp. unfold Rdiv. now rewrite Rinv_inv.
Qed.
Lemma is_nearest_unique neg v x y : is_nearest neg v x -> is_nearest neg v y -> x = y.
Proof.
  unfold is_nearest. destruct (Rlt_bool _ _); [|congruence].
  intros (A1 & A2 & A3) (B1 & B2 & B3). apply B2R_Bsign_inj; auto; congruence.
Qed.

(** Which decimals are read as a positive finite [x]: those that round to it. *)
Lemma parses_iff (x : bf) k j : is_finite x = true -> Bsign x = false -> (parses_as prec emax x k j = true <-> rnd (dec k j) = B2R x).
Proof.
  intros F S. unfold parses_as. pose proof (of_decimal_correct false k j) as C. unfold is_nearest in C.
  destruct (Rlt_bool_spec (rnd (dec k j)) (bpow radix2 emax)) as [L|L].
  - destruct C as (C1 & C2 & C3). rewrite <- C3. unfold Beqb, SpecFloat.SFeqb. 
    change (SpecFloat.SFcompare (B2SF (of_decimal prec emax false k j)) (B2SF x)) with (Bcompare (of_decimal prec emax false k j) x).
    rewrite Bcompare_correct by assumption. destruct (Rcompare_spec (B2R (of_decimal prec emax false k j)) (B2R x)); split; intros; try discriminate; try lra; reflexivity.
  - rewrite C. split.
    + intros E. destruct x as [s|s| |s m e H]; cbn in E; try discriminate F; try discriminate E; destruct s; discriminate E.
    + intros E. exfalso. pose proof (abs_B2R_lt_emax _ _ x) as A. rewrite <- E in A. rewrite Rabs_pos_eq in A; [lra|].
      apply round_ge_generic; [apply fexp_correct; exact P0|apply valid_rnd_N|apply generic_format_0|apply dec_nonneg].
Qed.
Lemma of_decimal_is (x : bf) k j : is_finite x = true -> Bsign x = false -> rnd (dec k j) = B2R x -> of_decimal prec emax false k j = x.
Proof.
  intros F S E. eapply is_nearest_unique; [apply of_decimal_correct|]. unfold is_nearest. rewrite E, Rlt_bool_true; [auto|].
  eapply Rle_lt_trans; [apply Rle_abs|]. apply (abs_B2R_lt_emax _ _ x).
Qed.

(** ** The shortest decimal *)
Lemma fexp_ok : Valid_exp fexp. Proof. apply fexp_correct. exact P0. Qed.
Lemma rnd_le x y : x <= y -> rnd x <= rnd y.
Proof. apply round_le; [apply fexp_ok|apply valid_rnd_N]. Qed.
Lemma rnd_id (x : bf) : rnd (B2R x) = B2R x.
Proof. apply round_generic; [apply valid_rnd_N|apply generic_format_B2R]. Qed.
Lemma dec_le k k' j : (k <= k')%N -> dec k j <= dec k' j.
Proof. intros H. apply Rmult_le_compat_r; [apply bpow_ge_0|]. apply IZR_le. lia. Qed.
Lemma dec_lt_inv k k' j : dec k j < dec k' j -> (k < k')%N.
Proof. intros H. apply Rmult_lt_reg_r in H; [|apply bpow_gt_0]. apply lt_IZR in H. lia. Qed.
Lemma grid_spec n d j : (0 <= n)%Z -> (0 < d)%Z -> let (k, up) := grid n d j in
  dec k j <= IZR n / IZR d < dec (k + 1) j /\
  (if up then dec (k + 1) j - IZR n / IZR d <= IZR n / IZR d - dec k j else IZR n / IZR d - dec k j <= dec (k + 1) j - IZR n / IZR d).
Proof.
  intros Hn Hd. unfold grid.
  set (n' := if (0 <=? j)%Z then n else (n * 10 ^ (- j))%Z). set (d' := if (0 <=? j)%Z then (d * 10 ^ j)%Z else d).
  assert (N0 : (0 <= n')%Z) by (unfold n'; destruct (Z.leb_spec 0 j); [lia|]; apply Z.mul_nonneg_nonneg; [lia|]; apply Z.pow_nonneg; lia).
  assert (D0 : (0 < d')%Z) by (unfold d'; destruct (Z.leb_spec 0 j); [|lia]; apply Z.mul_pos_pos; [lia|]; apply Z.pow_pos_nonneg; lia).
  assert (V : IZR n / IZR d = IZR n' / IZR d' * bpow ten j).
  { pose proof (IZR_lt _ _ Hd). pose proof (bpow_gt_0 ten j). unfold n', d'. destruct (Z.leb_spec 0 j).
    - rewrite mult_IZR, ten_pow by lia. field. lra.
    - rewrite mult_IZR, ten_pow by lia. rewrite bpow_opp. field. lra. }
  rewrite V. pose proof (Z_div_mod_eq_full n' d') as DM. pose proof (Z.mod_pos_bound n' d' D0) as MB.
  pose proof (Z.div_pos n' d' N0 D0) as QP.
  unfold dec. rewrite N2Z.inj_add, Z2N.id by exact QP. change (Z.of_N 1) with 1%Z.
  set (q := (n' / d')%Z) in *. set (r := (n' mod d')%Z) in *. pose proof (IZR_lt _ _ D0) as RD.
  assert (Q : IZR n' / IZR d' = IZR q + IZR r / IZR d') by (rewrite DM, plus_IZR, mult_IZR; field; lra).
  assert (R1 : 0 <= IZR r / IZR d' < 1).
  { split; [apply Rmult_le_pos; [apply IZR_le; lia|left; now apply Rinv_0_lt_compat]|].
    apply (Rmult_lt_reg_r (IZR d')); [exact RD|]. unfold Rdiv. rewrite Rmult_assoc, Rinv_l, Rmult_1_l, Rmult_1_r by lra. apply IZR_lt. lia. }
  assert (U : if (d' <=? 2 * r)%Z then / 2 <= IZR r / IZR d' else IZR r / IZR d' <= / 2).
  { destruct (Z.leb_spec d' (2 * r)) as [L|L].
    - apply (Rmult_le_reg_r (IZR d')); [exact RD|]. unfold Rdiv. rewrite Rmult_assoc, Rinv_l, Rmult_1_r by lra. apply IZR_le in L. rewrite mult_IZR in L. lra.
    - apply (Rmult_le_reg_r (IZR d')); [exact RD|]. unfold Rdiv. rewrite Rmult_assoc, Rinv_l, Rmult_1_r by lra. apply IZR_lt in L. rewrite mult_IZR in L. lra. }
  rewrite Q, plus_IZR. set (f := IZR r / IZR d') in *. pose proof (bpow_gt_0 ten j) as T. set (t := bpow ten j) in *.
  rewrite !Rmult_plus_distr_r, Rmult_1_l.
  assert (A1 : 0 <= f * t) by (apply Rmult_le_pos; lra).
  assert (A2 : f * t < t) by (rewrite <- (Rmult_1_l t) at 2; apply Rmult_lt_compat_r; lra).
  split; [split; lra|]. destruct (d' <=? 2 * r)%Z.
  - assert (/ 2 * t <= f * t) by (apply Rmult_le_compat_r; lra). lra.
  - assert (f * t <= / 2 * t) by (apply Rmult_le_compat_r; lra). lra.
Qed.

Lemma shortest_spec (x : bf) n d : is_finite x = true -> Bsign x = false -> (0 <= n)%Z -> (0 < d)%Z -> B2R x = IZR n / IZR d ->
  forall fuel j, (exists k, B2R x = dec k (j - Z.of_nat fuel)) ->
  let (k, i) := shortest prec emax fuel x n d j in
  rnd (dec k i) = B2R x /\ (i <= j)%Z /\
  (forall k' j', (i < j' <= j)%Z -> rnd (dec k' j') <> B2R x) /\
  (forall k', rnd (dec k' i) = B2R x -> Rabs (dec k i - B2R x) <= Rabs (dec k' i - B2R x)).
Proof.
  intros F S Hn Hd V. induction fuel as [|fuel IH]; intros j [k0 K0]; cbn [shortest];
    pose proof (grid_spec n d j Hn Hd) as G; destruct (grid n d j) as [k up]; destruct G as [[G1 G2] G3]; rewrite <- V in *.
  - rewrite Z.sub_0_r in K0.
    assert (E : dec k j = B2R x).
    { assert (k = k0); [|now subst]. rewrite K0 in G1, G2. apply dec_lt_inv in G2.
      destruct (N.eq_dec k k0) as [|NE]; [assumption|exfalso]. assert (L : (k0 + 1 <= k)%N).
      { destruct (N.lt_ge_cases k0 k) as [L|L]; [lia|]. lia. }
      pose proof (dec_le (k0 + 1) k j L) as L1. assert (dec k0 j < dec (k0 + 1) j).
      { apply Rmult_lt_compat_r; [apply bpow_gt_0|]. apply IZR_lt. lia. }
      lra. }
    rewrite E. split; [apply rnd_id|]. split; [lia|]. split; [intros; lia|].
    intros k' _. rewrite Rminus_diag_eq, Rabs_R0 by reflexivity. apply Rabs_pos.
  - (* a decimal below or above the neighbours *)
    assert (LO : forall k', (k' <= k)%N -> rnd (dec k' j) = B2R x -> rnd (dec k j) = B2R x).
    { intros k' L E. apply Rle_antisym; [rewrite <- (rnd_id x); apply rnd_le; lra|]. rewrite <- E. apply rnd_le, dec_le, L. }
    assert (HI : forall k', (k + 1 <= k')%N -> rnd (dec k' j) = B2R x -> rnd (dec (k + 1) j) = B2R x).
    { intros k' L E. apply Rle_antisym; [rewrite <- E; apply rnd_le, dec_le, L|]. rewrite <- (rnd_id x) at 1. apply rnd_le. lra. }
    assert (DLO : forall k', (k' <= k)%N -> Rabs (dec k j - B2R x) <= Rabs (dec k' j - B2R x)).
    { intros k' L. pose proof (dec_le _ _ j L). rewrite !Rabs_left1 by lra. lra. }
    assert (DHI : forall k', (k + 1 <= k')%N -> Rabs (dec (k + 1) j - B2R x) <= Rabs (dec k' j - B2R x)).
    { intros k' L. pose proof (dec_le _ _ j L). rewrite !Rabs_pos_eq by lra. lra. }
    assert (CMP : if up then Rabs (dec (k + 1) j - B2R x) <= Rabs (dec k j - B2R x) else Rabs (dec k j - B2R x) <= Rabs (dec (k + 1) j - B2R x)).
    { rewrite (Rabs_left1 (dec k j - B2R x)) by lra. rewrite (Rabs_pos_eq (dec (k + 1) j - B2R x)) by lra. destruct up; lra. }
    assert (SP : forall k', (k' <= k)%N \/ (k + 1 <= k')%N) by (intros; lia).
    destruct (parses_as prec emax x k j) eqn:EA; [apply parses_iff in EA; auto|];
      (destruct (parses_as prec emax x (k + 1) j) eqn:EB; [apply parses_iff in EB; auto|]); cbn [andb].
    + split; [destruct up; assumption|]. split; [lia|]. split; [intros; lia|]. intros k' _.
      destruct (SP k') as [L|L]; [specialize (DLO k' L)|specialize (DHI k' L)]; destruct up; lra.
    + split; [assumption|]. split; [lia|]. split; [intros; lia|]. intros k' E.
      destruct (SP k') as [L|L]; [exact (DLO k' L)|]. exfalso. apply HI in E; [|exact L]. apply parses_iff in E; auto. congruence.
    + split; [assumption|]. split; [lia|]. split; [intros; lia|]. intros k' E.
      destruct (SP k') as [L|L]; [|exact (DHI k' L)]. exfalso. apply LO in E; [|exact L]. apply parses_iff in E; auto. congruence.
    + specialize (IH (j - 1)%Z). replace (j - 1 - Z.of_nat fuel)%Z with (j - Z.of_nat (Datatypes.S fuel))%Z in IH by lia.
      specialize (IH (ex_intro _ k0 K0)). destruct (shortest prec emax fuel x n d (j - 1)) as [K i]. destruct IH as (I1 & I2 & I3 & I4).
      split; [exact I1|]. split; [lia|]. split; [|exact I4]. intros k' j' L. destruct (Z.eq_dec j' j) as [->|NE]; [|apply I3; lia].
      intros E. destruct (SP k') as [L'|L'].
      * apply LO in E; [|exact L']. apply parses_iff in E; auto. congruence.
      * apply HI in E; [|exact L']. apply parses_iff in E; auto. congruence.
Qed.

(** No multiple of a power of ten above the grid that the search starts with is near. *)
Lemma coarse_bound k : bpow radix2 k <= bpow ten (coarse k).
Proof.
  unfold coarse. destruct (Z.leb_spec 0 k) as [L|L].
  - pose proof (Z_div_mod_eq_full k 3) as D. pose proof (Z.mod_pos_bound k 3 eq_refl) as M. pose proof (Z.div_pos k 3 L eq_refl) as Q.
    set (q := (k / 3)%Z) in *. rewrite D. rewrite !bpow_plus. change (bpow ten 1) with 10.
    assert (A : bpow radix2 (3 * q) <= bpow ten q).
    { rewrite <- !IZR_Zpower by lia. apply IZR_le. change (radix_val radix2) with 2%Z. change (radix_val ten) with 10%Z.
      rewrite Z.pow_mul_r by lia. apply Z.pow_le_mono_l. lia. }
    assert (B : bpow radix2 (k mod 3) <= 10).
    { eapply Rle_trans; [apply (bpow_le radix2 _ 2); lia|]. cbn. lra. }
    apply Rmult_le_compat; try apply bpow_ge_0; assumption.
  - pose proof (Z_div_mod_eq_full k 4) as D. pose proof (Z.mod_pos_bound k 4 eq_refl) as M. assert (Q : (k / 4 < 0)%Z) by (apply Z.div_lt_upper_bound; lia).
    set (q := (k / 4)%Z) in *. rewrite D. rewrite !bpow_plus. change (bpow ten 1) with 10.
    assert (A : bpow radix2 (4 * q) <= bpow ten q).
    { replace (4 * q)%Z with (- (4 * - q))%Z by lia. replace q with (- - q)%Z at 2 by lia. rewrite (bpow_opp radix2), (bpow_opp ten).
      apply Rinv_le; [apply bpow_gt_0|]. rewrite <- !IZR_Zpower by lia. apply IZR_le. change (radix_val radix2) with 2%Z. change (radix_val ten) with 10%Z.
      rewrite Z.pow_mul_r by lia. apply Z.pow_le_mono_l. lia. }
    assert (B : bpow radix2 (k mod 4) <= 10).
    { eapply Rle_trans; [apply (bpow_le radix2 _ 3); lia|]. cbn. lra. }
    apply Rmult_le_compat; try apply bpow_ge_0; assumption.
Qed.
Lemma coarse_ge k e : (e < k)%Z -> (Z.min 0 e <= coarse k)%Z.
Proof.
  intros H. unfold coarse. destruct (Z.leb_spec 0 k).
  - pose proof (Z.div_pos k 3 ltac:(lia) eq_refl). lia.
  - pose proof (Z_div_mod_eq_full k 4). pose proof (Z.mod_pos_bound k 4 eq_refl). lia.
Qed.
Lemma twice_format m e H : generic_format radix2 fexp (2 * B2R (B754_finite false m e H : bf)).
Proof.
  replace (2 * B2R (B754_finite false m e H : bf)) with (F2R (Float radix2 (Zpos m) (e + 1))).
  2:{ unfold B2R, F2R. cbn [Fnum Fexp cond_Zopp]. rewrite bpow_plus. change (bpow radix2 1) with 2. ring. }
  apply generic_format_F2R. intros _. pose proof (canonical_bounded prec emax false m e H) as C. unfold canonical in C. cbn [Fexp cond_Zopp] in C.
  unfold cexp in *. rewrite mag_F2R_Zdigits in * by discriminate. unfold SpecFloat.fexp in *. lia.
Qed.
Lemma digits_of_spec m e H : let x := B754_finite false m e H : bf in let (k, j) := digits_of prec emax m e x in
  shortest_for prec emax (B2R x) k j.
Proof.
  intros x. unfold digits_of. set (b := (Zdigits radix2 (Zpos m) + e)%Z).
  set (n := if (0 <=? e)%Z then (Zpos m * 2 ^ e)%Z else Zpos m). set (d := if (0 <=? e)%Z then 1%Z else (2 ^ (- e))%Z).
  assert (N0 : (0 <= n)%Z) by (unfold n; destruct (Z.leb_spec 0 e); [|lia]; apply Z.mul_nonneg_nonneg; [lia|]; apply Z.pow_nonneg; lia).
  assert (D0 : (0 < d)%Z) by (unfold d; destruct (Z.leb_spec 0 e); [lia|]; apply Z.pow_pos_nonneg; lia).
  assert (V0 : B2R x = IZR (Zpos m) * bpow radix2 e) by reflexivity.
  assert (V : B2R x = IZR n / IZR d).
  { rewrite V0. unfold n, d. destruct (Z.leb_spec 0 e).
    - rewrite mult_IZR, two_pow by lia. lra.
    - rewrite two_pow by lia. rewrite bpow_opp. unfold Rdiv. now rewrite Rinv_inv. }
  assert (DG : (1 <= Zdigits radix2 (Zpos m))%Z) by (pose proof (Zdigits_gt_0 radix2 (Zpos m) ltac:(discriminate)); lia).
  pose proof (coarse_ge b e ltac:(unfold b; lia)) as CG.
  assert (EX : exists k, B2R x = dec k (coarse b - Z.of_nat (Z.to_nat (coarse b - Z.min 0 e)))).
  { rewrite Z2Nat.id by lia. replace (coarse b - (coarse b - Z.min 0 e))%Z with (Z.min 0 e) by lia.
    rewrite V0. destruct (Z.leb_spec 0 e) as [L|L].
    - exists (Z.to_N (Zpos m * 2 ^ e)). rewrite Z.min_l by lia. unfold dec. rewrite Z2N.id by (apply Z.mul_nonneg_nonneg; [lia|]; apply Z.pow_nonneg; lia).
      rewrite mult_IZR, two_pow by lia. cbn [bpow]. ring.
    - exists (Z.to_N (Zpos m * 5 ^ (- e))). rewrite Z.min_r by lia. unfold dec. rewrite Z2N.id by (apply Z.mul_nonneg_nonneg; [lia|]; apply Z.pow_nonneg; lia).
      rewrite mult_IZR. rewrite Rmult_assoc. f_equal. replace e with (- - e)%Z at 1 3 by lia. rewrite (bpow_opp radix2 (- e)), (bpow_opp ten (- e)).
      rewrite <- two_pow, <- ten_pow by lia. change 10%Z with (2 * 5)%Z. rewrite Z.pow_mul_l, mult_IZR.
      assert (0 < IZR (5 ^ - e)) by (apply IZR_lt, Z.pow_pos_nonneg; lia). assert (0 < IZR (2 ^ - e)) by (apply IZR_lt, Z.pow_pos_nonneg; lia).
      field. lra. }
  pose proof (shortest_spec x n d eq_refl eq_refl N0 D0 V _ _ EX) as SS.
  destruct (shortest prec emax _ x n d (coarse b)) as [k j]. destruct SS as (S1 & S2 & S3 & S4).
  assert (XP : 0 < B2R x) by (rewrite V0; apply Rmult_lt_0_compat; [apply IZR_lt; lia|apply bpow_gt_0]).
  assert (XB : B2R x <= bpow radix2 b).
  { pose proof (bpow_mag_gt radix2 (B2R x)) as MG. rewrite Rabs_pos_eq in MG by lra. left. 
    replace b with (mag radix2 (B2R x) : Z); [exact MG|]. unfold b. unfold x, B2R. cbn [cond_Zopp]. now apply mag_F2R_Zdigits. }
  split.
  - exact S1.
  - intros k' j' L. change (rnd (dec k' j') <> B2R x). destruct (Z.le_gt_cases j' (coarse b)) as [L'|L']; [apply S3; lia|].
    destruct (N.eq_dec k' 0) as [->|NZ]; [unfold dec; rewrite Rmult_0_l, rnd_0; lra|].
    assert (W : 2 * B2R x <= dec k' j').
    { unfold dec. assert (1 <= IZR (Z.of_N k')) by (apply IZR_le; lia).
      assert (bpow ten (coarse b + 1) <= bpow ten j') by (apply bpow_le; lia). rewrite bpow_plus in *. change (bpow ten 1) with 10 in *.
      pose proof (coarse_bound b). pose proof (bpow_gt_0 ten j').
      assert (1 * bpow ten j' <= IZR (Z.of_N k') * bpow ten j') by (apply Rmult_le_compat_r; lra). lra. }
    assert (2 * B2R x <= rnd (dec k' j')) by (apply round_ge_generic; [apply fexp_ok|apply valid_rnd_N|apply twice_format|exact W]). lra.
  - exact S4.
Qed.

(** ** The grammar *)
Definition dval (acc : N) (ds : list N) : N := fold_left (fun a c => (10 * a + (c - 48))%N) ds acc.
Definition starts_digit (l : list N) : Prop := match l with c :: _ => digit c | [] => False end.
Lemma digit_b c : ((48 <=? c) && (c <=? 57))%N = true <-> digit c.
Proof. unfold digit. rewrite andb_true_iff, !N.leb_le. reflexivity. Qed.
Lemma digit_dec c : digit c \/ ~ digit c.
Proof. unfold digit. destruct (N.le_gt_cases 48 c), (N.le_gt_cases c 57); first [left; lia|right; lia]. Qed.
Lemma digit_nb c : ~ digit c -> ((48 <=? c) && (c <=? 57))%N = false.
Proof. intros H. destruct ((48 <=? c) && (c <=? 57))%N eqn:E; auto. apply digit_b in E. contradiction. Qed.
Lemma take_digits_app ds r : Forall digit ds -> ~ starts_digit r -> forall acc k,
  take_digits (ds ++ r) acc k = (dval acc ds, k + length ds, r)%nat.
Proof.
  intros D NS. induction D as [|c ds Dc D IH]; intros acc k.
  - cbn [app length dval fold_left]. rewrite Nat.add_0_r. destruct r as [|c t]; [reflexivity|]. cbn [take_digits starts_digit] in *. now rewrite digit_nb.
  - cbn [app take_digits length]. apply digit_b in Dc. rewrite Dc, IH. unfold dval. cbn [fold_left].
    rewrite (N.mul_comm acc 10). f_equal. f_equal. lia.
Qed.
Lemma digits_split l : exists ds r, l = ds ++ r /\ Forall digit ds /\ ~ starts_digit r.
Proof.
  induction l as [|c t (ds & r & -> & D & NS)]; [exists [], []; repeat split; auto|].
  destruct (digit_dec c) as [Dc|Dc]; [exists (c :: ds), r; auto|exists [], (c :: ds ++ r); auto].
Qed.
(** The exponent as it is counted. *)
Fixpoint counted (acc : N) (ds : list N) : N :=
  match ds with [] => acc | c :: t => counted (if (acc <? 65536)%N then (10 * acc + (c - 48))%N else acc) t end.
Lemma take_exponent_app ds r : Forall digit ds -> ~ starts_digit r -> forall acc, take_exponent (ds ++ r) acc = (counted acc ds, r).
Proof.
  intros D NS. induction D as [|c ds Dc D IH]; intros acc.
  - cbn [app counted]. destruct r as [|c t]; [reflexivity|]. cbn [take_exponent starts_digit] in *. now rewrite digit_nb.
  - cbn [app take_exponent counted]. apply digit_b in Dc. rewrite Dc, IH. now rewrite (N.mul_comm acc 10).
Qed.
Lemma counted_big acc ds : (65536 <= acc)%N -> counted acc ds = acc.
Proof. intros H. induction ds as [|c t IH]; cbn [counted]; [reflexivity|]. destruct (N.ltb_spec acc 65536); [lia|exact IH]. Qed.
Lemma dval_ge acc ds : (acc <= dval acc ds)%N.
Proof. revert acc. induction ds as [|c t IH]; intros acc; [apply N.le_refl|]. unfold dval in *. cbn [fold_left]. specialize (IH (10 * acc + (c - 48))%N). lia. Qed.
Lemma counted_cases ds : forall acc, counted acc ds = dval acc ds \/ ((65536 <= counted acc ds)%N /\ (65536 <= dval acc ds)%N).
Proof.
  induction ds as [|c t IH]; intros acc; [now left|]. cbn [counted]. destruct (N.ltb_spec acc 65536).
  - exact (IH _).
  - right. rewrite counted_big by assumption. split; [assumption|]. pose proof (dval_ge acc (c :: t)). lia.
Qed.

(** ** Signs *)
Definition no_sign (l : list N) : Prop := match l with c :: _ => c <> 43%N /\ c <> 45%N | [] => True end.
Lemma take_sign_app sg neg t : sign_text sg neg -> no_sign t -> take_sign (sg ++ t) = (neg, t).
Proof.
  intros [[-> ->]|[[-> ->]|[-> ->]]] NS; try reflexivity. cbn [app]. destruct t as [|c t]; [reflexivity|]. destruct NS as [N1 N2].
  cbn [take_sign]. now rewrite (proj2 (N.eqb_neq _ _) N1), (proj2 (N.eqb_neq _ _) N2).
Qed.
Lemma take_sign_split l : exists sg neg t, l = sg ++ t /\ sign_text sg neg /\ take_sign l = (neg, t).
Proof.
  destruct l as [|c t]; [exists [], false, []; repeat split; left; auto|]. cbn [take_sign]. destruct (N.eqb_spec c 45) as [->|].
  - exists [45%N], true, t. repeat split. right. right. auto.
  - destruct (N.eqb_spec c 43) as [->|].
    + exists [43%N], false, t. repeat split. right. left. auto.
    + exists [], false, (c :: t). repeat split. left. auto.
Qed.
Lemma digit_no_sign ds r : ds <> [] -> Forall digit ds -> no_sign (ds ++ r).
Proof. intros NE D. destruct ds as [|c t]; [contradiction|]. apply Forall_inv in D. unfold digit in D. cbn. lia. Qed.

(** ** Exponents *)
Definition parse_exp_part (x : list N) : option Z :=
  match x with [] => Some 0%Z | c :: t => if ((c =? 101) || (c =? 69))%N then parse_exponent t else None end.
Definition exponent_counted (x : list N) (e : Z) : Prop :=
  (x = [] /\ e = 0%Z) \/
  exists c sg neg ds, (c = 101%N \/ c = 69%N) /\ sign_text sg neg /\ ds <> [] /\ Forall digit ds /\ x = c :: sg ++ ds /\
    e = (if neg then - Z.of_N (counted 0 ds) else Z.of_N (counted 0 ds))%Z.
Lemma exp_part x e : parse_exp_part x = Some e <-> exponent_counted x e.
Proof.
  split.
  - destruct x as [|c t]; cbn [parse_exp_part]; [intros [= <-]; left; auto|]. intros H. right.
    destruct ((c =? 101) || (c =? 69))%N eqn:C; [|discriminate H]. apply orb_prop in C. rewrite !N.eqb_eq in C.
    unfold parse_exponent in H. destruct (take_sign_split t) as (sg & neg & r & -> & SG & E). rewrite E in H.
    destruct (digits_split r) as (ds & q & -> & D & NS). destruct ds as [|b ds].
    + cbn [app] in H. destruct q as [|b q]; [discriminate H|]. cbn [starts_digit] in NS. rewrite digit_nb in H by exact NS. discriminate H.
    + cbn [app] in H. pose proof (Forall_inv D) as Db. apply digit_b in Db. rewrite Db in H. change (b :: ds ++ q) with ((b :: ds) ++ q) in H.
      rewrite take_exponent_app in H by assumption. destruct q; [|discriminate H]. injection H as <-.
      exists c, sg, neg, (b :: ds). rewrite app_nil_r. repeat split; auto. discriminate.
  - intros [[-> ->]|(c & sg & neg & ds & C & SG & NE & D & -> & ->)]; [reflexivity|]. cbn [parse_exp_part].
    replace ((c =? 101) || (c =? 69))%N with true by (symmetry; apply orb_true_intro; rewrite !N.eqb_eq; exact C).
    unfold parse_exponent. rewrite <- (app_nil_r ds) at 1. rewrite (take_sign_app sg neg) by (try apply digit_no_sign; assumption).
    rewrite take_exponent_app by (auto; intros []). destruct ds as [|b ds]; [contradiction|]. cbn [app].
    pose proof (Forall_inv D) as Db. apply digit_b in Db. now rewrite Db.
Qed.

(** ** Numbers *)
Definition number_shape (l i p f x : list N) : Prop :=
  l = i ++ p ++ f ++ x /\ Forall digit i /\ Forall digit f /\ i ++ f <> [] /\ (p = [46%N] \/ (p = [] /\ f = [])).
Lemma dval_app acc a b : dval acc (a ++ b) = dval (dval acc a) b.
Proof. apply fold_left_app. Qed.
Lemma exp_not_digit x e : exponent_counted x e -> ~ starts_digit x.
Proof. intros [[-> _]|(c & ? & ? & ? & [-> | ->] & _ & _ & _ & -> & _)]; cbn; unfold digit; lia. Qed.
Lemma exp_not_point x e : exponent_counted x e -> match x with c :: _ => c <> 46%N | [] => True end.
Proof. intros [[-> _]|(c & ? & ? & ? & [-> | ->] & _ & _ & _ & -> & _)]; cbn; auto; discriminate. Qed.
Lemma shape_parse l i p f x e : number_shape l i p f x -> exponent_counted x e ->
  parse_number l = Some (decimal (i ++ f), (e - Z.of_nat (length f))%Z).
Proof.
  intros (-> & I & F & NE & PP) X. pose proof (exp_not_digit x e X) as ND. pose proof (exp_not_point x e X) as NP. apply exp_part in X.
  assert (E0 : (length i + length f)%nat <> 0%nat) by (rewrite <- app_length; destruct (i ++ f); [contradiction|discriminate]).
  assert (TAIL : match x with
    | [] => Some (decimal (i ++ f), (- Z.of_nat (length f))%Z)
    | c :: t => if ((c =? 101) || (c =? 69))%N then match parse_exponent t with Some e => Some (decimal (i ++ f), (e - Z.of_nat (length f))%Z) | None => None end else None
    end = Some (decimal (i ++ f), (e - Z.of_nat (length f))%Z)).
  { destruct x as [|c t]; cbn [parse_exp_part] in X; [injection X as <-; f_equal; f_equal; lia|].
    destruct ((c =? 101) || (c =? 69))%N; [|discriminate X]. now rewrite X. }
  assert (DV : dval (dval 0 i) f = decimal (i ++ f)) by (rewrite <- dval_app; reflexivity).
  unfold parse_number. destruct PP as [-> |[-> ->]].
  - rewrite take_digits_app; [|exact I|cbn; unfold digit; lia]. cbn [app]. rewrite N.eqb_refl. rewrite take_digits_app by assumption.
    rewrite DV. cbn [Nat.add]. destruct (Nat.eqb_spec (length i + length f) 0); [contradiction|]. exact TAIL.
  - cbn [app]. rewrite take_digits_app by assumption. cbn [app length] in *. rewrite app_nil_r in *.
    destruct x as [|c t].
    + destruct (Nat.eqb_spec (0 + length i + 0) 0); [lia|]. exact TAIL.
    + rewrite (proj2 (N.eqb_neq _ _) NP). destruct (Nat.eqb_spec (0 + length i + 0) 0); [lia|]. exact TAIL.
Qed.
Lemma parse_shape l d j : parse_number l = Some (d, j) ->
  exists i p f x e, number_shape l i p f x /\ exponent_counted x e /\ d = decimal (i ++ f) /\ j = (e - Z.of_nat (length f))%Z.
Proof.
  intros H. unfold parse_number in H. destruct (digits_split l) as (i & r & -> & I & NS). rewrite take_digits_app in H by assumption.
  assert (G : exists p f x, r = p ++ f ++ x /\ Forall digit f /\ (p = [46%N] \/ (p = [] /\ f = [])) /\
    match r with c :: t => if (c =? 46)%N then take_digits t (dval 0 i) 0 else (dval 0 i, 0%nat, r) | [] => (dval 0 i, 0%nat, []) end = (decimal (i ++ f), length f, x)).
  { destruct r as [|c t]; [exists [], [], []; rewrite (app_nil_r i); split; [reflexivity|split; [apply Forall_nil|split; [auto|reflexivity]]]|]. destruct (N.eqb_spec c 46) as [->|].
    - destruct (digits_split t) as (f & x & -> & F & NX). exists [46%N], f, x. rewrite take_digits_app by assumption.
      repeat split; auto. rewrite <- dval_app. reflexivity.
    - exists [], [], (c :: t). rewrite (app_nil_r i). split; [reflexivity|split; [apply Forall_nil|split; [auto|reflexivity]]]. }
  destruct G as (p & f & x & -> & F & PP & G). rewrite G in H. cbn [Nat.add] in H.
  destruct (Nat.eqb_spec (length i + length f) 0) as [|NE]; [discriminate H|].
  assert (X : exists e, parse_exp_part x = Some e /\ d = decimal (i ++ f) /\ j = (e - Z.of_nat (length f))%Z).
  { destruct x as [|c t]; cbn [parse_exp_part]; [injection H as <- <-; exists 0%Z; repeat split; lia|].
    destruct ((c =? 101) || (c =? 69))%N; [|discriminate H]. destruct (parse_exponent t) as [e|]; [|discriminate H]. injection H as <- <-. eauto. }
  destruct X as (e & X & -> & ->). exists i, p, f, x, e. apply exp_part in X. repeat split; auto.
  intros E. apply NE. rewrite <- app_length, E. reflexivity.
Qed.

(** ** Words *)
Lemma lower_iff c l : (97 <= l <= 122)%N -> (lower c = l <-> same_letter c l).
Proof.
  intros L. unfold lower, same_letter. destruct ((65 <=? c) && (c <=? 90))%N eqn:E.
  - apply andb_prop in E as [E1 E2]. apply N.leb_le in E1, E2. lia.
  - apply andb_false_iff in E. rewrite !N.leb_gt in E. lia.
Qed.
Lemma word_iff s w : Forall (fun l => (97 <= l <= 122)%N) w -> (map lower s = w <-> is_word s w).
Proof.
  intros W. revert s. induction W as [|l w L W IH]; intros [|c s]; cbn [map]; split; intros H; try discriminate H; try (inversion H; fail); try constructor.
  - injection H as H1 H2. now apply lower_iff.
  - injection H as H1 H2. now apply IH.
  - inversion H; subst. f_equal; [now apply lower_iff|now apply IH].
Qed.
Lemma nan_letters : Forall (fun l => (97 <= l <= 122)%N) nan_word. Proof. repeat constructor; discriminate. Qed.
Lemma inf_letters : Forall (fun l => (97 <= l <= 122)%N) inf_word. Proof. repeat constructor; discriminate. Qed.
Lemma infinity_letters : Forall (fun l => (97 <= l <= 122)%N) infinity_word. Proof. repeat constructor; discriminate. Qed.
Definition special (neg : bool) (w : list N) (x : bf) : Prop :=
  (is_word w nan_word /\ x = B754_nan) \/ ((is_word w inf_word \/ is_word w infinity_word) /\ x = B754_infinity neg).
Lemma parse_word_iff neg w x : parse_word prec emax neg w = Some x <-> special neg w x.
Proof.
  unfold parse_word, special. rewrite <- (word_iff w nan_word nan_letters), <- (word_iff w inf_word inf_letters), <- (word_iff w infinity_word infinity_letters).
  change word_nan with nan_word. change word_inf with inf_word. change word_infinity with infinity_word.
  destruct (list_eqb (map lower w) nan_word) eqn:A; [apply list_eqb_eq in A|].
  - split; [intros [= <-]; auto|]. intros [[_ ->]|[[E|E] _]]; [reflexivity| |]; rewrite A in E; discriminate E.
  - assert (NA : map lower w <> nan_word) by (intros E; apply list_eqb_eq in E; congruence).
    destruct (list_eqb (map lower w) inf_word || list_eqb (map lower w) infinity_word) eqn:B.
    + apply orb_prop in B. rewrite !list_eqb_eq in B. split; [intros [= <-]; auto|]. intros [[E _]|[_ ->]]; [contradiction|reflexivity].
    + apply orb_false_elim in B as [B1 B2]. split; [discriminate|]. intros [[E _]|[[E|E] _]]; [contradiction| |]; apply list_eqb_eq in E; congruence.
Qed.
Lemma word_start neg w x : special neg w x -> exists c t, w = c :: t /\ ~ digit c /\ c <> 46%N /\ c <> 43%N /\ c <> 45%N.
Proof.
  assert (G : forall l k, is_word w (l :: k) -> (97 <= l)%N -> exists c t, w = c :: t /\ ~ digit c /\ c <> 46%N /\ c <> 43%N /\ c <> 45%N).
  { intros l k H L. inversion H as [|c ? t ? S]; subst. exists c, t. split; [reflexivity|]. unfold digit. destruct S; subst; lia. }
  intros [[H _]|[[H|H] _]]; eapply G; try exact H; lia.
Qed.
Lemma no_number c t : ~ digit c -> c <> 46%N -> parse_number (c :: t) = None.
Proof. intros D P. unfold parse_number. cbn [take_digits]. rewrite digit_nb by exact D. now rewrite (proj2 (N.eqb_neq _ _) P). Qed.

(** ** What a text is read as *)
(** As [decimal_text], with the exponent as it is counted. *)
Definition text_counted (s : list N) (neg : bool) (d : N) (j : Z) : Prop :=
  exists sg i p f x e, s = sg ++ i ++ p ++ f ++ x /\ sign_text sg neg /\ Forall digit i /\ Forall digit f /\ i ++ f <> [] /\
    (p = [46%N] \/ (p = [] /\ f = [])) /\ exponent_counted x e /\ d = decimal (i ++ f) /\ j = (e - Z.of_nat (length f))%Z.
Lemma shape_no_sign l i p f x : number_shape l i p f x -> no_sign l /\ l <> [].
Proof.
  intros (-> & I & F & NE & PP). destruct i as [|c i]; [|apply Forall_inv in I; unfold digit in I; cbn; split; [lia|discriminate]].
  destruct PP as [-> |[-> ->]]; [cbn; split; [lia|discriminate]|contradiction].
Qed.
Lemma parse_float_iff s x : parse_float prec emax s = Some x <->
  (exists neg d j, text_counted s neg d j /\ x = of_decimal prec emax neg d j) \/
  (exists sg neg w, s = sg ++ w /\ sign_text sg neg /\ special neg w x).
Proof.
  split.
  - unfold parse_float. destruct (take_sign_split s) as (sg & neg & t & -> & SG & E). rewrite E.
    destruct t as [|c t]; [discriminate|]. destruct (parse_number (c :: t)) as [[d j]|] eqn:PN.
    + intros [= <-]. left. exists neg, d, j. split; [|reflexivity]. apply parse_shape in PN as (i & p & f & y & e & (S1 & S2 & S3 & S4 & S5) & X & D & J).
      exists sg, i, p, f, y, e. rewrite S1. repeat (split; [first [reflexivity|assumption]|]). assumption.
    + intros W. right. exists sg, neg, (c :: t). split; [reflexivity|]. split; [exact SG|]. now apply parse_word_iff.
  - intros [(neg & d & j & (sg & i & p & f & y & e & -> & SG & I & F & NE & PP & X & -> & ->) & ->)|(sg & neg & w & -> & SG & W)].
    + assert (SH : number_shape (i ++ p ++ f ++ y) i p f y) by (split; auto).
      destruct (shape_no_sign _ _ _ _ _ SH) as [NS NN]. unfold parse_float. rewrite (take_sign_app sg neg) by assumption.
      rewrite (shape_parse _ _ _ _ _ e SH X). destruct (i ++ p ++ f ++ y); [contradiction|reflexivity].
    + destruct (word_start _ _ _ W) as (c & t & -> & W1 & W2 & W3 & W4). unfold parse_float.
      rewrite (take_sign_app sg neg) by (cbn; auto). rewrite no_number by assumption. now apply parse_word_iff.
Qed.

(** Exponents beyond 65536 are not counted exactly, but then the number is too large or too small
    for any float, unless the text is very long. *)
Lemma nearest_iff neg v x : is_nearest neg v x <-> nearest_to prec emax neg v x.
Proof.
  unfold is_nearest, nearest_to, rounded. change (FLT_exp (3 - emax - prec) prec) with fexp.
  destruct (Rlt_bool_spec (rnd v) (bpow radix2 emax)) as [L|L]; split; intros H.
  - left. tauto.
  - destruct H as [H|[H _]]; [tauto|lra].
  - right. auto.
  - destruct H as [[H _]|[_ H]]; [lra|exact H].
Qed.
Lemma two_ten k : (0 <= k)%Z -> bpow radix2 k <= bpow ten k.
Proof. intros H. rewrite <- two_pow, <- ten_pow by exact H. apply IZR_le. apply Z.pow_le_mono_l. lia. Qed.
Hypothesis small_format : (emax + prec <= 5000)%Z.
Lemma huge v : bpow ten 5000 <= v -> forall neg x, is_nearest neg v x <-> x = B754_infinity neg.
Proof.
  intros H neg x. unfold is_nearest. rewrite Rlt_bool_false; [reflexivity|].
  pose proof P0 as Q1. pose proof PE as Q2. red in Q1, Q2.
  apply round_ge_generic; [apply fexp_ok|apply valid_rnd_N| |].
  - apply generic_format_bpow. unfold SpecFloat.fexp, SpecFloat.emin. lia.
  - eapply Rle_trans; [apply bpow_le with (e2 := 5000%Z); lia|]. eapply Rle_trans; [apply two_ten; lia|exact H].
Qed.
Lemma tiny v : 0 <= v -> v <= bpow ten (-5001) -> rnd v = 0.
Proof.
  intros V0 H. destruct (Req_dec v 0) as [->|NZ]; [apply rnd_0|].
  pose proof P0 as Q1. pose proof PE as Q2. red in Q1, Q2.
  destruct (mag radix2 v) as [ex M]. specialize (M NZ). rewrite Rabs_pos_eq in M by exact V0.
  apply (round_N_small_pos radix2 fexp (fun z => negb (Z.even z)) v ex M).
  assert (L : (ex - 1 < -5000)%Z).
  { apply (lt_bpow radix2). eapply Rle_lt_trans; [apply M|]. eapply Rle_lt_trans; [exact H|].
    change (-5000)%Z with (- (5000))%Z. change (-5001)%Z with (- (5001))%Z. rewrite !bpow_opp.
    apply Rinv_lt; [apply bpow_gt_0|]. eapply Rlt_le_trans; [apply (bpow_lt radix2 5000 5001); lia|]. apply two_ten. lia. }
  unfold SpecFloat.fexp, SpecFloat.emin. lia.
Qed.
Lemma decimal_bound ds : Forall digit ds -> IZR (Z.of_N (decimal ds)) < bpow ten (Z.of_nat (length ds)).
Proof.
  intros D. rewrite <- ten_pow by lia. apply IZR_lt. induction ds as [|c ds IH] using rev_ind; [reflexivity|].
  apply Forall_app in D as [D C]. apply Forall_inv in C. unfold digit in C. rewrite decimal_snoc, app_length. cbn [length].
  specialize (IH D). rewrite Nat2Z.inj_add, Z.pow_add_r by lia. change (10 ^ Z.of_nat 1)%Z with 10%Z. lia.
Qed.
Lemma counted_near neg (neg' : bool) i f ds x : Forall digit i -> Forall digit f -> Forall digit ds -> (len (i ++ f) < 60000)%N ->
  let d := decimal (i ++ f) in let c (e : N) := ((if neg' then - Z.of_N e else Z.of_N e) - Z.of_nat (length f))%Z in
  is_nearest neg (dec d (c (counted 0 ds))) x <-> is_nearest neg (dec d (c (decimal ds))) x.
Proof.
  intros I F D L d c. destruct (counted_cases ds 0) as [E|[E1 E2]]; [change (dval 0 ds) with (decimal ds) in E; now rewrite E|].
  change (dval 0 ds) with (decimal ds) in E2. destruct (N.eq_dec d 0) as [Z|NZ].
  { rewrite Z. unfold dec. now rewrite !Rmult_0_l. }
  assert (LF : (len f < 60000)%N) by (unfold len in *; rewrite app_length in L; lia). unfold len in L, LF.
  destruct neg'.
  - assert (G : forall e, (65536 <= e)%N -> rnd (dec d (c e)) = 0).
    { intros e He. apply tiny; [apply dec_nonneg|]. unfold dec. eapply Rle_trans.
      - apply Rmult_le_compat_r; [apply bpow_ge_0|]. left. apply decimal_bound. now apply Forall_app.
      - rewrite <- bpow_plus. apply bpow_le. unfold c. lia. }
    unfold is_nearest. now rewrite !G by assumption.
  - assert (G : forall e, (65536 <= e)%N -> bpow ten 5000 <= dec d (c e)).
    { intros e He. unfold dec. rewrite <- (Rmult_1_l (bpow ten 5000)). apply Rmult_le_compat; [lra|apply bpow_ge_0|apply IZR_le; lia|].
      apply bpow_le. unfold c. lia. }
    rewrite !huge by (apply G; assumption). reflexivity.
Qed.
Theorem read_iff s x : (len s < 60000)%N -> (parse_float prec emax s = Some x <-> stands_for_float prec emax s x).
Proof.
  intros L. rewrite parse_float_iff. unfold stands_for_float, special.
  assert (G : (exists neg d j, text_counted s neg d j /\ x = of_decimal prec emax neg d j) <-> (exists neg v, decimal_text s neg v /\ nearest_to prec emax neg v x)); [|now rewrite G].
  assert (C : forall sg i p f y, s = sg ++ i ++ p ++ f ++ y -> (len (i ++ f) < 60000)%N).
  { intros sg i p f y ->. unfold len in *. rewrite !app_length in *. lia. }
  split.
  - intros (neg & d & j & (sg & i & p & f & y & e & S & SG & I & F & NE & PP & X & -> & ->) & ->).
    pose proof (of_decimal_correct neg (decimal (i ++ f)) (e - Z.of_nat (length f))) as N.
    destruct X as [[-> ->]|(c & sg' & neg' & ds & C1 & C2 & C3 & C4 & -> & ->)].
    + exists neg. eexists. split; [|apply nearest_iff; exact N]. exists sg, i, p, f, [], 0%Z. repeat (split; [first [reflexivity|assumption|left; auto]|]). reflexivity.
    + apply (counted_near neg neg' i f ds _ I F C4 (C _ _ _ _ _ S)) in N.
      exists neg. eexists. split; [|apply nearest_iff; exact N]. exists sg, i, p, f, (c :: sg' ++ ds). eexists.
      repeat (split; [first [reflexivity|assumption]|]). split; [|reflexivity]. right. exists c, sg', neg', ds. repeat (split; [first [reflexivity|assumption]|]). reflexivity.
  - intros (neg & v & (sg & i & p & f & y & e & S & SG & I & F & NE & PP & X & ->) & N). apply nearest_iff in N.
    destruct X as [[-> ->]|(c & sg' & neg' & ds & C1 & C2 & C3 & C4 & -> & ->)].
    + exists neg. do 2 eexists. split; [|eapply is_nearest_unique; [exact N|apply of_decimal_correct]].
      exists sg, i, p, f, [], 0%Z. repeat (split; [first [reflexivity|assumption|left; auto]|]). reflexivity.
    + apply (counted_near neg neg' i f ds _ I F C4 (C _ _ _ _ _ S)) in N.
      exists neg. do 2 eexists. split; [|eapply is_nearest_unique; [exact N|apply of_decimal_correct]].
      exists sg, i, p, f, (c :: sg' ++ ds). eexists. repeat (split; [first [reflexivity|assumption]|]).
      split; [right; exists c, sg', neg', ds; repeat (split; [first [reflexivity|assumption]|]); reflexivity|]. split; reflexivity.
Qed.

(** ** Printing *)
Lemma size_nat_bound k : (k < 10 ^ N.of_nat (S (N.size_nat k)))%N.
Proof.
  assert (B : (k < 2 ^ N.of_nat (N.size_nat k))%N).
  { destruct k as [|p]; [reflexivity|]. cbn [N.size_nat]. induction p as [p IH|p IH|]; cbn [Pos.size_nat]; [| |reflexivity];
      rewrite Nat2N.inj_succ, N.pow_succ_r'; lia. }
  eapply N.lt_trans; [exact B|]. rewrite Nat2N.inj_succ, N.pow_succ_r'.
  assert (2 ^ N.of_nat (N.size_nat k) <= 10 ^ N.of_nat (N.size_nat k))%N by (apply N.pow_le_mono_l; lia).
  assert (1 <= 2 ^ N.of_nat (N.size_nat k))%N by (pose proof (N.pow_nonzero 2 (N.of_nat (N.size_nat k)) ltac:(lia)); lia). lia.
Qed.
Lemma zeros_digits n : Forall digit (repeat 48%N n).
Proof. induction n; cbn [repeat]; constructor; [unfold digit; lia|assumption]. Qed.
Lemma decimal_zeros_after ds n : Z.of_N (decimal (ds ++ repeat 48%N n)) = (Z.of_N (decimal ds) * 10 ^ Z.of_nat n)%Z.
Proof.
  induction n as [|n IH]; [cbn [repeat]; rewrite app_nil_r; lia|]. replace (S n) with (n + 1)%nat by lia.
  rewrite repeat_app, app_assoc. cbn [repeat]. rewrite decimal_snoc. rewrite Nat2Z.inj_add, Z.pow_add_r by lia. change (10 ^ Z.of_nat 1)%Z with 10%Z. lia.
Qed.
Lemma decimal_zeros_before ds n : decimal (repeat 48%N n ++ ds) = decimal ds.
Proof. unfold decimal. induction n as [|n IH]; [reflexivity|]. cbn [repeat app fold_left]. exact IH. Qed.
Lemma show_decimal_text k j : exists i p f, show_decimal k j = i ++ p ++ f /\ i <> [] /\ Forall digit i /\ Forall digit f /\
  (p = [46%N] \/ (p = [] /\ f = [])) /\ dec (decimal (i ++ f)) (0 - Z.of_nat (length f)) = dec k j.
Proof.
  unfold show_decimal. destruct (show_digits_ok (S (N.size_nat k)) k [] (size_nat_bound k) ltac:(lia)) as (ds & -> & NE & D & V).
  rewrite app_nil_r. destruct (Z.leb_spec 0 j) as [J|J].
  - exists (ds ++ repeat 48%N (Z.to_nat j)), [], []. rewrite !app_nil_r. split; [reflexivity|]. split; [destruct ds; [contradiction|discriminate]|].
    split; [apply Forall_app; split; [exact D|apply zeros_digits]|]. split; [constructor|]. split; [auto|].
    unfold dec. rewrite decimal_zeros_after, V, mult_IZR. rewrite Z2Nat.id by exact J. cbn [length Z.of_nat Z.sub bpow Z.opp Z.add].
    rewrite ten_pow by exact J. ring.
  - destruct (Nat.ltb_spec (Z.to_nat (- j)) (length ds)) as [L|L].
    + exists (firstn (length ds - Z.to_nat (- j)) ds), [46%N], (skipn (length ds - Z.to_nat (- j)) ds).
      split; [reflexivity|]. split; [destruct ds; [cbn in L; lia|]; intros E; apply (f_equal (@length N)) in E; rewrite firstn_length in E; cbn [length] in *; lia|].
      assert (D' : Forall digit (firstn (length ds - Z.to_nat (- j)) ds) /\ Forall digit (skipn (length ds - Z.to_nat (- j)) ds)).
      { apply Forall_app. now rewrite firstn_skipn. }
      split; [apply D'|]. split; [apply D'|]. split; [auto|]. rewrite firstn_skipn, skipn_length, V. f_equal. lia.
    + exists [48%N], [46%N], (repeat 48%N (Z.to_nat (- j) - length ds) ++ ds). split; [reflexivity|]. split; [discriminate|].
      split; [constructor; [unfold digit; lia|constructor]|]. split; [apply Forall_app; split; [apply zeros_digits|exact D]|]. split; [auto|].
      change ([48%N] ++ repeat 48%N (Z.to_nat (- j) - length ds) ++ ds) with (repeat 48%N (S (Z.to_nat (- j) - length ds)) ++ ds).
      rewrite decimal_zeros_before, V. f_equal. rewrite app_length, repeat_length. lia.
Qed.
Lemma show_sign_text s : sign_text (show_sign s) s.
Proof. destruct s; [right; right; auto|left; auto]. Qed.
Lemma shown_decimal (x : bf) : is_finite x = true -> B2R x <> 0 ->
  exists k j, decimal_text (show_float prec emax x) (Bsign x) (dec k j) /\ shortest_for prec emax (Rabs (B2R x)) k j.
Proof.
  destruct x as [s|s| |s m e H]; intros F NZ; try discriminate F; [exfalso; apply NZ; reflexivity|].
  cbn [show_float Bsign]. pose proof (digits_of_spec m e H) as DS. cbv zeta in DS. destruct (digits_of prec emax m e _) as [k j]. exists k, j. split.
  - destruct (show_decimal_text k j) as (i & p & f & -> & NE & I & Ff & PP & V).
    exists (show_sign s), i, p, f, [], 0%Z. rewrite app_nil_r. split; [reflexivity|]. split; [apply show_sign_text|]. split; [exact I|]. split; [exact Ff|].
    split; [destruct i; [contradiction|discriminate]|]. split; [exact PP|]. split; [left; auto|]. now rewrite V.
  - replace (Rabs (B2R (B754_finite s m e H : bf))) with (B2R (B754_finite false m e H : bf)); [exact DS|].
    unfold B2R. rewrite <- F2R_Zabs. destruct s; reflexivity.
Qed.
Lemma parse_shown (x : bf) : parse_float prec emax (show_float prec emax x) = Some x.
Proof.
  apply parse_float_iff. destruct x as [s|s| |s m e H].
  - left. exists s, 0%N, 0%Z. split; [|reflexivity]. exists (show_sign s), [48%N], [], [], [], 0%Z. split; [reflexivity|]. split; [apply show_sign_text|].
    split; [constructor; [unfold digit; lia|constructor]|]. split; [constructor|]. split; [discriminate|]. split; [auto|]. split; [left; auto|]. split; reflexivity.
  - right. exists (show_sign s), s, word_inf. split; [reflexivity|]. split; [apply show_sign_text|]. right. split; [|reflexivity]. left. repeat constructor.
  - right. exists [], false, [78; 97; 78]%N. split; [reflexivity|]. split; [left; auto|]. left. split; [|reflexivity].
    constructor; [right; reflexivity|]. constructor; [left; reflexivity|]. constructor; [right; reflexivity|constructor].
  - left. cbn [show_float]. pose proof (digits_of_spec m e H) as DS. cbv zeta in DS. destruct (digits_of prec emax m e _) as [k j].
    destruct (show_decimal_text k j) as (i & p & f & -> & NE & I & Ff & PP & V). exists s, (decimal (i ++ f)), (0 - Z.of_nat (length f))%Z. split.
    + exists (show_sign s), i, p, f, [], 0%Z. rewrite app_nil_r. split; [reflexivity|]. split; [apply show_sign_text|]. split; [exact I|]. split; [exact Ff|].
      split; [destruct i; [contradiction|discriminate]|]. split; [exact PP|]. split; [left; auto|]. split; reflexivity.
    + eapply is_nearest_unique; [|apply of_decimal_correct]. rewrite V. pose proof (short_rounds _ _ _ _ _ DS) as SR.
      unfold rounded in SR. change (FLT_exp (3 - emax - prec) prec) with fexp in SR. unfold is_nearest. rewrite SR.
      rewrite Rlt_bool_true; [|eapply Rle_lt_trans; [apply Rle_abs|]; apply (abs_B2R_lt_emax _ _ (B754_finite false m e H : bf))].
      split; [reflexivity|]. split; [reflexivity|]. destruct s; [|reflexivity].
      unfold B2R. cbn [cond_Zopp]. now rewrite <- F2R_Zopp.
Qed.
Lemma digit_plain c : digit c -> plain c.
Proof. unfold digit, plain. lia. Qed.
Lemma shown_plain (x : bf) : Forall plain (show_float prec emax x).
Proof.
  assert (SG : forall s, Forall plain (show_sign s)) by (intros [|]; repeat constructor; cbn; lia).
  destruct x as [s|s| |s m e H]; cbn [show_float].
  - apply Forall_app. split; [apply SG|]. repeat constructor; lia.
  - apply Forall_app. split; [apply SG|]. repeat constructor; lia.
  - repeat constructor; lia.
  - destruct (digits_of prec emax m e _) as [k j]. apply Forall_app. split; [apply SG|].
    destruct (show_decimal_text k j) as (i & p & f & -> & _ & I & Ff & PP & _). apply Forall_app. split; [eapply Forall_impl; [apply digit_plain|exact I]|].
    apply Forall_app. split; [|eapply Forall_impl; [apply digit_plain|exact Ff]]. destruct PP as [-> |[-> _]]; repeat constructor; lia.
Qed.
End Text.
