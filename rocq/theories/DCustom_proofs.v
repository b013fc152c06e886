(** How far the custom floats and colours stored by a program built with [double_precision] are
    from the originals. *)
From Coq Require Import List NArith ZArith Arith Lia Bool Reals Lra Psatz.
From Flocq Require Import Core IEEE754.BinarySingleNaN.
From Verif Require Import Base UnalignedRW ReadExt Floats Floats_proofs FloatReal_proofs ValueSpec VertexSpec Log2_proofs Trig_proofs
  Save_proofs Codec_proofs Image_proofs Quant_proofs NormalReal_proofs VertexReal_proofs CustomReal_proofs P_Uv P_Custom
  Double DoubleSpec DoubleSave DoubleValueSpec Double2_proofs DCodec_proofs DSave_proofs DQuant_proofs DVertex_proofs.
Import ListNotations.
Local Open Scope R_scope.

Lemma d_MAX_R : fin d_MAX /\ R64 d_MAX = IZR (2 ^ 53 - 1) * bpow radix2 971.
Proof.
  pose proof (binary_normalize_correct 53 1024 gt0_53 lt_53_1024 mode_NE (2 ^ 53 - 1) 971 false) as C.
  cbv zeta in C. cbn [round_mode] in C.
  assert (G : round radix2 fexp64 ZnearestE (F2R (Float radix2 (2 ^ 53 - 1) 971)) = F2R (Float radix2 (2 ^ 53 - 1) 971)).
  { apply round_generic; [auto with typeclass_instances|]. change fexp64 with (FLT_exp (-1074) 53).
    apply generic_format_FLT. exists (Float radix2 (2 ^ 53 - 1) 971); cbn; [reflexivity|lia|lia]. }
  change (SpecFloat.fexp 53 1024) with fexp64 in C. rewrite G in C.
  rewrite Rlt_bool_true in C.
  - destruct C as (C1 & C2 & _). split; [exact C2|]. unfold R64. unfold d_MAX. rewrite C1. reflexivity.
  - rewrite Rabs_pos_eq by (apply F2R_ge_0; cbn; lia). unfold F2R. cbn [Fnum Fexp].
    change (bpow radix2 1024) with (bpow radix2 (53 + 971)). rewrite bpow_plus.
    apply Rmult_lt_compat_r; [apply bpow_gt_0|]. rewrite <- IZR_Zpower by lia. apply IZR_lt. reflexivity.
Qed.
Lemma below_MAX_d (x : f64) : fin x -> R64 d_MIN <= R64 x <= R64 d_MAX.
Proof.
  intros F. destruct d_MAX_R as [_ M]. unfold d_MIN. rewrite dneg_R, M. apply Rabs_le_iff.
  eapply Rle_trans; [apply (abs_B2R_le_emax_minus_prec 53 1024 gt0_53 x)|].
  change (bpow radix2 1024) with (bpow radix2 (53 + 971)). rewrite bpow_plus, minus_IZR, Rmult_minus_distr_r.
  rewrite <- (IZR_Zpower radix2 53) by lia. right. cbn. ring.
Qed.
Lemma range_fold_d l : forall mx mn s, fin mx -> fin mn -> Forall finite64 l -> greatest s (R64 mx) -> least s (R64 mn) ->
  let r := fold_left (fun mm x => (dmax (fst mm) x, dmin (snd mm) x)) l (mx, mn) in
  fin (fst r) /\ fin (snd r) /\ greatest (s ++ map val64 l) (R64 (fst r)) /\ least (s ++ map val64 l) (R64 (snd r)).
Proof.
  induction l as [|x l IH]; intros mx mn s F1 F2 F G L.
  - cbn. rewrite app_nil_r. auto.
  - apply Forall_cons_iff in F as [Fx F]. cbn [fold_left fst snd].
    destruct (dmax_R mx x F1 Fx) as [A1 A2]. destruct (dmin_R mn x F2 Fx) as [B1 B2].
    destruct (IH (dmax mx x) (dmin mn x) (s ++ [R64 x]) A2 B2 F) as (C1 & C2 & C3 & C4).
    + rewrite A1. eapply greatest_add; [exact G|]. same_elements.
    + rewrite B1. eapply least_add; [exact L|]. same_elements.
    + rewrite <- app_assoc in C3, C4. cbv zeta. auto.
Qed.
Lemma range_R_d l : Forall finite64 l -> l <> [] ->
  fin (fst (float_range_d l)) /\ fin (snd (float_range_d l)) /\
  greatest (map val64 l) (R64 (fst (float_range_d l))) /\ least (map val64 l) (R64 (snd (float_range_d l))).
Proof.
  intros F N. destruct l as [|x l]; [contradiction|]. apply Forall_cons_iff in F as [Fx F].
  destruct d_MAX_R as [M1 _]. assert (M2 : fin d_MIN) by (unfold d_MIN, dneg; now rewrite is_finite_Bopp).
  destruct (below_MAX_d x Fx) as [H1 H2].
  unfold float_range_d. cbn [fold_left fst snd]. 
  destruct (dmax_R d_MIN x M2 Fx) as [A1 A2]. destruct (dmin_R d_MAX x M1 Fx) as [B1 B2].
  rewrite Rmax_right in A1 by exact H1. rewrite Rmin_right in B1 by exact H2.
  apply (range_fold_d l _ _ [val64 x]); auto.
  - rewrite A1. apply greatest_one.
  - rewrite B1. apply least_one.
Qed.
(** Decoding a code. *)
Lemma decode_R_d p (mn mx : f64) (q : N) (B : R) : (1 <= p <= 30)%nat -> (Z.of_N q <= steps p)%Z -> fin mn -> fin mx ->
  R64 mn <= R64 mx -> Rabs (R64 mn) <= B -> Rabs (R64 mx) <= B -> B <= 2 ^ 60 ->
  let y := dequantize_d q (f64_of_N (mask_u64 p)) (dsub mx mn) mn in
  fin y /\ R64 mn <= R64 y <= R64 mx + / 2 ^ 50 * B + / 2 ^ 99 /\
  Rabs (R64 y - (R64 mn + IZR (Z.of_N q) / IZR (steps p) * (R64 mx - R64 mn))) <= / 2 ^ 49 * B + / 2 ^ 99.
Proof.
  intros HP Hq Fn Fx Hab Bn Bx HB y. unfold y, dequantize_d. clear y.
  set (a := R64 mn) in *. set (b := R64 mx) in *.
  apply Rabs_le_iff in Bn, Bx. assert (B0 : 0 <= B) by lra.
  assert (U4 : u64 = / 9007199254740992) by reflexivity.
  destruct (value_d p q HP Hq) as (_ & W2 & W3 & W4). cbv zeta in *.
  set (w := ddiv (f64_of_N q) (f64_of_N (mask_u64 p))) in *. set (wr := R64 w) in *.
  destruct (dsub_R mx mn Fx Fn) as [S1 S2].
  { apply (fits64 B); auto. fold a b. apply Rabs_le_iff. lra. }
  pose proof (rnd64_sub mx mn) as SE. rewrite <- S1 in SE. fold a b in SE, S1.
  set (s := R64 (dsub mx mn)) in *. rewrite (Rabs_pos_eq (b - a)) in SE by lra.
  assert (s0 : 0 <= s) by (rewrite S1, <- rnd64_0; apply rnd64_le; lra).
  apply Rabs_le_iff in SE. assert (SB : s <= 2.1 * B) by (rewrite U4 in SE; lra).
  assert (WS : 0 <= wr * s <= s).
  { split; [apply Rmult_le_pos; lra|]. pose proof (Rmult_le_compat_r s wr 1 ltac:(lra) ltac:(lra)). lra. }
  destruct (dmul_R w (dsub mx mn) W2 S2) as [G1 G2]; [apply (fits64 B); auto; fold wr s; apply Rabs_le_iff; lra|].
  fold wr s in G1. set (g := R64 (dmul w (dsub mx mn))) in *.
  assert (g0 : 0 <= g <= s) by (rewrite G1; apply rnd64_between; [apply rnd64_0|apply rnd64_R64|exact WS]).
  pose proof (rnd64_err (wr * s)) as GE. rewrite <- G1, (Rabs_pos_eq (wr * s)) in GE by lra. apply Rabs_le_iff in GE.
  destruct (dadd_R (dmul w (dsub mx mn)) mn G2 Fn) as [Y1 Y2].
  { apply (fits64 B); auto. fold g a. apply Rabs_le_iff. lra. }
  fold g a in Y1. set (z := R64 (dadd (dmul w (dsub mx mn)) mn)) in *.
  pose proof (rnd64_sum (dmul w (dsub mx mn)) mn) as YE. fold g a in YE. rewrite <- Y1 in YE.
  assert (GA : Rabs (g + a) <= 1.01 * B) by (apply Rabs_le_iff; rewrite U4 in *; lra).
  assert (YE' : Rabs (z - (g + a)) <= u64 * (1.01 * B)).
  { eapply Rle_trans; [exact YE|]. apply Rmult_le_compat_l; [rewrite U4; lra|exact GA]. }
  apply Rabs_le_iff in YE'.
  assert (az : a <= z).
  { rewrite Y1. unfold a at 1. rewrite <- (rnd64_R64 mn). fold a. apply rnd64_le. lra. }
  destruct tiny_100 as [_ [T3 T4]].
  assert (E50 : / 2 ^ 50 = 8 * u64) by (unfold u64; simpl pow; lra).
  assert (E49 : / 2 ^ 49 = 16 * u64) by (unfold u64; simpl pow; lra).
  assert (E101 : / 2 ^ 101 = / 2 ^ 99 / 4) by (replace 101%nat with (2 + 99)%nat by reflexivity; rewrite pow_add; assert (0 < 2 ^ 99) by (apply pow_lt; lra); simpl (2 ^ 2); field; lra).
  rewrite E101 in T4. rewrite E50, E49.
  set (eps := / 2 ^ 99) in *.
  split; [exact Y2|]. split; [split; [exact az|rewrite U4 in *; lra]|].
  set (c := IZR (Z.of_N q) / IZR (steps p)) in *. assert (C01 : 0 <= c <= 1) by (apply quotient_01; pose proof (steps_bounds_d p HP); lia).
  assert (K : Rabs (wr * s - c * (b - a)) <= 7 * (u64 * B)).
  { replace (wr * s - c * (b - a)) with ((wr - c) * s + c * (s - (b - a))) by ring.
    eapply Rle_trans; [apply Rabs_triang|]. rewrite !Rabs_mult, (Rabs_pos_eq s), (Rabs_pos_eq c) by lra.
    assert (Rabs (wr - c) * s <= 2 * u64 * (2.1 * B)) by (apply Rmult_le_compat; auto; try lra; apply Rabs_pos).
    assert (c * Rabs (s - (b - a)) <= 1 * (u64 * (2 * B))).
    { apply Rmult_le_compat; try lra; [apply Rabs_pos|]. apply Rabs_le_iff. rewrite U4 in *. lra. }
    rewrite U4 in *. lra. }
  apply Rabs_le_iff in K. apply Rabs_le_iff. rewrite U4 in *. lra.
Qed.
Definition float_code1_d (mn mx mul x : f64) : N := u64_of_f64 (dmul (ddiv (dsub x mn) (dsub mx mn)) mul).
Lemma fcode_R_d p (mul mn mx x : f64) (B : R) : (1 <= p <= 30)%nat -> R64 mul = IZR (steps p) -> fin mul ->
  fin mn -> fin mx -> fin x -> R64 mn < R64 mx -> R64 mn <= R64 x <= R64 mx -> Rabs (R64 mn) <= B -> Rabs (R64 mx) <= B -> B <= 2 ^ 60 ->
  let q := float_code1_d mn mx mul x in
  low p q = q /\ (Z.of_N q <= steps p)%Z /\
  Rabs (IZR (Z.of_N q) / IZR (steps p) - (R64 x - R64 mn) / (R64 mx - R64 mn)) <= / IZR (steps p) + 6 * u64.
Proof.
  intros HP M1 M2 Fn Fx Fv Hab Hv Bn Bx HB q. assert (U3 : u64 = / 9007199254740992) by reflexivity.
  set (a := R64 mn) in *. set (b := R64 mx) in *. set (v := R64 x) in *.
  apply Rabs_le_iff in Bn, Bx. pose proof (steps_bounds_d p HP) as SB.
  destruct (dsub_R mx mn Fx Fn) as [D1 D2]; [apply (fits_B_d B); auto; apply Rabs_le_iff; fold a b; lra|].
  fold a b in D1. set (D := R64 (dsub mx mn)) in *.
  destruct (dsub_R x mn Fv Fn) as [V1 V2]; [apply (fits_B_d B); auto; apply Rabs_le_iff; fold a v; lra|].
  fold a v in V1. set (d := R64 (dsub x mn)) in *.
  assert (d0 : 0 <= d) by (rewrite V1, <- rnd64_0; apply rnd64_le; lra).
  assert (dD : d <= D) by (rewrite V1, D1; apply rnd64_le; lra).
  pose proof (rnd64_diff mx mn) as DE. fold a b in DE. rewrite <- D1, (Rabs_pos_eq (b - a)) in DE by lra.
  pose proof (rnd64_diff x mn) as VE. fold a v in VE. rewrite <- V1, (Rabs_pos_eq (v - a)) in VE by lra.
  assert (Dp : 0.9 * (b - a) <= D) by (apply Rabs_le_iff in DE; rewrite U3 in DE; lra).
  assert (Q : 0 <= d / D <= 1) by (apply div_01; lra).
  destruct (ddiv_R (dsub x mn) (dsub mx mn) V2) as [T1 T2]; [fold D; lra|fold d D; now apply fits1_d|].
  fold d D in T1. set (t := R64 (ddiv (dsub x mn) (dsub mx mn))) in *.
  assert (t01 : 0 <= t <= 1) by (rewrite T1; apply rnd64_between; [apply rnd64_0|apply rnd64_1|exact Q]).
  destruct (code_R_d p mul _ HP M1 M2 T2 t01) as (C1 & C2 & C3). fold t in C1.
  unfold q, float_code1_d. split; [exact C2|]. split; [exact C3|]. clear q.
  destruct (encode_R_d (steps p) t SB t01) as (_ & _ & C4). cbv zeta in C1, C4. rewrite <- C1 in C4.
  pose proof (rnd64_err1 (d / D)) as TE. rewrite <- T1, (Rabs_pos_eq (d / D)) in TE by lra. specialize (TE (proj2 Q)).
  assert (K : Rabs (d / D - (v - a) / (b - a)) <= 2.5 * u64).
  { set (c := (v - a) / (b - a)). assert (c01 : 0 <= c <= 1) by (apply div_01; lra).
    assert (Ec : v - a = c * (b - a)) by (unfold c; field; lra).
    apply Rmult_le_reg_r with D; [lra|]. rewrite <- (Rabs_pos_eq D) at 2 by lra. rewrite <- Rabs_mult.
    replace ((d / D - c) * D) with ((d - (v - a)) + c * ((b - a) - D)) by (rewrite Ec; field; lra).
    eapply Rle_trans; [apply Rabs_triang|]. rewrite Rabs_mult, (Rabs_pos_eq c), (Rabs_minus_sym (b - a) D) by lra.
    assert (c * Rabs (D - (b - a)) <= 1 * (u64 * (b - a))) by (apply Rmult_le_compat; auto; try lra; apply Rabs_pos).
    assert (u64 * (v - a) <= u64 * (b - a)) by (apply Rmult_le_compat_l; [rewrite U3|]; lra).
    assert (u64 * (b - a) <= u64 * (1.2 * D)) by (apply Rmult_le_compat_l; [rewrite U3|]; lra). assert (0 <= u64 * D) by (apply Rmult_le_pos; [rewrite U3|]; lra). lra. }
  set (c := (v - a) / (b - a)) in *.
  apply Rabs_le_iff in K, TE, C4. apply Rabs_le_iff. rewrite U3 in *. lra.
Qed.
Lemma float_R_d p (mul mn mx x : f64) (B : R) : (1 <= p <= 30)%nat -> R64 mul = IZR (steps p) -> fin mul ->
  fin mn -> fin mx -> fin x -> R64 mn < R64 mx -> R64 mn <= R64 x <= R64 mx -> Rabs (R64 mn) <= B -> Rabs (R64 mx) <= B -> B <= 2 ^ 60 ->
  let y := dequantize_d (low p (float_code1_d mn mx mul x)) (f64_of_N (mask_u64 p)) (dsub mx mn) mn in
  fin y /\ R64 mn <= R64 y <= R64 mx + / 2 ^ 50 * B + / 2 ^ 99 /\
  Rabs (R64 y - R64 x) <= (R64 mx - R64 mn) / IZR (steps p) + / 2 ^ 48 * B + / 2 ^ 99.
Proof.
  intros HP M1 M2 Fn Fx Fv Hab Hv Bn Bx HB y.
  destruct (fcode_R_d p mul mn mx x B HP M1 M2 Fn Fx Fv Hab Hv Bn Bx HB) as (L & Q & C). cbv zeta in *.
  unfold y. rewrite L. set (q := float_code1_d mn mx mul x) in *.
  destruct (decode_R_d p mn mx q B HP Q Fn Fx ltac:(lra) Bn Bx HB) as (Y1 & Y2 & Y3). cbv zeta in *.
  split; [exact Y1|]. split; [exact Y2|].
  set (z := R64 (dequantize_d q (f64_of_N (mask_u64 p)) (dsub mx mn) mn)) in *. set (a := R64 mn) in *. set (b := R64 mx) in *. set (v := R64 x) in *.
  set (k := IZR (Z.of_N q) / IZR (steps p)) in *.
  assert (S1 : 1 <= IZR (steps p)) by (pose proof (steps_bounds_d p HP); apply IZR_le; lia).
  assert (K : Rabs (k * (b - a) - (v - a)) <= (b - a) / IZR (steps p) + 12 * (u64 * B)).
  { replace (k * (b - a) - (v - a)) with ((k - (v - a) / (b - a)) * (b - a)) by (field; lra).
    rewrite Rabs_mult, (Rabs_pos_eq (b - a)) by lra.
    eapply Rle_trans; [apply Rmult_le_compat_r; [lra|exact C]|].
    apply Rabs_le_iff in Bn, Bx.
    assert (u64 * (b - a) <= u64 * (2 * B)) by (apply Rmult_le_compat_l; [unfold u64; lra|lra]). unfold Rdiv. lra. }
  assert (E22 : / 2 ^ 49 = 16 * u64) by (unfold u64; simpl pow; lra).
  assert (E20 : / 2 ^ 48 = 32 * u64) by (unfold u64; simpl pow; lra).
  rewrite E22 in Y3. rewrite E20. set (eps := / 2 ^ 99) in *. assert (0 <= u64 * B) by (apply Rmult_le_pos; [unfold u64; lra|pose proof (Rabs_pos a); lra]).
  apply Rabs_le_iff in K, Y3. apply Rabs_le_iff. lra.
Qed.
Lemma zero_of_d (x : f64) : fin x -> R64 x = 0 -> exists s, x = B754_zero s.
Proof.
  intros F Z. destruct x as [s|s| |s m e W]; try discriminate; [eauto|]. exfalso. revert Z. unfold R64, B2R.
  destruct s; [apply Rlt_not_eq; now apply F2R_lt_0|apply Rgt_not_eq; now apply F2R_gt_0].
Qed.
Lemma flat_code_d (mul mn mx x : f64) (B : R) : fin mn -> fin mx -> fin x -> R64 mn = R64 mx -> R64 x = R64 mn ->
  Rabs (R64 mn) <= B -> B <= 2 ^ 60 -> float_code1_d mn mx mul x = 0%N.
Proof.
  intros Fn Fx Fv E V Bn HB. unfold float_code1_d.
  assert (Z : forall y, fin y -> R64 y = R64 mn -> exists s, dsub y mn = B754_zero s).
  { intros y Fy Y. assert (D : R64 y - R64 mn = 0) by lra.
    destruct (dsub_R y mn Fy Fn) as [A C]; [rewrite D, Rabs_R0; apply bpow_ge_0|]. apply zero_of_d; [exact C|]. rewrite A, D. apply rnd64_0. }
  destruct (Z x Fv V) as [s1 ->]. destruct (Z mx Fx (eq_sym E)) as [s2 ->]. destruct mul; reflexivity.
Qed.
Lemma ranges_is_d B lo hi l : ranges_d B lo hi l ->
  fin (fst (float_range_d l)) /\ fin (snd (float_range_d l)) /\ R64 (fst (float_range_d l)) = hi /\ R64 (snd (float_range_d l)) = lo /\
  Rabs lo <= B /\ Rabs hi <= B /\ lo <= hi /\ Forall (fun x => lo <= R64 x <= hi) l.
Proof.
  intros (F & FB & [L1 L2] & [G1 G2]). assert (N : l <> []) by (intros ->; contradiction).
  destruct (range_R_d l F N) as (A1 & A2 & [A3 A4] & [A5 A6]).
  assert (E1 : R64 (fst (float_range_d l)) = hi) by (apply Rle_antisym; auto).
  assert (E2 : R64 (snd (float_range_d l)) = lo) by (apply Rle_antisym; auto).
  rewrite Forall_forall in FB.
  split; [exact A1|]. split; [exact A2|]. split; [exact E1|]. split; [exact E2|].
  split; [apply in_map_iff in L1 as (x & <- & I); now apply FB|].
  split; [apply in_map_iff in G1 as (x & <- & I); now apply FB|].
  split; [now apply L2|]. apply Forall_forall. intros x I. pose proof (in_map val64 l x I). split; auto.
Qed.
Lemma float_width_wide_R_d lm l B lo hi q : log2_64_ok lm -> ranges_d B lo hi l -> B <= 2 ^ 60 -> finite64 q -> 0 < val64 q ->
  / 2 ^ 60 * val64 q <= hi - lo <= 2 ^ 60 * val64 q ->
  let w := float_width_d lm l q in
  (1 <= w)%nat /\ ((w <= 254)%nat -> 0.9997 * (hi - lo) <= 2 ^ w * val64 q) /\ ((1 < w)%nat -> 2 ^ w * val64 q <= 2.001 * (hi - lo)).
Proof.
  intros LG HR HB Fq Pq Hs w. destruct (ranges_is_d _ _ _ _ HR) as (A1 & A2 & E1 & E2 & B1 & B2 & LH & _).
  change val64 with R64 in *. unfold w, float_width_d in *. set (mx := fst (float_range_d l)) in *. set (mn := snd (float_range_d l)) in *.
  assert (P60 : 0 < / 2 ^ 60) by (apply Rinv_0_lt_compat, pow_lt; lra).
  assert (XP : 0 < / 2 ^ 60 * R64 q) by (apply Rmult_lt_0_compat; lra).
  assert (XQ : 0 < 2 ^ 60 * R64 q) by (apply Rmult_lt_0_compat; [apply pow_lt|]; lra).
  assert (SP : 0 < hi - lo) by lra.
  apply Rabs_le_iff in B1, B2.
  destruct (dsub_R mx mn A1 A2) as [D1 D2]; [rewrite E1, E2; apply (fits_B_d B); auto; apply Rabs_le_iff; lra|].
  pose proof (rnd64_diff mx mn) as DE. rewrite <- D1, E1, E2, (Rabs_pos_eq (hi - lo)) in DE by lra. apply Rabs_le_iff in DE.
  set (D := R64 (dsub mx mn)) in *. assert (DB : 0.99999 * (hi - lo) <= D <= 1.00001 * (hi - lo)) by (unfold u64 in DE; lra).
  assert (I : 0.9 * / 2 ^ 60 <= D / R64 q <= 1.1 * 2 ^ 60).
  { split; apply Rmult_le_reg_r with (R64 q); auto; unfold Rdiv; rewrite (Rmult_assoc D), Rinv_l by lra; rewrite (Rmult_assoc _ _ (R64 q)); lra. }
  destruct (ddiv_R (dsub mx mn) q D2) as [Q1 Q2]; [lra| |].
  { fold D. rewrite Rabs_pos_eq, big64_pow by lra. apply Rle_trans with (2 * 2 ^ 60); [assert (0 < 2 ^ 60) by (apply pow_lt; lra); lra|].
    replace (2 * 2 ^ 60) with (2 ^ 61) by (simpl pow; lra). apply pow2_le. lia. }
  fold D in Q1. pose proof (rnd64_err (D / R64 q)) as Er. rewrite <- Q1, (Rabs_pos_eq (D / R64 q)) in Er by lra.
  destruct tiny_100 as [_ [T1 T2']]. assert (T2 : tiny64 <= / 2 ^ 100) by (eapply Rle_trans; [exact T2'|]; apply Rinv_le_contravar; [apply pow_lt; lra|apply pow2_le; lia]).
  assert (T : tiny64 <= 0.000001 * (D / R64 q)).
  { eapply Rle_trans; [exact T2|]. apply Rle_trans with (0.000001 * (0.9 * / 2 ^ 60)); [|apply Rmult_le_compat_l; lra].
    replace (/ 2 ^ 100) with (/ 2 ^ 60 * / 2 ^ 40) by (rewrite <- Rinv_mult, <- pow_add; reflexivity).
    replace (0.000001 * (0.9 * / 2 ^ 60)) with (/ 2 ^ 60 * 0.0000009) by (set (t := / 2 ^ 60); lra). apply Rmult_le_compat_l; [lra|]. simpl pow. lra. }
  apply Rabs_le_iff in Er. set (r := R64 (ddiv (dsub mx mn) q)) in *.
  assert (RB : 0.99999 * (D / R64 q) <= r <= 1.00001 * (D / R64 q)) by (unfold u64 in Er; lra).
  destruct (width_covers_wide_d lm (ddiv (dsub mx mn) q) LG Q2) as [W1 W2]; [fold r; lra|]. fold r in W1, W2. cbv zeta in *.
  set (k := u8_of_f64 _) in *. rewrite !pow_IZR2 in *.
  assert (Eq : D / R64 q * R64 q = D) by (field; lra).
  assert (rq : 0.99999 * D <= r * R64 q <= 1.00001 * D).
  { rewrite <- Eq at 1 2. rewrite <- !Rmult_assoc. split; apply Rmult_le_compat_r; lra. }
  split; [lia|].
  assert (K : 2 ^ k <= 2 ^ Nat.max k 1) by (apply pow2_le; lia).
  split.
  - intros W30. specialize (W1 ltac:(lia)). assert (2 ^ k * R64 q <= 2 ^ Nat.max k 1 * R64 q) by (apply Rmult_le_compat_r; lra).
    assert (r * (1 - / 5000) * R64 q <= 2 ^ k * R64 q) by (apply Rmult_le_compat_r; lra).
    replace (r * (1 - / 5000) * R64 q) with (r * R64 q * (1 - / 5000)) in * by ring. lra.
  - intros H. assert (1 < k)%nat by lia. replace (Nat.max k 1) with k by lia. specialize (W2 ltac:(lia)).
    assert (2 ^ k * R64 q <= 2 * r * (1 + / 5000) * R64 q) by (apply Rmult_le_compat_r; lra).
    replace (2 * r * (1 + / 5000) * R64 q) with (r * R64 q * (2 * (1 + / 5000))) in * by ring. lra.
Qed.
Lemma float_width_R_d lm l B lo hi q : log2_64_ok lm -> ranges_d B lo hi l -> B <= 2 ^ 60 -> finite64 q -> 0 < val64 q ->
  / 2 ^ 60 * val64 q <= hi - lo <= 2 ^ 60 * val64 q ->
  let w := float_width_d lm l q in (w <= 30)%nat ->
  (1 <= w)%nat /\ 0.9997 * (hi - lo) <= 2 ^ w * val64 q /\ ((1 < w)%nat -> 2 ^ w * val64 q <= 2.001 * (hi - lo)).
Proof. intros LG HR HB Fq Pq Hs w W. destruct (float_width_wide_R_d lm l B lo hi q LG HR HB Fq Pq Hs) as (X & Y & Z). cbv zeta in *. split; [exact X|]. split; [apply Y; unfold w in W; lia|exact Z]. Qed.
Lemma color_width_R_d lm q : log2_64_ok lm -> finite64 q -> / 2 ^ 60 <= val64 q <= 1 - / 2 ^ 10 ->
  let w := color_width_d lm q in (w <= 30)%nat ->
  (1 <= w)%nat /\ 0.9997 <= 2 ^ w * val64 q <= 2.001.
Proof.
  intros LG Fq Hq w W30. change val64 with R64 in *. unfold w, color_width_d in *. destruct d1_R as [F1 F1'].
  assert (P60 : 0 < / 2 ^ 60) by (apply Rinv_0_lt_compat, pow_lt; lra).
  assert (P10 : / 2 ^ 10 = / 1024) by (simpl pow; lra). rewrite P10 in Hq.
  destruct (dmin_R q d1 Fq F1') as [N1 N2]. rewrite F1, Rmin_left in N1 by lra.
  set (m := dmin q d1) in *.
  assert (I : 1.0009 <= 1 / R64 m <= 2 ^ 60).
  { rewrite N1. split; apply Rmult_le_reg_r with (R64 q); try lra; unfold Rdiv; rewrite Rmult_1_l, Rinv_l by lra; [lra|].
    assert (2 ^ 60 * / 2 ^ 60 <= 2 ^ 60 * R64 q) by (apply Rmult_le_compat_l; [apply pow_le|]; lra).
    rewrite Rinv_r in H; [lra|apply pow_nonzero; lra]. }
  destruct (ddiv_R d1 m F1') as [D1 D2]; [lra| |].
  { rewrite F1, Rabs_pos_eq, big64_pow by lra. eapply Rle_trans; [apply I|apply pow2_le; lia]. }
  rewrite F1 in D1. pose proof (rnd64_err (1 / R64 m)) as Er. rewrite <- D1, (Rabs_pos_eq (1 / R64 m)) in Er by lra.
  destruct tiny_100 as [_ [T1 T2']]. assert (T2 : tiny64 <= / 2 ^ 100) by (eapply Rle_trans; [exact T2'|]; apply Rinv_le_contravar; [apply pow_lt; lra|apply pow2_le; lia]). assert (T3 : / 2 ^ 100 <= 0.000001) by (simpl pow; lra).
  apply Rabs_le_iff in Er. set (r := R64 (ddiv d1 m)) in *.
  assert (RB : 0.99999 * (1 / R64 m) <= r <= 1.00001 * (1 / R64 m)) by (unfold u64 in Er; lra).
  destruct (width_covers_d lm (ddiv d1 m) LG D2) as [W1 W2]; [fold r; lra|lia|]. fold r in W1, W2. cbv zeta in *.
  set (k := u8_of_f64 _) in *. rewrite !pow_IZR2 in *.
  assert (K1 : (1 <= k)%nat).
  { destruct k; [|lia]. simpl pow in W1. lra. }
  specialize (W2 ltac:(lia)).
  assert (Eq : 1 / R64 m * R64 q = 1) by (rewrite N1; field; lra).
  assert (rq : 0.99999 <= r * R64 q <= 1.00001).
  { destruct RB as [RB1 RB2]. split.
    - apply Rmult_le_compat_r with (r := R64 q) in RB1; [|lra]. rewrite Rmult_assoc, Eq in RB1. lra.
    - apply Rmult_le_compat_r with (r := R64 q) in RB2; [|lra]. rewrite Rmult_assoc, Eq in RB2. lra. }
  split; [exact K1|]. split.
  - assert (r * (1 - / 5000) * R64 q <= 2 ^ k * R64 q) by (apply Rmult_le_compat_r; lra).
    replace (r * (1 - / 5000) * R64 q) with (r * R64 q * (1 - / 5000)) in * by ring. lra.
  - assert (2 ^ k * R64 q <= 2 * r * (1 + / 5000) * R64 q) by (apply Rmult_le_compat_r; lra).
    replace (2 * r * (1 + / 5000) * R64 q) with (r * R64 q * (2 * (1 + / 5000))) in * by ring. lra.
Qed.
