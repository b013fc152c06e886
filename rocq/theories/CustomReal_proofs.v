(** How far stored custom floats and colours are from the originals. *)
From Coq Require Import List NArith ZArith Arith Lia Bool Reals Lra Psatz.
From Flocq Require Import Core Relative Plus_error IEEE754.BinarySingleNaN.
From Verif Require Import Base UnalignedRW ReadExt Floats Floats_proofs FloatReal_proofs ValueSpec VertexSpec Log2_proofs Trig_proofs
  Vertices CustomData Save_proofs Codec_proofs Quant_proofs NormalReal_proofs VertexReal_proofs.
Import ListNotations.
Local Open Scope R_scope.

(** ** The range of a float array *)

Lemma f32_MAX_R : fin f32_MAX /\ R32 f32_MAX = IZR (2 ^ 24 - 1) * bpow radix2 104.
Proof.
  pose proof (binary_normalize_correct 24 128 gt0_24 lt_24_128 mode_NE (2 ^ 24 - 1) 104 false) as C.
  cbv zeta in C. cbn [round_mode] in C.
  assert (G : round radix2 fexp32 ZnearestE (F2R (Float radix2 (2 ^ 24 - 1) 104)) = F2R (Float radix2 (2 ^ 24 - 1) 104)).
  { apply round_generic; [auto with typeclass_instances|]. change fexp32 with (FLT_exp (-149) 24).
    apply generic_format_FLT. exists (Float radix2 (2 ^ 24 - 1) 104); cbn; [reflexivity|lia|lia]. }
  change (SpecFloat.fexp 24 128) with fexp32 in C. rewrite G in C.
  rewrite Rlt_bool_true in C.
  - destruct C as (C1 & C2 & _). split; [exact C2|]. unfold R32. unfold f32_MAX. rewrite C1. reflexivity.
  - rewrite Rabs_pos_eq by (apply F2R_ge_0; cbn; lia). unfold F2R. cbn [Fnum Fexp].
    change (bpow radix2 128) with (bpow radix2 (24 + 104)). rewrite bpow_plus.
    apply Rmult_lt_compat_r; [apply bpow_gt_0|]. rewrite <- IZR_Zpower by lia. apply IZR_lt. reflexivity.
Qed.
Lemma below_MAX (x : f32) : fin x -> R32 f32_MIN <= R32 x <= R32 f32_MAX.
Proof.
  intros F. destruct f32_MAX_R as [_ M]. unfold f32_MIN. rewrite fneg_R, M. apply Rabs_le_iff.
  eapply Rle_trans; [apply (abs_B2R_le_emax_minus_prec 24 128 gt0_24 x)|].
  change (bpow radix2 128) with (bpow radix2 (24 + 104)). rewrite bpow_plus, minus_IZR, Rmult_minus_distr_r.
  rewrite <- (IZR_Zpower radix2 24) by lia. right. cbn. ring.
Qed.

(** The largest and the smallest element. *)
Lemma range_fold l : forall mx mn s, fin mx -> fin mn -> Forall finite l -> greatest s (R32 mx) -> least s (R32 mn) ->
  let r := fold_left (fun mm x => (fmax (fst mm) x, fmin (snd mm) x)) l (mx, mn) in
  fin (fst r) /\ fin (snd r) /\ greatest (s ++ map val l) (R32 (fst r)) /\ least (s ++ map val l) (R32 (snd r)).
Proof.
  induction l as [|x l IH]; intros mx mn s F1 F2 F G L.
  - cbn. rewrite app_nil_r. auto.
  - apply Forall_cons_iff in F as [Fx F]. cbn [fold_left fst snd].
    destruct (fmax_R mx x F1 Fx) as [A1 A2]. destruct (fmin_R mn x F2 Fx) as [B1 B2].
    destruct (IH (fmax mx x) (fmin mn x) (s ++ [R32 x]) A2 B2 F) as (C1 & C2 & C3 & C4).
    + rewrite A1. eapply greatest_add; [exact G|]. same_elements.
    + rewrite B1. eapply least_add; [exact L|]. same_elements.
    + rewrite <- app_assoc in C3, C4. cbv zeta. auto.
Qed.
Lemma range_R l : Forall finite l -> l <> [] ->
  fin (fst (float_range l)) /\ fin (snd (float_range l)) /\
  greatest (map val l) (R32 (fst (float_range l))) /\ least (map val l) (R32 (snd (float_range l))).
Proof.
  intros F N. destruct l as [|x l]; [contradiction|]. apply Forall_cons_iff in F as [Fx F].
  destruct f32_MAX_R as [M1 _]. assert (M2 : fin f32_MIN) by (unfold f32_MIN; now rewrite fneg_fin).
  destruct (below_MAX x Fx) as [H1 H2].
  unfold float_range. cbn [fold_left fst snd]. 
  destruct (fmax_R f32_MIN x M2 Fx) as [A1 A2]. destruct (fmin_R f32_MAX x M1 Fx) as [B1 B2].
  rewrite Rmax_right in A1 by exact H1. rewrite Rmin_right in B1 by exact H2.
  apply (range_fold l _ _ [val x]); auto.
  - rewrite A1. apply greatest_one.
  - rewrite B1. apply least_one.
Qed.

(** ** One float *)

Lemma fits64 (B x : R) : B <= 2 ^ 60 -> Rabs x <= 8 * B -> Rabs x <= big64.
Proof.
  intros HB H. eapply Rle_trans; [exact H|]. pose proof big64_ge as G.
  change (2 ^ 100)%Z with 1267650600228229401496703205376%Z in G. simpl pow in HB. lra.
Qed.
Lemma rnd64_R32 (x : f32) : fin x -> rnd64 (R32 x) = R32 x.
Proof. intros F. destruct (f64_of_f32_correct x F) as (A & _). rewrite <- A. apply rnd64_R64. Qed.
Lemma rnd64_sum (x y : f64) : Rabs (rnd64 (R64 x + R64 y) - (R64 x + R64 y)) <= u64 * Rabs (R64 x + R64 y).
Proof.
  destruct (@FLT_plus_error_N_ex radix2 (-1074) 53 eq_refl (fun z => negb (Z.even z)) (R64 x) (R64 y)) as (e & He & E).
  1,2: apply generic_format_B2R.
  change (round radix2 (FLT_exp (-1074) 53) _ (R64 x + R64 y)) with (rnd64 (R64 x + R64 y)) in E. rewrite E.
  replace ((R64 x + R64 y) * (1 + e) - (R64 x + R64 y)) with (e * (R64 x + R64 y)) by ring. rewrite Rabs_mult.
  apply Rmult_le_compat_r; [apply Rabs_pos|]. eapply Rle_trans; [exact He|].
  unfold u_ro. change (bpow radix2 (-53 + 1)) with (/ IZR (2 ^ 52)). unfold u64. cbn.
  apply Rmult_le_reg_r with (1 + / 2 * / 4503599627370496); [lra|]. unfold Rdiv. rewrite Rmult_assoc, Rinv_l by lra. lra.
Qed.
Lemma rnd64_sub (x y : f64) : Rabs (rnd64 (R64 x - R64 y) - (R64 x - R64 y)) <= u64 * Rabs (R64 x - R64 y).
Proof.
  pose proof (rnd64_sum x (Bopp y)) as H. unfold R64 in *. rewrite B2R_Bopp in H. exact H.
Qed.
Lemma tiny_100 : 0 < tiny32 <= / 2 ^ 100 /\ 0 < tiny64 <= / 2 ^ 101.
Proof.
  split.
  - unfold tiny32. split; [apply bpow_gt_0|]. rewrite pow_powerRZ. change (Z.of_nat 100) with 100%Z.
    change 2 with (IZR radix2). rewrite <- bpow_powerRZ, <- bpow_opp. apply bpow_le. lia.
  - unfold tiny64. split; [apply bpow_gt_0|]. rewrite pow_powerRZ. change (Z.of_nat 101) with 101%Z.
    change 2 with (IZR radix2). rewrite <- bpow_powerRZ, <- bpow_opp. apply bpow_le. lia.
Qed.

Definition float_code1 (mn mx mul x : f32) : N := u64_of_f32 (fmul (fdiv (fsub x mn) (fsub mx mn)) mul).
Definition float_value1 (mn mx : f32) (w : nat) (q : N) : f32 :=
  f32_of_f64 (dadd (dmul (ddiv (f64_of_N q) (f64_of_N (mask_u64 w))) (dsub (f64_of_f32 mx) (f64_of_f32 mn))) (f64_of_f32 mn)).

(** Decoding a code of at most 24 bits. *)
Lemma decode_R p (mn mx : f32) (q : N) (B : R) : (1 <= p <= 24)%nat -> (Z.of_N q <= steps p)%Z -> fin mn -> fin mx ->
  R32 mn <= R32 mx -> Rabs (R32 mn) <= B -> Rabs (R32 mx) <= B -> B <= 2 ^ 60 ->
  let y := float_value1 mn mx p q in
  fin y /\ R32 mn <= R32 y <= R32 mx + / 2 ^ 22 * B + / 2 ^ 99 /\
  Rabs (R32 y - (R32 mn + IZR (Z.of_N q) / IZR (steps p) * (R32 mx - R32 mn))) <= / 2 ^ 22 * B + / 2 ^ 99 /\
  (q = 0%N -> R32 y = R32 mn).
Proof.
  intros HP Hq Fn Fx Hab Bn Bx HB y. unfold y, float_value1. clear y.
  destruct (f64_of_f32_correct mn Fn) as (N1 & N2 & _). destruct (f64_of_f32_correct mx Fx) as (X1 & X2 & _).
  set (dn := f64_of_f32 mn) in *. set (dx := f64_of_f32 mx) in *.
  set (a := R32 mn) in *. set (b := R32 mx) in *.
  apply Rabs_le_iff in Bn, Bx. assert (B0 : 0 <= B) by lra.
  assert (U4 : u64 = / 9007199254740992) by reflexivity. assert (U3 : u32 = / 16777216) by reflexivity.
  destruct (value64_R p q HP Hq) as (_ & W2 & W3 & W4). cbv zeta in *.
  set (w := ddiv (f64_of_N q) (f64_of_N (mask_u64 p))) in *. set (wr := R64 w) in *.
  destruct (dsub_R dx dn X2 N2) as [S1 S2].
  { apply (fits64 B); auto. rewrite X1, N1. apply Rabs_le_iff. lra. }
  pose proof (rnd64_sub dx dn) as SE. rewrite <- S1 in SE. rewrite X1, N1 in SE, S1.
  set (s := R64 (dsub dx dn)) in *. rewrite (Rabs_pos_eq (b - a)) in SE by lra.
  assert (s0 : 0 <= s) by (rewrite S1, <- rnd64_0; apply rnd64_le; lra).
  apply Rabs_le_iff in SE. assert (SB : s <= 2.1 * B) by (rewrite U4 in SE; lra).
  assert (WS : 0 <= wr * s <= s).
  { split; [apply Rmult_le_pos; lra|]. pose proof (Rmult_le_compat_r s wr 1 ltac:(lra) ltac:(lra)). lra. }
  destruct (dmul_R w (dsub dx dn) W2 S2) as [G1 G2]; [apply (fits64 B); auto; fold wr s; apply Rabs_le_iff; lra|].
  fold wr s in G1. set (g := R64 (dmul w (dsub dx dn))) in *.
  assert (g0 : 0 <= g <= s) by (rewrite G1; apply rnd64_between; [apply rnd64_0|apply rnd64_R64|exact WS]).
  pose proof (rnd64_err (wr * s)) as GE. rewrite <- G1, (Rabs_pos_eq (wr * s)) in GE by lra. apply Rabs_le_iff in GE.
  destruct (dadd_R (dmul w (dsub dx dn)) dn G2 N2) as [Y1 Y2].
  { apply (fits64 B); auto. fold g. rewrite N1. apply Rabs_le_iff. lra. }
  fold g in Y1. rewrite N1 in Y1. set (z := R64 (dadd (dmul w (dsub dx dn)) dn)) in *.
  pose proof (rnd64_sum (dmul w (dsub dx dn)) dn) as YE. fold g in YE. rewrite N1, <- Y1 in YE.
  assert (GA : Rabs (g + a) <= 3.2 * B) by (apply Rabs_le_iff; lra).
  assert (YE' : Rabs (z - (g + a)) <= u64 * (3.2 * B)).
  { eapply Rle_trans; [exact YE|]. apply Rmult_le_compat_l; [rewrite U4; lra|exact GA]. }
  apply Rabs_le_iff in YE'.
  assert (az : a <= z).
  { rewrite Y1. unfold a at 1. rewrite <- (rnd64_R32 mn Fn). fold a. apply rnd64_le. lra. }
  assert (ZB : Rabs z <= 1.1 * B) by (apply Rabs_le_iff; rewrite U4 in *; lra).
  assert (ZF : Rabs z <= big32).
  { eapply Rle_trans; [exact ZB|]. pose proof big32_ge as G.
    change (2 ^ 100)%Z with 1267650600228229401496703205376%Z in G. simpl pow in HB. lra. }
  destruct (f32_of_f64_R _ Y2 ZF) as [F1 F2]. fold z in F1.
  set (y := R32 (f32_of_f64 (dadd (dmul w (dsub dx dn)) dn))) in *.
  pose proof (rnd32_err z) as FE. rewrite <- F1 in FE.
  assert (FE' : Rabs (y - z) <= u32 * (1.1 * B) + tiny32).
  { eapply Rle_trans; [exact FE|]. apply Rplus_le_compat_r. apply Rmult_le_compat_l; [rewrite U3; lra|exact ZB]. }
  apply Rabs_le_iff in FE'.
  destruct tiny_100 as [[T1 T2] [T3 T4]].
  assert (E22 : / 2 ^ 22 = 4 * u32) by (unfold u32; simpl pow; lra).
  assert (E101 : / 2 ^ 101 = / 2 ^ 99 / 4) by (replace 101%nat with (2 + 99)%nat by reflexivity; rewrite pow_add; assert (0 < 2 ^ 99) by (apply pow_lt; lra); simpl (2 ^ 2); field; lra).
  assert (E100 : / 2 ^ 100 = / 2 ^ 99 / 2) by (replace 100%nat with (1 + 99)%nat by reflexivity; rewrite pow_add; assert (0 < 2 ^ 99) by (apply pow_lt; lra); simpl (2 ^ 1); field; lra).
  rewrite E100 in T2. rewrite E101 in T4. rewrite E22.
  set (eps := / 2 ^ 99) in *.
  split; [exact F2|]. split; [|split].
  - split.
    + rewrite F1. apply Rle_trans with (rnd32 a); [right; symmetry; apply rnd32_R32|]. now apply rnd32_le.
    + rewrite U4, U3 in *. lra.
  - set (c := IZR (Z.of_N q) / IZR (steps p)) in *. assert (C01 : 0 <= c <= 1) by (apply quotient_01; pose proof (steps_bounds p HP); lia).
    assert (K : Rabs (wr * s - c * (b - a)) <= 7 * (u64 * B)).
    { replace (wr * s - c * (b - a)) with ((wr - c) * s + c * (s - (b - a))) by ring.
      eapply Rle_trans; [apply Rabs_triang|]. rewrite !Rabs_mult, (Rabs_pos_eq s), (Rabs_pos_eq c) by lra.
      assert (Rabs (wr - c) * s <= 2 * u64 * (2.1 * B)) by (apply Rmult_le_compat; auto; try lra; apply Rabs_pos).
      assert (c * Rabs (s - (b - a)) <= 1 * (u64 * (2 * B))).
      { apply Rmult_le_compat; try lra; [apply Rabs_pos|]. apply Rabs_le_iff. rewrite U4 in *. lra. }
      rewrite U4 in *. lra. }
    apply Rabs_le_iff in K. apply Rabs_le_iff. rewrite U4, U3 in *. lra.
  - intros ->. assert (W0 : wr = 0).
    { unfold wr, w. destruct (divisor64_R p HP) as [V1 V2].
      assert (N0 : R64 (f64_of_N 0) = 0) by reflexivity.
      destruct (ddiv_R (f64_of_N 0) (f64_of_N (mask_u64 p))) as [Q1 _]; [reflexivity| | |].
      - rewrite V1. pose proof (steps_bounds p HP). apply IZR_neq. lia.
      - rewrite N0. unfold Rdiv. rewrite Rmult_0_l, Rabs_R0. apply bpow_ge_0.
      - rewrite Q1, N0. unfold Rdiv. rewrite Rmult_0_l. apply rnd64_0. }
    rewrite F1, Y1, G1, W0, Rmult_0_l, rnd64_0, Rplus_0_l. unfold a. rewrite rnd64_R32 by exact Fn. apply rnd32_R32.
Qed.

(** Encoding. *)
Lemma fcode_R p (mul mn mx x : f32) (B : R) : (1 <= p <= 24)%nat -> R32 mul = IZR (steps p) -> fin mul ->
  fin mn -> fin mx -> fin x -> R32 mn < R32 mx -> R32 mn <= R32 x <= R32 mx -> Rabs (R32 mn) <= B -> Rabs (R32 mx) <= B -> B <= 2 ^ 60 ->
  let q := float_code1 mn mx mul x in
  low p q = q /\ (Z.of_N q <= steps p)%Z /\
  Rabs (IZR (Z.of_N q) / IZR (steps p) - (R32 x - R32 mn) / (R32 mx - R32 mn)) <= / IZR (steps p) + 6 * u32.
Proof.
  intros HP M1 M2 Fn Fx Fv Hab Hv Bn Bx HB q. assert (U3 : u32 = / 16777216) by reflexivity.
  set (a := R32 mn) in *. set (b := R32 mx) in *. set (v := R32 x) in *.
  apply Rabs_le_iff in Bn, Bx. pose proof (steps_bounds p HP) as SB.
  destruct (fsub_R mx mn Fx Fn) as [D1 D2]; [apply (fits_B B); auto; apply Rabs_le_iff; fold a b; lra|].
  fold a b in D1. set (D := R32 (fsub mx mn)) in *.
  destruct (fsub_R x mn Fv Fn) as [V1 V2]; [apply (fits_B B); auto; apply Rabs_le_iff; fold a v; lra|].
  fold a v in V1. set (d := R32 (fsub x mn)) in *.
  assert (d0 : 0 <= d) by (rewrite V1, <- rnd32_0; apply rnd32_le; lra).
  assert (dD : d <= D) by (rewrite V1, D1; apply rnd32_le; lra).
  pose proof (rnd32_diff mx mn) as DE. fold a b in DE. rewrite <- D1, (Rabs_pos_eq (b - a)) in DE by lra.
  pose proof (rnd32_diff x mn) as VE. fold a v in VE. rewrite <- V1, (Rabs_pos_eq (v - a)) in VE by lra.
  assert (Dp : 0.9 * (b - a) <= D) by (apply Rabs_le_iff in DE; rewrite U3 in DE; lra).
  assert (Q : 0 <= d / D <= 1) by (apply div_01; lra).
  destruct (fdiv_R (fsub x mn) (fsub mx mn) V2) as [T1 T2]; [fold D; lra|fold d D; now apply fits1|].
  fold d D in T1. set (t := R32 (fdiv (fsub x mn) (fsub mx mn))) in *.
  assert (t01 : 0 <= t <= 1) by (rewrite T1; apply rnd32_between; [apply rnd32_0|apply rnd32_1|exact Q]).
  destruct (code_R p mul _ HP M1 M2 T2 t01) as (C1 & C2 & C3). fold t in C1.
  unfold q, float_code1. split; [exact C2|]. split; [exact C3|]. clear q.
  destruct (encode_R (steps p) t SB t01) as (_ & _ & C4). cbv zeta in C1, C4. rewrite <- C1 in C4.
  pose proof (rnd32_err1 (d / D)) as TE. rewrite <- T1, (Rabs_pos_eq (d / D)) in TE by lra. specialize (TE (proj2 Q)).
  assert (K : Rabs (d / D - (v - a) / (b - a)) <= 2.5 * u32).
  { set (c := (v - a) / (b - a)). assert (c01 : 0 <= c <= 1) by (apply div_01; lra).
    assert (Ec : v - a = c * (b - a)) by (unfold c; field; lra).
    apply Rmult_le_reg_r with D; [lra|]. rewrite <- (Rabs_pos_eq D) at 2 by lra. rewrite <- Rabs_mult.
    replace ((d / D - c) * D) with ((d - (v - a)) + c * ((b - a) - D)) by (rewrite Ec; field; lra).
    eapply Rle_trans; [apply Rabs_triang|]. rewrite Rabs_mult, (Rabs_pos_eq c), (Rabs_minus_sym (b - a) D) by lra.
    assert (c * Rabs (D - (b - a)) <= 1 * (u32 * (b - a))) by (apply Rmult_le_compat; auto; try lra; apply Rabs_pos).
    assert (u32 * (v - a) <= u32 * (b - a)) by (apply Rmult_le_compat_l; [rewrite U3|]; lra).
    assert (u32 * (b - a) <= u32 * (1.2 * D)) by (apply Rmult_le_compat_l; [rewrite U3|]; lra). assert (0 <= u32 * D) by (apply Rmult_le_pos; [rewrite U3|]; lra). lra. }
  set (c := (v - a) / (b - a)) in *.
  apply Rabs_le_iff in K, TE, C4. apply Rabs_le_iff. rewrite U3 in *. lra.
Qed.

Lemma float_R p (mul mn mx x : f32) (B : R) : (1 <= p <= 24)%nat -> R32 mul = IZR (steps p) -> fin mul ->
  fin mn -> fin mx -> fin x -> R32 mn < R32 mx -> R32 mn <= R32 x <= R32 mx -> Rabs (R32 mn) <= B -> Rabs (R32 mx) <= B -> B <= 2 ^ 60 ->
  let y := float_value1 mn mx p (low p (float_code1 mn mx mul x)) in
  fin y /\ R32 mn <= R32 y <= R32 mx + / 2 ^ 22 * B + / 2 ^ 99 /\
  Rabs (R32 y - R32 x) <= (R32 mx - R32 mn) / IZR (steps p) + / 2 ^ 20 * B + / 2 ^ 99.
Proof.
  intros HP M1 M2 Fn Fx Fv Hab Hv Bn Bx HB y.
  destruct (fcode_R p mul mn mx x B HP M1 M2 Fn Fx Fv Hab Hv Bn Bx HB) as (L & Q & C). cbv zeta in *.
  unfold y. rewrite L. set (q := float_code1 mn mx mul x) in *.
  destruct (decode_R p mn mx q B HP Q Fn Fx ltac:(lra) Bn Bx HB) as (Y1 & Y2 & Y3 & _). cbv zeta in *.
  split; [exact Y1|]. split; [exact Y2|].
  set (z := R32 (float_value1 mn mx p q)) in *. set (a := R32 mn) in *. set (b := R32 mx) in *. set (v := R32 x) in *.
  set (k := IZR (Z.of_N q) / IZR (steps p)) in *.
  assert (S1 : 1 <= IZR (steps p)) by (pose proof (steps_bounds p HP); apply IZR_le; lia).
  assert (K : Rabs (k * (b - a) - (v - a)) <= (b - a) / IZR (steps p) + 12 * (u32 * B)).
  { replace (k * (b - a) - (v - a)) with ((k - (v - a) / (b - a)) * (b - a)) by (field; lra).
    rewrite Rabs_mult, (Rabs_pos_eq (b - a)) by lra.
    eapply Rle_trans; [apply Rmult_le_compat_r; [lra|exact C]|].
    apply Rabs_le_iff in Bn, Bx.
    assert (u32 * (b - a) <= u32 * (2 * B)) by (apply Rmult_le_compat_l; [unfold u32; lra|lra]). unfold Rdiv. lra. }
  assert (E22 : / 2 ^ 22 = 4 * u32) by (unfold u32; simpl pow; lra).
  assert (E20 : / 2 ^ 20 = 16 * u32) by (unfold u32; simpl pow; lra).
  rewrite E22 in Y3. rewrite E20. set (eps := / 2 ^ 99) in *. apply Rabs_le_iff in K, Y3. apply Rabs_le_iff. lra.
Qed.

(** Code 0 and an empty range give the smallest element. *)
Lemma decode_low p (mn mx : f32) (q : N) (B : R) : (1 <= p <= 30)%nat -> fin mn -> fin mx ->
  Rabs (R32 mn) <= B -> Rabs (R32 mx) <= B -> B <= 2 ^ 60 -> q = 0%N ->
  let y := float_value1 mn mx p q in fin y /\ R32 y = R32 mn.
Proof.
  intros HP Fn Fx Bn Bx HB -> y. unfold y, float_value1.
  destruct (f64_of_f32_correct mn Fn) as (N1 & N2 & _). destruct (f64_of_f32_correct mx Fx) as (X1 & X2 & _).
  set (dn := f64_of_f32 mn) in *. set (dx := f64_of_f32 mx) in *.
  apply Rabs_le_iff in Bn, Bx.
  assert (V : R64 (f64_of_N (mask_u64 p)) = IZR (steps p)).
  { unfold f64_of_N. rewrite steps_N. apply f64_of_Z_exact. pose proof (steps_30 p HP). lia. }
  assert (N0 : R64 (f64_of_N 0) = 0) by reflexivity.
  destruct (ddiv_R (f64_of_N 0) (f64_of_N (mask_u64 p))) as [Q1 Q2]; [reflexivity| | |].
  { rewrite V. pose proof (steps_30 p HP). apply IZR_neq. lia. }
  { rewrite N0. unfold Rdiv. rewrite Rmult_0_l, Rabs_R0. apply bpow_ge_0. }
  rewrite N0 in Q1. unfold Rdiv in Q1. rewrite Rmult_0_l, rnd64_0 in Q1.
  set (w := ddiv _ _) in *.
  destruct (dsub_R dx dn X2 N2) as [S1 S2].
  { apply (fits64 B); auto. rewrite X1, N1. apply Rabs_le_iff. lra. }
  destruct (dmul_R w (dsub dx dn) Q2 S2) as [G1 G2]; [rewrite Q1, Rmult_0_l, Rabs_R0; apply bpow_ge_0|].
  rewrite Q1, Rmult_0_l, rnd64_0 in G1.
  destruct (dadd_R _ dn G2 N2) as [Y1 Y2]; [rewrite G1, Rplus_0_l, N1; apply (fits64 B); auto; apply Rabs_le_iff; lra|].
  rewrite G1, Rplus_0_l, N1, (rnd64_R32 mn Fn) in Y1.
  destruct (f32_of_f64_R _ Y2) as [F1 F2].
  { rewrite Y1. apply (fits_B B); auto. apply Rabs_le_iff. lra. }
  split; [exact F2|]. rewrite F1, Y1. apply rnd32_R32.
Qed.
Lemma zero_of (x : f32) : fin x -> R32 x = 0 -> exists s, x = B754_zero s.
Proof.
  intros F Z. destruct x as [s|s| |s m e W]; try discriminate; [eauto|]. exfalso. revert Z. unfold R32, B2R.
  destruct s; [apply Rlt_not_eq; now apply F2R_lt_0|apply Rgt_not_eq; now apply F2R_gt_0].
Qed.
Lemma flat_code (mul mn mx x : f32) (B : R) : fin mn -> fin mx -> fin x -> R32 mn = R32 mx -> R32 x = R32 mn ->
  Rabs (R32 mn) <= B -> B <= 2 ^ 60 -> float_code1 mn mx mul x = 0%N.
Proof.
  intros Fn Fx Fv E V Bn HB. unfold float_code1.
  assert (Z : forall y, fin y -> R32 y = R32 mn -> exists s, fsub y mn = B754_zero s).
  { intros y Fy Y. assert (D : R32 y - R32 mn = 0) by lra.
    destruct (fsub_R y mn Fy Fn) as [A C]; [rewrite D, Rabs_R0; apply bpow_ge_0|]. apply zero_of; [exact C|]. rewrite A, D. apply rnd32_0. }
  destruct (Z x Fv V) as [s1 ->]. destruct (Z mx Fx (eq_sym E)) as [s2 ->]. destruct mul; reflexivity.
Qed.
(** With 25 bits or more the greatest element gets code 0. *)
Lemma top_float {E} p mul (mn mx x : f32) B : (25 <= p)%nat -> mask_f32 (E:=E) true p = Ok mul ->
  fin mn -> fin mx -> fin x -> Rabs (R32 mn) <= B -> Rabs (R32 mx) <= B -> B <= 2 ^ 60 ->
  R32 mn < R32 mx -> R32 x = R32 mx -> low p (float_code1 mn mx mul x) = 0%N.
Proof.
  intros HP M Fn Fx Fv Bn Bx HB L V. apply Rabs_le_iff in Bn, Bx.
  destruct (fsub_R mx mn Fx Fn) as [D1 D2]; [apply (fits_B B); auto; apply Rabs_le_iff; lra|].
  destruct (fsub_R x mn Fv Fn) as [V1 V2]; [rewrite V; apply (fits_B B); auto; apply Rabs_le_iff; lra|].
  rewrite V, <- D1 in V1.
  pose proof (rnd32_diff mx mn) as DE. rewrite <- D1, (Rabs_pos_eq (R32 mx - R32 mn)) in DE by lra. apply Rabs_le_iff in DE. unfold u32 in DE.
  assert (Q : R32 (fsub x mn) / R32 (fsub mx mn) = 1) by (rewrite V1; field; lra).
  destruct (fdiv_R (fsub x mn) (fsub mx mn) V2) as [T1 T2]; [lra|rewrite Q, Rabs_R1, big32_pow; apply pow_R1_Rle; lra|].
  rewrite Q, rnd32_1 in T1. unfold float_code1. rewrite (is_one _ T2 T1). eapply one_lost; eauto.
Qed.
