(** How the width of colour and float custom data changes from one save to the next in a build
    with [double_precision]. *)
From Coq Require Import List NArith ZArith Arith Lia Bool Reals Lra.
From Flocq Require Import Core IEEE754.BinarySingleNaN.
From Verif Require Import Base UnalignedRW ReadExt Floats Floats_proofs FloatReal_proofs Codec_proofs Save_proofs Image_proofs VertexSpec ValueSpec Log2_proofs Quant_proofs
  CustomReal_proofs P_Vertices P_Uv VertexReal_proofs Widen_proofs Double DoubleSpec DoubleSave DoubleSaveSpec DoubleValueSpec Double2_proofs DMerge_proofs DCodec_proofs DSave_proofs
  DQuant_proofs DVertex_proofs DPiece_proofs DCustom_proofs P_Double P_DoubleSave P_DoubleValue.
Import ListNotations.
Local Open Scope R_scope.

(** A ratio just above a power of two needs one bit more. *)
Lemma next_width_d lm (x : f64) (w : nat) c : log2_64_ok lm -> (w <= 30)%nat -> fin x -> R64 x = 2 ^ w * c -> 1.0000095 <= c <= 1.001 ->
  u8_of_f64 (dceil (l_log2 lm x)) = S w.
Proof.
  intros L W F E C. assert (P2 : 0 < 2 ^ w) by (apply pow_lt; lra).
  assert (P : 0 < R64 x) by (rewrite E; apply Rmult_lt_0_compat; lra). destruct (L x F P) as [F1 A].
  change (val64 x) with (R64 x) in A. change (val64 (l_log2 lm x)) with (R64 (l_log2 lm x)) in A.
  set (y := R64 (l_log2 lm x)) in *. pose proof ln2_bounds as LN.
  assert (LG : log2 (R64 x) = INR w + ln c / ln 2).
  { unfold log2. rewrite E, ln_mult by lra. rewrite <- Rpower_pow by lra. unfold Rpower. rewrite ln_exp. field. lra. }
  assert (C1 : 0.0000094 <= ln c).
  { assert (ln (/ c) <= / c - 1). { pose proof (exp_ineq1_le (ln (/ c))). rewrite exp_ln in H by (apply Rinv_0_lt_compat; lra). lra. }
    rewrite ln_Rinv in H by lra.
    assert (/ c <= 0.9999906). { apply Rmult_le_reg_r with c; [lra|]. rewrite Rinv_l by lra. lra. } lra. }
  assert (C2 : ln c <= 0.001). { pose proof (exp_ineq1_le (ln c)). rewrite exp_ln in H by lra. lra. }
  set (t := ln c / ln 2) in *. assert (T : 0.0000094 <= t <= 0.002).
  { unfold t. split; apply Rmult_le_reg_r with (ln 2); try lra; unfold Rdiv; rewrite ?Rmult_assoc, ?Rinv_l by lra; nra. }
  assert (WB : 0 <= INR w <= 30). { split; [apply pos_INR|]. replace 30 with (INR 30) by (cbn; lra). apply le_INR. exact W. }
  rewrite LG, (Rabs_pos_eq (INR w + t)) in A by lra. apply Rabs_le_iff in A. simpl pow in A.
  assert (Y : INR w < y <= INR w + 1) by lra. rewrite INR_IZR_INZ in Y.
  assert (Z : Zceil y = (Z.of_nat w + 1)%Z). { apply Zceil_imp. rewrite plus_IZR. split; [|lra]. replace (Z.of_nat w + 1 - 1)%Z with (Z.of_nat w) by lia. lra. }
  pose proof (u8_ceil_d (l_log2 lm x) F1) as U. fold y in U. rewrite Z in U. lia.
Qed.

(** *** Colours *)
Lemma color_ratio_d w : (w <= 30)%nat ->
  B2SF (ddiv d1 (dmin (color_prec_d w) d1)) = SpecFloat.S754_finite false 4503644663817134 (Z.of_nat w - 52) /\
  B2SF (color_prec_d w) = SpecFloat.S754_finite false 9007109182748445 (- Z.of_nat w - 53).
Proof.
  intros W. do 31 (destruct w as [|w]; [split; vm_compute; reflexivity|]). exfalso. lia.
Qed.
Lemma SF_R_d (x : f64) s m e : B2SF x = SpecFloat.S754_finite s m e -> fin x /\ R64 x = F2R (Float radix2 (cond_Zopp s (Zpos m)) e).
Proof.
  intros H. destruct x as [?|?| |s' m' e' B]; try discriminate H. apply (f_equal (fun f => match f with SpecFloat.S754_finite a b c => (a, b, c) | _ => (true, xH, Z0) end)) in H.
  cbn [B2SF] in H. apply pair_equal_spec in H as [H1 H2]. apply pair_equal_spec in H1 as [H0 H1]. subst. split; reflexivity.
Qed.
Lemma color_next_d lm w : log2_64_ok lm -> (w <= 30)%nat -> color_width_d lm (color_prec_d w) = S w.
Proof.
  intros L W. destruct (color_ratio_d w W) as [E _]. apply SF_R_d in E as [F E]. unfold F2R in E. cbn [Fnum Fexp cond_Zopp] in E.
  unfold color_width_d. apply (next_width_d lm _ w (4503644663817134 / 2 ^ 52) L W F).
  - rewrite E. change 52%Z with (Z.of_nat 52). rewrite bpow_shift. unfold Rdiv. ring.
  - simpl pow. lra.
Qed.
Lemma color_prec_R_d w : (w <= 30)%nat -> finite64 (color_prec_d w) /\ 0.99998 <= 2 ^ w * val64 (color_prec_d w) <= 1.
Proof.
  intros W. destruct (color_ratio_d w W) as [_ E]. apply SF_R_d in E as [F E]. unfold F2R in E. cbn [Fnum Fexp cond_Zopp] in E.
  split; [exact F|]. change val64 with R64. rewrite E. replace (- Z.of_nat w - 53)%Z with (Z.of_nat 0 - Z.of_nat (w + 53))%Z by lia. rewrite bpow_shift.
  rewrite pow_add. assert (0 < 2 ^ w) by (apply pow_lt; lra). rewrite Rinv_mult.
  assert (E1 : 2 ^ w * (9007109182748445 * (2 ^ 0 * (/ 2 ^ w * / 2 ^ 53))) = 2 ^ w * / 2 ^ w * (9007109182748445 * / 2 ^ 53)) by (replace (2 ^ 0) with 1 by reflexivity; ring).
  rewrite E1, Rinv_r by lra.
  simpl pow. lra.
Qed.

(** What becomes of one channel saved with [p], then [p + 1], ... bits, [n] times. *)
Inductive run_d : nat -> nat -> f64 -> f64 -> Prop :=
| run_nil_d p x : run_d p 0 x x
| run_cons_d p n mul x z : mask_f64 (E:=ioerr) true p = Ok mul ->
    run_d (S p) n (color_value_d p (low p (color_code_d mul x))) z -> run_d p (S n) x z.
Lemma run_one_d p n x y : run_d p n x y -> (1 <= p)%nat -> finite64 x -> val64 x = 1 -> finite64 y /\ val64 y = 1.
Proof.
  induction 1 as [|p n mul x z M R IH]; intros P F V; [auto|]. pose proof (mask_d30 _ _ M) as B.
  destruct (one_kept p mul x ltac:(lia) M F V) as [A1 A2]. apply IH; [lia|exact A1|exact A2].
Qed.
(** The errors of the later saves add up to less than that of the first. *)
Lemma run_close_d p n x y : run_d p n x y -> (1 <= p)%nat -> in_unit_d x ->
  in_unit_d y /\ Rabs (val64 y - val64 x) <= 2 / (2 ^ p - 1) + INR n * / 2 ^ 51.
Proof.
  induction 1 as [p x|p n mul x z M R IH]; intros P [F V].
  - split; [split; auto|]. rewrite Rminus_diag_eq, Rabs_R0 by reflexivity. cbn [INR]. rewrite Rmult_0_l, Rplus_0_r.
    assert (2 ^ 1 <= 2 ^ p) by (apply pow2_le; lia). left. apply Rdiv_lt_0_compat; lra.
  - pose proof (mask_d30 _ _ M) as B30. destruct (color_channel_d p mul x ltac:(lia) M F V) as (Y1 & Y2 & Y3). cbv zeta in *.
    destruct (IH ltac:(lia) (conj Y1 Y2)) as [A B]. split; [exact A|]. set (y := color_value_d p (low p (color_code_d mul x))) in *.
    change val64 with R64 in *. rewrite steps_pow in Y3. assert (P2 : 2 ^ 1 <= 2 ^ p) by (apply pow2_le; lia).
    rewrite S_INR. replace (R64 z - R64 x) with (R64 z - R64 y + (R64 y - R64 x)) by ring. eapply Rle_trans; [apply Rabs_triang|].
    assert (H : 2 / (2 ^ S p - 1) <= / (2 ^ p - 1)).
    { simpl (2 ^ S p). apply Rmult_le_reg_r with (2 * 2 ^ p - 1); [lra|]. unfold Rdiv. rewrite Rmult_assoc, Rinv_l by lra.
      apply Rmult_le_reg_l with (2 ^ p - 1); [lra|]. rewrite <- (Rmult_assoc _ (/ _)), Rinv_r by lra. lra. }
    replace (4 * u64) with (/ 2 ^ 51) in Y3 by (unfold u64; simpl pow; lra). unfold Rdiv in *. lra.
Qed.

(** A chain of saves of one piece of custom data. *)
Inductive data_chain_d : nat -> dcdata -> dcdata -> Prop :=
| chain_nil_d d : data_chain_d 0 d d
| chain_cons_d n lm d d1 d2 : log2_64_ok lm -> data_rel_d lm d d1 -> data_chain_d n d1 d2 -> data_chain_d (S n) d d2.
Lemma channels_trans_d (P Q R : f64 -> f64 -> Prop) a b c : (forall x y z, P x y -> Q y z -> R x z) -> channels_d P a b -> channels_d Q b c -> channels_d R a c.
Proof. intros H (A1 & A2 & A3 & A4) (B1 & B2 & B3 & B4). repeat split; eauto. Qed.
Lemma channels_impl_d (P Q : f64 -> f64 -> Prop) a b : (forall x y, P x y -> Q x y) -> channels_d P a b -> channels_d Q a b.
Proof. intros H (A1 & A2 & A3 & A4). repeat split; auto. Qed.
Lemma color_step_d lm cs q d : data_rel_d lm (XColor cs q) d -> exists mul cs', mask_f64 (E:=ioerr) true (color_width_d lm q) = Ok mul /\
  d = XColor cs' (color_prec_d (color_width_d lm q)) /\
  Forall2 (channels_d (fun x y => y = color_value_d (color_width_d lm q) (low (color_width_d lm q) (color_code_d mul x)))) cs cs'.
Proof.
  destruct d; try contradiction. cbn [data_rel_d]. intros (-> & mul & M & ->). exists mul. eexists. split; [exact M|]. split; [reflexivity|].
  apply F2_map. intros v _. destruct v as [[[a b] c] d]. repeat split.
Qed.
Lemma color_run_d n : forall w cs d, data_chain_d n (XColor cs (color_prec_d w)) d -> (w <= 30)%nat ->
  exists cs', d = XColor cs' (color_prec_d (w + n)) /\ (w + n <= 30)%nat /\ Forall2 (channels_d (run_d (S w) n)) cs cs'.
Proof.
  induction n as [|n IH]; intros w cs d C W.
  - inversion C; subst. exists cs. rewrite Nat.add_0_r. split; [reflexivity|]. split; [exact W|].
    clear. induction cs as [|v cs IH]; constructor; auto. repeat split; apply run_nil_d.
  - inversion C as [|n' lm d0 d1 d2 L R K]; subst. apply color_step_d in R as (mul & cs1 & M & -> & F). rewrite (color_next_d lm w L W) in *.
    pose proof (mask_d30 _ _ M) as W1. destruct (IH (S w) cs1 d K W1) as (cs' & -> & W2 & F').
    exists cs'. split; [f_equal; f_equal; lia|]. split; [lia|].
    eapply F2_comp; [|exact F|exact F']. intros a b c AB BC. eapply channels_trans_d; [|exact AB|exact BC]. intros x u z X Z. cbv beta in X. rewrite X in Z. econstructor; eauto.
Qed.
(** The first save chooses the width, each further one adds a bit. *)
Lemma color_chain_d n cs q d : data_chain_d (S n) (XColor cs q) d -> exists lm cs', log2_64_ok lm /\
  d = XColor cs' (color_prec_d (color_width_d lm q + n)) /\ (color_width_d lm q + n <= 30)%nat /\ Forall2 (channels_d (run_d (color_width_d lm q) (S n))) cs cs'.
Proof.
  intros C. inversion C as [|n' lm d0 d1 d2 L R K]; subst. apply color_step_d in R as (mul & cs1 & M & -> & F).
  destruct (color_run_d n _ _ _ K (mask_d30 _ _ M)) as (cs' & -> & W & F'). exists lm, cs'. split; [exact L|]. split; [reflexivity|]. split; [exact W|].
  eapply F2_comp; [|exact F|exact F']. intros a b c AB BC. eapply channels_trans_d; [|exact AB|exact BC]. intros x u z X Z. cbv beta in X. rewrite X in Z. econstructor; eauto.
Qed.
