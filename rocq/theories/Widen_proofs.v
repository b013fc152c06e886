(** How the width of colour and float custom data changes from one save to the next. *)
From Coq Require Import List NArith ZArith Arith Lia Bool Reals Lra.
From Flocq Require Import Core IEEE754.BinarySingleNaN.
From Verif Require Import Base UnalignedRW ReadExt Floats Floats_proofs FloatReal_proofs Utilis CustomData Codec_proofs Image_proofs Save_proofs ValueSpec WidenSpec Log2_proofs Quant_proofs
  CustomReal_proofs VertexReal_proofs P_Vertices P_Uv VertexReal_proofs P_Custom.
Import ListNotations.
Local Open Scope R_scope.

Lemma sharp_ok lm : log2_sharp lm -> log2_ok lm.
Proof.
  intros H x F P. destruct (H x F P) as [A B]. split; [exact A|]. eapply Rle_trans; [exact B|].
  apply Rmult_le_compat_r; [pose proof (Rabs_pos (log2 (val x))); lra|simpl pow; lra].
Qed.
Lemma exact_sharp : log2_sharp exact_libm.
Proof.
  intros x F P. cbn [m_log2 exact_libm]. destruct (f32_of_R_R (log2 (val x))) as [A B].
  - eapply Rle_trans; [apply (float_log2_bound x P)|]. eapply Rle_trans; [|apply big32_ge]. apply IZR_le. lia.
  - split; [exact B|]. change (val (f32_of_R (log2 (val x)))) with (R32 (f32_of_R (log2 (val x)))). rewrite A.
    eapply Rle_trans; [apply rnd32_err|]. pose proof (Rabs_pos (log2 (val x))). destruct tiny_100 as [[_ T] _].
    eapply Rle_trans; [apply Rplus_le_compat_l, T|]. unfold u32. simpl pow. lra.
Qed.

(** A ratio just above a power of two needs one bit more. *)
Lemma next_width lm (x : f32) (w : nat) c : log2_sharp lm -> (w <= 30)%nat -> fin x -> R32 x = 2 ^ w * c -> 1.0000095 <= c <= 1.001 ->
  u8_of_f32 (fceil (m_log2 lm x)) = S w.
Proof.
  intros L W F E C. assert (P2 : 0 < 2 ^ w) by (apply pow_lt; lra).
  assert (P : 0 < R32 x) by (rewrite E; apply Rmult_lt_0_compat; lra). destruct (L x F P) as [F1 A].
  change (val x) with (R32 x) in A. change (val (m_log2 lm x)) with (R32 (m_log2 lm x)) in A.
  set (y := R32 (m_log2 lm x)) in *. pose proof ln2_bounds as LN.
  assert (LG : log2 (R32 x) = INR w + ln c / ln 2).
  { unfold log2. rewrite E, ln_mult by lra. rewrite <- Rpower_pow by lra. unfold Rpower. rewrite ln_exp. field. lra. }
  assert (C1 : 0.0000094 <= ln c).
  { assert (ln (/ c) <= / c - 1). { pose proof (exp_ineq1_le (ln (/ c))). rewrite exp_ln in H by (apply Rinv_0_lt_compat; lra). lra. }
    rewrite ln_Rinv in H by lra.
    assert (/ c <= 0.9999906). { apply Rmult_le_reg_r with c; [lra|]. rewrite Rinv_l by lra. lra. } lra. }
  assert (C2 : ln c <= 0.001). { pose proof (exp_ineq1_le (ln c)). rewrite exp_ln in H by lra. lra. }
  set (t := ln c / ln 2) in *. assert (T : 0.0000094 <= t <= 0.002).
  { unfold t. split; apply Rmult_le_reg_r with (ln 2); try lra; unfold Rdiv; rewrite ?Rmult_assoc, ?Rinv_l by lra; nra. }
  assert (WB : 0 <= INR w <= 30). { split; [apply pos_INR|]. replace 30 with (INR 30) by (cbn; lra). apply le_INR. exact W. }
  rewrite LG, (Rabs_pos_eq (INR w + t)) in A by lra. apply Rabs_le_iff in A. simpl pow in A.
  assert (Y : INR w < y <= INR w + 1) by lra. rewrite INR_IZR_INZ in Y.
  assert (Z : Zceil y = (Z.of_nat w + 1)%Z). { apply Zceil_imp. rewrite plus_IZR. split; [|lra]. replace (IZR (Z.of_nat w) + 1 - 1) with (IZR (Z.of_nat w)) by ring. replace (Z.of_nat w + 1 - 1)%Z with (Z.of_nat w) by lia. lra. }
  pose proof (u8_ceil (m_log2 lm x) F1) as U. fold y in U. rewrite Z in U. lia.
Qed.

(** *** Colours *)
Lemma color_ratio w : (w <= 30)%nat ->
  B2SF (fdiv f1 (fmin (color_prec w) f1)) = SpecFloat.S754_finite false 8388692 (Z.of_nat w - 23) /\
  B2SF (color_prec w) = SpecFloat.S754_finite false 16777048 (- Z.of_nat w - 24).
Proof.
  intros W. do 31 (destruct w as [|w]; [split; vm_compute; reflexivity|]). exfalso. lia.
Qed.
Lemma SF_R (x : f32) s m e : B2SF x = SpecFloat.S754_finite s m e -> fin x /\ R32 x = F2R (Float radix2 (cond_Zopp s (Zpos m)) e).
Proof.
  intros H. destruct x as [?|?| |s' m' e' B]; try discriminate H. apply (f_equal (fun f => match f with SpecFloat.S754_finite a b c => (a, b, c) | _ => (true, xH, Z0) end)) in H.
  cbn [B2SF] in H. apply pair_equal_spec in H as [H1 H2]. apply pair_equal_spec in H1 as [H0 H1]. subst. split; reflexivity.
Qed.
Lemma bpow_shift (w k : nat) : bpow radix2 (Z.of_nat w - Z.of_nat k) = 2 ^ w * / 2 ^ k.
Proof.
  unfold Z.sub. rewrite bpow_plus, bpow_opp. f_equal; [|f_equal]; rewrite bpow_powerRZ; change (IZR radix2) with 2; now rewrite <- pow_powerRZ.
Qed.
Lemma color_next lm w : log2_sharp lm -> (w <= 30)%nat -> color_width lm (color_prec w) = S w.
Proof.
  intros L W. destruct (color_ratio w W) as [E _]. apply SF_R in E as [F E]. unfold F2R in E. cbn [Fnum Fexp cond_Zopp] in E.
  unfold color_width. apply (next_width lm _ w (8388692 / 2 ^ 23) L W F).
  - rewrite E. change 23%Z with (Z.of_nat 23). rewrite bpow_shift. unfold Rdiv. ring.
  - simpl pow. lra.
Qed.
Lemma color_prec_R w : (w <= 30)%nat -> finite (color_prec w) /\ 0.99998 <= 2 ^ w * val (color_prec w) <= 1.
Proof.
  intros W. destruct (color_ratio w W) as [_ E]. apply SF_R in E as [F E]. unfold F2R in E. cbn [Fnum Fexp cond_Zopp] in E.
  split; [exact F|]. change val with R32. rewrite E. replace (- Z.of_nat w - 24)%Z with (Z.of_nat 0 - Z.of_nat (w + 24))%Z by lia. rewrite bpow_shift.
  rewrite pow_add. assert (0 < 2 ^ w) by (apply pow_lt; lra). rewrite Rinv_mult.
  assert (E1 : 2 ^ w * (16777048 * (2 ^ 0 * (/ 2 ^ w * / 2 ^ 24))) = 2 ^ w * / 2 ^ w * (16777048 * / 2 ^ 24)) by (replace (2 ^ 0) with 1 by reflexivity; ring).
  rewrite E1, Rinv_r by lra.
  simpl pow. lra.
Qed.

(** What becomes of one channel saved with [p], then [p + 1], ... bits, [n] times. *)
Inductive run : nat -> nat -> f32 -> f32 -> Prop :=
| run_nil p x : run p 0 x x
| run_cons p n mul x z : mask_f32 (E:=ioerr) true p = Ok mul ->
    run (S p) n (color_value p (low p (color_code mul x))) z -> run p (S n) x z.
Lemma is_zero (x : f32) : finite x -> val x = 0 -> exists s, x = B754_zero s.
Proof.
  intros F V. destruct x as [s|?| |s m e B]; try discriminate F; [now exists s|]. exfalso.
  unfold val, B2R in V. apply eq_0_F2R in V. destruct s; discriminate V.
Qed.
Lemma run_zero p n x y : run p n x y -> (1 <= p)%nat -> finite x -> val x = 0 -> finite y /\ val y = 0.
Proof.
  induction 1 as [|p n mul x z M R IH]; intros P F V; [auto|].
  pose proof (mask_30 _ _ M) as B. assert (C : low p (color_code mul x) = 0%N).
  { rewrite (mask_is _ _ M). destruct (is_zero x F V) as [s ->]. clear - P B.
    do 31 (destruct p as [|p]; [first [exfalso; clear -P; lia | destruct s; vm_compute; reflexivity]|]). exfalso. clear -B. lia. }
  rewrite C in *. destruct (zero_color p P B). apply IH; auto; lia.
Qed.
Lemma color_one p mul : (1 <= p <= 24)%nat -> mask_f32 (E:=ioerr) true p = Ok mul -> color_value p (low p (color_code mul f1)) = f1.
Proof.
  intros P M. rewrite (mask_is _ _ M). clear M. apply B2SF_inj.
  do 25 (destruct p as [|p]; [first [exfalso; clear -P; lia | vm_compute; reflexivity]|]). exfalso. clear -P. lia.
Qed.
Lemma run_one p n x y : run p n x y -> (1 <= p)%nat -> finite x -> val x = 1 ->
  finite y /\ val y = if (n =? 0)%nat || (p + n <=? 25)%nat then 1 else 0.
Proof.
  induction 1 as [|p n mul x z M R IH]; intros P F V; [auto|].
  pose proof (is_one x F V) as ->. cbn [Nat.eqb orb]. destruct (le_lt_dec p 24) as [L|L].
  - assert (P24 : (1 <= p <= 24)%nat) by (clear - P L; lia). pose proof (color_one p mul P24 M) as E1. rewrite E1 in IH. destruct (IH ltac:(lia) (proj2 f1_R) (proj1 f1_R)) as [A B]. split; [exact A|]. rewrite B.
    replace (p + S n)%nat with (S p + n)%nat by lia. destruct n as [|n]; [|reflexivity]. cbn [Nat.eqb orb].
    assert ((S p + 0 <=? 25)%nat = true) as -> by (apply Nat.leb_le; lia). reflexivity.
  - assert (E1 : low p (color_code mul f1) = 0%N) by (refine (one_lost p mul _ M); clear - L; lia). rewrite E1 in R. destruct (zero_color p P (mask_30 _ _ M)) as [Z1 Z2].
    destruct (run_zero _ _ _ _ R ltac:(lia) Z1 Z2) as [A B]. split; [exact A|]. rewrite B.
    assert ((p + S n <=? 25)%nat = false) as -> by (apply Nat.leb_gt; lia). reflexivity.
Qed.
(** The errors of the later saves add up to less than that of the first. *)
Lemma run_close p n x y : run p n x y -> (1 <= p)%nat -> (p + n <= 25)%nat -> in_unit x ->
  in_unit y /\ Rabs (val y - val x) <= 2 / (2 ^ p - 1) + INR n * / 2 ^ 22.
Proof.
  induction 1 as [p x|p n mul x z M R IH]; intros P N [F V].
  - split; [split; auto|]. rewrite Rminus_diag_eq, Rabs_R0 by reflexivity. cbn [INR]. rewrite Rmult_0_l, Rplus_0_r.
    assert (2 ^ 1 <= 2 ^ p) by (apply pow2_le; lia). left. apply Rdiv_lt_0_compat; lra.
  - destruct (color_channel p mul x ltac:(lia) M F V) as (Y1 & Y2 & Y3). cbv zeta in *.
    destruct (IH ltac:(lia) ltac:(lia) (conj Y1 Y2)) as [A B]. split; [exact A|]. set (y := color_value p (low p (color_code mul x))) in *.
    change val with R32 in *. rewrite steps_pow in Y3. assert (P2 : 2 ^ 1 <= 2 ^ p) by (apply pow2_le; lia).
    rewrite S_INR. replace (R32 z - R32 x) with (R32 z - R32 y + (R32 y - R32 x)) by ring. eapply Rle_trans; [apply Rabs_triang|].
    assert (H : 2 / (2 ^ S p - 1) <= / (2 ^ p - 1)).
    { simpl (2 ^ S p). apply Rmult_le_reg_r with (2 * 2 ^ p - 1); [lra|]. unfold Rdiv. rewrite Rmult_assoc, Rinv_l by lra.
      apply Rmult_le_reg_l with (2 ^ p - 1); [lra|]. rewrite <- (Rmult_assoc _ (/ _)), Rinv_r by lra. lra. }
    replace (4 * u32) with (/ 2 ^ 22) in Y3 by (unfold u32; simpl pow; lra). unfold Rdiv in *. lra.
Qed.

(** A chain of saves of one piece of custom data. *)
Inductive data_chain (ok : libm -> Prop) : nat -> cdata -> cdata -> Prop :=
| chain_nil d : data_chain ok 0 d d
| chain_cons n lm d d1 d2 : ok lm -> data_rel lm d d1 -> data_chain ok n d1 d2 -> data_chain ok (S n) d d2.
Lemma F2_comp {A B C} (P : A -> B -> Prop) (Q : B -> C -> Prop) (R : A -> C -> Prop) l m n : (forall a b c, P a b -> Q b c -> R a c) ->
  Forall2 P l m -> Forall2 Q m n -> Forall2 R l n.
Proof. intros H F. revert n. induction F; intros k K; inversion K; subst; constructor; eauto. Qed.
Lemma channels_trans (P Q R : f32 -> f32 -> Prop) a b c : (forall x y z, P x y -> Q y z -> R x z) -> channels P a b -> channels Q b c -> channels R a c.
Proof. intros H (A1 & A2 & A3 & A4) (B1 & B2 & B3 & B4). repeat split; eauto. Qed.
Lemma channels_impl (P Q : f32 -> f32 -> Prop) a b : (forall x y, P x y -> Q x y) -> channels P a b -> channels Q a b.
Proof. intros H (A1 & A2 & A3 & A4). repeat split; auto. Qed.
Lemma color_step lm cs q d : data_rel lm (CColor cs q) d -> exists mul cs', mask_f32 (E:=ioerr) true (color_width lm q) = Ok mul /\
  d = CColor cs' (color_prec (color_width lm q)) /\
  Forall2 (channels (fun x y => y = color_value (color_width lm q) (low (color_width lm q) (color_code mul x)))) cs cs'.
Proof.
  destruct d; try contradiction. cbn [data_rel]. intros (mul & M & -> & ->). exists mul. eexists. split; [exact M|]. split; [reflexivity|].
  apply F2_map. intros v _. destruct v as [[[a b] c] d]. repeat split.
Qed.
Lemma color_run n : forall w cs d, data_chain log2_sharp n (CColor cs (color_prec w)) d -> (w <= 30)%nat ->
  exists cs', d = CColor cs' (color_prec (w + n)) /\ (w + n <= 30)%nat /\ Forall2 (channels (run (S w) n)) cs cs'.
Proof.
  induction n as [|n IH]; intros w cs d C W.
  - inversion C; subst. exists cs. rewrite Nat.add_0_r. split; [reflexivity|]. split; [exact W|].
    clear. induction cs as [|v cs IH]; constructor; auto. repeat split; apply run_nil.
  - inversion C as [|n' lm d0 d1 d2 L R K]; subst. apply color_step in R as (mul & cs1 & M & -> & F). rewrite (color_next lm w L W) in *.
    pose proof (mask_30 _ _ M) as W1. destruct (IH (S w) cs1 d K W1) as (cs' & -> & W2 & F').
    exists cs'. split; [f_equal; f_equal; lia|]. split; [lia|].
    eapply F2_comp; [|exact F|exact F']. intros a b c AB BC. eapply channels_trans; [|exact AB|exact BC]. intros x u z X Z. cbv beta in X. rewrite X in Z. econstructor; eauto.
Qed.
(** The first save chooses the width, each further one adds a bit. *)
Lemma color_chain n cs q d : data_chain log2_sharp (S n) (CColor cs q) d -> exists lm cs', log2_sharp lm /\
  d = CColor cs' (color_prec (color_width lm q + n)) /\ (color_width lm q + n <= 30)%nat /\ Forall2 (channels (run (color_width lm q) (S n))) cs cs'.
Proof.
  intros C. inversion C as [|n' lm d0 d1 d2 L R K]; subst. apply color_step in R as (mul & cs1 & M & -> & F).
  destruct (color_run n _ _ _ K (mask_30 _ _ M)) as (cs' & -> & W & F'). exists lm, cs'. split; [exact L|]. split; [reflexivity|]. split; [exact W|].
  eapply F2_comp; [|exact F|exact F']. intros a b c AB BC. eapply channels_trans; [|exact AB|exact BC]. intros x u z X Z. cbv beta in X. rewrite X in Z. econstructor; eauto.
Qed.
