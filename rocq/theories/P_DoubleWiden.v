(** Property C78, built with [double_precision]: colours and floats take one bit more with every
    save. *)
From Coq Require Import List NArith ZArith Arith Lia Bool Reals Lra Floats.SpecFloat.
From Flocq Require Import Core IEEE754.BinarySingleNaN.
From Verif Require Import Base UnalignedRW ReadExt Floats Floats_proofs FloatReal_proofs Utilis Mesh Tmf File FileSpec SaveSpec
  ValueSpec VertexSpec Demo Save_proofs Save2_proofs Codec_proofs Image_proofs Quant_proofs Log2_proofs VertexReal_proofs CustomReal_proofs
  P_Save P_Uv P_Custom P_Again Widen_proofs P_Widen Double DoubleSpec DoubleSave DoubleSaveSpec DoubleValueSpec Double2_proofs DMerge_proofs DCodec_proofs DSave_proofs
  DQuant_proofs DCustom_proofs P_Double P_DoubleSave P_DoubleValue DWiden_proofs DWidenFloat_proofs.
Import ListNotations.
Open Scope res_scope.
Local Open Scope R_scope.

(** As in P_Widen.v: the custom data of [b] have the names of those of [a], in the same order
    after an even number of cycles and in the opposite order after an odd one, with [P] between
    the data. *)
Definition after_d (n : nat) (P : dcdata -> dcdata -> Prop) (a b : dmesh * list N) : Prop :=
  Forall2 (fun s s' => x_name s' = x_name s /\ P (x_data s) (x_data s')) (turned n (d_custom_data (fst a))) (d_custom_data (fst b)).
(** Saving and loading [n] times, each time within the limits of the format, with any settings,
    on machines whose logarithm is accurate. *)
Inductive reloaded_d : nat -> list (dmesh * list N) -> list (dmesh * list N) -> Prop :=
| reloaded_stop_d l : reloaded_d 0 l l
| reloaded_more_d n lm sc oc' p l out l1 l2 : log2_64_ok lm -> precision_ok_d p -> list_ok_d lm l ->
    saved_d lm true p l = Ok out -> read_tmf_d sc oc' out = Ok l1 -> reloaded_d n l1 l2 -> reloaded_d (S n) l l2.

Lemma reloaded_data_d n l l' : reloaded_d n l l' -> Forall2 (after_d n (data_chain_d n)) l l'.
Proof.
  induction 1 as [l|n lm sc oc' p l out l1 l2 O HP HL S R K IH].
  - induction l as [|a l IH]; constructor; auto. unfold after_d, turned. cbn. induction (d_custom_data (fst a)) as [|s t IHs]; constructor; auto.
    split; [reflexivity|constructor].
  - destruct (loads_as_d lm sc oc' p l out HP HL S) as (lx & R' & F). rewrite R in R'. apply Ok_inj in R'. subst lx.
    clear - F IH O. revert l2 IH. induction F as [|a b l l1 (_ & e & _ & M) _ IHF]; intros l2 IH; inversion IH as [|b' c l1' l2' BC H]; subst; constructor; auto.
    unfold after_d in *. rewrite turned_S. apply dr_s in M. cbn [with_custom_data_d d_custom_data image_rels_d ds] in M. apply (F2_turned _ n) in M.
    eapply F2_comp; [|exact M|exact BC]. intros x y z (N1 & _ & D) [N2 D2]. split; [congruence|]. econstructor; eauto.
Qed.

(** ** Colours *)
Lemma colours_after_d n l l' : reloaded_d (S n) l l' ->
  Forall2 (after_d (S n) (fun d d' => forall cs q, d = XColor cs q -> exists w cs' q', d' = XColor cs' q' /\
    (w + n <= 30)%nat /\ finite64 q' /\ 0.99998 <= 2 ^ (w + n) * val64 q' <= 1 /\
    (finite64 q -> / 2 ^ 60 <= val64 q <= 1 - / 2 ^ 10 -> (1 <= w)%nat /\ 0.9997 <= 2 ^ w * val64 q <= 2.001) /\
    Forall2 (channels_d (run_d w (S n))) cs cs')) l l'.
Proof.
  intros K. pose proof (reloaded_data_d (S n) l l' K) as F. eapply F2_impl; [|exact F]. intros a b A. unfold after_d in *.
  eapply F2_impl; [|exact A]. intros s s' [N C]. split; [exact N|]. intros cs q E. rewrite E in C.
  destruct (color_chain_d n cs q _ C) as (lm & cs' & L & -> & W & R). exists (color_width_d lm q), cs'. eexists. split; [reflexivity|].
  split; [exact W|]. destruct (color_prec_R_d _ W) as [P1 P2]. split; [exact P1|]. split; [exact P2|]. split; [|exact R].
  intros Fq Hq. apply color_width_R_d; auto. lia.
Qed.

(** C78. Colours stored with a precision [q] report, after [n + 1] saves and loads, about
    q / 2^n. A channel in [0,1] stays within little more than four times the first precision,
    and 1 stays 1 (without the feature it becomes 0 as soon as more than 24 bits are used). *)
Theorem C78_colours_widen_double : forall n l l', reloaded_d (S n) l l' ->
  Forall2 (after_d (S n) (fun d d' => forall cs q, d = XColor cs q -> finite64 q -> / 2 ^ 60 <= val64 q <= 1 - / 2 ^ 10 ->
    exists cs' q', d' = XColor cs' q' /\ finite64 q' /\ 0.49 * val64 q <= 2 ^ n * val64 q' <= 1.001 * val64 q /\
      Forall2 (channels_d (fun x y =>
        (in_unit_d x -> in_unit_d y /\ within_d (4.01 * val64 q + INR (S n) * / 2 ^ 51) x y) /\
        (finite64 x -> val64 x = 1 -> finite64 y /\ val64 y = 1))) cs cs')) l l'.
Proof.
  intros n l l' K. pose proof (colours_after_d n l l' K) as F. eapply F2_impl; [|exact F]. intros a b A. unfold after_d in *.
  eapply F2_impl; [|exact A]. intros s s' [N C]. split; [exact N|]. intros cs q E Fq Hq.
  destruct (C cs q E) as (w & cs' & q' & E' & W & Fq' & Q' & H & R). destruct (H Fq Hq) as [W1 Q]. exists cs', q'.
  split; [exact E'|]. split; [exact Fq'|]. clear - W Q' Q W1 R Hq.
  assert (PW : 0 < 2 ^ w) by (apply pow_lt; lra). assert (PN : 0 < 2 ^ n) by (apply pow_lt; lra).
  assert (Q0 : 0 < val64 q) by (assert (0 < / 2 ^ 60) by (apply Rinv_0_lt_compat, pow_lt; lra); lra).
  set (z := 2 ^ n * val64 q') in *. assert (Z : 2 ^ (w + n) * val64 q' = 2 ^ w * z) by (unfold z; rewrite pow_add; ring).
  split.
  { rewrite Z in Q'. split; apply Rmult_le_reg_l with (2 ^ w); auto; lra. }
  eapply F2_impl; [|exact R]. intros v v' V. eapply channels_impl_d; [|exact V]. clear v v' V R. intros x y RU. split.
  - intros X. destruct (run_close_d w (S n) x y RU W1 X) as [Y1 Y2]. split; [exact Y1|]. unfold within_d.
    eapply Rle_trans; [exact Y2|]. apply Rplus_le_compat_r. assert (2 ^ 1 <= 2 ^ w) by (apply pow2_le; lia).
    apply Rmult_le_reg_r with (2 ^ w - 1); [lra|]. unfold Rdiv. rewrite Rmult_assoc, Rinv_l by lra.
    assert (2 * val64 q <= 2 ^ w * val64 q) by (apply Rmult_le_compat_r; lra). lra.
  - intros Fx Vx. exact (run_one_d w (S n) x y RU W1 Fx Vx).
Qed.
Print Assumptions C78_colours_widen_double.

(** It ends all the same: a mesh with colours, of whatever precision, cannot be saved and loaded
    more than 31 times. *)
Theorem C78_saves_end_double : forall k l l', reloaded_d k l l' ->
  Exists (fun mn => Exists (fun s => exists cs q, x_data s = XColor cs q) (d_custom_data (fst mn))) l -> (k <= 31)%nat.
Proof.
  intros [|n] l l' K E; [lia|]. pose proof (colours_after_d n l l' K) as F. clear - F E. revert l' F.
  induction E as [mn l E|mn l E IH]; intros l' F; inversion F as [|? b ? l1 A F1]; subst; [|now apply (IH l1)]. clear - A E. unfold after_d in A.
  assert (T : Exists (fun s => exists cs q, x_data s = XColor cs q) (turned (S n) (d_custom_data (fst mn)))).
  { unfold turned. destruct (Nat.odd (S n)); [|exact E]. apply Exists_exists in E as (s & I & S). apply Exists_exists. exists s.
    split; [now apply -> in_rev|exact S]. }
  clear E. induction A as [|s s' ss ss' [_ H] _ IH]; [inversion T|]. inversion T as [? ? (cs & q & S)|? ? S]; subst; [|now apply IH].
  destruct (H cs q S) as (w & _ & _ & _ & W & _). lia.
Qed.
Print Assumptions C78_saves_end_double.

(** ** Floats *)

(** C78. The same for float arrays with values from [lo] to [hi], when these are at most 2^20
    times as large as their difference. The least value is kept. The greatest one stays the
    greatest, but it is computed as the rounded sum of a rounded difference and so may move by a
    rounding error with each save. Such an array cannot be saved and loaded more than 30 times. *)
Theorem C78_floats_widen_double : forall n l l', reloaded_d (S n) l l' ->
  Forall2 (after_d (S n) (fun d d' => forall fs q B lo hi, d = XFloat fs q -> ranges_d B lo hi fs -> B <= 2 ^ 59 -> / 2 ^ 59 <= hi - lo ->
    B <= 2 ^ 20 * (hi - lo) -> finite64 q -> 0 < val64 q <= hi - lo -> hi - lo <= 2 ^ 60 * val64 q ->
    (n <= 29)%nat /\
    exists fs' q' hi', d' = XFloat fs' q' /\ finite64 q' /\ 0.49 * val64 q <= 2 ^ n * val64 q' <= 1.001 * val64 q /\
      Rabs (hi' - hi) <= INR (S n) * (/ 2 ^ 47 * B + / 2 ^ 99) /\
      Forall2 (fun x y => finite64 y /\ lo <= val64 y <= hi' /\ (val64 x = hi -> val64 y = hi') /\ (val64 x = lo -> val64 y = lo) /\
         within_d (4.01 * val64 q + INR (S n) * (/ 2 ^ 47 * B + / 2 ^ 99)) x y) fs fs')) l l'.
Proof.
  intros n l l' K. pose proof (reloaded_data_d (S n) l l' K) as F. eapply F2_impl; [|exact F]. intros a b A. unfold after_d in *.
  eapply F2_impl; [|exact A]. intros s s' [N C]. split; [exact N|]. intros fs q B lo hi E HR HB HS RT Fq Hq HQ. rewrite E in C.
  destruct (ranges_is_d _ _ _ _ HR) as (_ & _ & _ & _ & B1 & B2 & _).
  destruct (float_chain_d B lo hi HB B1 B2 HS RT n fs q _ C HR) as (lm & fs' & q' & hi' & sp & L & -> & W & [Fq' Hq'] & DH & DS & FF).
  destruct (drift_small B lo hi B1 B2 HS RT) as (D0 & D1 & D2 & _). fold (drift_d B). set (e := drift_d B) in *.
  assert (P59 : 0 < / 2 ^ 59) by (apply Rinv_0_lt_compat, pow_lt; lra).
  assert (P60 : 2 ^ 60 = 2 * 2 ^ 59) by (simpl pow; lra). assert (P2 : 0 < 2 ^ 59) by (apply pow_lt; lra).
  destruct (float_width_R_d lm fs B lo hi q L HR ltac:(lra) Fq (proj1 Hq)) as (W1 & WL & WU); [|lia|].
  { assert (P1 : / 2 ^ 60 <= 1) by (rewrite <- Rinv_1; apply Rinv_le; [lra|apply pow_R1_Rle; lra]).
    assert (/ 2 ^ 60 * val64 q <= 1 * val64 q) by (apply Rmult_le_compat_r; lra). lra. }
  cbv zeta in *. set (w := float_width_d lm fs q) in *. set (span := hi - lo) in *.
  assert (WQ : 2 ^ w * val64 q <= 2.001 * span).
  { destruct (le_lt_dec w 1) as [L1|L1]; [|now apply WU]. assert (w = 1%nat) as -> by lia. simpl pow. lra. }
  split; [lia|]. exists fs', q', hi'. split; [reflexivity|]. split; [exact Fq'|].
  assert (PW : 0 < 2 ^ w) by (apply pow_lt; lra). assert (PN : 0 < 2 ^ n) by (apply pow_lt; lra).
  assert (NR : 0 <= INR (S n) <= 31). { split; [apply pos_INR|]. replace 31 with (INR 31) by (cbn; lra). apply le_INR. lia. }
  assert (NE : 0 <= INR (S n) * e <= 31 * e) by (split; [apply Rmult_le_pos|apply Rmult_le_compat_r]; lra).
  pose proof DH as DH'. apply Rabs_le_iff in DH', DS.
  assert (SP : 0.999999 * span <= sp <= 1.000001 * span) by (unfold span in *; lra).
  assert (Z : 2 ^ (w + n) * R64 q' = 2 ^ w * (2 ^ n * val64 q')) by (rewrite pow_add; change val64 with R64; ring). rewrite Z in Hq'.
  split. { split; apply Rmult_le_reg_l with (2 ^ w); lra. }
  split; [exact DH|]. eapply F2_impl; [|exact FF]. intros x y (Y1 & Y2 & Y3 & Y4 & Y5). split; [exact Y1|]. split; [exact Y2|]. split; [exact Y3|]. split; [exact Y4|].
  unfold within_d. eapply Rle_trans; [exact Y5|]. apply Rplus_le_compat_r. assert (2 ^ 1 <= 2 ^ w) by (apply pow2_le; lia).
  apply Rmult_le_reg_r with (2 ^ w - 1); [lra|]. unfold Rdiv. rewrite Rmult_assoc, Rinv_l by lra.
  assert (2 * val64 q <= 2 ^ w * val64 q) by (apply Rmult_le_compat_r; lra). fold span. lra.
Qed.
Print Assumptions C78_floats_widen_double.

(** ** An example *)
Lemma sq_up a b c : 0 <= a -> a <= b -> c <= a * a -> c <= b * b.
Proof. intros A B C. eapply Rle_trans; [exact C|]. apply Rmult_le_compat; lra. Qed.
Lemma exp_double x : exp (2 * x) = exp x * exp x.
Proof. rewrite <- exp_plus. f_equal. ring. Qed.
Lemma ln2_near : 0.69280 <= ln 2 <= 0.69350.
Proof.
  split.
  - assert (H : 0.5 <= exp (- 0.69280)).
    { replace (- 0.69280) with (2 * (2 * (2 * (2 * (2 * (2 * (2 * (2 * (2 * (2 * (- 0.69280 / 1024))))))))))) by lra. rewrite !exp_double.
      pose proof (exp_ineq1_le (- 0.69280 / 1024)) as H. set (e := exp (- 0.69280 / 1024)) in *.
      do 10 first [apply (sq_up 0.707146632315); [lra| |lra] | apply (sq_up 0.840920110543); [lra| |lra] | apply (sq_up 0.917016963062); [lra| |lra]
        | apply (sq_up 0.957610026609); [lra| |lra] | apply (sq_up 0.978575508895); [lra| |lra] | apply (sq_up 0.989229755363); [lra| |lra]
        | apply (sq_up 0.994600299298); [lra| |lra] | apply (sq_up 0.997296495180); [lra| |lra] | apply (sq_up 0.998647332736); [lra| |lra]
        | apply (sq_up 0.999323437500); [lra| |lra]]. lra. }
    replace (- 0.69280) with (Ropp 0.69280) in H by lra. rewrite exp_Ropp in H. assert (E : 0 < exp 0.69280) by apply exp_pos.
    assert (H2 : exp 0.69280 <= 2). { apply Rmult_le_reg_r with (/ exp 0.69280); [now apply Rinv_0_lt_compat|]. rewrite Rinv_r by lra. lra. }
    rewrite <- (ln_exp 0.69280). destruct H2 as [H2| ->]; [left; now apply ln_increasing|lra].
  - assert (H : 2 <= exp 0.69350).
    { replace 0.69350 with (2 * (2 * (2 * (2 * (2 * (2 * (2 * (2 * (2 * (2 * (0.69350 / 1024))))))))))) by lra. rewrite !exp_double.
      pose proof (exp_ineq1_le (0.69350 / 1024)) as H. set (e := exp (0.69350 / 1024)) in *.
      do 10 first [apply (sq_up 1.000677246093); [lra| |lra] | apply (sq_up 1.001354950848); [lra| |lra] | apply (sq_up 1.002711737587); [lra| |lra]
        | apply (sq_up 1.005430828694); [lra| |lra] | apply (sq_up 1.010891151288); [lra| |lra] | apply (sq_up 1.021900919752); [lra| |lra]
        | apply (sq_up 1.044281489789); [lra| |lra] | apply (sq_up 1.090523829915); [lra| |lra] | apply (sq_up 1.189242223612); [lra| |lra]
        | apply (sq_up 1.414297066421); [lra| |lra]]. lra. }
    rewrite <- (ln_exp 0.69350). destruct H as [H| <-]; [left; apply ln_increasing; lra|lra].
Qed.

(** A platform with an accurate logarithm that is computed where the example needs it. *)
Definition just_above_d (w : Z) : f64 := dlit (4503644663817134 * 2 ^ w) (2 ^ 52).
Definition a_bit_more_d (w : Z) : f64 := dlit (w * 2 ^ 40 + 15862679) (2 ^ 40).
Definition wide_d : libm64 :=
  mk_libm64 (fun x => match find (fun w => Beqb x (just_above_d w)) [27; 28; 29; 30]%Z with Some w => a_bit_more_d w | None => l_log2 grid_d x end)
    (l_asin grid_d) (l_sin_cos grid_d).
Lemma just_above_log2_d w : log2 (2 ^ w * (4503644663817134 / 2 ^ 52)) = INR w + ln (4503644663817134 / 2 ^ 52) / ln 2 /\
  0.000014419 <= ln (4503644663817134 / 2 ^ 52) / ln 2 <= 0.000014435.
Proof.
  pose proof ln2_near as LN. assert (P2 : 0 < 2 ^ w) by (apply pow_lt; lra). set (c := 4503644663817134 / 2 ^ 52).
  assert (CB : 1.0000100000 <= c <= 1.0000100002) by (unfold c; simpl pow; lra). clearbody c.
  split. { unfold log2. rewrite ln_mult by lra. rewrite <- Rpower_pow by lra. unfold Rpower. rewrite ln_exp. field. lra. }
  assert (C1 : 0.0000099998 <= ln c).
  { assert (ln (/ c) <= / c - 1). { pose proof (exp_ineq1_le (ln (/ c))). rewrite exp_ln in H by (apply Rinv_0_lt_compat; lra). lra. }
    rewrite ln_Rinv in H by lra.
    assert (/ c <= 0.9999900002). { apply Rmult_le_reg_r with c; [lra|]. rewrite Rinv_l by lra. lra. } lra. }
  assert (C2 : ln c <= c - 1). { pose proof (exp_ineq1_le (ln c)). rewrite exp_ln in H by lra. lra. }
  split; apply Rmult_le_reg_r with (ln 2); try lra; unfold Rdiv; rewrite ?Rmult_assoc, ?Rinv_l by lra; lra.
Qed.

Tactic Notation "double_value" constr(x) "as" ident(A) ident(B) :=
  let v := eval vm_compute in (B2SF x) in
  let r := eval unfold SF2R, F2R in (SF2R radix2 v) in let r := eval cbn in r in
  assert (A : R64 x = r); [rewrite (proj1 (R64_SF x v ltac:(vm_compute; reflexivity))); unfold SF2R, F2R; cbn; reflexivity|];
  assert (B : fin x) by (rewrite (proj2 (R64_SF x v ltac:(vm_compute; reflexivity))); reflexivity).
Lemma deq_val (x y : f64) : finite64 x -> finite64 y -> Beqb x y = true -> val64 x = val64 y.
Proof.
  intros F G H. rewrite Beqb_correct in H by assumption. destruct (Req_bool_spec (B2R x) (B2R y)); [assumption|discriminate H].
Qed.
Lemma wide_d_ok : log2_64_ok wide_d.
Proof.
  intros x F P. unfold wide_d at 1 2. cbn [l_log2]. destruct (find _ _) as [w|] eqn:E; [|now apply grid_d_ok].
  apply find_some in E as [I E].
  assert (V : exists n, (27 <= n <= 30)%nat /\ val64 x = 2 ^ n * (4503644663817134 / 2 ^ 52) /\ finite64 (a_bit_more_d w) /\ val64 (a_bit_more_d w) = INR n + 15862679 / 2 ^ 40).
  { cbn [In] in I. destruct I as [<-|[<-|[<-|[<-|[]]]]];
      [exists 27%nat; double_value (just_above_d 27) as A1 A2; double_value (a_bit_more_d 27) as B1 B2
      |exists 28%nat; double_value (just_above_d 28) as A1 A2; double_value (a_bit_more_d 28) as B1 B2
      |exists 29%nat; double_value (just_above_d 29) as A1 A2; double_value (a_bit_more_d 29) as B1 B2
      |exists 30%nat; double_value (just_above_d 30) as A1 A2; double_value (a_bit_more_d 30) as B1 B2];
    (split; [lia|]; split; [rewrite (deq_val _ _ F A2 E); change val64 with R64; rewrite A1; simpl pow; lra|]; split; [exact B2|];
     change val64 with R64; rewrite B1; simpl; lra). }
  destruct V as (n & N & V1 & V2 & V3). split; [exact V2|]. rewrite V1, V3. destruct (just_above_log2_d n) as [-> T].
  set (t := ln (4503644663817134 / 2 ^ 52) / ln 2) in *. assert (27 <= INR n). { replace 27 with (INR 27) by (cbn; lra). apply le_INR. lia. }
  rewrite (Rabs_pos_eq (INR n + t)) by lra. apply Rabs_le. simpl pow. lra.
Qed.

Definition custom_mesh_d (d : dcdata) : dmesh := mk_dmesh None None None None None None None None [mk_dcseg [119]%N 1 d].
Definition wide_list_d : list (dmesh * list N) :=
  [(custom_mesh_d (XColor [(d1, d0, dlit 1 2, d1)] (color_prec_d 27)), []); (custom_mesh_d (XFloat [d0; dlit 1 4; d1] (color_prec_d 27)), [])].
Definition seg_fits_d (s : dcseg) : bool :=
  forallb (fun b => b <? 256)%N (x_name s) && (x_name_len s =? len (x_name s))%N && (x_name_len s <=? 255)%N &&
  match x_data s with XFloat l _ => (len l <=? 2 ^ 27)%N | XColor l _ => (len l <=? 2 ^ 27)%N | _ => false end.
Definition only_custom_d (m : dmesh) : bool :=
  match m with mk_dmesh None None None None None None None None cd => forallb seg_fits_d cd | _ => false end.
Definition fits_d (l : list (dmesh * list N)) : bool :=
  forallb (fun mn => only_custom_d (fst mn) && match snd mn with [] => true | _ => false end && (segment_count_d wide_d true (fst mn) <? 65536)%N) l && (len l <? 2 ^ 32)%N.
Lemma only_custom_ok m : only_custom_d m = true -> storable_d m.
Proof.
  intros H. destruct m as [[|] [|] [|] [|] [|] [|] [|] [|] cd]; try discriminate H.
  assert (C : Forall custom_ok_d cd).
  { apply Forall_forall. intros s I. cbn [only_custom_d] in H. rewrite forallb_forall in H. specialize (H s I). unfold seg_fits_d in H.
    apply andb_prop in H as [H H4]. apply andb_prop in H as [H H3]. apply andb_prop in H as [H1 H2]. rewrite forallb_forall in H1.
    split; [apply Forall_forall; intros b Hb; apply N.ltb_lt; auto|]. split; [now apply N.eqb_eq|]. split; [now apply N.leb_le|].
    destruct (x_data s); try discriminate H4; now apply N.leb_le. }
  constructor; cbn; first [apply small_none|apply indices_none|exact C].
Qed.
Lemma fits_ok_d l : fits_d l = true -> list_ok_d wide_d l.
Proof.
  intros H. apply andb_prop in H as [H L]. split; [now apply N.ltb_lt|]. apply Forall_forall. intros [m nm] I. rewrite forallb_forall in H.
  specialize (H _ I). cbn [fst snd] in *. apply andb_prop in H as [H C]. apply andb_prop in H as [H1 H2]. destruct nm; [|discriminate H2].
  split; [now apply only_custom_ok|]. split; [apply name_ok_ascii; reflexivity|now apply N.ltb_lt].
Qed.
Definition try_wide_d (k : list (dmesh * list N) -> bool) (l : list (dmesh * list N)) : bool :=
  fits_d l &&
  match saved_d wide_d true demo_prec_d l with
  | Ok out => match read_tmf_d (l_sin_cos demo_d) true out with Ok l1 => k l1 | _ => false end
  | _ => false
  end.
Lemma try_wide_ok_d k n l (P : list (dmesh * list N) -> Prop) : (forall l1, k l1 = true -> exists l2, reloaded_d n l1 l2 /\ P l2) ->
  try_wide_d k l = true -> exists l2, reloaded_d (S n) l l2 /\ P l2.
Proof.
  intros H T. apply andb_prop in T as [T1 T2].
  destruct (saved_d wide_d true demo_prec_d l) as [out| |] eqn:S; try discriminate T2.
  destruct (read_tmf_d (l_sin_cos demo_d) true out) as [l1| |] eqn:R; try discriminate T2.
  destruct (H l1 T2) as (l2 & C & Q). exists l2. split; [|exact Q].
  eapply reloaded_more_d; [apply wide_d_ok|exact (proj1 demo_ok_d)|now apply fits_ok_d|exact S|exact R|exact C].
Qed.
(** Is the red of the colour still 1, and the greatest float, and does the next save panic? *)
Definition is1 (x : f64) : bool := Beqb x d1.
Definition kept_and_full (l : list (dmesh * list N)) : bool :=
  match l with
  | [(mk_dmesh _ _ _ _ _ _ _ _ [mk_dcseg _ _ (XColor [(r, _, _, _)] _)], _); (mk_dmesh _ _ _ _ _ _ _ _ [mk_dcseg _ _ (XFloat [_; _; y] _)], _)] => is1 r && is1 y
  | _ => false
  end && match saved_d wide_d true demo_prec_d l with Panic => true | _ => false end.
(** White and 1.0 are kept by three saves, with 28, 29 and 30 bits. The next one panics. *)
Example C78_double_case : finite64 (color_prec_d 27) /\ / 2 ^ 60 <= val64 (color_prec_d 27) <= 1 - / 2 ^ 10 /\ 1 - 0 <= 2 ^ 60 * val64 (color_prec_d 27) /\
  ranges_d 1 0 1 [d0; dlit 1 4; d1] /\ / 2 ^ 59 <= 1 - 0 /\ 1 <= 2 ^ 20 * (1 - 0) /\
  exists l3, reloaded_d 3 wide_list_d l3 /\ kept_and_full l3 = true.
Proof.
  destruct (color_prec_R_d 27 ltac:(lia)) as [A1 A2]. split; [exact A1|]. set (q := val64 (color_prec_d 27)) in *.
  split; [simpl pow in *; lra|]. split; [simpl pow in *; lra|]. split.
  { double_value (dlit 1 4) as B1 B2. unfold ranges_d, least, greatest. cbn [map]. rewrite val64_0, val64_1. change (val64 (dlit 1 4)) with (R64 (dlit 1 4)). rewrite B1.
    split; [repeat constructor; exact B2|]. split.
    - repeat apply Forall_cons; try apply Forall_nil; rewrite ?val64_0, ?val64_1, ?Rabs_R0, ?Rabs_R1; try lra. change (val64 (dlit 1 4)) with (R64 (dlit 1 4)). rewrite B1, Rabs_pos_eq; lra.
    - split; (split; [cbn [In]; auto|]); intros y I; cbn [In] in I; destruct I as [<-|[<-|[<-|[]]]]; lra. }
  split; [simpl pow; lra|]. split; [simpl pow; lra|].
  apply (try_wide_ok_d (try_wide_d (try_wide_d kept_and_full))); [|vm_compute; reflexivity]. intros l1. apply try_wide_ok_d. intros l2. apply try_wide_ok_d.
  intros l3 H. exists l3. split; [constructor|exact H].
Qed.
