(** Property C78: colours and floats take one bit more with every save. *)
From Coq Require Import List NArith ZArith Arith Lia Bool Reals Lra Floats.SpecFloat.
From Flocq Require Import Core IEEE754.BinarySingleNaN.
From Verif Require Import Base UnalignedRW ReadExt Floats Floats_proofs FloatReal_proofs Utilis CustomData Mesh Tmf File FileSpec SaveSpec
  ValueSpec WidenSpec Demo Save_proofs Save2_proofs Save3_proofs Codec_proofs Image_proofs Quant_proofs Log2_proofs Widen_proofs WidenFloat_proofs
  P_Save P_Uv P_Custom P_Again.
Import ListNotations.
Open Scope res_scope.
Local Open Scope R_scope.

(** The custom data of a mesh are loaded in the opposite order, so after an odd number of
    cycles they are reversed and after an even number they are not.  [after n P a b]: the custom
    data of [b] have the names of those of [a] in that order, with [P] between the data. *)
Definition turned {A} (n : nat) (l : list A) : list A := if Nat.odd n then rev l else l.
Definition after (n : nat) (P : cdata -> cdata -> Prop) (a b : mesh * list N) : Prop :=
  Forall2 (fun s s' => c_name s' = c_name s /\ P (c_data s) (c_data s')) (turned n (custom_data (fst a))) (custom_data (fst b)).
(** Saving and loading [n] times, with any settings, on machines whose logarithm is accurate. *)
Definition reloaded : nat -> list (mesh * list N) -> list (mesh * list N) -> Prop := cycles_of (fun lm _ => log2_sharp lm).

Lemma turned_S {A} n (l : list A) : turned (S n) l = turned n (rev l).
Proof. unfold turned. rewrite Nat.odd_succ, <- Nat.negb_odd. destruct (Nat.odd n); cbn [negb]; [now rewrite rev_involutive|reflexivity]. Qed.
Lemma F2_turned {A B} (R : A -> B -> Prop) n l m : Forall2 R l m -> Forall2 R (turned n l) (turned n m).
Proof. unfold turned. destruct (Nat.odd n); auto. apply F2_rev. Qed.
Lemma reloaded_data n l l' : good l -> reloaded n l l' -> Forall2 (after n (data_chain log2_sharp n)) l l'.
Proof.
  intros G K. induction K as [l|n l l1 l2 C K IH].
  - clear. induction l as [|a l IH]; constructor; auto. unfold after, turned. cbn. induction (custom_data (fst a)) as [|s t IHs]; constructor; auto.
    split; [reflexivity|constructor].
  - destruct (cycle_image _ l l1 G C) as (G1 & lm & lm' & p & O & F). specialize (IH G1).
    clear - F IH O. revert l2 IH. induction F as [|a b l l1 (e & _ & [_ _ _ _ M]) _ IHF]; intros l2 IH; inversion IH as [|b' c l1' l2' BC H]; subst; constructor; auto.
    unfold after in *. rewrite turned_S. cbn [with_custom_data custom_data image_rels rs] in M. apply (F2_turned _ n) in M.
    eapply F2_comp; [|exact M|exact BC]. intros x y z (N1 & _ & D) [N2 D2]. split; [congruence|]. econstructor; eauto.
Qed.

(** ** Colours *)
Lemma colours_after n l l' : good l -> reloaded (S n) l l' ->
  Forall2 (after (S n) (fun d d' => forall cs q, as_color_rgba d = Some (cs, q) -> exists w cs' q', as_color_rgba d' = Some (cs', q') /\
    (w + n <= 30)%nat /\ finite q' /\ 0.99998 <= 2 ^ (w + n) * val q' <= 1 /\
    (finite q -> / 2 ^ 60 <= val q <= 1 - / 2 ^ 10 -> (1 <= w)%nat /\ 0.9997 <= 2 ^ w * val q <= 2.001) /\
    Forall2 (channels (run w (S n))) cs cs')) l l'.
Proof.
  intros G K. pose proof (reloaded_data (S n) l l' G K) as F. eapply F2_impl; [|exact F]. intros a b A. unfold after in *.
  eapply F2_impl; [|exact A]. intros s s' [N C]. split; [exact N|]. intros cs q E.
  destruct (c_data s) as [| | |cs0 q0] eqn:D; try discriminate E. cbn [as_color_rgba] in E.
  assert (cs0 = cs /\ q0 = q) as [-> ->] by (split; congruence).
  destruct (color_chain n cs q _ C) as (lm & cs' & L & -> & W & R). exists (color_width lm q), cs'. eexists. split; [reflexivity|].
  split; [exact W|]. destruct (color_prec_R _ W) as [P1 P2]. split; [exact P1|]. split; [exact P2|]. split; [|exact R].
  intros Fq Hq. now apply color_width_R; [apply sharp_ok| |].
Qed.

(** C78. Colours stored with a precision [q] report, after [n + 1] saves and loads, about
    q / 2^n: every save takes one bit more per channel. While the reported precision is above
    2^-25 a channel in [0,1] stays within little more than four times the first precision and 1
    stays 1. From then on 1 is loaded as 0. *)
Theorem C78_colours_widen : forall n l l', good l -> reloaded (S n) l l' ->
  Forall2 (after (S n) (fun d d' => forall cs q, as_color_rgba d = Some (cs, q) -> finite q -> / 2 ^ 60 <= val q <= 1 - / 2 ^ 10 ->
    exists cs' q', as_color_rgba d' = Some (cs', q') /\ finite q' /\ 0.49 * val q <= 2 ^ n * val q' <= 1.001 * val q /\
      Forall2 (channels (fun x y =>
        (/ 2 ^ 25 < val q' -> in_unit x -> in_unit y /\ within (4.01 * val q + INR (S n) * / 2 ^ 22) x y) /\
        (finite x -> val x = 1 -> finite y /\ (/ 2 ^ 25 < val q' -> val y = 1) /\ (val q' <= / 2 ^ 25 -> val y = 0)))) cs cs')) l l'.
Proof.
  intros n l l' G K. pose proof (colours_after n l l' G K) as F. eapply F2_impl; [|exact F]. intros a b A. unfold after in *.
  eapply F2_impl; [|exact A]. intros s s' [N C]. split; [exact N|]. intros cs q E Fq Hq.
  destruct (C cs q E) as (w & cs' & q' & E' & W & Fq' & Q' & H & R). destruct (H Fq Hq) as [W1 Q]. exists cs', q'.
  split; [exact E'|]. split; [exact Fq'|]. clear - W Q' Q W1 R Hq.
  assert (PW : 0 < 2 ^ w) by (apply pow_lt; lra). assert (PN : 0 < 2 ^ n) by (apply pow_lt; lra).
  assert (Q0 : 0 < val q) by (assert (0 < / 2 ^ 60) by (apply Rinv_0_lt_compat, pow_lt; lra); lra).
  set (z := 2 ^ n * val q') in *. assert (Z : 2 ^ (w + n) * val q' = 2 ^ w * z) by (unfold z; rewrite pow_add; ring). 
  assert (Qp : 0 < val q').
  { apply Rmult_lt_reg_l with (2 ^ (w + n)); [apply pow_lt; lra|]. lra. }
  split.
  { rewrite Z in Q'. split; apply Rmult_le_reg_l with (2 ^ w); auto; lra. }
  assert (W24 : / 2 ^ 25 < val q' -> (w + n <= 24)%nat).
  { intros L. destruct (le_lt_dec (w + n) 24) as [|B]; auto. exfalso. assert (2 ^ 25 <= 2 ^ (w + n)) by (apply pow2_le; lia).
    assert (2 ^ 25 * val q' <= 2 ^ (w + n) * val q') by (apply Rmult_le_compat_r; lra). simpl (2 ^ 25) in *. lra. }
  assert (W25 : val q' <= / 2 ^ 25 -> (25 <= w + n)%nat).
  { intros L. destruct (le_lt_dec 25 (w + n)) as [|B]; auto. exfalso. assert (2 ^ (w + n) <= 2 ^ 24) by (apply pow2_le; lia).
    assert (2 ^ (w + n) * val q' <= 2 ^ 24 * val q') by (apply Rmult_le_compat_r; lra). simpl (2 ^ 24) in *. simpl (2 ^ 25) in *. lra. }
  eapply F2_impl; [|exact R]. intros v v' V. eapply channels_impl; [|exact V]. clear v v' V R. intros x y RU. split.
  - intros L X. destruct (run_close w (S n) x y RU W1 ltac:(specialize (W24 L); lia) X) as [Y1 Y2]. split; [exact Y1|]. unfold within.
    eapply Rle_trans; [exact Y2|]. apply Rplus_le_compat_r. assert (2 ^ 1 <= 2 ^ w) by (apply pow2_le; lia).
    apply Rmult_le_reg_r with (2 ^ w - 1); [lra|]. unfold Rdiv. rewrite Rmult_assoc, Rinv_l by lra.
    assert (2 * val q <= 2 ^ w * val q) by (apply Rmult_le_compat_r; lra). lra.
  - intros Fx Vx. destruct (run_one w (S n) x y RU W1 Fx Vx) as [Y1 Y2]. cbn [Nat.eqb orb] in Y2. split; [exact Y1|]. rewrite Y2. split; intros L.
    + specialize (W24 L). assert ((w + S n <=? 25)%nat = true) as -> by (apply Nat.leb_le; lia). reflexivity.
    + specialize (W25 L). assert ((w + S n <=? 25)%nat = false) as -> by (apply Nat.leb_gt; lia). reflexivity.
Qed.
Print Assumptions C78_colours_widen.

(** Whatever precision was asked for, from the 25th save on every channel that was 1 is 0. *)
Theorem C78_white_turns_black : forall k l l', (25 <= k)%nat -> good l -> reloaded k l l' ->
  Forall2 (after k (fun d d' => forall cs q, as_color_rgba d = Some (cs, q) -> finite q -> / 2 ^ 60 <= val q <= 1 - / 2 ^ 10 ->
    exists cs' q', as_color_rgba d' = Some (cs', q') /\ Forall2 (channels (fun x y => finite x -> val x = 1 -> finite y /\ val y = 0)) cs cs')) l l'.
Proof.
  intros [|n] l l' B G K; [lia|]. pose proof (colours_after n l l' G K) as F. eapply F2_impl; [|exact F]. intros a b A. unfold after in *.
  eapply F2_impl; [|exact A]. intros s s' [N C]. split; [exact N|]. intros cs q E Fq Hq.
  destruct (C cs q E) as (w & cs' & q' & E' & _ & _ & _ & H & R). destruct (H Fq Hq) as [W1 _]. exists cs', q'. split; [exact E'|].
  eapply F2_impl; [|exact R]. intros v v' V. eapply channels_impl; [|exact V]. intros x y RU Fx Vx.
  destruct (run_one w (S n) x y RU W1 Fx Vx) as [Y1 Y2]. split; [exact Y1|]. rewrite Y2. cbn [Nat.eqb orb].
  assert ((w + S n <=? 25)%nat = false) as -> by (apply Nat.leb_gt; lia). reflexivity.
Qed.
Print Assumptions C78_white_turns_black.

(** And it ends there: a mesh with colours, of whatever precision, cannot be saved and loaded
    more than 31 times (without the overflow checks the codes would be cut instead). *)
Theorem C78_saves_end : forall k l l', good l -> reloaded k l l' ->
  Exists (fun mn => Exists (fun s => exists cs q, as_color_rgba (c_data s) = Some (cs, q)) (custom_data (fst mn))) l -> (k <= 31)%nat.
Proof.
  intros [|n] l l' G K E; [lia|]. pose proof (colours_after n l l' G K) as F. clear - F E. revert l' F.
  induction E as [mn l E|mn l E IH]; intros l' F; inversion F as [|? b ? l1 A F1]; subst; [|now apply (IH l1)]. clear - A E. unfold after in A.
  assert (T : Exists (fun s => exists cs q, as_color_rgba (c_data s) = Some (cs, q)) (turned (S n) (custom_data (fst mn)))).
  { unfold turned. destruct (Nat.odd (S n)); [|exact E]. apply Exists_exists in E as (s & I & S). apply Exists_exists. exists s.
    split; [now apply -> in_rev|exact S]. }
  clear E. induction A as [|s s' ss ss' [_ H] _ IH]; [inversion T|]. inversion T as [? ? (cs & q & S)|? ? S]; subst; [|now apply IH].
  destruct (H cs q S) as (w & _ & _ & _ & W & _). lia.
Qed.
Print Assumptions C78_saves_end.

(** ** Floats *)

(** C78. The same for float arrays with values from [lo] to [hi] and a precision [q] up to
    hi - lo, as long as q / 2^n is above about half of (hi - lo) / 2^24. While the reported precision is above 3/4 of (hi - lo) / 2^24 the
    array keeps its least and greatest value and each value stays within little more than four
    times the first precision. After that the greatest value is loaded as the least one. *)
Theorem C78_floats_widen : forall n l l', good l -> reloaded (S n) l l' ->
  Forall2 (after (S n) (fun d d' => forall fs q B lo hi, as_float d = Some (fs, q) -> ranges B lo hi fs -> B <= 2 ^ 60 -> / 2 ^ 60 <= hi - lo ->
    Rabs lo <= 2 ^ 20 * Rabs hi \/ hi = 0 -> finite q -> 0 < val q <= hi - lo -> 2 ^ n * (hi - lo) <= 1.99 * 2 ^ 24 * val q ->
    exists fs' q', as_float d' = Some (fs', q') /\ finite q' /\ 0.49 * val q <= 2 ^ n * val q' <= 1.001 * val q /\
      Forall2 (fun x y =>
        (1.5 * (hi - lo) < 2 ^ 25 * val q' -> finite y /\ lo <= val y <= hi /\ (val x = hi -> val y = hi) /\ (val x = lo -> val y = lo) /\
           within (4.01 * val q + INR (S n) * (/ 2 ^ 20 * B + / 2 ^ 99)) x y) /\
        (2 ^ 25 * val q' <= 1.5 * (hi - lo) -> val x = hi -> finite y /\ val y = lo)) fs fs')) l l'.
Proof.
  intros n l l' G K. pose proof (reloaded_data (S n) l l' G K) as F. eapply F2_impl; [|exact F]. intros a b A. unfold after in *.
  eapply F2_impl; [|exact A]. intros s s' [N C]. split; [exact N|]. intros fs q B lo hi E HR HB HS RT Fq Hq HN.
  destruct (c_data s) as [| |fs0 q0|] eqn:D; try discriminate E. cbn [as_float] in E.
  assert (fs0 = fs /\ q0 = q) as [-> ->] by (split; congruence). clear E D N.
  destruct (float_chain B lo hi n fs q _ HB HS RT C HR) as (lm & L & H).
  assert (N1 : 1 <= 2 ^ n) by (apply pow_R1_Rle; lra). set (span := hi - lo) in *.
  assert (S0 : 0 < span) by lra.
  assert (NS : span <= 2 ^ n * span). { rewrite <- (Rmult_1_l span) at 1. apply Rmult_le_compat_r; lra. }
  destruct (float_width_R lm fs B lo hi q (sharp_ok lm L) HR HB Fq (proj1 Hq)) as (W1 & WL & WU).
  { fold span. assert (P60 : / 2 ^ 60 <= 1) by (rewrite <- Rinv_1; apply Rinv_le; [lra|apply pow_R1_Rle; lra]).
    assert (/ 2 ^ 60 * val q <= 1 * val q) by (apply Rmult_le_compat_r; lra).
    assert (2 ^ 25 * val q <= 2 ^ 60 * val q) by (apply Rmult_le_compat_r; [lra|apply pow2_le; lia]).
    replace (2 ^ 25) with (2 * 2 ^ 24) in * by (simpl pow; lra). simpl (2 ^ 24) in *. lra. }
  cbv zeta in *. fold span in WL, WU. set (w := float_width lm fs q) in *.
  assert (WQ : 2 ^ w * val q <= 2.001 * span).
  { destruct (le_lt_dec w 1) as [L1|L1]; [|now apply WU]. assert (w = 1%nat) as -> by lia. simpl pow. lra. }
  assert (PW : 0 < 2 ^ w) by (apply pow_lt; lra).
  assert (W25 : (w + n <= 25)%nat).
  { destruct (le_lt_dec (w + n) 25) as [|B26]; auto. exfalso. assert (B2 : 2 ^ 26 <= 2 ^ (w + n)) by (apply pow2_le; lia). rewrite pow_add in B2.
    assert (2 ^ w * val q * 2 ^ n <= 2.001 * span * 2 ^ n) by (apply Rmult_le_compat_r; lra).
    assert (2 ^ 26 * val q <= 2 ^ w * 2 ^ n * val q) by (apply Rmult_le_compat_r; lra).
    replace (2 ^ w * val q * 2 ^ n) with (2 ^ w * 2 ^ n * val q) in * by ring. replace (2 ^ 26) with (4 * 2 ^ 24) in * by (simpl pow; lra). simpl (2 ^ 24) in *. lra. }
  destruct (H W25) as (fs' & q' & E' & [Fq' Hq'] & FF). rewrite E'. exists fs', q'. split; [reflexivity|]. split; [exact Fq'|]. fold span in Hq'.
  change (R32 q') with (val q') in Hq'. clear - W25 W1 WL WQ Hq' FF S0 N1 PW Hq.
  assert (Q0 : 0 < val q'). { apply Rmult_lt_reg_l with (2 ^ (w + n)); [apply pow_lt; lra|lra]. }
  assert (Z : 2 ^ (w + n) * val q' = 2 ^ w * (2 ^ n * val q')) by (rewrite pow_add; ring).
  split. { rewrite Z in Hq'. split; apply Rmult_le_reg_l with (2 ^ w); lra. }
  eapply F2_impl; [|exact FF]. intros x y [F1 F2]. split.
  - intros Q. assert (W24 : (w + n <= 24)%nat).
    { destruct (le_lt_dec (w + n) 24) as [|B9]; auto. exfalso. assert (w + n = 25)%nat as E by lia. rewrite E in Hq'. lra. }
    destruct (F1 ltac:(lia)) as (Y1 & Y2 & Y3 & Y4 & Y5). split; [exact Y1|]. split; [exact Y2|]. split; [exact Y3|]. split; [exact Y4|].
    unfold within. eapply Rle_trans; [exact Y5|]. apply Rplus_le_compat_r. fold span. assert (2 ^ 1 <= 2 ^ w) by (apply pow2_le; lia).
    apply Rmult_le_reg_r with (2 ^ w - 1); [lra|]. unfold Rdiv. rewrite Rmult_assoc, Rinv_l by lra.
    assert (2 * val q <= 2 ^ w * val q) by (apply Rmult_le_compat_r; lra). lra.
  - intros Q V. assert (W26 : (w + n = 25)%nat).
    { destruct (le_lt_dec 25 (w + n)) as [|B9]; [lia|]. exfalso. assert (2 ^ (w + n) <= 2 ^ 24) by (apply pow2_le; lia).
      assert (2 ^ (w + n) * val q' <= 2 ^ 24 * val q') by (apply Rmult_le_compat_r; lra). replace (2 ^ 25) with (2 * 2 ^ 24) in Q by (simpl pow; lra). lra. }
    apply F2; auto; lia.
Qed.
Print Assumptions C78_floats_widen.

(** ** An example *)

(** A platform with a logarithm that is accurate enough, and computed where the example needs
    it. *)
Definition just_above (w : Z) : f32 := flit (8388692 * 2 ^ w) (2 ^ 23).
Definition a_bit_more (w : Z) : f32 := flit (w * 2 ^ 16 + 1) (2 ^ 16).
Definition wide_libm : libm :=
  mk_libm (fun x => match find (fun w => feq x (just_above w)) [21; 22; 23; 24]%Z with Some w => a_bit_more w | None => m_log2 exact_libm x end)
    (m_asin exact_libm) (m_sin_cos exact_libm).
Definition wide_list : list (mesh * list N) :=
  [(colors_mesh [(f1, f0, flit 1 2, f1)] (color_prec 21), []); (floats_mesh [f0; flit 1 4; f1] (color_prec 21), [])].
Definition try_wide (k : list (mesh * list N) -> bool) (l : list (mesh * list N)) : bool :=
  forallb (fun mn => (segment_count wide_libm true (fst mn) <? 65536)%N) l &&
  match saved wide_libm true demo_prec l with
  | Ok out => match read_tmf wide_libm true out with Ok l1 => k l1 | _ => false end
  | _ => false
  end.

Lemma ln2_le : ln 2 <= 0.8.
Proof.
  rewrite <- (ln_exp 0.8). destruct (Rle_lt_or_eq_dec 2 (exp 0.8)) as [H| ->]; [|left; now apply ln_increasing; [lra|]|lra].
  assert (E : exp 0.8 = exp 0.1 * exp 0.1 * (exp 0.1 * exp 0.1) * (exp 0.1 * exp 0.1 * (exp 0.1 * exp 0.1))).
  { rewrite <- !exp_plus. f_equal. lra. }
  rewrite E. pose proof (exp_ineq1_le 0.1) as H. set (e := exp 0.1) in *.
  assert (A : 1.21 <= e * e) by (replace 1.21 with (1.1 * 1.1) by lra; apply Rmult_le_compat; lra).
  assert (B : 1.46 <= e * e * (e * e)) by (eapply Rle_trans; [|apply Rmult_le_compat; [| |exact A|exact A]]; lra).
  eapply Rle_trans; [|apply Rmult_le_compat; [| |exact B|exact B]]; lra.
Qed.
Lemma just_above_log2 w : (w <= 24)%nat -> log2 (2 ^ w * 1.000010013580322265625) = INR w + ln 1.000010013580322265625 / ln 2 /\
  0.0000125 <= ln 1.000010013580322265625 / ln 2 <= 0.00002003.
Proof.
  intros W. pose proof ln2_bounds as LN. pose proof ln2_le as LN2. assert (P2 : 0 < 2 ^ w) by (apply pow_lt; lra). set (c := 1.000010013580322265625).
  split. { unfold log2. rewrite ln_mult by (unfold c; lra). rewrite <- Rpower_pow by lra. unfold Rpower. rewrite ln_exp. field. lra. }
  assert (C1 : 0.00001001 <= ln c).
  { assert (ln (/ c) <= / c - 1). { pose proof (exp_ineq1_le (ln (/ c))). rewrite exp_ln in H by (apply Rinv_0_lt_compat; unfold c; lra). lra. }
    rewrite ln_Rinv in H by (unfold c; lra).
    assert (/ c <= 0.99998999). { apply Rmult_le_reg_r with c; [unfold c; lra|]. rewrite Rinv_l by (unfold c; lra). unfold c. lra. } lra. }
  assert (C2 : ln c <= c - 1). { pose proof (exp_ineq1_le (ln c)). rewrite exp_ln in H by (unfold c; lra). lra. }
  assert (C3 : c - 1 <= 0.000010014) by (unfold c; lra). clearbody c.
  split; apply Rmult_le_reg_r with (ln 2); try lra; unfold Rdiv; rewrite ?Rmult_assoc, ?Rinv_l by lra; lra.
Qed.
Lemma wide_sharp : log2_sharp wide_libm.
Proof.
  intros x F P. unfold wide_libm at 1 2. cbn [m_log2]. destruct (find _ _) as [w|] eqn:E; [|now apply exact_sharp].
  apply find_some in E as [I E].
  assert (V : exists n, (21 <= n <= 24)%nat /\ val x = 2 ^ n * 1.000010013580322265625 /\ finite (a_bit_more w) /\ val (a_bit_more w) = INR n + / 2 ^ 16).
  { cbn [In] in I. destruct I as [<-|[<-|[<-|[<-|[]]]]];
      [exists 21%nat; float_value (just_above 21) as A1 A2; float_value (a_bit_more 21) as B1 B2
      |exists 22%nat; float_value (just_above 22) as A1 A2; float_value (a_bit_more 22) as B1 B2
      |exists 23%nat; float_value (just_above 23) as A1 A2; float_value (a_bit_more 23) as B1 B2
      |exists 24%nat; float_value (just_above 24) as A1 A2; float_value (a_bit_more 24) as B1 B2];
    (split; [lia|]; split; [rewrite (feq_val _ _ F A2 E); change val with R32; rewrite A1; simpl pow; lra|]; split; [exact B2|];
     change val with R32; rewrite B1; simpl; lra). }
  destruct V as (n & N & V1 & V2 & V3). split; [exact V2|]. rewrite V1, V3. destruct (just_above_log2 n) as [-> T]; [lia|].
  set (t := ln 1.000010013580322265625 / ln 2) in *. assert (21 <= INR n). { replace 21 with (INR 21) by (cbn; lra). apply le_INR. lia. }
  rewrite (Rabs_pos_eq (INR n + t)) by lra. apply Rabs_le. simpl pow. lra.
Qed.
Lemma try_wide_ok k n l (P : list (mesh * list N) -> Prop) : (forall l1, k l1 = true -> exists l2, reloaded n l1 l2 /\ P l2) ->
  try_wide k l = true -> exists l2, reloaded (S n) l l2 /\ P l2.
Proof.
  intros H T. apply andb_prop in T as [T1 T2].
  destruct (saved wide_libm true demo_prec l) as [out| |] eqn:S; try discriminate T2.
  destruct (read_tmf wide_libm true out) as [l1| |] eqn:R; try discriminate T2.
  destruct (H l1 T2) as (l2 & C & Q). exists l2. split; [|exact Q]. econstructor; [|exact C]. exists wide_libm, wide_libm, true, demo_prec, out.
  split; [apply wide_sharp|]. split; [exact demo_prec_ok|]. split; [|split; assumption].
  apply Forall_forall. intros x X. rewrite forallb_forall in T1. apply N.ltb_lt. auto.
Qed.

(** The red of the first colour and the last float. *)
Definition red_and_last (l : list (mesh * list N)) : option (spec_float * spec_float) :=
  match loaded_colors l, loaded_floats l with
  | [[Some ([c], _)]; _], [_; [Some ([_; _; y], _)]] => Some (B2SF (let '(r, _, _, _) := c in r), B2SF y)
  | _, _ => None
  end.
Definition both (z : spec_float) (l : list (mesh * list N)) : bool :=
  match red_and_last l with Some (r, y) => match SFcompare r z, SFcompare y z with Some Eq, Some Eq => true | _, _ => false end | None => false end.
(** White and 1.0 are loaded three times and become 0 the fourth time. *)
Example C78_case : good wide_list /\
  finite (color_prec 21) /\ / 2 ^ 60 <= val (color_prec 21) <= 1 - / 2 ^ 10 /\ 2 ^ 3 * (1 - 0) <= 1.99 * 2 ^ 24 * val (color_prec 21) /\
  ranges 1 0 1 [f0; flit 1 4; f1] /\
  (exists l3, reloaded 3 wide_list l3 /\ both (B2SF f1) l3 = true) /\ (exists l4, reloaded 4 wide_list l4 /\ both (B2SF f0) l4 = true).
Proof.
  split. { split; [reflexivity|]. unfold wide_list. apply Forall_cons; [|apply Forall_cons; [|apply Forall_nil]].
    - destruct (custom_list_ok wide_libm (colors_mesh [(f1, f0, flit 1 2, f1)] (color_prec 21)) _ eq_refl) as [_ F]; [discriminate|].
      inversion F; tauto.
    - destruct (custom_list_ok wide_libm (floats_mesh [f0; flit 1 4; f1] (color_prec 21)) _ eq_refl) as [_ F]; [discriminate|].
      inversion F; tauto. }
  float_value (color_prec 21) as A1 A2. split; [exact A2|]. change (val (color_prec 21)) with (R32 (color_prec 21)). rewrite A1.
  split; [simpl pow; lra|]. split; [simpl pow; lra|]. split.
  { float_value (flit 1 4) as B1 B2. float_value f0 as Z1 Z2. float_value f1 as O1 O2. unfold ranges.
    split; [repeat apply Forall_cons; auto|].
    assert (V : map val [f0; flit 1 4; f1] = [0; / 4; 1]).
    { cbn [map]. change val with R32. rewrite B1, Z1, O1. repeat (f_equal; try lra). }
    split. { apply (Forall_map val (fun r => Rabs r <= 1)). rewrite V. repeat apply Forall_cons; try apply Forall_nil; rewrite Rabs_pos_eq; lra. }
    rewrite V. split; (split; [cbn [In]; auto|]); intros y Y; cbn [In] in Y; lra. }
  split.
  - apply (try_wide_ok (try_wide (try_wide (both (B2SF f1))))); [|vm_compute; reflexivity]. intros l1. apply try_wide_ok. intros l2. apply try_wide_ok.
    intros l3 H. exists l3. split; [constructor|exact H].
  - apply (try_wide_ok (try_wide (try_wide (try_wide (both (B2SF f0)))))); [|vm_compute; reflexivity]. intros l1. apply try_wide_ok. intros l2. apply try_wide_ok.
    intros l3. apply try_wide_ok. intros l4 H. exists l4. split; [constructor|exact H].
Qed.
