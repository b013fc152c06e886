(** Properties C42 and C43: accuracy of custom floats and colours. *)
From Coq Require Import List NArith ZArith Arith Lia Bool Reals Lra.
From Flocq Require Import Core IEEE754.BinarySingleNaN.
From Verif Require Import Base UnalignedRW ReadExt Floats Floats_proofs FloatReal_proofs Vertices CustomData Mesh Tmf File FileSpec SaveSpec
  ValueSpec VertexSpec Demo Save_proofs Save2_proofs Codec_proofs Image_proofs Quant_proofs Log2_proofs VertexReal_proofs
  CustomReal_proofs P_Save P_Uv P_Normals P_Vertices.
Import ListNotations.
Open Scope res_scope.
Local Open Scope R_scope.

(** Custom data of two meshes: one segment for each, in the opposite order (C21), with
    the same name and [P] between what they hold. *)
Definition on_custom (P : cdata -> cdata -> Prop) (a b : mesh * list N) : Prop :=
  Forall2 (fun s s' => c_name s' = c_name s /\ P (c_data s) (c_data s')) (rev (custom_data (fst a))) (custom_data (fst b)).

Lemma custom_loads (P : cdata -> cdata -> Prop) lm lm' oc' p l out :
  precision_ok p -> list_ok lm l -> saved lm true p l = Ok out ->
  (forall d d', data_rel lm d d' -> P d d') ->
  exists l', read_tmf lm' oc' out = Ok l' /\ Forall2 (on_custom P) l l'.
Proof.
  intros HP HL S H. destruct (saved_loads_as lm lm' oc' p l out HP HL S) as (l' & R & F).
  exists l'. split; auto. eapply F2_impl; [|exact F]. intros a b (_ & edge & _ & [_ _ _ _ M]).
  unfold on_custom. cbn [with_custom_data custom_data] in M. eapply F2_impl; [|exact M].
  intros s s' (A & _ & B). split; auto.
Qed.

Lemma inv_le x : 1 <= x -> 0 < / x <= 1.
Proof. intros. split; [apply Rinv_0_lt_compat; lra|]. rewrite <- Rinv_1. apply Rinv_le_contravar; lra. Qed.
Lemma pow_IZR2 (w : nat) : IZR (2 ^ Z.of_nat w) = 2 ^ w.
Proof. rewrite <- pow_IZR. reflexivity. Qed.

(** ** Floats *)

(** Every number is finite and at most [B] in absolute value; [lo] and [hi] are the
    least and the greatest of them. *)
Definition ranges (B lo hi : R) (l : list f32) : Prop :=
  Forall finite l /\ Forall (fun x => Rabs (val x) <= B) l /\ least (map val l) lo /\ greatest (map val l) hi.

Lemma ranges_is B lo hi l : ranges B lo hi l ->
  fin (fst (float_range l)) /\ fin (snd (float_range l)) /\ R32 (fst (float_range l)) = hi /\ R32 (snd (float_range l)) = lo /\
  Rabs lo <= B /\ Rabs hi <= B /\ lo <= hi /\ Forall (fun x => lo <= R32 x <= hi) l.
Proof.
  intros (F & FB & [L1 L2] & [G1 G2]). assert (N : l <> []) by (intros ->; contradiction).
  destruct (range_R l F N) as (A1 & A2 & [A3 A4] & [A5 A6]).
  assert (E1 : R32 (fst (float_range l)) = hi) by (apply Rle_antisym; auto).
  assert (E2 : R32 (snd (float_range l)) = lo) by (apply Rle_antisym; auto).
  rewrite Forall_forall in FB.
  split; [exact A1|]. split; [exact A2|]. split; [exact E1|]. split; [exact E2|].
  split; [apply in_map_iff in L1 as (x & <- & I); now apply FB|].
  split; [apply in_map_iff in G1 as (x & <- & I); now apply FB|].
  split; [now apply L2|]. apply Forall_forall. intros x I. pose proof (in_map val l x I). split; auto.
Qed.

Lemma image1 lm l p mul x : float_image lm l p mul x =
  float_value1 (snd (float_range l)) (fst (float_range l)) (float_width lm l p)
    (low (float_width lm l p) (float_code1 (snd (float_range l)) (fst (float_range l)) mul x)).
Proof. reflexivity. Qed.

(** What the width is, for a requested precision [q]. *)
Lemma float_width_R lm l B lo hi q : log2_ok lm -> ranges B lo hi l -> B <= 2 ^ 60 -> finite q -> 0 < val q ->
  / 2 ^ 60 * val q <= hi - lo <= 2 ^ 60 * val q ->
  let w := float_width lm l q in
  (1 <= w)%nat /\ 0.9997 * (hi - lo) <= 2 ^ w * val q /\ ((1 < w)%nat -> 2 ^ w * val q <= 2.001 * (hi - lo)).
Proof.
  intros LG HR HB Fq Pq Hs w. destruct (ranges_is _ _ _ _ HR) as (A1 & A2 & E1 & E2 & B1 & B2 & LH & _).
  change val with R32 in *. unfold w, float_width. set (mx := fst (float_range l)) in *. set (mn := snd (float_range l)) in *.
  assert (P60 : 0 < / 2 ^ 60) by (apply Rinv_0_lt_compat, pow_lt; lra).
  assert (XP : 0 < / 2 ^ 60 * R32 q) by (apply Rmult_lt_0_compat; lra).
  assert (XQ : 0 < 2 ^ 60 * R32 q) by (apply Rmult_lt_0_compat; [apply pow_lt|]; lra).
  assert (SP : 0 < hi - lo) by lra.
  apply Rabs_le_iff in B1, B2.
  destruct (fsub_R mx mn A1 A2) as [D1 D2]; [rewrite E1, E2; apply (fits_B B); auto; apply Rabs_le_iff; lra|].
  pose proof (rnd32_diff mx mn) as DE. rewrite <- D1, E1, E2, (Rabs_pos_eq (hi - lo)) in DE by lra. apply Rabs_le_iff in DE.
  set (D := R32 (fsub mx mn)) in *. assert (DB : 0.99999 * (hi - lo) <= D <= 1.00001 * (hi - lo)) by (unfold u32 in DE; lra).
  assert (I : 0.9 * / 2 ^ 60 <= D / R32 q <= 1.1 * 2 ^ 60).
  { split; apply Rmult_le_reg_r with (R32 q); auto; unfold Rdiv; rewrite (Rmult_assoc D), Rinv_l by lra; rewrite (Rmult_assoc _ _ (R32 q)); lra. }
  destruct (fdiv_R (fsub mx mn) q D2) as [Q1 Q2]; [lra| |].
  { fold D. rewrite Rabs_pos_eq, big32_pow by lra. apply Rle_trans with (2 * 2 ^ 60); [assert (0 < 2 ^ 60) by (apply pow_lt; lra); lra|].
    replace (2 * 2 ^ 60) with (2 ^ 61) by (simpl pow; lra). apply pow2_le. lia. }
  fold D in Q1. pose proof (rnd32_err (D / R32 q)) as Er. rewrite <- Q1, (Rabs_pos_eq (D / R32 q)) in Er by lra.
  destruct tiny_100 as [[T1 T2] _].
  assert (T : tiny32 <= 0.000001 * (D / R32 q)).
  { eapply Rle_trans; [exact T2|]. apply Rle_trans with (0.000001 * (0.9 * / 2 ^ 60)); [|apply Rmult_le_compat_l; lra].
    replace (/ 2 ^ 100) with (/ 2 ^ 60 * / 2 ^ 40) by (rewrite <- Rinv_mult, <- pow_add; reflexivity).
    replace (0.000001 * (0.9 * / 2 ^ 60)) with (/ 2 ^ 60 * 0.0000009) by (set (t := / 2 ^ 60); lra). apply Rmult_le_compat_l; [lra|]. simpl pow. lra. }
  apply Rabs_le_iff in Er. set (r := R32 (fdiv (fsub mx mn) q)) in *.
  assert (RB : 0.99999 * (D / R32 q) <= r <= 1.00001 * (D / R32 q)) by (unfold u32 in Er; lra).
  destruct (width_covers lm (fdiv (fsub mx mn) q) LG Q2) as [W1 W2]; [fold r; lra|]. fold r in W1, W2. cbv zeta in *.
  set (k := u8_of_f32 _) in *. rewrite !pow_IZR2 in *.
  assert (Eq : D / R32 q * R32 q = D) by (field; lra).
  assert (rq : 0.99999 * D <= r * R32 q <= 1.00001 * D).
  { rewrite <- Eq at 1 2. rewrite <- !Rmult_assoc. split; apply Rmult_le_compat_r; lra. }
  split; [lia|].
  assert (K : 2 ^ k <= 2 ^ Nat.max k 1) by (apply pow2_le; lia).
  split.
  - assert (2 ^ k * R32 q <= 2 ^ Nat.max k 1 * R32 q) by (apply Rmult_le_compat_r; lra).
    assert (r * (1 - / 5000) * R32 q <= 2 ^ k * R32 q) by (apply Rmult_le_compat_r; lra).
    replace (r * (1 - / 5000) * R32 q) with (r * R32 q * (1 - / 5000)) in * by ring. lra.
  - intros H. assert (1 < k)%nat by lia. replace (Nat.max k 1) with k by lia. specialize (W2 ltac:(lia)).
    assert (2 ^ k * R32 q <= 2 * r * (1 + / 5000) * R32 q) by (apply Rmult_le_compat_r; lra).
    replace (2 * r * (1 + / 5000) * R32 q) with (r * R32 q * (2 * (1 + / 5000))) in * by ring. lra.
Qed.

(** C42. Floats are loaded, in the same order, between the least and (but for the
    rounding) the greatest of them and within little more than twice the requested
    precision. When all are equal they are loaded exactly. *)
Theorem C42_float_error_bound : forall lm lm' oc' p l out,
  log2_ok lm -> precision_ok p -> list_ok lm l -> saved lm true p l = Ok out ->
  exists l', read_tmf lm' oc' out = Ok l' /\
    Forall2 (on_custom (fun d d' => forall fs q, as_float d = Some (fs, q) ->
      exists fs' q', as_float d' = Some (fs', q') /\ length fs' = length fs /\
      forall B lo hi, ranges B lo hi fs -> B <= 2 ^ 60 -> finite q -> 0 < val q ->
        (/ 2 ^ 60 * val q <= hi - lo <= 2 ^ 23 * val q ->
           Forall2 (fun x y => finite y /\ lo <= val y <= hi + / 2 ^ 22 * B + / 2 ^ 99 /\
                               within (2.002 * val q + / 2 ^ 20 * B + / 2 ^ 99) x y) fs fs') /\
        (lo = hi -> Forall2 (fun x y => finite y /\ val y = val x) fs fs'))) l l'.
Proof.
  intros lm lm' oc' p l out LG HP HL S. apply (custom_loads _ lm lm' oc' p l out HP HL S).
  intros d d' DR fs q E. destruct d; try discriminate E. injection E as -> ->.
  destruct d' as [| |fs' q'|]; try contradiction. destruct DR as (mul & M & -> & _).
  exists (map (float_image lm fs q mul) fs), q'. split; [reflexivity|]. split; [apply map_length|].
  intros B lo hi HR HB Fq Pq. destruct (ranges_is _ _ _ _ HR) as (A1 & A2 & E1 & E2 & B1 & B2 & LH & FR).
  pose proof (mask_30 _ _ M) as W30. assert (W1 : (1 <= float_width lm fs q)%nat) by (unfold float_width; lia).
  destruct HR as (FF & FB & HR1 & HR2). rewrite Forall_forall in FR, FF, FB.
  split.
  - intros Hs.
    destruct (float_width_R lm fs B lo hi q LG (conj (proj2 (Forall_forall _ _) FF) (conj (proj2 (Forall_forall _ _) FB) (conj HR1 HR2))) HB Fq Pq) as (_ & WL & WU).
    { split; [apply Hs|]. eapply Rle_trans; [apply Hs|]. apply Rmult_le_compat_r; [lra|]. apply pow2_le. lia. }
    cbv zeta in *. set (w := float_width lm fs q) in *.
    assert (W24 : (w <= 24)%nat).
    { destruct (le_lt_dec w 24) as [|L]; auto. exfalso. specialize (WU ltac:(lia)).
      assert (2 ^ 25 <= 2 ^ w) by (apply pow2_le; lia).
      assert (2 ^ 25 * val q <= 2 ^ w * val q) by (apply Rmult_le_compat_r; lra).
      replace (2 ^ 25) with (4 * 2 ^ 23) in * by (simpl pow; lra). simpl pow in *. lra. }
    assert (SP : lo < hi).
    { assert (0 < / 2 ^ 60 * val q) by (apply Rmult_lt_0_compat; [apply Rinv_0_lt_compat, pow_lt|]; lra). lra. }
    destruct (mask_R _ _ M ltac:(lia)) as [M1 M2].
    apply F2_map. intros x I. rewrite image1. fold w.
    destruct (float_R w mul (snd (float_range fs)) (fst (float_range fs)) x B ltac:(lia) M1 M2 A2 A1 (FF x I)) as (Y1 & Y2 & Y3);
      rewrite ?E1, ?E2; auto.
    cbv zeta in *. rewrite E1, E2 in *. split; [exact Y1|]. split; [exact Y2|]. unfold within. change val with R32 in *.
    eapply Rle_trans; [exact Y3|]. apply Rplus_le_compat_r, Rplus_le_compat_r.
    rewrite steps_pow. assert (P2 : 2 <= 2 ^ w) by (replace 2 with (2 ^ 1) at 1 by lra; apply pow2_le; lia).
    apply Rmult_le_reg_r with (2 ^ w - 1); [lra|]. unfold Rdiv. rewrite Rmult_assoc, Rinv_l by lra.
    assert (2 * R32 q <= 2 ^ w * R32 q) by (apply Rmult_le_compat_r; lra). lra.
  - intros Heq. apply F2_map. intros x I. rewrite image1. pose proof (FR x I) as X.
    rewrite (flat_code mul _ _ x B); auto; rewrite ?E1, ?E2; auto; [|apply (FF x I)|lra].
    replace (low (float_width lm fs q) 0) with 0%N by (symmetry; apply N.mod_0_l, N.pow_nonzero; lia).
    destruct (decode_low (float_width lm fs q) (snd (float_range fs)) (fst (float_range fs)) 0 B) as [Y1 Y2]; rewrite ?E1, ?E2; auto.
    cbv zeta in *. split; [exact Y1|]. change val with R32. rewrite Y2, E2. lra.
Qed.
Print Assumptions C42_float_error_bound.

(** Too fine a precision: with 25 bits or more the greatest value is loaded as the
    least one. *)
Theorem C42_wide_codes_lose_max : forall lm lm' oc' p l out,
  log2_ok lm -> precision_ok p -> list_ok lm l -> saved lm true p l = Ok out ->
  exists l', read_tmf lm' oc' out = Ok l' /\
    Forall2 (on_custom (fun d d' => forall fs q, as_float d = Some (fs, q) ->
      exists fs' q', as_float d' = Some (fs', q') /\
      forall B lo hi, ranges B lo hi fs -> B <= 2 ^ 60 -> finite q -> 0 < val q ->
        1.001 * 2 ^ 24 * val q <= hi - lo <= 2 ^ 60 * val q ->
        Forall2 (fun x y => val x = hi -> finite y /\ val y = lo) fs fs')) l l'.
Proof.
  intros lm lm' oc' p l out LG HP HL S. apply (custom_loads _ lm lm' oc' p l out HP HL S).
  intros d d' DR fs q E. destruct d; try discriminate E. injection E as -> ->.
  destruct d' as [| |fs' q'|]; try contradiction. destruct DR as (mul & M & -> & _).
  exists (map (float_image lm fs q mul) fs), q'. split; [reflexivity|].
  intros B lo hi HR HB Fq Pq Hs. destruct (ranges_is _ _ _ _ HR) as (A1 & A2 & E1 & E2 & B1 & B2 & LH & FR).
  pose proof (mask_30 _ _ M) as W30.
  assert (I60 : / 2 ^ 60 * val q <= 1 * val q).
  { apply Rmult_le_compat_r; [lra|]. apply inv_le. apply pow_R1_Rle. lra. }
  destruct (float_width_R lm fs B lo hi q LG HR HB Fq Pq) as (W1 & WL & _).
  { split; [|apply Hs]. simpl pow in Hs. lra. }
  cbv zeta in *. set (w := float_width lm fs q) in *.
  assert (W25 : (25 <= w)%nat).
  { destruct (le_lt_dec 25 w) as [|L]; auto. exfalso.
    assert (2 ^ w <= 2 ^ 24) by (apply pow2_le; lia).
    assert (2 ^ w * val q <= 2 ^ 24 * val q) by (apply Rmult_le_compat_r; lra). simpl pow in *. lra. }
  assert (SP : lo < hi) by (simpl pow in Hs; lra).
  destruct HR as (FF & FB & HR1 & HR2). rewrite Forall_forall in FR, FF, FB.
  apply F2_map. intros x I V. rewrite image1. fold w.
  rewrite (top_float w mul _ _ x B W25 M A2 A1 (FF x I)); rewrite ?E1, ?E2; auto.
  destruct (decode_low w (snd (float_range fs)) (fst (float_range fs)) 0 B) as [Y1 Y2]; rewrite ?E1, ?E2; auto.
  cbv zeta in *. split; [exact Y1|]. change val with R32. now rewrite Y2, E2.
Qed.
Print Assumptions C42_wide_codes_lose_max.

(** ** Colours *)

Definition channels (P : f32 -> f32 -> Prop) (v v' : vec4) : Prop :=
  P (fst (fst (fst v))) (fst (fst (fst v'))) /\ P (snd (fst (fst v))) (snd (fst (fst v'))) /\
  P (snd (fst v)) (snd (fst v')) /\ P (snd v) (snd v').

Lemma colors_load (P : f32 -> f32 -> f32 -> Prop) lm lm' oc' p l out :
  precision_ok p -> list_ok lm l -> saved lm true p l = Ok out ->
  (forall q mul x, mask_f32 (E:=ioerr) true (color_width lm q) = Ok mul ->
     P q x (color_value (color_width lm q) (low (color_width lm q) (color_code mul x)))) ->
  exists l', read_tmf lm' oc' out = Ok l' /\
    Forall2 (on_custom (fun d d' => forall cs q, as_color_rgba d = Some (cs, q) ->
      exists cs' q', as_color_rgba d' = Some (cs', q') /\ Forall2 (channels (P q)) cs cs')) l l'.
Proof.
  intros HP HL S H. apply (custom_loads _ lm lm' oc' p l out HP HL S).
  intros d d' DR cs q E. destruct d; try discriminate E. injection E as -> ->.
  destruct d' as [| | |cs' q']; try contradiction. destruct DR as (mul & M & -> & _).
  eexists. exists q'. split; [reflexivity|]. apply F2_map. intros x _. unfold channels, map4. cbn [fst snd]. auto.
Qed.

(** What the width is, for a requested precision [q] below 1. *)
Lemma color_width_R lm q : log2_ok lm -> finite q -> / 2 ^ 60 <= val q <= 1 - / 2 ^ 10 ->
  let w := color_width lm q in
  (1 <= w)%nat /\ 0.9997 <= 2 ^ w * val q <= 2.001.
Proof.
  intros LG Fq Hq w. change val with R32 in *. unfold w, color_width. destruct f1_R as [F1 F1'].
  assert (P60 : 0 < / 2 ^ 60) by (apply Rinv_0_lt_compat, pow_lt; lra).
  assert (P10 : / 2 ^ 10 = / 1024) by (simpl pow; lra). rewrite P10 in Hq.
  destruct (fmin_R q f1 Fq F1') as [N1 N2]. rewrite F1, Rmin_left in N1 by lra.
  set (m := fmin q f1) in *.
  assert (I : 1.0009 <= 1 / R32 m <= 2 ^ 60).
  { rewrite N1. split; apply Rmult_le_reg_r with (R32 q); try lra; unfold Rdiv; rewrite Rmult_1_l, Rinv_l by lra; [lra|].
    assert (2 ^ 60 * / 2 ^ 60 <= 2 ^ 60 * R32 q) by (apply Rmult_le_compat_l; [apply pow_le|]; lra).
    rewrite Rinv_r in H; [lra|apply pow_nonzero; lra]. }
  destruct (fdiv_R f1 m F1') as [D1 D2]; [lra| |].
  { rewrite F1, Rabs_pos_eq, big32_pow by lra. eapply Rle_trans; [apply I|apply pow2_le; lia]. }
  rewrite F1 in D1. pose proof (rnd32_err (1 / R32 m)) as Er. rewrite <- D1, (Rabs_pos_eq (1 / R32 m)) in Er by lra.
  destruct tiny_100 as [[T1 T2] _]. assert (T3 : / 2 ^ 100 <= 0.000001) by (simpl pow; lra).
  apply Rabs_le_iff in Er. set (r := R32 (fdiv f1 m)) in *.
  assert (RB : 0.99999 * (1 / R32 m) <= r <= 1.00001 * (1 / R32 m)) by (unfold u32 in Er; lra).
  destruct (width_covers lm (fdiv f1 m) LG D2) as [W1 W2]; [fold r; lra|]. fold r in W1, W2. cbv zeta in *.
  set (k := u8_of_f32 _) in *. rewrite !pow_IZR2 in *.
  assert (K1 : (1 <= k)%nat).
  { destruct k; [|lia]. simpl pow in W1. lra. }
  specialize (W2 ltac:(lia)).
  assert (Eq : 1 / R32 m * R32 q = 1) by (rewrite N1; field; lra).
  assert (rq : 0.99999 <= r * R32 q <= 1.00001).
  { destruct RB as [RB1 RB2]. split.
    - apply Rmult_le_compat_r with (r := R32 q) in RB1; [|lra]. rewrite Rmult_assoc, Eq in RB1. lra.
    - apply Rmult_le_compat_r with (r := R32 q) in RB2; [|lra]. rewrite Rmult_assoc, Eq in RB2. lra. }
  split; [exact K1|]. split.
  - assert (r * (1 - / 5000) * R32 q <= 2 ^ k * R32 q) by (apply Rmult_le_compat_r; lra).
    replace (r * (1 - / 5000) * R32 q) with (r * R32 q * (1 - / 5000)) in * by ring. lra.
  - assert (2 ^ k * R32 q <= 2 * r * (1 + / 5000) * R32 q) by (apply Rmult_le_compat_r; lra).
    replace (2 * r * (1 + / 5000) * R32 q) with (r * R32 q * (2 * (1 + / 5000))) in * by ring. lra.
Qed.

(** C43. With a precision from 2^-23 to 1 - 2^-10 a channel in [0,1] loads in [0,1]
    and within little more than twice the precision. *)
Theorem C43_color_error_bound : forall lm lm' oc' p l out,
  log2_ok lm -> precision_ok p -> list_ok lm l -> saved lm true p l = Ok out ->
  exists l', read_tmf lm' oc' out = Ok l' /\
    Forall2 (on_custom (fun d d' => forall cs q, as_color_rgba d = Some (cs, q) ->
      exists cs' q', as_color_rgba d' = Some (cs', q') /\
        Forall2 (channels (fun x y => finite q -> / 2 ^ 23 <= val q <= 1 - / 2 ^ 10 -> in_unit x ->
          in_unit y /\ within (2.002 * val q + / 2 ^ 22) x y)) cs cs')) l l'.
Proof.
  intros lm lm' oc' p l out LG HP HL S.
  apply (colors_load (fun q x y => finite q -> / 2 ^ 23 <= val q <= 1 - / 2 ^ 10 -> in_unit x ->
    in_unit y /\ within (2.002 * val q + / 2 ^ 22) x y) lm lm' oc' p l out HP HL S).
  intros q mul x M Fq Hq [Fx Hx].
  assert (P60 : / 2 ^ 60 <= / 2 ^ 23) by (apply Rinv_le_contravar; [apply pow_lt; lra|apply pow2_le; lia]).
  destruct (color_width_R lm q LG Fq ltac:(lra)) as (W1 & WL & WU). cbv zeta in *. set (w := color_width lm q) in *.
  assert (Q0 : 0 < val q) by (assert (0 < / 2 ^ 23) by (apply Rinv_0_lt_compat, pow_lt; lra); lra).
  assert (W24 : (w <= 24)%nat).
  { destruct (le_lt_dec w 24) as [|L]; auto. exfalso. assert (2 ^ 25 <= 2 ^ w) by (apply pow2_le; lia).
    assert (2 ^ 25 * val q <= 2 ^ w * val q) by (apply Rmult_le_compat_r; lra). simpl pow in *. lra. }
  destruct (color_channel w mul x ltac:(lia) M Fx Hx) as (Y1 & Y2 & Y3). cbv zeta in *.
  split; [split; [exact Y1|exact Y2]|]. unfold within. change val with R32 in *. eapply Rle_trans; [exact Y3|].
  replace (4 * u32) with (/ 2 ^ 22) by (unfold u32; simpl pow; lra). apply Rplus_le_compat_r.
  rewrite steps_pow. assert (P2 : 2 <= 2 ^ w) by (replace 2 with (2 ^ 1) at 1 by lra; apply pow2_le; lia).
  apply Rmult_le_reg_r with (2 ^ w - 1); [lra|]. rewrite Rinv_l by lra.
  assert (2 * R32 q <= 2 ^ w * R32 q) by (apply Rmult_le_compat_r; lra). lra.
Qed.
Print Assumptions C43_color_error_bound.

(** With the default precision (0.01) within 0.008. *)
Theorem C43_default_precision : forall lm lm' oc' p l out,
  log2_ok lm -> precision_ok p -> list_ok lm l -> saved lm true p l = Ok out ->
  exists l', read_tmf lm' oc' out = Ok l' /\
    Forall2 (on_custom (fun d d' => forall cs, d = from_colors cs ->
      exists cs' q', as_color_rgba d' = Some (cs', q') /\
        Forall2 (channels (fun x y => in_unit x -> in_unit y /\ within 0.008 x y)) cs cs')) l l'.
Proof.
  intros lm lm' oc' p l out LG HP HL S.
  destruct (colors_load (fun q x y => q = flit 1 100 -> in_unit x -> in_unit y /\ within 0.008 x y) lm lm' oc' p l out HP HL S) as (l' & R & F).
  { intros q mul x M -> [Fx Hx].
    destruct (flit_R 1 100) as [A Fq]; [lia|lia|].
    assert (V : 0.00999 <= val (flit 1 100) <= 0.01001).
    { change val with R32. rewrite A. pose proof (rnd32_err (1 / 100)) as Er. rewrite (Rabs_pos_eq (1 / 100)) in Er by lra.
      pose proof tiny32_bound as [_ T]. change (2 ^ 100)%Z with 1267650600228229401496703205376%Z in T.
      apply Rabs_le_iff in Er. unfold u32 in Er. lra. }
    assert (P60 : / 2 ^ 60 <= 0.00999) by (simpl pow; lra).
    assert (P10 : / 2 ^ 10 = / 1024) by (simpl pow; lra).
    destruct (color_width_R lm _ LG Fq ltac:(lra)) as (W1 & WL & WU). cbv zeta in *. set (w := color_width lm (flit 1 100)) in *.
    set (q := val (flit 1 100)) in *.
    assert (W7 : w = 7%nat).
    { assert (7 <= w)%nat.
      { destruct (le_lt_dec 7 w) as [|L]; auto. exfalso. assert (2 ^ w <= 2 ^ 6) by (apply pow2_le; lia).
        assert (2 ^ w * q <= 2 ^ 6 * q) by (apply Rmult_le_compat_r; lra). simpl pow in *. lra. }
      assert (w <= 7)%nat; [|lia].
      destruct (le_lt_dec w 7) as [|L]; auto. exfalso. assert (2 ^ 8 <= 2 ^ w) by (apply pow2_le; lia).
      assert (2 ^ 8 * q <= 2 ^ w * q) by (apply Rmult_le_compat_r; lra). simpl pow in *. lra. }
    rewrite W7 in *.
    destruct (color_channel 7 mul x ltac:(lia) M Fx Hx) as (Y1 & Y2 & Y3). cbv zeta in *.
    split; [split; [exact Y1|exact Y2]|]. unfold within. change val with R32 in *. eapply Rle_trans; [exact Y3|].
    rewrite steps_pow. unfold u32. simpl pow. lra. }
  exists l'. split; auto. eapply F2_impl; [|exact F]. intros a b H. eapply F2_impl; [|exact H].
  intros s s' [H1 H2]. split; [exact H1|]. intros cs E. rewrite E in H2. destruct (H2 cs (flit 1 100) eq_refl) as (cs' & q' & H3 & H4).
  exists cs', q'. split; [exact H3|]. eapply F2_impl; [|exact H4]. unfold channels. intros v v' (C1 & C2 & C3 & C4). auto.
Qed.
Print Assumptions C43_default_precision.

Lemma zero_color w : (1 <= w)%nat -> (w <= 30)%nat -> finite (color_value w 0) /\ val (color_value w 0) = 0.
Proof.
  intros L U.
  assert (Z : forall y : f32, B2SF y = SpecFloat.S754_zero false -> fin y /\ R32 y = 0).
  { intros y K. destruct y; try discriminate K. split; reflexivity. }
  apply Z. do 31 (destruct w as [|w]; [first [exfalso; clear -L; lia | vm_compute; reflexivity]|]). exfalso. clear -U. lia.
Qed.

(** Too fine a precision: with 25 bits or more a channel of exactly 1 is loaded as 0. *)
Theorem C43_wide_codes_lose_one : forall lm lm' oc' p l out,
  log2_ok lm -> precision_ok p -> list_ok lm l -> saved lm true p l = Ok out ->
  exists l', read_tmf lm' oc' out = Ok l' /\
    Forall2 (on_custom (fun d d' => forall cs q, as_color_rgba d = Some (cs, q) ->
      exists cs' q', as_color_rgba d' = Some (cs', q') /\
        Forall2 (channels (fun x y => finite q -> / 2 ^ 60 <= val q -> 1.001 * 2 ^ 24 * val q <= 1 ->
          finite x -> val x = 1 -> finite y /\ val y = 0)) cs cs')) l l'.
Proof.
  intros lm lm' oc' p l out LG HP HL S.
  apply (colors_load (fun q x y => finite q -> / 2 ^ 60 <= val q -> 1.001 * 2 ^ 24 * val q <= 1 ->
          finite x -> val x = 1 -> finite y /\ val y = 0) lm lm' oc' p l out HP HL S).
  intros q mul x M Fq Hq Hs Fx Vx.
  assert (0 < / 2 ^ 60) by (apply Rinv_0_lt_compat, pow_lt; lra).
  assert (Q : val q <= 0.5) by (simpl pow in Hs; lra).
  destruct (color_width_R lm q LG Fq) as (W1 & WL & WU). { simpl pow in *. lra. }
  cbv zeta in *. set (w := color_width lm q) in *.
  assert (W25 : (25 <= w)%nat).
  { destruct (le_lt_dec 25 w) as [|L]; auto. exfalso.
    assert (2 ^ w <= 2 ^ 24) by (apply pow2_le; lia).
    assert (2 ^ w * val q <= 2 ^ 24 * val q) by (apply Rmult_le_compat_r; lra). simpl pow in *. lra. }
  rewrite (is_one x Fx Vx). unfold color_code. rewrite (one_lost w mul W25 M). pose proof (mask_30 _ _ M) as W30.
  apply zero_color; lia.
Qed.
Print Assumptions C43_wide_codes_lose_one.

(** Too coarse a precision: one of 1 or more destroys every colour.  (The only use
    of the platform's logarithm is at 1, where it is 0.) *)
Theorem C43_coarse_precision_refuted : forall lm lm' oc' p l out,
  finite (m_log2 lm f1) /\ val (m_log2 lm f1) = 0 ->
  precision_ok p -> list_ok lm l -> saved lm true p l = Ok out ->
  exists l', read_tmf lm' oc' out = Ok l' /\
    Forall2 (on_custom (fun d d' => forall cs q, as_color_rgba d = Some (cs, q) ->
      exists cs' q', as_color_rgba d' = Some (cs', q') /\
        Forall2 (channels (fun x y => finite q -> 1 <= val q -> y = B754_nan)) cs cs')) l l'.
Proof.
  intros lm lm' oc' p l out [LF L0] HP HL S.
  apply (colors_load (fun q x y => finite q -> 1 <= val q -> y = B754_nan) lm lm' oc' p l out HP HL S).
  intros q mul x M Fq Hq. change val with R32 in *. destruct f1_R as [F1 F1'].
  destruct (fmin_R q f1 Fq F1') as [N1 N2]. rewrite F1, Rmin_right in N1 by lra.
  assert (W : color_width lm q = 0%nat).
  { unfold color_width. rewrite (is_one _ N2 N1).
    replace (fdiv f1 f1) with f1 by (apply B2SF_inj; vm_compute; reflexivity).
    destruct (m_log2 lm f1) as [s| | |s m e K]; try discriminate LF; [now destruct s|].
    exfalso. apply (F2R_neq_0 radix2 {| Fnum := cond_Zopp s (Zpos m); Fexp := e |}); [now destruct s|exact L0]. }
  rewrite W. unfold low. change (2 ^ N.of_nat 0)%N with 1%N. rewrite N.mod_1_r. apply B2SF_inj. vm_compute. reflexivity.
Qed.
Print Assumptions C43_coarse_precision_refuted.

(** Negative channels load as 0, for every precision below 1. *)
Theorem C43_negative_channels : forall lm lm' oc' p l out,
  log2_ok lm -> precision_ok p -> list_ok lm l -> saved lm true p l = Ok out ->
  exists l', read_tmf lm' oc' out = Ok l' /\
    Forall2 (on_custom (fun d d' => forall cs q, as_color_rgba d = Some (cs, q) ->
      exists cs' q', as_color_rgba d' = Some (cs', q') /\
        Forall2 (channels (fun x y => finite q -> / 2 ^ 60 <= val q <= 1 - / 2 ^ 10 ->
          finite x -> - 2 ^ 90 <= val x <= 0 -> finite y /\ val y = 0)) cs cs')) l l'.
Proof.
  intros lm lm' oc' p l out LG HP HL S.
  apply (colors_load (fun q x y => finite q -> / 2 ^ 60 <= val q <= 1 - / 2 ^ 10 ->
          finite x -> - 2 ^ 90 <= val x <= 0 -> finite y /\ val y = 0) lm lm' oc' p l out HP HL S).
  intros q mul x M Fq Hq Fx Hx. destruct (color_width_R lm q LG Fq Hq) as (W1 & _). cbv zeta in *. set (w := color_width lm q) in *.
  pose proof (mask_30 _ _ M) as W30. change val with R32 in *.
  assert (C0 : low w (color_code mul x) = 0%N).
  { unfold color_code. rewrite (mask_is _ _ M).
    assert (SB : 0 <= IZR (steps w) <= 2 ^ 30).
    { rewrite steps_pow. assert (1 <= 2 ^ w) by (apply pow_R1_Rle; lra). assert (2 ^ w <= 2 ^ 30) by (apply pow2_le; lia). lra. }
    destruct (f32_of_Z_R (steps w)) as [A B].
    { rewrite Rabs_pos_eq, big32_pow by lra. eapply Rle_trans; [apply SB|apply pow2_le; lia]. }
    assert (MB : 0 <= R32 (f32_of_Z (steps w)) <= 2 ^ 30).
    { rewrite A. split; [rewrite <- rnd32_0; apply rnd32_le; lra|].
      pose proof (rnd32_abs_le_bpow (IZR (steps w)) 30) as K. change (bpow radix2 30) with (IZR 1073741824) in K.
      rewrite (Rabs_pos_eq (IZR _)) in K by lra. specialize (K ltac:(lia)). apply Rle_trans with (Rabs (rnd32 (IZR (steps w)))); [apply Rle_abs|]. simpl pow in *. lra. }
    destruct (fmul_R x (f32_of_Z (steps w)) Fx B) as [C D].
    { rewrite Rabs_mult, (Rabs_left1 (R32 x)), (Rabs_pos_eq (R32 (f32_of_Z _))), big32_pow by lra.
      apply Rle_trans with (2 ^ 90 * 2 ^ 30); [apply Rmult_le_compat; lra|]. rewrite <- pow_add. apply pow2_le. lia. }
    rewrite u64_neg; [unfold low; apply N.mod_0_l; apply N.pow_nonzero; discriminate|exact D|].
    rewrite C. rewrite <- rnd32_0. apply rnd32_le.
    assert (0 <= - R32 x * R32 (f32_of_Z (steps w))) by (apply Rmult_le_pos; lra). lra. }
  rewrite C0. apply zero_color; lia.
Qed.
Print Assumptions C43_negative_channels.

(** ** What the precision does not promise *)

Definition letter : list N := [65%N].
Definition floats_mesh (fs : list f32) (q : f32) : mesh :=
  with_custom_data empty [{| c_name := letter; c_name_len := 1; c_data := CFloat fs q |}].
Definition colors_mesh (cs : list vec4) (q : f32) : mesh :=
  with_custom_data empty [{| c_name := letter; c_name_len := 1; c_data := CColor cs q |}].
Definition loaded_floats (l : list (mesh * list N)) : list (list (option (list f32 * f32))) :=
  map (fun mn => map (fun s => as_float (c_data s)) (custom_data (fst mn))) l.
Definition loaded_colors (l : list (mesh * list N)) : list (list (option (list vec4 * f32))) :=
  map (fun mn => map (fun s => as_color_rgba (c_data s)) (custom_data (fst mn))) l.
Lemma custom_list_ok lm m d : m = with_custom_data empty [{| c_name := letter; c_name_len := 1; c_data := d |}] ->
  match d with CFloat l _ => (len l <= 2 ^ 27)%N | CColor l _ => (len l <= 2 ^ 27)%N | _ => False end ->
  list_ok lm [(m, [])].
Proof.
  intros -> H. split; [reflexivity|]. apply Forall_cons; [|apply Forall_nil]. cbn [fst snd]. split; [|split; [apply name_ok_ascii; reflexivity|reflexivity]].
  storable_tac. apply Forall_cons; [|apply Forall_nil]. unfold custom_ok. cbn [c_name c_name_len c_data].
  split; [repeat (apply Forall_cons; [reflexivity|]); apply Forall_nil|]. split; [reflexivity|]. split; [lia|]. destruct d; tauto.
Qed.
Definition shown_floats (r : res ierr (list (mesh * list N))) : list (list (option (list SpecFloat.spec_float))) :=
  match r with Ok l => map (map (option_map (fun fq => map B2SF (fst fq)))) (loaded_floats l) | _ => [] end.
Definition shown_colors (r : res ierr (list (mesh * list N))) :=
  match r with Ok l => map (map (option_map (fun fq => map (fun c : vec4 => [B2SF (fst (fst (fst c))); B2SF (snd (fst (fst c))); B2SF (snd (fst c)); B2SF (snd c)]) (fst fq)))) (loaded_colors l) | _ => [] end.

(** A precision of 1/2 does not mean "within 1/2": 0.9 is loaded as 0. *)
Definition nine_tenths : f32 := flit 9 10.
Definition half : f32 := flit 1 2.
Lemma nine_R : finite nine_tenths /\ 0.899 <= val nine_tenths <= 0.901.
Proof.
  let v := eval vm_compute in (B2SF nine_tenths) in destruct (R32_SF nine_tenths v) as [A B]; [vm_compute; reflexivity|].
  split; [exact B|]. change val with R32. rewrite A. unfold SF2R, F2R. cbn. lra.
Qed.
Lemma half_R : finite half /\ val half = 1 / 2.
Proof.
  let v := eval vm_compute in (B2SF half) in destruct (R32_SF half v) as [A B]; [vm_compute; reflexivity|].
  split; [exact B|]. change val with R32. rewrite A. unfold SF2R, F2R. cbn. lra.
Qed.
Lemma demo_prec_ok : precision_ok demo_prec.
Proof. split; cbn; lia. Qed.
Lemma grid_saves p l : precision_ok p -> list_ok grid_libm l ->
  match saved grid_libm true p l with Ok _ => true | _ => false end = true ->
  exists out l', saved grid_libm true p l = Ok out /\ read_tmf grid_libm true out = Ok l' /\
    (let* o := map_err (fun _ => ENotTMFFile) (saved grid_libm true p l) in read_tmf grid_libm true o) = Ok l'.
Proof.
  intros P HL H. destruct (saved grid_libm true p l) as [out|e|] eqn:S; try discriminate H.
  destruct (saved_loads_as grid_libm grid_libm true p _ out P HL S) as (l' & R & _).
  exists out, l'. split; [reflexivity|]. split; [exact R|exact R].
Qed.
Lemma floats_shown l' (zs : list SpecFloat.spec_float) : shown_floats (Ok l') = [[Some zs]] ->
  exists ys q', loaded_floats l' = [[Some (ys, q')]] /\ map B2SF ys = zs.
Proof.
  unfold shown_floats. intros K. destruct (loaded_floats l') as [|[|o [|]] [|]]; try discriminate K.
  destruct o as [[ys q']|]; [|discriminate K]. cbn [map option_map fst] in K. injection K as K. eauto.
Qed.
Theorem C42_precision_refuted : exists lm out l' a b c q',
  log2_ok lm /\ precision_ok demo_prec /\ list_ok lm [(floats_mesh [f0; nine_tenths; f1] half, [])] /\
  saved lm true demo_prec [(floats_mesh [f0; nine_tenths; f1] half, [])] = Ok out /\ read_tmf lm true out = Ok l' /\
  loaded_floats l' = [[Some ([a; b; c], q')]] /\ finite half /\ val half = 1 / 2 /\ finite b /\ ~ within (8 / 10) nine_tenths b.
Proof.
  assert (HL : list_ok grid_libm [(floats_mesh [f0; nine_tenths; f1] half, [])]) by (eapply custom_list_ok; [reflexivity|discriminate]).
  destruct (grid_saves demo_prec _ demo_prec_ok HL) as (out & l' & S & R & R'); [vm_compute; reflexivity|].
  destruct (floats_shown l' [B2SF f0; B2SF f0; B2SF f1]) as (ys & q' & L & K); [rewrite <- R'; vm_compute; reflexivity|].
  destruct ys as [|a [|b [|c [|]]]]; try discriminate K. cbn [map] in K. injection K as K1 K2 K3. change (B2SF b = B2SF f0) in K2. apply B2SF_inj in K2.
  exists grid_libm, out, l', a, b, c, q'. split; [apply grid_log2_ok|]. split; [apply demo_prec_ok|]. split; [exact HL|].
  split; [exact S|]. split; [exact R|]. split; [exact L|]. split; [apply half_R|]. split; [apply half_R|]. rewrite K2. split; [reflexivity|].
  destruct nine_R as [_ N]. unfold within. rewrite val_0, Rabs_left1 by lra. lra.
Qed.
Print Assumptions C42_precision_refuted.

(** Nor are the loaded values within the range of the saved ones: here the greatest
    is positive and is loaded as a greater number. *)
Definition speck : f32 := fmul (flit 3 2) (flit 1 (2 ^ 53)).
Lemma speck_R : finite speck /\ val speck = 1.5 * / 2 ^ 53.
Proof.
  let v := eval vm_compute in (B2SF speck) in destruct (R32_SF speck v) as [A B]; [vm_compute; reflexivity|].
  split; [exact B|]. change val with R32. rewrite A. unfold SF2R, F2R. cbn. lra.
Qed.
Definition minus_one : f32 := f32_of_Z (-1).
Definition quarter : f32 := flit 1 4.
Definition speck_up : f32 := flit 1 (2 ^ 52).
Lemma speck_up_R : finite speck_up /\ val speck_up = / 2 ^ 52.
Proof.
  let v := eval vm_compute in (B2SF speck_up) in destruct (R32_SF speck_up v) as [A B]; [vm_compute; reflexivity|].
  split; [exact B|]. change val with R32. rewrite A. unfold SF2R, F2R. cbn. lra.
Qed.
Theorem C42_range_refuted : exists lm out l' a b q',
  log2_ok lm /\ precision_ok demo_prec /\ list_ok lm [(floats_mesh [minus_one; speck] quarter, [])] /\
  saved lm true demo_prec [(floats_mesh [minus_one; speck] quarter, [])] = Ok out /\ read_tmf lm true out = Ok l' /\
  loaded_floats l' = [[Some ([a; b], q')]] /\ val minus_one = -1 /\ 0 < val speck < val b.
Proof.
  assert (HL : list_ok grid_libm [(floats_mesh [minus_one; speck] quarter, [])]) by (eapply custom_list_ok; [reflexivity|discriminate]).
  destruct (grid_saves demo_prec _ demo_prec_ok HL) as (out & l' & S & R & R'); [vm_compute; reflexivity|].
  destruct (floats_shown l' [B2SF minus_one; B2SF speck_up]) as (ys & q' & L & K); [rewrite <- R'; vm_compute; reflexivity|].
  destruct ys as [|a [|b [|]]]; try discriminate K. cbn [map] in K. injection K as K1 K2. change (B2SF b = B2SF speck_up) in K2. apply B2SF_inj in K2.
  exists grid_libm, out, l', a, b, q'. split; [apply grid_log2_ok|]. split; [apply demo_prec_ok|]. split; [exact HL|].
  split; [exact S|]. split; [exact R|]. split; [exact L|]. split.
  { destruct (f32_of_Z_exact (-1)) as [A _]; [lia|exact A]. }
  rewrite K2. destruct speck_R as [_ ->], speck_up_R as [_ ->]. simpl pow. lra.
Qed.
Print Assumptions C42_range_refuted.

Lemma colors_shown l' zs : shown_colors (Ok l') = [[Some zs]] ->
  exists ys q', loaded_colors l' = [[Some (ys, q')]] /\
    map (fun c : vec4 => [B2SF (fst (fst (fst c))); B2SF (snd (fst (fst c))); B2SF (snd (fst c)); B2SF (snd c)]) ys = zs.
Proof.
  unfold shown_colors. intros K. destruct (loaded_colors l') as [|[|o [|]] [|]]; try discriminate K.
  destruct o as [[ys q']|]; [|discriminate K]. cbn [map option_map fst] in K. injection K as K. eauto.
Qed.
Theorem C43_precision_refuted : exists lm out l' r g b a q',
  log2_ok lm /\ precision_ok demo_prec /\ list_ok lm [(colors_mesh [(nine_tenths, f0, f1, f1)] half, [])] /\
  saved lm true demo_prec [(colors_mesh [(nine_tenths, f0, f1, f1)] half, [])] = Ok out /\ read_tmf lm true out = Ok l' /\
  loaded_colors l' = [[Some ([(r, g, b, a)], q')]] /\ finite half /\ val half = 1 / 2 /\ in_unit nine_tenths /\ finite r /\ ~ within (8 / 10) nine_tenths r.
Proof.
  assert (HL : list_ok grid_libm [(colors_mesh [(nine_tenths, f0, f1, f1)] half, [])]) by (eapply custom_list_ok; [reflexivity|discriminate]).
  destruct (grid_saves demo_prec _ demo_prec_ok HL) as (out & l' & S & R & R'); [vm_compute; reflexivity|].
  destruct (colors_shown l' [[B2SF f0; B2SF f0; B2SF f1; B2SF f1]]) as (ys & q' & L & K); [rewrite <- R'; vm_compute; reflexivity|].
  destruct ys as [|[[[r g] b] a] [|]]; try discriminate K. cbn [map fst snd] in K. injection K as K1 K2 K3 K4. change (B2SF r = B2SF f0) in K1. apply B2SF_inj in K1.
  exists grid_libm, out, l', r, g, b, a, q'. split; [apply grid_log2_ok|]. split; [apply demo_prec_ok|]. split; [exact HL|].
  split; [exact S|]. split; [exact R|]. split; [exact L|]. split; [apply half_R|]. split; [apply half_R|].
  destruct nine_R as [N1 N]. split; [split; [exact N1|lra]|]. rewrite K1. split; [reflexivity|].
  unfold within. rewrite val_0, Rabs_left1 by lra. lra.
Qed.
Print Assumptions C43_precision_refuted.

(** ** The hypotheses are met *)

Lemma f1_val : finite f1 /\ val f1 = 1.
Proof. destruct f1_R as [A B]. split; [exact B|exact A]. Qed.
Example C42_case : exists out, log2_ok grid_libm /\ precision_ok demo_prec /\
  list_ok grid_libm [(floats_mesh [f0; nine_tenths; f1] half, [])] /\
  saved grid_libm true demo_prec [(floats_mesh [f0; nine_tenths; f1] half, [])] = Ok out /\
  ranges 1 0 1 [f0; nine_tenths; f1] /\ finite half /\ 0 < val half /\ / 2 ^ 60 * val half <= 1 - 0 <= 2 ^ 23 * val half.
Proof.
  assert (HL : list_ok grid_libm [(floats_mesh [f0; nine_tenths; f1] half, [])]) by (eapply custom_list_ok; [reflexivity|discriminate]).
  destruct (grid_saves demo_prec _ demo_prec_ok HL) as (out & l' & S & R & R'); [vm_compute; reflexivity|].
  exists out. split; [apply grid_log2_ok|]. split; [apply demo_prec_ok|]. split; [exact HL|]. split; [exact S|].
  destruct half_R as [H1 ->], nine_R as [N1 N], f1_val as [F1 V1]. split; [|split; [exact H1|simpl pow; lra]].
  clear - N1 N F1 V1. revert N1 N F1 V1. generalize nine_tenths as n, f1 as one. intros n one N1 N F1 V1. unfold ranges.
  assert (F0 : finite f0) by reflexivity.
  split; [repeat apply Forall_cons; auto|]. split; [repeat apply Forall_cons; auto; rewrite ?val_0, ?V1, ?Rabs_R0, ?Rabs_R1; try lra; rewrite Rabs_pos_eq by lra; lra|].
  split; (split; [|intros x; cbn [In]; intros [<-|[<-|[<-|[]]]]; rewrite ?val_0, ?V1; lra]).
  - left. apply val_0.
  - right. right. left. exact V1.
Qed.
Lemma colors_saved lm cs q : log2_ok lm -> finite q -> / 2 ^ 28 <= val q <= 1 - / 2 ^ 10 ->
  exists out, saved lm true demo_prec [(colors_mesh cs q, [])] = Ok out.
Proof.
  intros LG Fq Hq. destruct demo_prec_ok as [P1 P2]. apply C53_without_vertices_saved; auto; [apply Nat.leb_le; vm_compute; reflexivity|].
  apply Forall_cons; [|apply Forall_nil]. cbn [fst]. split; [reflexivity|]. split.
  { intros l I. cbn in I. repeat (destruct I as [I|I]; [discriminate I|]). contradiction. }
  cbn [colors_mesh custom_data with_custom_data]. apply Forall_cons; [|apply Forall_nil]. unfold custom_widths_ok. cbn [c_name c_name_len c_data].
  split; [repeat (apply Forall_cons; [reflexivity|]); apply Forall_nil|]. split; [reflexivity|]. split; [discriminate|].
  assert (P60 : / 2 ^ 60 <= / 2 ^ 28) by (apply Rinv_le_contravar; [apply pow_lt; lra|apply pow2_le; lia]).
  destruct (color_width_R lm q LG Fq) as (W1 & WL & WU); [split; [eapply Rle_trans; [exact P60|apply Hq]|apply Hq]|].
  cbv zeta in *. set (w := color_width lm q) in *.
  destruct (le_lt_dec w 30) as [G|L]; [exact G|exfalso]. assert (2 ^ 31 <= 2 ^ w) by (apply pow2_le; clear -L; lia).
  assert (0 < / 2 ^ 28) by (apply Rinv_0_lt_compat, pow_lt; lra).
  assert (2 ^ 31 * val q <= 2 ^ w * val q) by (apply Rmult_le_compat_r; lra). simpl pow in *. lra.
Qed.
Definition fine : f32 := flit 1 (2 ^ 26).
Lemma fine_R : finite fine /\ val fine = / 2 ^ 26.
Proof.
  let v := eval vm_compute in (B2SF fine) in destruct (R32_SF fine v) as [A B]; [vm_compute; reflexivity|].
  split; [exact B|]. change val with R32. rewrite A. unfold SF2R, F2R. cbn. lra.
Qed.
Example C43_case : log2_ok exact_libm /\ precision_ok demo_prec /\ in_unit nine_tenths /\
  (finite half /\ / 2 ^ 23 <= val half <= 1 - / 2 ^ 10) /\
  (finite fine /\ / 2 ^ 60 <= val fine /\ 1.001 * 2 ^ 24 * val fine <= 1) /\
  Forall (fun q => list_ok exact_libm [(colors_mesh [(nine_tenths, f0, f1, minus_one)] q, [])] /\
    exists out, saved exact_libm true demo_prec [(colors_mesh [(nine_tenths, f0, f1, minus_one)] q, [])] = Ok out)
    [half; flit 1 100; fine].
Proof.
  destruct half_R as [H1 H2], nine_R as [N1 N], fine_R as [R1 R2].
  split; [apply exact_log2_ok|]. split; [apply demo_prec_ok|]. split; [split; [exact N1|lra]|].
  split; [rewrite H2; split; [exact H1|simpl pow; lra]|]. split; [rewrite R2; split; [exact R1|simpl pow; lra]|].
  repeat apply Forall_cons; try apply Forall_nil; (split; [eapply custom_list_ok; [reflexivity|discriminate]|]); apply colors_saved; try apply exact_log2_ok.
  - exact H1.
  - rewrite H2. simpl pow. lra.
  - apply flit_R; lia.
  - destruct (flit_R 1 100) as [A Fq]; [lia|lia|].
    change val with R32. rewrite A. pose proof (rnd32_err (1 / 100)) as Er. rewrite (Rabs_pos_eq (1 / 100)) in Er by lra.
    pose proof tiny32_bound as [_ T]. change (2 ^ 100)%Z with 1267650600228229401496703205376%Z in T.
    apply Rabs_le_iff in Er. unfold u32 in Er. simpl pow. lra.
  - exact R1.
  - rewrite R2. simpl pow. lra.
Qed.
