(** Property C76: how accurately a program built with [double_precision] stores directions. *)
From Coq Require Import List NArith ZArith Arith Lia Bool Reals Lra Machin.
From Flocq Require Import Core IEEE754.BinarySingleNaN.
From Verif Require Import Base UnalignedRW ReadExt Floats Floats_proofs FloatReal_proofs Utilis Normals Mesh Tmf File FileSpec SaveSpec
  ValueSpec Demo Save_proofs Save2_proofs Codec_proofs Image_proofs Quant_proofs Log2_proofs Trig_proofs NormalReal_proofs CustomReal_proofs P_Save P_Uv
  P_Normals Double DoubleSpec DoubleSave DoubleSaveSpec DoubleValueSpec DoubleNormalSpec Double2_proofs DMerge_proofs DCodec_proofs DSave_proofs
  DQuant_proofs DVertex_proofs DNormal_proofs P_Double P_DoubleSave P_DoubleValue.
Import ListNotations.
Open Scope res_scope.
Local Open Scope R_scope.

(** [on_normals_d P] says that the normal arrays of two meshes are both absent, or equally long
    with [P] between the normals; [on_tangents_d P] the same of tangents. *)
Definition on_normals_d (P : dvec3 -> dvec3 -> Prop) (a b : dmesh * list N) : Prop :=
  arrays P (d_normals (fst a)) (d_normals (fst b)).
Definition on_tangents_d (P : dtangent -> dtangent -> Prop) (a b : dmesh * list N) : Prop :=
  arrays P (d_tangents (fst a)) (d_tangents (fst b)).
Lemma normals_load_d (P : dvec3 -> dvec3 -> Prop) lm sc oc' p l out :
  precision_ok_d p -> list_ok_d lm l -> saved_d lm true p l = Ok out ->
  (forall u u', normal_rel_d lm sc (d_normal_precision p) u u' -> P u u') ->
  exists l', read_tmf_d sc oc' out = Ok l' /\ Forall2 (on_normals_d P) l l'.
Proof.
  intros HP HL S H. destruct (loads_as_d lm sc oc' p l out HP HL S) as (l' & R & F).
  exists l'. split; auto. eapply F2_impl; [|exact F]. intros a b (_ & edge & _ & M). pose proof (dr_n _ _ _ M) as U.
  unfold on_normals_d, arrays. cbn [with_custom_data_d d_normals image_rels_d dn] in U. destruct (d_normals (fst a)), (d_normals (fst b)); try contradiction; auto.
  cbn [orel] in U. eapply F2_impl; [|exact U]. exact H.
Qed.
Lemma tangents_load_d (P : dtangent -> dtangent -> Prop) lm sc oc' p l out :
  precision_ok_d p -> list_ok_d lm l -> saved_d lm true p l = Ok out ->
  (forall u u', tangent_rel_d lm sc (d_tangent_prec p) u u' -> P u u') ->
  exists l', read_tmf_d sc oc' out = Ok l' /\ Forall2 (on_tangents_d P) l l'.
Proof.
  intros HP HL S H. destruct (loads_as_d lm sc oc' p l out HP HL S) as (l' & R & F).
  exists l'. split; auto. eapply F2_impl; [|exact F]. intros a b (_ & edge & _ & M). pose proof (dr_t _ _ _ M) as U.
  unfold on_tangents_d, arrays. cbn [with_custom_data_d d_tangents image_rels_d dt] in U. destruct (d_tangents (fst a)), (d_tangents (fst b)); try contradiction; auto.
  cbn [orel] in U. eapply F2_impl; [|exact U]. exact H.
Qed.

Lemma norm_near_d a e : Rabs (dot3_d a a - 1) <= e -> 0 <= e <= / 4 -> 1 - e <= norm3_d a <= 1 + e / 2.
Proof.
  intros cH E. apply Rabs_le_iff in cH. unfold norm3_d. split.
  - rewrite <- (sqrt_square (1 - e)) by lra. apply sqrt_le_1_alt.
    replace ((1 - e) * (1 - e)) with (1 - e - e * (1 - e)) by ring.
    assert (0 <= e * (1 - e)) by (apply Rmult_le_pos; lra). lra.
  - rewrite <- (sqrt_square (1 + e / 2)) by lra. apply sqrt_le_1_alt.
    replace ((1 + e / 2) * (1 + e / 2)) with (1 + e + (e / 2) * (e / 2)) by field.
    assert (0 <= (e / 2) * (e / 2)) by apply Rle_0_sqr. lra.
Qed.
Lemma close_cosine_d s a b : 0 <= s <= 1 -> unit_vector_d a -> normal_close_d s a b ->
  1 - s - 2 * (s * s) - / 2 ^ 44 <= cosine_d a b.
Proof.
  intros Hs (_ & UN & _) [_ UB D _ _ _ _]. pose proof u64_small as U.
  assert (E49 : / 2 ^ 49 = 16 * u64) by (unfold u64; simpl pow; lra). rewrite E49 in UN.
  assert (E44 : / 2 ^ 44 = 512 * u64) by (unfold u64; simpl pow; lra). rewrite E44.
  apply norm_near_d in UN; [|lra]. apply norm_near_d in UB; [|lra].
  assert (SS : 0 <= s * s <= 1) by (split; [apply Rmult_le_pos; lra|replace 1 with (1 * 1) by ring; apply mul_le; lra]).
  set (n := norm3_d a * norm3_d b).
  assert (N1 : (1 - 16 * u64) * (1 - 64 * u64) <= n) by (apply mul_le; lra).
  assert (N2 : n <= (1 + 16 * u64 / 2) * (1 + 64 * u64 / 2)) by (apply mul_le; lra).
  assert (0 <= u64 * u64 <= / 9007199254740992 * u64).
  { split; [apply Rmult_le_pos; lra|apply Rmult_le_compat_r; lra]. }
  assert (N1' : 1 - 80 * u64 <= n) by lra. assert (N2' : n <= 1 + 41 * u64) by lra.
  unfold cosine_d. fold n. set (L := 1 - s - 2 * (s * s) - 256 * u64) in *.
  apply Rmult_le_reg_r with n; [lra|]. unfold Rdiv. rewrite Rmult_assoc, Rinv_l, Rmult_1_r by lra.
  eapply Rle_trans; [|exact D].
  replace (1 - s - 2 * (s * s) - 512 * u64) with (L - 256 * u64) by (unfold L; ring).
  destruct (Rle_lt_dec 0 (L - 256 * u64)) as [G|G].
  - assert ((L - 256 * u64) * n <= (L - 256 * u64) * (1 + 41 * u64)) by (apply Rmult_le_compat_l; lra).
    assert (L * u64 <= 1 * u64) by (apply Rmult_le_compat_r; unfold L; lra). lra.
  - assert ((256 * u64 - L) * (1 - 80 * u64) <= (256 * u64 - L) * n) by (apply Rmult_le_compat_l; lra).
    assert (- 2.1 * u64 <= L * u64) by (apply Rmult_le_compat_r; unfold L; lra). lra.
Qed.
(** The bound for [p] bits. *)
Definition least_cosine_d (p : nat) : R :=
  1 - / (2 ^ p - 1) - 2 * (/ (2 ^ p - 1) * / (2 ^ p - 1)) - / 2 ^ 44.
Lemma rel_close_d lm sc p a b : (1 <= p)%nat -> asin_64_ok lm -> sin_cos64_sharp sc -> unit_vector_d a ->
  normal_rel_d lm sc p a b -> normal_close_d (/ (2 ^ p - 1)) a b.
Proof.
  intros B A S U (c & E & ->). rewrite <- steps_pow. apply (normal_accuracy_d (E:=ioerr) lm); auto.
  split; [exact B|]. unfold normal_to_encoding_d in E. destruct (mask_f64 true p) as [m| |] eqn:M; try discriminate E.
  exact (mask_d30 _ _ M).
Qed.

(** The cosine of the angle between a unit normal and what it loads as is at least 1 - s - 2 s^2
    (less 2^-44 of rounding) with s = 1/(2^p-1), for every width from one bit that the save
    accepts. (Without the feature: up to 24 bits, less 2^-15, C35.) *)
Theorem C76_normal_cosine_bound : forall lm sc oc' p l out,
  asin_64_ok lm -> sin_cos64_sharp sc -> (1 <= d_normal_precision p)%nat ->
  precision_ok_d p -> list_ok_d lm l -> saved_d lm true p l = Ok out ->
  exists l', read_tmf_d sc oc' out = Ok l' /\
    Forall2 (on_normals_d (fun n n' => unit_vector_d n -> least_cosine_d (d_normal_precision p) <= cosine_d n n')) l l'.
Proof.
  intros lm sc oc' p l out A SC B HP HL S. apply (normals_load_d _ lm sc oc' p l out HP HL S).
  intros n n' R U. apply close_cosine_d; [apply step_01; lia|exact U|]. now apply (rel_close_d lm sc).
Qed.
Print Assumptions C76_normal_cosine_bound.
Theorem C76_tangent_cosine_bound : forall lm sc oc' p l out,
  asin_64_ok lm -> sin_cos64_sharp sc -> (1 <= d_tangent_prec p)%nat ->
  precision_ok_d p -> list_ok_d lm l -> saved_d lm true p l = Ok out ->
  exists l', read_tmf_d sc oc' out = Ok l' /\
    Forall2 (on_tangents_d (fun t t' => unit_vector_d (fst t) -> least_cosine_d (d_tangent_prec p) <= cosine_d (fst t) (fst t'))) l l'.
Proof.
  intros lm sc oc' p l out A SC B HP HL S. apply (tangents_load_d _ lm sc oc' p l out HP HL S).
  intros n n' [R _] U. apply close_cosine_d; [apply step_01; lia|exact U|]. now apply (rel_close_d lm sc).
Qed.
Print Assumptions C76_tangent_cosine_bound.

(** A unit normal loads with length 1, the z component within one step and on the same side, the
    x and y components on the same side, up to rounding. *)
Theorem C76_unit_length_and_sides : forall lm sc oc' p l out,
  asin_64_ok lm -> sin_cos64_sharp sc -> (1 <= d_normal_precision p)%nat ->
  precision_ok_d p -> list_ok_d lm l -> saved_d lm true p l = Ok out ->
  exists l', read_tmf_d sc oc' out = Ok l' /\
    Forall2 (on_normals_d (fun n n' => unit_vector_d n ->
      finite3_d n' /\ Rabs (dot3_d n' n' - 1) <= / 2 ^ 47 /\
      within_d (/ (2 ^ d_normal_precision p - 1) + / 2 ^ 51) (dvz n) (dvz n') /\
      same_side_d 0 (dvz n) (dvz n') /\ same_side_d (/ 2 ^ 48) (dvx n) (dvx n') /\ same_side_d (/ 2 ^ 48) (dvy n) (dvy n'))) l l'.
Proof.
  intros lm sc oc' p l out A SC B HP HL S. apply (normals_load_d _ lm sc oc' p l out HP HL S).
  intros n n' R U. destruct (rel_close_d lm sc _ n n' B A SC U R) as [H1 H2 _ H3 H4 H5 H6].
  assert (U64 : u64 = / 9007199254740992) by reflexivity. rewrite U64 in *.
  assert (W : forall x y, same_side_d (19 * / 9007199254740992) x y -> same_side_d (/ 2 ^ 48) x y).
  { intros x y [Y1 Y2]. split; intros G; [specialize (Y1 G)|specialize (Y2 G)]; simpl pow; lra. }
  split; [exact H1|]. split; [eapply Rle_trans; [exact H2|simpl pow; lra]|].
  split; [unfold within_d; change val64 with R64; eapply Rle_trans; [exact H3|simpl pow; lra]|]. auto.
Qed.
Print Assumptions C76_unit_length_and_sides.

(** The width a setting gives, when the save accepts it: a step is at most 2.002 times the angle
    asked for as a fraction of the right angle [c]. *)
Lemma setting_step lm p q (c : f64) (d : f64) : log2_64_ok lm -> finite64 c -> 1 <= R64 c <= 90 -> finite64 d -> / 2 ^ 60 <= R64 d <= R64 c / 2 ->
  q = u8_of_f64 (dceil (l_log2 lm (ddiv c d))) -> (q <= p <= 30)%nat -> (1 <= p)%nat ->
  / (2 ^ p - 1) <= 2.002 * (R64 d / R64 c).
Proof.
  intros L Fc Hc Fd Hd Q B B1. assert (D0 : 0 < / 2 ^ 60) by (apply Rinv_0_lt_compat, pow_lt; lra).
  set (C := R64 c) in *. set (D := R64 d) in *.
  assert (I : 2 <= C / D <= 90 * 2 ^ 60).
  { split; apply Rmult_le_reg_r with D; try lra; unfold Rdiv; rewrite Rmult_assoc, Rinv_l by lra; [lra|].
    assert (90 * 2 ^ 60 * / 2 ^ 60 <= 90 * 2 ^ 60 * D).
    { apply Rmult_le_compat_l; [|lra]. apply Rmult_le_pos; [lra|]. apply pow_le. lra. }
    rewrite Rmult_assoc, Rinv_r in H by (apply pow_nonzero; lra). lra. }
  destruct (ddiv_R c d Fc) as [D1 D2]; [fold D; lra|fold C D; rewrite Rabs_pos_eq by lra|].
  { eapply Rle_trans; [apply I|]. eapply Rle_trans; [|apply big64_ge]. simpl pow. lra. }
  fold C D in D1.
  pose proof (rnd64_err (C / D)) as Er. rewrite <- D1, (Rabs_pos_eq (C / D)) in Er by lra.
  pose proof tiny64_bound as [_ Ti]. apply Rabs_le_iff in Er.
  assert (QQ : R64 (ddiv c d) >= (1 - 2 * u64) * (C / D)) by (unfold u64 in *; lra).
  destruct (width_covers_d lm (ddiv c d) L D2) as [W _]; [unfold u64 in *; lra|lia|].
  rewrite <- Q in W.
  assert (P2 : IZR (2 ^ Z.of_nat q) = 2 ^ q) by (rewrite <- pow_IZR; reflexivity).
  rewrite P2 in W. assert (W2 : 2 ^ q <= 2 ^ p) by (apply Rle_pow; [lra|lia]).
  assert (T2 : 2 <= 2 ^ p) by (replace 2 with (2 ^ 1) at 1 by lra; apply Rle_pow; [lra|lia]).
  apply Rmult_le_reg_l with (2 ^ p - 1); [lra|]. rewrite Rinv_r by lra.
  assert (E : (C / D) * (D / C) = 1) by (field; lra).
  assert (0.9997 * (C / D) <= 2 ^ p) by (unfold u64 in QQ; lra).
  assert (0 < D / C) by (apply Rdiv_lt_0_compat; lra).
  assert (G : (0.9997 * (C / D)) * (D / C) <= 2 ^ p * (D / C)) by (apply Rmult_le_compat_r; lra).
  rewrite Rmult_assoc, E in G.
  assert (2 * (D / C) <= 2 ^ p * (D / C)) by (apply Rmult_le_compat_r; lra). lra.
Qed.
Lemma least_cosine_mono p t : (1 <= p)%nat -> / (2 ^ p - 1) <= t -> 1 - t - 2 * (t * t) - / 2 ^ 44 <= least_cosine_d p.
Proof.
  intros B H. destruct (step_01 p B) as [S0 _]. unfold least_cosine_d.
  assert (/ (2 ^ p - 1) * / (2 ^ p - 1) <= t * t) by (apply mul_le; lra). lra.
Qed.
Lemma normal_width_30 lm p l out : list_ok_d lm l -> precision_ok_d p -> saved_d lm true p l = Ok out -> (d_normal_precision p <= 30)%nat.
Proof. intros _ [A B] _. lia. Qed.

(** For a setting in degrees, from 2^-60 to 45, or in radians, down to 2^-60: the cosine is at
    least 1 - t - 2 t^2 where t is little more than twice the angle asked for, as a fraction of
    the right angle. *)
Theorem C76_degrees : forall lm sc oc' p l out deg,
  asin_64_ok lm -> sin_cos64_sharp sc -> log2_64_ok lm -> finite64 deg -> / 2 ^ 60 <= val64 deg <= 45 ->
  d_normal_precision p = normal_from_deg_dev_d lm deg ->
  precision_ok_d p -> list_ok_d lm l -> saved_d lm true p l = Ok out ->
  exists l', read_tmf_d sc oc' out = Ok l' /\
    Forall2 (on_normals_d (fun n n' => unit_vector_d n ->
      let t := 2.002 * (val64 deg / 90) in 1 - t - 2 * (t * t) - / 2 ^ 44 <= cosine_d n n')) l l'.
Proof.
  intros lm sc oc' p l out d A SC L Fd Hd HU HP HL S. change val64 with R64 in *.
  assert (B1 : (1 <= d_normal_precision p)%nat) by (rewrite HU; unfold normal_from_deg_dev_d; lia).
  destruct (C76_normal_cosine_bound lm sc oc' p l out A SC B1 HP HL S) as (l' & R & F).
  destruct (f64_of_Z_exact 90) as [N1 N2]; [lia|].
  pose proof (setting_step lm (d_normal_precision p) _ (f64_of_Z 90) d L N2 ltac:(rewrite N1; lra) Fd ltac:(rewrite N1; lra) eq_refl) as ST.
  rewrite N1 in ST. pose proof (normal_width_30 lm p l out HL HP S) as W30.
  unfold normal_from_deg_dev_d in HU. specialize (ST ltac:(split; [rewrite HU; apply Nat.le_max_l|exact W30]) B1).
  exists l'. split; auto. eapply F2_impl; [|exact F]. intros a b H. unfold on_normals_d, arrays in *.
  destruct (d_normals (fst a)), (d_normals (fst b)); auto. eapply F2_impl; [|exact H]. cbv beta zeta. intros n n' G U.
  eapply Rle_trans; [|apply G, U]. now apply least_cosine_mono.
Qed.
Print Assumptions C76_degrees.
Theorem C76_radians : forall lm sc oc' p l out rad,
  asin_64_ok lm -> sin_cos64_sharp sc -> log2_64_ok lm -> finite64 rad -> / 2 ^ 60 <= val64 rad <= 0.78 ->
  d_normal_precision p = normal_from_rad_dev_d lm rad ->
  precision_ok_d p -> list_ok_d lm l -> saved_d lm true p l = Ok out ->
  exists l', read_tmf_d sc oc' out = Ok l' /\
    Forall2 (on_normals_d (fun n n' => unit_vector_d n ->
      let t := 2.003 * (val64 rad / (PI / 2)) in 1 - t - 2 * (t * t) - / 2 ^ 44 <= cosine_d n n')) l l'.
Proof.
  intros lm sc oc' p l out d A SC L Fd Hd HU HP HL S. change val64 with R64 in *. pose proof (normal_width_30 lm p l out HL HP S) as W30.
  destruct d_half_pi_R as [N1 N2]. pose proof cH_bounds as HB. pose proof PI_bounds as PB.
  assert (D0 : 0 < / 2 ^ 60) by (apply Rinv_0_lt_compat, pow_lt; lra).
  assert (B1 : (1 <= d_normal_precision p)%nat).
  { destruct (d_normal_precision p) as [|n] eqn:E; [exfalso|lia]. unfold normal_from_rad_dev_d in HU.
    assert (I : 2 <= cH / R64 d <= 2 * 2 ^ 60).
    { split; apply Rmult_le_reg_r with (R64 d); try lra; unfold Rdiv; rewrite Rmult_assoc, Rinv_l by lra; [lra|].
      assert (2 * 2 ^ 60 * / 2 ^ 60 <= 2 * 2 ^ 60 * R64 d).
      { apply Rmult_le_compat_l; [|lra]. apply Rmult_le_pos; [lra|]. apply pow_le. lra. }
      rewrite Rmult_assoc, Rinv_r in H by (apply pow_nonzero; lra). lra. }
    destruct (ddiv_R d_half_pi d N2) as [D1 D2]; [lra|rewrite N1, Rabs_pos_eq by lra|].
    { eapply Rle_trans; [apply I|]. eapply Rle_trans; [|apply big64_ge]. simpl pow. lra. }
    rewrite N1 in D1. assert (2 <= R64 (ddiv d_half_pi d)).
    { rewrite D1. rewrite <- (rnd64_Z 2) by lia. apply rnd64_le. lra. }
    destruct (width_covers_d lm (ddiv d_half_pi d) L D2) as [W _]; [lra|lia|]. rewrite <- HU in W. change (IZR (2 ^ Z.of_nat 0)) with 1 in W. lra. }
  destruct (C76_normal_cosine_bound lm sc oc' p l out A SC B1 HP HL S) as (l' & R & F).
  pose proof (setting_step lm (d_normal_precision p) _ d_half_pi d L N2 ltac:(rewrite N1; lra) Fd ltac:(rewrite N1; lra) eq_refl) as ST.
  rewrite N1 in ST.
  unfold normal_from_rad_dev_d in HU. specialize (ST ltac:(split; [rewrite HU; apply Nat.le_refl|exact W30]) B1).
  assert (2.002 * (R64 d / cH) <= 2.003 * (R64 d / (PI / 2))).
  { assert (/ cH <= 1.0001 * / (PI / 2)).
    { apply Rmult_le_reg_r with cH; [lra|]. rewrite Rinv_l by lra. apply Rmult_le_reg_r with (PI / 2); [lra|].
      replace (1.0001 * / (PI / 2) * cH * (PI / 2)) with (1.0001 * cH) by (field; lra). lra. }
    assert (R64 d * / cH <= R64 d * (1.0001 * / (PI / 2))) by (apply Rmult_le_compat_l; lra). unfold Rdiv.
    assert (0 < / (PI / 2)) by (apply Rinv_0_lt_compat; lra).
    assert (0 <= R64 d * / (PI / 2)) by (apply Rmult_le_pos; lra). unfold Rdiv in *. lra. }
  exists l'. split; auto. eapply F2_impl; [|exact F]. intros a b H0. unfold on_normals_d, arrays in *.
  destruct (d_normals (fst a)), (d_normals (fst b)); auto. eapply F2_impl; [|exact H0]. cbv beta zeta. intros n n' G U.
  eapply Rle_trans; [|apply G, U]. apply least_cosine_mono; [exact B1|]. lra.
Qed.
Print Assumptions C76_radians.

(** Tangents keep their handedness, read as its sign bit. *)
Lemma sign_of_d x : finite64 x -> (0 < val64 x -> Bsign x = false) /\ (val64 x < 0 -> Bsign x = true).
Proof.
  intros F. split; intros V; destruct x as [s|s| |s m e ?]; try discriminate F; try (exfalso; unfold val64 in V; cbn [B2R] in V; lra);
    unfold val64 in V; cbn [B2R] in V; destruct s; auto; exfalso.
  - pose proof (F2R_lt_0 radix2 (Float radix2 (cond_Zopp true (Z.pos m)) e) eq_refl). lra.
  - pose proof (F2R_gt_0 radix2 (Float radix2 (cond_Zopp false (Z.pos m)) e) eq_refl). lra.
Qed.
Theorem C76_handedness : forall lm sc oc' p l out,
  precision_ok_d p -> list_ok_d lm l -> saved_d lm true p l = Ok out ->
  exists l', read_tmf_d sc oc' out = Ok l' /\
    Forall2 (on_tangents_d (fun t t' =>
      (finite64 (snd t) /\ 0 < val64 (snd t) -> snd t' = d1) /\
      (finite64 (snd t) /\ val64 (snd t) < 0 -> snd t' = dneg d1) /\
      (snd t' = d1 \/ snd t' = dneg d1) /\
      (snd t = d1 \/ snd t = dneg d1 -> snd t' = snd t))) l l'.
Proof.
  intros lm sc oc' p l out HP HL S. apply (tangents_load_d _ lm sc oc' p l out HP HL S).
  intros t t' [_ ->]. unfold ht_from_bool_d.
  split; [|split; [|split]].
  - intros [F V]. rewrite (proj1 (sign_of_d _ F)); auto.
  - intros [F V]. rewrite (proj2 (sign_of_d _ F)); auto.
  - destruct (Bsign (snd t)); auto.
  - intros [->| ->]; reflexivity.
Qed.
Print Assumptions C76_handedness.

(** ** What the feature does not repair *)

(** Precision 0 loads vectors of length sqrt 3, whatever was saved. *)
Theorem C76_precision_zero_refuted : forall lm sc oc' p l out,
  d_normal_precision p = 0%nat -> precision_ok_d p -> list_ok_d lm l -> saved_d lm true p l = Ok out ->
  exists l', read_tmf_d sc oc' out = Ok l' /\ Forall2 (on_normals_d (fun n n' => dot3_d n' n' = 3)) l l'.
Proof.
  intros lm sc oc' p l out Z HP HL S. apply (normals_load_d _ lm sc oc' p l out HP HL S).
  intros n n' (c & _ & ->). rewrite Z. unfold normal_from_encoding_d. cbn [Nat.eqb].
  unfold dot3_d. cbn [fst snd]. change val64 with R64. rewrite !sgd_R, (proj1 d1_R).
  replace (sg _ * 1 * (sg _ * 1) + _ + _) with (sg (n_sx (low_code 0 c)) * sg (n_sx (low_code 0 c)) + sg (n_sy (low_code 0 c)) * sg (n_sy (low_code 0 c)) + sg (n_sz (low_code 0 c)) * sg (n_sz (low_code 0 c))) by ring.
  rewrite !sg_sq. ring.
Qed.
Print Assumptions C76_precision_zero_refuted.

(** A z component above 1 by one step of the width loads as 0. *)
Theorem C76_overlong_refuted : forall lm sc oc' p l out,
  (1 <= d_normal_precision p)%nat -> precision_ok_d p -> list_ok_d lm l -> saved_d lm true p l = Ok out ->
  exists l', read_tmf_d sc oc' out = Ok l' /\
    Forall2 (on_normals_d (fun n n' => finite64 (dvz n) ->
      1 + / (2 ^ d_normal_precision p - 1) <= val64 (dvz n) <= 1 + 1.5 * / (2 ^ d_normal_precision p - 1) ->
      val64 (dvz n') = 0)) l l'.
Proof.
  intros lm sc oc' p l out B1 HP HL S. apply (normals_load_d _ lm sc oc' p l out HP HL S).
  intros n n' (c & E & ->) F Hz. set (w := d_normal_precision p) in *. change val64 with R64 in *.
  unfold normal_to_encoding_d in E. destruct (mask_f64 true w) as [mul| |] eqn:M; try discriminate E. cbn [bind] in E.
  pose proof (mask_d30 _ _ M) as B30. destruct (mask_R_d _ _ M ltac:(lia)) as [M1 M2]. apply Ok_inj in E. subst c.
  pose proof (steps_bounds_d w ltac:(lia)) as SB. rewrite <- steps_pow in Hz.
  assert (SR : 1 <= IZR (steps w)) by (apply IZR_le; lia).
  assert (SU : IZR (steps w) <= IZR (2 ^ 30)) by (apply IZR_le; lia).
  set (K := IZR (steps w)) in *.
  assert (I0 : 0 < / K <= 1) by (split; [apply Rinv_0_lt_compat; lra|]; rewrite <- Rinv_1; apply Rinv_le_contravar; lra).
  assert (KI : K * / K = 1) by (apply Rinv_r; lra).
  assert (AZ : R64 (dabs (dvz n)) = R64 (dvz n)) by (rewrite dabs_R; apply Rabs_pos_eq; lra).
  assert (L1 : K + 1 <= R64 (dvz n) * K <= K + 1.5).
  { split.
    - apply Rle_trans with ((1 + / K) * K); [lra|]. apply Rmult_le_compat_r; lra.
    - apply Rle_trans with ((1 + 1.5 * / K) * K); [apply Rmult_le_compat_r; lra|]. lra. }
  destruct (dmul_R (dabs (dvz n)) mul) as [P1 P2]; [unfold finite64 in F; now rewrite dabs_fin|exact M2| |].
  { rewrite AZ, M1. fold K. rewrite Rabs_pos_eq by lra. eapply Rle_trans; [apply L1|]. eapply Rle_trans; [|apply big64_ge]. cbn in *. lra. }
  rewrite AZ, M1 in P1. fold K in P1.
  assert (C : Z.of_N (u64_of_f64 (dmul (dabs (dvz n)) mul)) = (steps w + 1)%Z).
  { assert (G1 : IZR (steps w + 1) <= R64 (dmul (dabs (dvz n)) mul)).
    { rewrite P1, <- (rnd64_Z (steps w + 1)) by lia. apply rnd64_le. rewrite plus_IZR. fold K. lra. }
    assert (G2 : R64 (dmul (dabs (dvz n)) mul) < IZR (steps w + 1) + 1).
    { pose proof (rnd64_err (R64 (dvz n) * K)) as Er. rewrite <- P1, (Rabs_pos_eq (R64 (dvz n) * K)) in Er by lra.
      pose proof tiny64_bound as [_ T]. apply Rabs_le_iff in Er. rewrite plus_IZR. fold K. unfold u64 in Er. cbn in *. lra. }
    assert (0 <= IZR (steps w + 1)) by (apply IZR_le; lia).
    rewrite u64_floor_d; [|exact P2|lra|].
    - apply Zfloor_imp. rewrite (plus_IZR (steps w + 1) 1). split; [exact G1|exact G2].
    - eapply Rlt_trans; [exact G2|]. rewrite <- (plus_IZR (steps w + 1) 1). apply IZR_lt. lia. }
  assert (LZ : low w (u64_of_f64 (dmul (dabs (dvz n)) mul)) = 0%N).
  { unfold low. replace (u64_of_f64 (dmul (dabs (dvz n)) mul)) with (2 ^ N.of_nat w)%N; [apply N.mod_same, N.pow_nonzero; lia|].
    apply N2Z.inj. rewrite C. unfold steps. rewrite N2Z.inj_pow, nat_N_Z. cbn [Z.of_N]. lia. }
  unfold low_code. cbn [n_asine n_z n_sx n_sy n_sz]. rewrite LZ. unfold normal_from_encoding_d.
  destruct (Nat.eqb_spec w 0) as [?|_]; [lia|]. cbn [n_asine n_z n_sx n_sy n_sz].
  destruct (sc _) as [sf cf]. unfold dvz at 1. cbn [snd].
  destruct (value_d w 0 ltac:(lia)) as (V1 & _); [lia|]. cbv zeta in V1.
  rewrite sgd_R, V1. unfold Rdiv. rewrite Rmult_0_l, rnd64_0. lra.
Qed.
Print Assumptions C76_overlong_refuted.

(** ** Cases *)

(** A platform with correctly rounded functions, computable at the points the cases need. *)
Definition corner_asin_d (x : f64) : f64 :=
  match x with
  | B754_zero _ => d0
  | B754_finite false m e _ => if ((Zpos m =? 4503599627370496) && (e =? -52))%Z then d_half_pi else f64_of_R (asin (val64 x))
  | _ => f64_of_R (asin (val64 x))
  end.
Definition corner_sc (x : f64) : f64 * f64 :=
  match x with B754_zero _ => (d0, d1) | _ => exact_sin_cos64 x end.
Definition corner_d : libm64 := mk_libm64 grid_log2_d corner_asin_d corner_sc.
Lemma PI_below : PI < 2 * cH + / 5000000000000000.
Proof.
  pose proof (PI_2_3_7_ineq 9) as [_ B]. cbn [Nat.mul Nat.add sum_f_R0] in B.
  unfold tg_alt, PI_2_3_7_tg, Ratan_seq in B. cbn [Nat.mul Nat.add INR] in B.
  simpl pow in B. unfold cH. lra.
Qed.
Lemma rnd64_half_pi : rnd64 (PI / 2) = cH.
Proof.
  pose proof PI_above as A. pose proof PI_below as B. pose proof PI_bounds as PB. unfold round, scaled_mantissa.
  assert (C : cexp radix2 fexp64 (PI / 2) = (-52)%Z).
  { unfold cexp. rewrite (mag_unique radix2 (PI / 2) 1); [now vm_compute|]. rewrite Rabs_pos_eq by lra. cbn. lra. }
  rewrite C. change (bpow radix2 (- (-52))) with (IZR (2 ^ 52)).
  rewrite (Znearest_imp _ _ 7074237752028440).
  - unfold cH, F2R. cbn. lra.
  - unfold cH in *. apply Rabs_def1; cbn; lra.
Qed.
Lemma rnd64_unit x : -2 <= x <= 2 -> Rabs (rnd64 x - x) <= / 2 ^ 49.
Proof.
  intros B. assert (A : Rabs x <= 2) by (apply Rabs_le; lra). pose proof (rnd64_err x) as E. pose proof T64 as T.
  unfold u64 in *. simpl pow. lra.
Qed.
Lemma exact_asin_d x : fin x -> 0 <= R64 x <= 1 ->
  finite64 (f64_of_R (asin (R64 x))) /\ 0 <= val64 (f64_of_R (asin (R64 x))) <= cH /\ Rabs (val64 (f64_of_R (asin (R64 x))) - asin (R64 x)) <= / 2 ^ 49.
Proof.
  intros F B. pose proof PI_bounds as PB.
  assert (A0 : 0 <= asin (R64 x) <= PI / 2).
  { pose proof (asin_bound (R64 x)) as AB. split; [|lra]. destruct (Rle_lt_dec 0 (asin (R64 x))) as [G|G]; auto. exfalso.
    assert (S : sin (asin (R64 x)) < 0) by (apply sin_lt_0_var; lra). rewrite sin_asin in S; lra. }
  destruct (f64_of_R_R (asin (R64 x))) as [A1 A2]; [apply fit4, Rabs_le; lra|]. split; [exact A2|].
  change (val64 (f64_of_R (asin (R64 x)))) with (R64 (f64_of_R (asin (R64 x)))). rewrite A1. split; [|apply rnd64_unit; lra].
  split; [rewrite <- rnd64_0; apply rnd64_le; lra|]. rewrite <- rnd64_half_pi. apply rnd64_le. lra.
Qed.
Lemma corner_asin_ok : asin_64_ok corner_d.
Proof.
  intros x F B. cbn [l_asin corner_d]. fold cH. change (val64 x) with (R64 x) in *. unfold finite64 in F.
  destruct x as [s|s| |s m e W]; try discriminate F.
  - cbn [corner_asin_d]. change (R64 (B754_zero s)) with 0. rewrite asin_0. split; [reflexivity|]. rewrite val64_0, Rminus_0_r, Rabs_R0.
    pose proof cH_bounds. split; [lra|]. left. apply Rinv_0_lt_compat, pow_lt. lra.
  - cbn [corner_asin_d]. destruct s; [now apply exact_asin_d|].
    destruct (Z.eqb_spec (Zpos m) 4503599627370496) as [E1|_]; [|now apply exact_asin_d].
    destruct (Z.eqb_spec e (-52)) as [E2|_]; [|now apply exact_asin_d]. cbn [andb].
    assert (V : R64 (B754_finite false m e W) = 1).
    { unfold R64, B2R, F2R. cbn [Fnum Fexp cond_Zopp]. rewrite E1, E2. cbn. lra. }
    rewrite V, asin_1. destruct d_half_pi_R as [H1 H2]. split; [exact H2|]. change val64 with R64. rewrite H1. pose proof cH_bounds.
    split; [lra|]. pose proof PI_above as PA. pose proof PI_below as PB. apply Rabs_le. simpl pow. lra.
Qed.
Lemma exact_sc_sharp : sin_cos64_sharp exact_sin_cos64.
Proof.
  intros x F P. unfold exact_sin_cos64. cbn [fst snd]. pose proof (SIN_bound (val64 x)) as S. pose proof (COS_bound (val64 x)) as C.
  destruct (f64_of_R_R (sin (val64 x))) as [A1 A2]; [apply fit4, Rabs_le; lra|].
  destruct (f64_of_R_R (cos (val64 x))) as [B1 B2]; [apply fit4, Rabs_le; lra|].
  split; [exact A2|]. split; [exact B2|]. change (val64 (f64_of_R (sin (val64 x)))) with (R64 (f64_of_R (sin (val64 x)))).
  change (val64 (f64_of_R (cos (val64 x)))) with (R64 (f64_of_R (cos (val64 x)))). rewrite A1, B1. split; apply rnd64_unit; lra.
Qed.
Lemma corner_sc_sharp : sin_cos64_sharp corner_sc.
Proof.
  intros x F P. destruct x as [s|s| |s m e W]; try discriminate F; [|apply exact_sc_sharp; auto].
  cbn [corner_sc fst snd]. change (val64 (B754_zero s)) with 0. rewrite sin_0, cos_0, val64_0, val64_1, !Rminus_diag_eq, Rabs_R0 by reflexivity.
  assert (0 <= / 2 ^ 49) by (left; apply Rinv_0_lt_compat, pow_lt; lra). repeat split; auto.
Qed.
Lemma corner_log2_ok : log2_64_ok corner_d.
Proof. exact grid_d_ok. Qed.

(** Meshes with a single normal: (0.6, 0, -0.8), and a tangent; and (0, 2^-26, 1 - 2^-53). *)
Definition normal_mesh_d (n : dvec3) : dmesh := mk_dmesh (Some [n]) None None None None None (Some [(n, d1)]) None [].
Definition slanted_d : dvec3 := (dlit 3 5, d0, dneg (dlit 4 5)).
Definition polar_d : dvec3 := (d0, dlit 1 67108864, dsub d1 (dlit 1 9007199254740992)).
Definition one_degree : dprec_info := mk_dprec (dlit 1 10) 7 14 7.
Lemma normal_mesh_d_ok n : list_ok_d corner_d [(normal_mesh_d n, [])].
Proof.
  split; [reflexivity|]. apply Forall_cons; [|apply Forall_nil]. cbn [fst snd].
  split; [|split; [apply name_ok_ascii; reflexivity|reflexivity]].
  constructor; unfold normal_mesh_d; cbn [d_normals d_normal_triangles d_vertices d_vertex_triangles d_uvs d_uv_triangles d_tangents d_tangent_triangles d_custom_data]; first [apply small_none | apply indices_none | apply small_some; reflexivity
        | apply Forall_nil].
Qed.
Lemma polar_d_R : finite64 (dlit 1 67108864) /\ val64 (dlit 1 67108864) = / 67108864 /\
  finite64 (dsub d1 (dlit 1 9007199254740992)) /\ val64 (dsub d1 (dlit 1 9007199254740992)) = 1 - / 9007199254740992.
Proof.
  let v := eval vm_compute in (B2SF (dlit 1 67108864)) in destruct (R64_SF (dlit 1 67108864) v) as [A1 A2]; [vm_compute; reflexivity|].
  let v := eval vm_compute in (B2SF (dsub d1 (dlit 1 9007199254740992))) in destruct (R64_SF (dsub d1 (dlit 1 9007199254740992)) v) as [B1 B2]; [vm_compute; reflexivity|].
  change val64 with R64. rewrite A1, B1. unfold SF2R, F2R. cbn [cond_Zopp Fnum Fexp]. 
  split; [exact A2|]. split; [cbn; lra|]. split; [exact B2|]. cbn. lra.
Qed.
Lemma polar_d_unit : unit_vector_d polar_d.
Proof.
  destruct polar_d_R as (A1 & A2 & B1 & B2). unfold unit_vector_d, finite3_d, dot3_d, polar_d. cbn [fst snd]. rewrite A2, B2, val64_0.
  split; [split; [reflexivity|split; assumption]|]. split; [apply Rabs_le; simpl pow; lra|]. rewrite Rabs_R0.
  split; [lra|]. split; apply Rabs_le; lra.
Qed.
Lemma slanted_d_unit : unit_vector_d slanted_d.
Proof.
  destruct (dlit_R 3 5) as [A1 A2]; [lia|lia|]. destruct (dlit_R 4 5) as [B1 B2]; [lia|lia|].
  pose proof (rnd64_err1 (3 / 5)) as E1. rewrite Rabs_pos_eq in E1 by lra. specialize (E1 ltac:(lra)).
  pose proof (rnd64_err1 (4 / 5)) as E2. rewrite Rabs_pos_eq in E2 by lra. specialize (E2 ltac:(lra)).
  rewrite <- A1 in E1. rewrite <- B1 in E2. apply Rabs_le_iff in E1, E2.
  unfold unit_vector_d, finite3_d, dot3_d, slanted_d, finite64. cbn [fst snd]. change val64 with R64. rewrite dneg_R.
  unfold dneg at 1. rewrite is_finite_Bopp.
  change (R64 d0) with 0. set (a := R64 (dlit 3 5)) in *. set (b := R64 (dlit 4 5)) in *.
  assert (U : u64 = / 9007199254740992) by reflexivity. rewrite U in *.
  split; [repeat split; auto|].
  set (e := 1.002 * / 9007199254740992) in *.
  assert (Q1 : 0.6 - e <= a <= 0.6 + e) by (unfold e; lra).
  assert (Q2 : 0.8 - e <= b <= 0.8 + e) by (unfold e; lra).
  assert (He : 0 < e <= / 1000000000000000) by (unfold e; lra).
  assert ((0.6 - e) * (0.6 - e) <= a * a <= (0.6 + e) * (0.6 + e)) by (split; apply mul_le; lra).
  assert ((0.8 - e) * (0.8 - e) <= b * b <= (0.8 + e) * (0.8 + e)) by (split; apply mul_le; lra).
  assert (0 <= e * e <= e * / 1000) by (split; [apply Rmult_le_pos; lra|apply Rmult_le_compat_l; lra]).
  repeat split; apply Rabs_le_iff; unfold e in *; simpl pow; lra.
Qed.
Example C76_case : asin_64_ok corner_d /\ sin_cos64_sharp corner_sc /\ log2_64_ok corner_d /\ precision_ok_d one_degree /\
  list_ok_d corner_d [(normal_mesh_d slanted_d, [])] /\ (exists out, saved_d corner_d true one_degree [(normal_mesh_d slanted_d, [])] = Ok out) /\
  unit_vector_d slanted_d /\ 0.99 <= least_cosine_d (d_normal_precision one_degree).
Proof.
  split; [apply corner_asin_ok|]. split; [apply corner_sc_sharp|]. split; [apply corner_log2_ok|]. split; [split; cbn; lia|].
  split; [apply normal_mesh_d_ok|]. split; [eexists; vm_compute; reflexivity|]. split; [apply slanted_d_unit|].
  unfold least_cosine_d. cbn [d_normal_precision one_degree]. simpl pow. lra.
Qed.
(** One degree gives 7 bits. *)
Lemma one_degree_bits lm : log2_64_ok lm -> normal_from_deg_dev_d lm d1 = 7%nat.
Proof.
  intros L. unfold normal_from_deg_dev_d. replace (ddiv (f64_of_Z 90) d1) with (f64_of_Z 90) by (apply B2SF_inj; vm_compute; reflexivity).
  destruct (f64_of_Z_exact 90) as [N1 N2]; [lia|]. destruct (L (f64_of_Z 90) N2) as [F A]; [change val64 with R64; rewrite N1; lra|].
  change val64 with R64 in A. rewrite N1 in A.
  assert (B : 6.1 <= log2 90 <= 6.9).
  { pose proof ln2_bounds as LN.
    assert (E : forall k x, 0 < x -> ln (2 ^ k * x) = INR k * ln 2 + ln x).
    { intros k x Hx. rewrite ln_mult by (auto; apply pow_lt; lra). f_equal. apply ln_pow. lra. }
    unfold log2. split.
    - apply Rmult_le_reg_r with (ln 2); [lra|]. unfold Rdiv. rewrite Rmult_assoc, Rinv_l, Rmult_1_r by lra.
      replace 90 with (2 ^ 6 * (45 / 32)) by (simpl pow; lra). rewrite E by lra. cbn [INR].
      assert (K : 0.1 * ln 2 <= ln (45 / 32)).
      { apply Rle_trans with (1 - / (45 / 32)); [lra|]. pose proof (exp_ineq1_le (- ln (45 / 32))) as X.
        rewrite exp_Ropp, exp_ln in X by lra. lra. }
      lra.
    - apply Rmult_le_reg_r with (ln 2); [lra|]. unfold Rdiv. rewrite Rmult_assoc, Rinv_l, Rmult_1_r by lra.
      replace 90 with (2 ^ 7 * (45 / 64)) by (simpl pow; lra). rewrite E by lra. cbn [INR].
      assert (K : ln (45 / 64) <= - 0.1 * ln 2).
      { apply Rle_trans with (45 / 64 - 1); [|lra]. pose proof (exp_ineq1_le (ln (45 / 64))) as X. rewrite exp_ln in X by lra. lra. }
      lra. }
  rewrite (Rabs_pos_eq (log2 90)) in A by lra. apply Rabs_le_iff in A. simpl pow in A.
  enough (u8_of_f64 (dceil (l_log2 lm (f64_of_Z 90))) = 7%nat) as -> by reflexivity.
  apply Nat2Z.inj. rewrite u8_ceil_d by exact F. rewrite (Zceil_imp 7); [reflexivity|]. change (7 - 1)%Z with 6%Z. lra.
Qed.

(** The documented guarantee (the angle asked for is the largest angle) is false, as without the
    feature: with a setting of 1 degree the normal (0, 2^-26, 1 - 2^-53) turns by more than 7. *)
Definition shown_normals (r : res ierr (list (dmesh * list N))) : list (option (list (SpecFloat.spec_float * SpecFloat.spec_float * SpecFloat.spec_float))) :=
  match r with
  | Ok l => map (fun mn => option_map (map (fun v => (B2SF (dvx v), B2SF (dvy v), B2SF (dvz v)))) (d_normals (fst mn))) l
  | _ => []
  end.
Theorem C76_degrees_refuted : exists lm sc out l' n',
  log2_64_ok lm /\ asin_64_ok lm /\ sin_cos64_sharp sc /\ precision_ok_d one_degree /\ list_ok_d lm [(normal_mesh_d polar_d, [])] /\
  d_normal_precision one_degree = normal_from_deg_dev_d lm d1 /\ unit_vector_d polar_d /\
  saved_d lm true one_degree [(normal_mesh_d polar_d, [])] = Ok out /\ read_tmf_d sc true out = Ok l' /\
  map (fun mn => d_normals (fst mn)) l' = [Some [n']] /\ cosine_d polar_d n' < cos (7 * (PI / 180)).
Proof.
  assert (P : precision_ok_d one_degree) by (split; cbn; lia).
  set (K0 := shown_normals (let* o := map_err (fun _ => ENotTMFFile) (saved_d corner_d true one_degree [(normal_mesh_d polar_d, [])]) in read_tmf_d corner_sc true o)).
  assert (exists out, saved_d corner_d true one_degree [(normal_mesh_d polar_d, [])] = Ok out) as [out S] by (eexists; vm_compute; reflexivity).
  destruct (loads_as_d corner_d corner_sc true one_degree _ out P (normal_mesh_d_ok polar_d) S) as (l' & R & _).
  let v := eval vm_compute in K0 in assert (K : K0 = v) by (vm_compute; reflexivity).
  unfold K0 in K. rewrite S in K. cbn [map_err bind] in K. rewrite R in K. cbn [shown_normals] in K.
  destruct l' as [|[m n] [|? l']]; try discriminate K. cbn [map fst] in K.
  destruct (d_normals m) as [[|a [|b ?]]|] eqn:V; try discriminate K. cbn [option_map map] in K.
  injection K as K1 K2 K3.
  apply R64_SF in K1 as [X1 _]. apply R64_SF in K2 as [Y1 _]. apply R64_SF in K3 as [Z1 _].
  exists corner_d, corner_sc, out, [(m, n)], a. split; [apply corner_log2_ok|]. split; [apply corner_asin_ok|]. split; [apply corner_sc_sharp|].
  split; [exact P|]. split; [apply normal_mesh_d_ok|]. split; [symmetry; apply one_degree_bits, corner_log2_ok|]. split; [apply polar_d_unit|].
  split; [exact S|]. split; [exact R|]. split; [cbn [map fst]; now rewrite V|].
  destruct polar_d_R as (_ & A2 & _ & B2). destruct a as [[ax ay] az]. unfold dvx, dvy, dvz in *. cbn [fst snd] in *.
  unfold SF2R, F2R in X1, Y1, Z1. cbn in X1, Y1, Z1.
  assert (D : dot3_d polar_d (ax, ay, az) <= 0.99218).
  { unfold dot3_d, polar_d. cbn [fst snd]. rewrite A2, B2, val64_0. change val64 with R64. rewrite Y1, Z1. lra. }
  assert (N1 : 0.9999 <= norm3_d polar_d).
  { unfold norm3_d. rewrite <- (sqrt_square 0.9999) by lra. apply sqrt_le_1_alt.
    unfold dot3_d, polar_d. cbn [fst snd]. rewrite A2, B2, val64_0. lra. }
  assert (N2 : 0.9999 <= norm3_d (ax, ay, az)).
  { unfold norm3_d. rewrite <- (sqrt_square 0.9999) by lra. apply sqrt_le_1_alt.
    unfold dot3_d. cbn [fst snd]. change val64 with R64. rewrite X1, Y1, Z1. lra. }
  assert (N3 : 0.9999 * 0.9999 <= norm3_d polar_d * norm3_d (ax, ay, az)) by (apply mul_le; lra).
  apply Rlt_le_trans with 0.9925.
  - unfold cosine_d. apply Rmult_lt_reg_r with (norm3_d polar_d * norm3_d (ax, ay, az)); [lra|]. unfold Rdiv.
    rewrite Rmult_assoc, Rinv_l by lra. lra.
  - pose proof PI_bounds as PB. set (g := 7 * (PI / 180)).
    pose proof (cos_ge_parabola g) as C. assert (g * g <= 0.12218 * 0.12218) by (unfold g; apply mul_le; lra). lra.
Qed.
Print Assumptions C76_degrees_refuted.
Example C76_overlong_case : exists n, finite64 (dvz n) /\
  1 + / (2 ^ d_normal_precision one_degree - 1) <= val64 (dvz n) <= 1 + 1.5 * / (2 ^ d_normal_precision one_degree - 1).
Proof.
  exists (d0, d0, dlit 101 100). cbn [d_normal_precision one_degree]. unfold dvz. cbn [snd].
  let v := eval vm_compute in (B2SF (dlit 101 100)) in destruct (R64_SF (dlit 101 100) v) as [A1 A2]; [vm_compute; reflexivity|].
  split; [exact A2|]. change val64 with R64. rewrite A1. unfold SF2R, F2R. simpl pow. cbn. lra.
Qed.
Example C76_settings_case : log2_64_ok corner_d /\ finite64 d1 /\ / 2 ^ 60 <= val64 d1 <= 45 /\ d_normal_precision one_degree = normal_from_deg_dev_d corner_d d1.
Proof.
  split; [apply corner_log2_ok|]. split; [reflexivity|]. split; [rewrite val64_1; simpl pow; lra|].
  symmetry. apply one_degree_bits, corner_log2_ok.
Qed.
Example C76_radians_case : finite64 (dlit 1 64) /\ / 2 ^ 60 <= val64 (dlit 1 64) <= 0.78.
Proof.
  let v := eval vm_compute in (B2SF (dlit 1 64)) in destruct (R64_SF (dlit 1 64) v) as [A1 A2]; [vm_compute; reflexivity|].
  split; [exact A2|]. change val64 with R64. rewrite A1. unfold SF2R, F2R. simpl pow. cbn. lra.
Qed.
Example C76_precision_zero_case : exists out, precision_ok_d (mk_dprec (dlit 1 10) 0 14 7) /\
  saved_d corner_d true (mk_dprec (dlit 1 10) 0 14 7) [(normal_mesh_d slanted_d, [])] = Ok out.
Proof. eexists. split; [split; cbn; lia|]. vm_compute. reflexivity. Qed.
