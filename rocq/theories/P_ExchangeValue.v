(** Property C91: how accurately numbers pass between builds with and without [double_precision]. *)
From Coq Require Import List NArith ZArith Arith Lia Bool Reals Lra.
From Flocq Require Import Core IEEE754.BinarySingleNaN.
From Verif Require Import Base UnalignedRW ReadExt Floats Floats_proofs FloatReal_proofs Utilis Normals CustomData Mesh Tmf File FileSpec SaveSpec
  ValueSpec Demo Save_proofs Save2_proofs Codec_proofs Image_proofs Quant_proofs Log2_proofs Trig_proofs NormalReal_proofs VertexReal_proofs CustomReal_proofs P_Save P_Uv
  P_Normals P_Custom LayoutSpec PlatformSpec Agree_proofs DAgree_proofs Double DoubleSpec DoubleSave DoubleSaveSpec DoubleValueSpec DoubleNormalSpec Double2_proofs DMerge_proofs DCodec_proofs DSave_proofs
  DQuant_proofs DVertex_proofs DNormal_proofs Exchange_proofs P_Double P_DoubleSave P_DoubleValue P_DoubleNormals P_DoubleChecked P_DoubleDefault P_Checked P_Default ExchangeValueSpec.
Import ListNotations.
Open Scope res_scope.
Local Open Scope R_scope.

(** ** Composition *)
Lemma cross_df lm lm' oc' p l out (P : dmesh * list N -> dmesh * list N -> Prop) (Q : dmesh * list N -> mesh * list N -> Prop) :
  sin_cos_ok lm' -> precision_ok_d p -> list_ok_d lm l -> saved_d lm true p l = Ok out ->
  (exists ld, read_tmf_d exact_sin_cos64 oc' out = Ok ld /\ Forall2 P l ld) ->
  (forall a b raw c, P a b -> same_mesh raw c b -> Q a c) ->
  exists l', read_tmf lm' oc' out = Ok l' /\ Forall2 Q l l'.
Proof.
  intros HM HP [HL HF] S (ld & R & F) H. destruct (saved_plain_d lm p l out HP HL HF S) as [B _].
  destruct (C66_same_file lm' exact_sin_cos64 oc' out HM exact_sin_cos64_ok B) as [X|[X _]]; rewrite R in X; [|discriminate X].
  destruct (read_tmf lm' oc' out) as [l'|e|]; cbn [same_outcome] in X; try contradiction. exists l'. split; [reflexivity|].
  destruct X as (ms & _ & X). clear -F X H. revert l F. induction X as [|raw a b ms l' ld M _ IH]; intros l F; inversion F; subst; constructor; eauto.
Qed.
Lemma cross_fd lm sc oc' p l out (P : mesh * list N -> mesh * list N -> Prop) (Q : mesh * list N -> dmesh * list N -> Prop) :
  sin_cos64_ok sc -> precision_ok p -> list_ok lm l -> saved lm true p l = Ok out ->
  (exists lf, read_tmf exact_libm oc' out = Ok lf /\ Forall2 P l lf) ->
  (forall a b raw c, P a b -> same_mesh raw b c -> Q a c) ->
  exists l', read_tmf_d sc oc' out = Ok l' /\ Forall2 Q l l'.
Proof.
  intros HM HP HL S (lf & R & F) H.
  destruct (C73_from_default lm exact_libm sc oc' p l out exact_sin_cos_ok HM HP HL S) as (l1 & ld & R1 & R2 & X & _).
  rewrite R in R1. apply Ok_inj in R1. subst l1. exists ld. split; [exact R2|].
  destruct X as (ms & _ & X). clear -F X H. revert l F. induction X as [|raw a b ms l' ld M _ IH]; intros l F; inversion F; subst; constructor; eauto.
Qed.
Lemma arrays_df {A B C} (P : A -> B -> Prop) (Q : C -> B -> Prop) (R : A -> C -> Prop) x y z :
  (forall a b c, P a b -> Q c b -> R a c) -> arrays P x y -> arrays Q z y -> arrays R x z.
Proof.
  intros H. unfold arrays. destruct x, y, z; try tauto. intros F G. revert l1 G. induction F; intros l1 G; inversion G; subst; constructor; eauto.
Qed.
Lemma arrays_fd {A B C} (P : A -> B -> Prop) (Q : B -> C -> Prop) (R : A -> C -> Prop) x y z :
  (forall a b c, P a b -> Q b c -> R a c) -> arrays P x y -> arrays Q y z -> arrays R x z.
Proof.
  intros H. unfold arrays. destruct x, y, z; try tauto. intros F G. revert l1 G. induction F; intros l1 G; inversion G; subst; constructor; eauto.
Qed.
Lemma F2_df {A B C} (P : A -> B -> Prop) (Q : C -> B -> Prop) (R : A -> C -> Prop) x y z :
  (forall a b c, P a b -> Q c b -> R a c) -> Forall2 P x y -> Forall2 Q z y -> Forall2 R x z.
Proof. intros H F. revert z. induction F; intros z G; inversion G; subst; constructor; eauto. Qed.
Lemma F2_fd {A B C} (P : A -> B -> Prop) (Q : B -> C -> Prop) (R : A -> C -> Prop) x y z :
  (forall a b c, P a b -> Q b c -> R a c) -> Forall2 P x y -> Forall2 Q y z -> Forall2 R x z.
Proof. intros H F. revert z. induction F; intros z G; inversion G; subst; constructor; eauto. Qed.

(** Rounding an f64 to f32, seen from either side. *)
Lemma round_down (y : f64) : finite64 y -> Rabs (val64 y) <= 2 ^ 100 -> close (/ 2 ^ 24 * Rabs (val64 y) + / 2 ^ 140) (f32_of_f64 y) y.
Proof.
  intros F B. destruct (f32_of_f64_R y F) as [A1 A2].
  { eapply Rle_trans; [exact B|]. rewrite big32_pow. apply pow2_le. lia. }
  split; [exact A2|]. split; [exact F|]. change val with R32. change val64 with R64 in *. rewrite A1.
  eapply Rle_trans; [apply rnd32_err|]. apply Rplus_le_compat; [unfold u32; simpl pow; lra|].
  unfold tiny32. replace (/ 2 ^ 140) with (bpow radix2 (-140)); [apply bpow_le; lia|].
  change (-140)%Z with (- Z.of_nat 140)%Z. rewrite bpow_opp, bpow_powerRZ, <- pow_powerRZ. reflexivity.
Qed.
Lemma round_up (y : f64) : finite (f32_of_f64 y) -> Rabs (val (f32_of_f64 y)) <= 2 ^ 100 ->
  finite64 y /\ Rabs (val64 y) <= 2 ^ 101.
Proof.
  intros F B. assert (F' : finite64 y) by (destruct y; try discriminate F; reflexivity). split; [exact F'|].
  destruct (Rle_or_lt (Rabs (val64 y)) (2 ^ 101)) as [|L]; [assumption|exfalso]. change val64 with R64 in *. change val with R32 in *.
  assert (G : 2 ^ 101 <= Rabs (rnd32 (R64 y))).
  { apply abs_round_ge_generic; [apply FLT_exp_valid; reflexivity|apply valid_rnd_N| |lra].
    replace (2 ^ 101) with (bpow radix2 101) by (change 101%Z with (Z.of_nat 101); rewrite bpow_powerRZ, <- pow_powerRZ; reflexivity).
    apply generic_format_bpow. cbn. lia. }
  assert (N : 2 ^ 100 < 2 ^ 101) by (simpl pow; lra).
  destruct y as [s|s| |s m e H]; try discriminate F'.
  - cbn in L. rewrite Rabs_R0 in L. assert (0 < 2 ^ 101) by (apply pow_lt; lra). lra.
  - unfold f32_of_f64 in F, B.
    pose proof (binary_normalize_correct 24 128 gt0_24 lt_24_128 mode_NE (cond_Zopp s (Zpos m)) e s) as C.
    cbv zeta in C. cbn [round_mode] in C. change (F2R _) with (R64 (B754_finite s m e H)) in C.
    fold (rnd32 (R64 (B754_finite s m e H))) in C.
    destruct (Rlt_bool _ _).
    + destruct C as (C1 & _). unfold R32 in B. rewrite C1 in B. lra.
    + destruct (binary_normalize _ _ _ _ _ _ _ _) as [z|z| |z m' e' H']; try discriminate F; cbn in C; destruct s; discriminate C.
Qed.

(** ** Texture coordinates *)
(** One step of the width asked for, and 2^-21 of rounding, in either direction. *)
Theorem C91_uvs_to_default : forall lm lm' oc' p l out,
  sin_cos_ok lm' -> precision_ok_d p -> list_ok_d lm l -> saved_d lm true p l = Ok out -> (1 <= d_uv_prec p)%nat ->
  exists l', read_tmf lm' oc' out = Ok l' /\
    Forall2 (fun a b => arrays (both (fun x y => in_unit_d x -> close (/ (2 ^ d_uv_prec p - 1) + / 2 ^ 21) y x)) (d_uvs (fst a)) (uvs (fst b))) l l'.
Proof.
  intros lm lm' oc' p l out HM HP HL S W. eapply (cross_df lm lm' oc' p l out _ _ HM HP HL S (C74_uv_error_bound lm _ oc' p l out HP HL S W)).
  intros a b raw c U M. unfold on_uvs_d in U. eapply arrays_df; [|exact U|exact (sm_uvs _ _ _ M)].
  intros u v w [U1 U2] [V1 V2].
  assert (G : forall (x y : f64) (z : f32), in_unit_d x -> within_d (/ (2 ^ d_uv_prec p - 1) + / 2 ^ 51) x y -> close (/ 2 ^ 22) z y ->
    close (/ (2 ^ d_uv_prec p - 1) + / 2 ^ 21) z x).
  { intros x y z [I _] Wi (C1 & C2 & C3). split; [exact C1|]. split; [exact I|]. unfold within_d in Wi. apply Rabs_le_iff in Wi, C3. apply Rabs_le_iff.
    simpl pow in *. lra. }
  split; intros I; [destruct (U1 I) as (_ & X & _)|destruct (U2 I) as (_ & X & _)]; eapply G; eauto.
Qed.
Print Assumptions C91_uvs_to_default.
Theorem C91_uvs_to_double : forall lm sc oc' p l out,
  sin_cos64_ok sc -> precision_ok p -> list_ok lm l -> saved lm true p l = Ok out -> (1 <= uv_prec p <= 24)%nat ->
  exists l', read_tmf_d sc oc' out = Ok l' /\
    Forall2 (fun a b => arrays (both (fun x y => in_unit x -> close (/ (2 ^ uv_prec p - 1) + / 2 ^ 21) x y)) (uvs (fst a)) (d_uvs (fst b))) l l'.
Proof.
  intros lm sc oc' p l out HM HP HL S W. eapply (cross_fd lm sc oc' p l out _ _ HM HP HL S (C33_uv_error_bound lm _ oc' p l out HP HL S W)).
  intros a b raw c U M. unfold on_uvs in U. eapply arrays_fd; [|exact U|exact (sm_uvs _ _ _ M)].
  intros u v w [U1 U2] [V1 V2].
  assert (G : forall (x y : f32) (z : f64), in_unit x -> within (/ (2 ^ uv_prec p - 1) + / 2 ^ 22) x y -> close (/ 2 ^ 22) y z ->
    close (/ (2 ^ uv_prec p - 1) + / 2 ^ 21) x z).
  { intros x y z [I _] Wi (C1 & C2 & C3). split; [exact I|]. split; [exact C2|]. unfold within in Wi. apply Rabs_le_iff in Wi, C3. apply Rabs_le_iff.
    simpl pow in *. lra. }
  split; intros I; [destruct (U1 I) as (_ & X)|destruct (U2 I) as (_ & X)]; eapply G; eauto.
Qed.
Print Assumptions C91_uvs_to_double.

(** ** Normals and tangents *)
Lemma dot_near (a1 a2 a3 b1 b2 b3 c1 c2 c3 : R) : Rabs a1 <= 1 -> Rabs a2 <= 1 -> Rabs a3 <= 1 ->
  Rabs (c1 - b1) <= / 2 ^ 10 -> Rabs (c2 - b2) <= / 2 ^ 10 -> Rabs (c3 - b3) <= / 2 ^ 22 ->
  a1 * b1 + a2 * b2 + a3 * b3 - / 2 ^ 9 - / 2 ^ 22 <= a1 * c1 + a2 * c2 + a3 * c3.
Proof.
  intros A1 A2 A3 C1 C2 C3.
  assert (K : forall a b c e, Rabs a <= 1 -> Rabs (c - b) <= e -> a * b - e <= a * c).
  { intros a b c e A C. assert (Rabs (a * (c - b)) <= 1 * e) by (rewrite Rabs_mult; apply Rmult_le_compat; auto using Rabs_pos).
    apply Rabs_le_iff in H. lra. }
  pose proof (K _ _ _ _ A1 C1). pose proof (K _ _ _ _ A2 C2). pose proof (K _ _ _ _ A3 C3). simpl pow in *. lra.
Qed.
Lemma direction_df s a b c : unit_vector_d a -> normal_close_d s a b -> near_direction c b -> same_direction_fd s c a.
Proof.
  intros (UF & _ & A1 & A2 & A3) N ((F1 & _ & N1) & (F2 & _ & N2) & (F3 & _ & N3)). destruct N as [_ _ D Z _ _ _].
  pose proof (dot_near _ _ _ _ _ _ _ _ _ A1 A2 A3 N1 N2 N3) as K. unfold dot3_d in D. unfold u64 in *. change (dvz b) with (snd b) in Z. change (dvz a) with (snd a) in Z. change R64 with val64 in *.
  split.
  - unfold dot_fd. simpl pow in *. lra.
  - split; [exact F3|]. split; [exact (proj2 (proj2 UF))|]. apply Rabs_le_iff in Z, N3. apply Rabs_le_iff. simpl pow in *. lra.
Qed.
Lemma direction_fd s a b c : unit_vector a -> normal_close s a b -> near_direction b c -> same_direction_fd s a c.
Proof.
  intros (UF & _ & A1 & A2 & A3) N ((_ & F1 & N1) & (_ & F2 & N2) & (_ & F3 & N3)). destruct N as [_ _ D Z _ _ _].
  rewrite Rabs_minus_sym in N1. rewrite Rabs_minus_sym in N2. rewrite Rabs_minus_sym in N3.
  pose proof (dot_near _ _ _ _ _ _ _ _ _ A1 A2 A3 N1 N2 N3) as K. unfold dot3 in D. unfold u32 in *. change (vz b) with (snd b) in Z. change (vz a) with (snd a) in Z. change R32 with val in *.
  split.
  - unfold dot_fd. simpl pow in *. lra.
  - split; [exact (proj2 (proj2 UF))|]. split; [exact F3|]. apply Rabs_le_iff in Z, N3. apply Rabs_le_iff. simpl pow in *. lra.
Qed.
(** [same_direction_fd s] bounds the scalar product from below and the third coordinates' distance;
    [s] is one step of the width. The other build's sine and cosine need only be accurate to 2^-20. *)
Theorem C91_normals_to_default : forall lm lm' oc' p l out,
  asin_64_ok lm -> sin_cos_ok lm' -> precision_ok_d p -> list_ok_d lm l -> saved_d lm true p l = Ok out -> (1 <= d_normal_precision p)%nat ->
  exists l', read_tmf lm' oc' out = Ok l' /\
    Forall2 (fun a b => arrays (fun n n' => unit_vector_d n -> same_direction_fd (/ (2 ^ d_normal_precision p - 1)) n' n) (d_normals (fst a)) (normals (fst b))) l l'.
Proof.
  intros lm lm' oc' p l out HA HM HP HL S W.
  eapply (cross_df lm lm' oc' p l out _ _ HM HP HL S (normals_load_d (fun u u' => unit_vector_d u -> normal_close_d (/ (2 ^ d_normal_precision p - 1)) u u') lm _ oc' p l out HP HL S
    (fun u u' R U => rel_close_d lm _ _ u u' W HA exact_sc_sharp U R))).
  intros a b raw c U M. unfold on_normals_d in U. eapply arrays_df; [|exact U|exact (sm_normals _ _ _ M)].
  intros u v w X Y UV. eapply direction_df; eauto.
Qed.
Print Assumptions C91_normals_to_default.
Theorem C91_normals_to_double : forall lm sc oc' p l out,
  asin_ok lm -> sin_cos64_ok sc -> precision_ok p -> list_ok lm l -> saved lm true p l = Ok out -> (1 <= normal_precision p <= 24)%nat ->
  exists l', read_tmf_d sc oc' out = Ok l' /\
    Forall2 (fun a b => arrays (fun n n' => unit_vector n -> same_direction_fd (/ (2 ^ normal_precision p - 1)) n n') (normals (fst a)) (d_normals (fst b))) l l'.
Proof.
  intros lm sc oc' p l out HA HM HP HL S W.
  eapply (cross_fd lm sc oc' p l out _ _ HM HP HL S (normals_load (fun u u' => unit_vector u -> normal_close (/ (2 ^ normal_precision p - 1)) u u') lm _ oc' p l out HP HL S
    (fun u u' R U => rel_close lm _ _ u u' W HA exact_sin_cos_ok U R))).
  intros a b raw c U M. unfold on_normals in U. eapply arrays_fd; [|exact U|exact (sm_normals _ _ _ M)].
  intros u v w X Y UV. eapply direction_fd; eauto.
Qed.
Print Assumptions C91_normals_to_double.
(** Tangents likewise. *)
Theorem C91_tangents_to_default : forall lm lm' oc' p l out,
  asin_64_ok lm -> sin_cos_ok lm' -> precision_ok_d p -> list_ok_d lm l -> saved_d lm true p l = Ok out -> (1 <= d_tangent_prec p)%nat ->
  exists l', read_tmf lm' oc' out = Ok l' /\
    Forall2 (fun a b => arrays (fun t t' => unit_vector_d (fst t) -> same_direction_fd (/ (2 ^ d_tangent_prec p - 1)) (fst t') (fst t)) (d_tangents (fst a)) (tangents (fst b))) l l'.
Proof.
  intros lm lm' oc' p l out HA HM HP HL S W.
  eapply (cross_df lm lm' oc' p l out _ _ HM HP HL S (tangents_load_d (fun u u' => unit_vector_d (fst u) -> normal_close_d (/ (2 ^ d_tangent_prec p - 1)) (fst u) (fst u')) lm _ oc' p l out HP HL S
    (fun u u' R U => rel_close_d lm _ _ (fst u) (fst u') W HA exact_sc_sharp U (proj1 R)))).
  intros a b raw c U M. unfold on_tangents_d in U. eapply arrays_df; [|exact U|exact (sm_tangents _ _ _ M)].
  intros u v w X [Y _] UV. eapply direction_df; eauto.
Qed.
Print Assumptions C91_tangents_to_default.
Theorem C91_tangents_to_double : forall lm sc oc' p l out,
  asin_ok lm -> sin_cos64_ok sc -> precision_ok p -> list_ok lm l -> saved lm true p l = Ok out -> (1 <= tangent_prec p <= 24)%nat ->
  exists l', read_tmf_d sc oc' out = Ok l' /\
    Forall2 (fun a b => arrays (fun t t' => unit_vector (fst t) -> same_direction_fd (/ (2 ^ tangent_prec p - 1)) (fst t) (fst t')) (tangents (fst a)) (d_tangents (fst b))) l l'.
Proof.
  intros lm sc oc' p l out HA HM HP HL S W.
  eapply (cross_fd lm sc oc' p l out _ _ HM HP HL S (tangents_load (fun u u' => unit_vector (fst u) -> normal_close (/ (2 ^ tangent_prec p - 1)) (fst u) (fst u')) lm _ oc' p l out HP HL S
    (fun u u' R U => rel_close lm _ _ (fst u) (fst u') W HA exact_sin_cos_ok U (proj1 R)))).
  intros a b raw c U M. unfold on_tangents in U. eapply arrays_fd; [|exact U|exact (sm_tangents _ _ _ M)].
  intros u v w X [Y _] UV. eapply direction_fd; eauto.
Qed.
Print Assumptions C91_tangents_to_double.

(** ** Custom numbers *)
Lemma F2_with {A B} (P : A -> B -> Prop) (Q : A -> Prop) x y : Forall Q x -> Forall2 P x y -> Forall2 (fun a b => Q a /\ P a b) x y.
Proof. intros H F. induction F; inversion H; subst; constructor; auto. Qed.
Lemma F2_len {A B} (P : A -> B -> Prop) x y : Forall2 P x y -> length x = length y.
Proof. intros F. induction F; cbn; congruence. Qed.
Lemma pow60_100 : 2 ^ 60 * 4 <= 2 ^ 100. Proof. simpl pow; lra. Qed.
(** The values in [fs] are finite, at most [B] in size, [lo] is the least and [hi] the greatest;
    [q] is the precision asked for. Within 2.002 q, rounding apart; all values equal load as that value. *)
Theorem C91_floats_to_default : forall lm lm' oc' p l out,
  log2_64_ok lm -> sin_cos_ok lm' -> precision_ok_d p -> list_ok_d lm l -> saved_d lm true p l = Ok out ->
  exists l', read_tmf lm' oc' out = Ok l' /\
    Forall2 (fun a b => Forall2 (fun s s' => c_name s' = x_name s /\ forall fs q, x_data s = XFloat fs q ->
      exists fs' q', c_data s' = CFloat fs' q' /\ length fs' = length fs /\
      forall B lo hi, ranges_d B lo hi fs -> B <= 2 ^ 60 -> finite64 q -> 0 < val64 q ->
        (/ 2 ^ 60 * val64 q <= hi - lo <= 2 ^ 60 * val64 q ->
           Forall2 (fun x y => close (2.002 * val64 q + / 2 ^ 23 * B + / 2 ^ 98) y x) fs fs') /\
        (lo = hi -> Forall2 (fun x y => close (/ 2 ^ 24 * B + / 2 ^ 140) y x) fs fs'))
      (rev (d_custom_data (fst a))) (custom_data (fst b))) l l'.
Proof.
  intros lm lm' oc' p l out LG HM HP HL S.
  eapply (cross_df lm lm' oc' p l out _ _ HM HP HL S (C74_float_error_bound lm _ oc' p l out LG HP HL S)).
  intros a b raw c U M. unfold on_custom_d in U. eapply F2_df; [|exact U|exact (sm_custom _ _ _ M)].
  intros s k w [U1 U2] (N1 & _ & N2). split; [congruence|]. intros fs q E. destruct (U2 fs q E) as (fs' & q' & E' & L' & H).
  rewrite E' in N2. destruct (c_data w) as [| |gs r|]; cbn [near_data] in N2; try contradiction. destruct N2 as [N2 _].
  exists gs, r. split; [reflexivity|]. split; [rewrite <- L'; eapply F2_len; exact N2|].
  intros B lo hi Hr HB Fq Hq. destruct (H B lo hi Hr HB Fq Hq) as [H1 H2]. destruct Hr as (R1 & R2 & R3 & R4).
  assert (Q : Forall (fun x => (finite64 x /\ Rabs (val64 x) <= B) /\ lo <= val64 x <= hi) fs).
  { apply Forall_forall. intros x X. rewrite Forall_forall in R1, R2. destruct R3 as [_ R3], R4 as [_ R4].
    split; [split; auto|]. split; [apply R3|apply R4]; now apply in_map. }
  split; intros K; [specialize (H1 K); pose proof (F2_with _ _ _ _ Q H1) as F|specialize (H2 K); pose proof (F2_with _ _ _ _ Q H2) as F];
    eapply F2_df; [|exact F|exact N2| |exact F|exact N2]; intros x y z (((FX & BX) & [LX HX]) & Y) ->.
  - destruct Y as (FY & [Y1 Y2] & W). unfold within_d in W. apply Rabs_le_iff in W, BX.
    assert (L0 : - B <= lo /\ hi <= B).
    { destruct R3 as [R3 _], R4 as [R4 _]. apply in_map_iff in R3. apply in_map_iff in R4. destruct R3 as (u & <- & I1). destruct R4 as (v & <- & I2).
      rewrite Forall_forall in R2. pose proof (R2 _ I1) as J1. pose proof (R2 _ I2) as J2. apply Rabs_le_iff in J1, J2. lra. }
    assert (T : 0 < / 2 ^ 99 <= / 2 ^ 60) by (split; [apply Rinv_0_lt_compat, pow_lt; lra|apply Rinv_le_contravar; [apply pow_lt; lra|apply pow2_le; lia]]).
    assert (T2 : / 2 ^ 98 = 2 * / 2 ^ 99) by (simpl pow; lra).
    assert (T3 : / 2 ^ 140 <= / 2 ^ 99 * / 4) by (simpl pow; lra).
    assert (Y' : Rabs (val64 y) <= B + / 2 ^ 50 * B + / 2 ^ 99).
    { apply Rabs_le_iff. assert (0 <= / 2 ^ 50 * B) by (apply Rmult_le_pos; [simpl pow|]; lra). lra. }
    assert (S1 : / 2 ^ 60 <= 1) by (simpl pow; lra).
    destruct (round_down y FY) as (Z1 & _ & Z2). { eapply Rle_trans; [exact Y'|]. pose proof pow60_100. assert (/ 2 ^ 50 * B <= B) by (simpl pow in *; lra). simpl pow in *. lra. }
    split; [exact Z1|]. split; [exact FX|]. apply Rabs_le_iff in Z2. apply Rabs_le_iff. rewrite T2. set (t := / 2 ^ 99) in *. set (t' := / 2 ^ 140) in *. clearbody t t'. clear - W Z2 Y' T T3 BX. simpl pow in *. lra.
  - destruct Y as (FY & Y). destruct (round_down y FY) as (Z1 & _ & Z2).
    { rewrite Y. eapply Rle_trans; [exact BX|]. pose proof pow60_100. simpl pow in *. lra. }
    split; [exact Z1|]. split; [exact FX|]. rewrite Y in Z2. eapply Rle_trans; [exact Z2|]. apply Rplus_le_compat_r. apply Rmult_le_compat_l; [simpl pow; lra|exact BX].
Qed.
Print Assumptions C91_floats_to_default.
Theorem C91_floats_to_double : forall lm sc oc' p l out,
  log2_ok lm -> sin_cos64_ok sc -> precision_ok p -> list_ok lm l -> saved lm true p l = Ok out ->
  exists l', read_tmf_d sc oc' out = Ok l' /\
    Forall2 (fun a b => Forall2 (fun s s' => x_name s' = c_name s /\ forall fs q, c_data s = CFloat fs q ->
      exists fs' q', x_data s' = XFloat fs' q' /\ length fs' = length fs /\
      forall B lo hi, ranges B lo hi fs -> B <= 2 ^ 60 -> finite q -> 0 < val q ->
        / 2 ^ 60 * val q <= hi - lo <= 2 ^ 23 * val q ->
        Forall2 (fun x y => close (2.002 * val q + / 2 ^ 19 * B + / 2 ^ 98) x y) fs fs')
      (rev (custom_data (fst a))) (d_custom_data (fst b))) l l'.
Proof.
  intros lm sc oc' p l out LG HM HP HL S.
  eapply (cross_fd lm sc oc' p l out _ _ HM HP HL S (C42_float_error_bound lm _ oc' p l out LG HP HL S)).
  intros a b raw c U M. unfold on_custom in U. eapply F2_fd; [|exact U|exact (sm_custom _ _ _ M)].
  intros s k w [U1 U2] (N1 & _ & N2). split; [congruence|]. intros fs q E. destruct (U2 fs q) as (fs' & q' & E' & L' & H); [rewrite E; reflexivity|].
  destruct (c_data k) as [| |gs r|]; try discriminate E'. injection E' as -> ->.
  destruct (x_data w) as [| |gs r|]; cbn [near_data] in N2; try contradiction. destruct N2 as [N2 _].
  exists gs, r. split; [reflexivity|]. split; [rewrite <- L'; symmetry; eapply F2_len; exact N2|].
  intros B lo hi Hr HB Fq Hq K. destruct (H B lo hi Hr HB Fq Hq) as [H1 _]. destruct Hr as (R1 & R2 & R3 & R4).
  assert (Q : Forall (fun x => finite x /\ Rabs (val x) <= B) fs).
  { apply Forall_forall. intros x X. rewrite Forall_forall in R1, R2. split; auto. }
  specialize (H1 K). pose proof (F2_with _ _ _ _ Q H1) as F. eapply F2_fd; [|exact F|exact N2]. intros x y z ((FX & BX) & FY & [Y1 Y2] & W) ->.
  set (y := f32_of_f64 z) in *. unfold within in W. apply Rabs_le_iff in W, BX.
  assert (L0 : - B <= lo /\ hi <= B).
  { destruct R3 as [R3 _], R4 as [R4 _]. apply in_map_iff in R3. apply in_map_iff in R4. destruct R3 as (u & <- & I1). destruct R4 as (v & <- & I2).
    rewrite Forall_forall in R2. pose proof (R2 _ I1) as J1. pose proof (R2 _ I2) as J2. apply Rabs_le_iff in J1, J2. lra. }
  assert (T : 0 < / 2 ^ 99 <= / 2 ^ 60) by (split; [apply Rinv_0_lt_compat, pow_lt; lra|apply Rinv_le_contravar; [apply pow_lt; lra|apply pow2_le; lia]]).
  assert (T2 : / 2 ^ 98 = 2 * / 2 ^ 99) by (simpl pow; lra).
  assert (T3 : 0 < / 2 ^ 140 <= / 2 ^ 99 * / 4) by (simpl pow; lra).
  assert (Y' : Rabs (val y) <= B + / 2 ^ 22 * B + / 2 ^ 99).
  { apply Rabs_le_iff. assert (0 <= / 2 ^ 22 * B) by (apply Rmult_le_pos; [simpl pow|]; lra). lra. }
  assert (S1 : / 2 ^ 60 <= 1) by (simpl pow; lra).
  destruct (round_up z FY) as [FZ BZ]. { eapply Rle_trans; [exact Y'|]. pose proof pow60_100. assert (/ 2 ^ 22 * B <= B) by (simpl pow in *; lra). simpl pow in *. lra. }
  destruct (f32_of_f64_R z FZ) as [V1 V2]. { eapply Rle_trans; [exact BZ|]. rewrite big32_pow. apply pow2_le. lia. }
  assert (Z2 : Rabs (val y - val64 z) <= / 2 ^ 24 * Rabs (val64 z) + / 2 ^ 140).
  { change val with R32. change val64 with R64. unfold y. rewrite V1. eapply Rle_trans; [apply rnd32_err|].
    apply Rplus_le_compat; [unfold u32; simpl pow; lra|]. unfold tiny32. replace (/ 2 ^ 140) with (bpow radix2 (-140)); [apply bpow_le; lia|].
    change (-140)%Z with (- Z.of_nat 140)%Z. rewrite bpow_opp, bpow_powerRZ, <- pow_powerRZ. reflexivity. }
  assert (Z3 : Rabs (val64 z) <= Rabs (val y) + Rabs (val y - val64 z)).
  { replace (val64 z) with (val y + - (val y - val64 z)) at 1 by ring. eapply Rle_trans; [apply Rabs_triang|]. rewrite Rabs_Ropp. lra. }
  split; [exact FX|]. split; [exact FZ|]. rewrite T2. set (t := / 2 ^ 99) in *. set (t' := / 2 ^ 140) in *.
  assert (Z4 : Rabs (val y - val64 z) <= / 2 ^ 23 * B + t / 2).
  { clear - Z3 Z2 Y' T T3 L0 BX. pose proof (Rabs_pos (val64 z)). clearbody t t'. simpl pow in *. lra. }
  apply Rabs_le_iff in Z4. apply Rabs_le_iff. clear - W Z4 T BX. clearbody t. simpl pow in *. lra.
Qed.
Print Assumptions C91_floats_to_double.

(** ** Colours *)
Theorem C91_colors_to_default : forall lm lm' oc' p l out,
  log2_64_ok lm -> sin_cos_ok lm' -> precision_ok_d p -> list_ok_d lm l -> saved_d lm true p l = Ok out ->
  exists l', read_tmf lm' oc' out = Ok l' /\
    Forall2 (fun a b => Forall2 (fun s s' => c_name s' = x_name s /\ forall cs q, x_data s = XColor cs q ->
      exists cs' q', c_data s' = CColor cs' q' /\
        Forall2 (all4 (fun x y => finite64 q -> / 2 ^ 60 <= val64 q <= 1 - / 2 ^ 10 -> in_unit_d x ->
          in_unit y /\ close (2.002 * val64 q + / 2 ^ 23) y x /\ (val64 x = 1 -> val y = 1))) cs cs')
      (rev (d_custom_data (fst a))) (custom_data (fst b))) l l'.
Proof.
  intros lm lm' oc' p l out LG HM HP HL S.
  eapply (cross_df lm lm' oc' p l out _ _ HM HP HL S (C74_color_error_bound lm _ oc' p l out LG HP HL S)).
  intros a b raw c U M. unfold on_custom_d in U. eapply F2_df; [|exact U|exact (sm_custom _ _ _ M)].
  intros s k w [U1 U2] (N1 & _ & N2). split; [congruence|]. intros fs q E. destruct (U2 fs q E) as (fs' & q' & E' & H).
  rewrite E' in N2. destruct (c_data w) as [| | |gs r]; cbn [near_data] in N2; try contradiction. destruct N2 as [N2 _].
  exists gs, r. split; [reflexivity|]. eapply F2_df; [|exact H|exact N2].
  assert (G : forall (x y : f64) (z : f32), in_unit_d x -> in_unit_d y -> within_d (2.002 * val64 q + / 2 ^ 51) x y -> (val64 x = 1 -> val64 y = 1) -> rounded z y ->
    in_unit z /\ close (2.002 * val64 q + / 2 ^ 23) z x /\ (val64 x = 1 -> val z = 1)).
  { intros x y z [FX BX] [FY BY] W O ->. assert (AY : Rabs (val64 y) <= 1) by (apply Rabs_le_iff; lra).
    destruct (f32_of_f64_R y FY) as [V1 V2]. { eapply Rle_trans; [exact AY|]. rewrite big32_pow. apply Rle_trans with (2 ^ 0); [simpl; lra|apply pow2_le; lia]. }
    assert (V01 : 0 <= val (f32_of_f64 y) <= 1).
    { change val with R32. rewrite V1. split; [rewrite <- rnd32_0; apply rnd32_le; apply BY|]. eapply Rle_trans; [apply (rnd32_le _ 1), BY|apply Req_le, (rnd32_Z 1); lia]. }
    split; [split; [exact V2|exact V01]|]. split.
    - split; [exact V2|]. split; [exact FX|]. destruct (round_down y FY) as (_ & _ & Z). { eapply Rle_trans; [exact AY|]. simpl pow. lra. }
      unfold within_d in W. apply Rabs_le_iff in W, Z. apply Rabs_le_iff.
      assert (T : 0 < / 2 ^ 140 <= / 2 ^ 60) by (split; [apply Rinv_0_lt_compat, pow_lt; lra|apply Rinv_le_contravar; [apply pow_lt; lra|apply pow2_le; lia]]).
      set (t := / 2 ^ 140) in *. clearbody t. clear - W Z AY T. simpl pow in *. lra.
    - intros X. change val with R32. rewrite V1. change R64 with val64. rewrite (O X). apply (rnd32_Z 1). lia. }
  intros x y z (A1 & A2 & A3 & A4) (B1 & B2 & B3 & B4).
  split; [|split; [|split]]; intros Fq Bq I;
    [destruct (A1 Fq Bq I) as (X1 & X2 & X3)|destruct (A2 Fq Bq I) as (X1 & X2 & X3)|destruct (A3 Fq Bq I) as (X1 & X2 & X3)|destruct (A4 Fq Bq I) as (X1 & X2 & X3)];
    eapply G; eauto.
Qed.
Print Assumptions C91_colors_to_default.
Theorem C91_colors_to_double : forall lm sc oc' p l out,
  log2_ok lm -> sin_cos64_ok sc -> precision_ok p -> list_ok lm l -> saved lm true p l = Ok out ->
  exists l', read_tmf_d sc oc' out = Ok l' /\
    Forall2 (fun a b => Forall2 (fun s s' => x_name s' = c_name s /\ forall cs q, c_data s = CColor cs q ->
      exists cs' q', x_data s' = XColor cs' q' /\
        Forall2 (all4 (fun x y => finite q -> / 2 ^ 23 <= val q <= 1 - / 2 ^ 10 -> in_unit x ->
          close (2.002 * val q + / 2 ^ 21) x y)) cs cs')
      (rev (custom_data (fst a))) (d_custom_data (fst b))) l l'.
Proof.
  intros lm sc oc' p l out LG HM HP HL S.
  eapply (cross_fd lm sc oc' p l out _ _ HM HP HL S (C43_color_error_bound lm _ oc' p l out LG HP HL S)).
  intros a b raw c U M. unfold on_custom in U. eapply F2_fd; [|exact U|exact (sm_custom _ _ _ M)].
  intros s k w [U1 U2] (N1 & _ & N2). split; [congruence|]. intros fs q E. destruct (U2 fs q) as (fs' & q' & E' & H); [rewrite E; reflexivity|].
  destruct (c_data k) as [| | |gs r]; try discriminate E'. injection E' as -> ->.
  destruct (x_data w) as [| | |gs r]; cbn [near_data] in N2; try contradiction. destruct N2 as [N2 _].
  exists gs, r. split; [reflexivity|]. eapply F2_fd; [|exact H|exact N2].
  assert (G : forall (x y : f32) (z : f64), in_unit x -> in_unit y -> within (2.002 * val q + / 2 ^ 22) x y -> rounded y z -> close (2.002 * val q + / 2 ^ 21) x z).
  { intros x y z [FX BX] [FY BY] W E1. assert (AY : Rabs (val y) <= 1) by (apply Rabs_le_iff; lra). unfold rounded in E1.
    destruct (round_up z) as [FZ BZ]; [rewrite <- E1; exact FY|rewrite <- E1; eapply Rle_trans; [exact AY|simpl pow; lra]|].
    destruct (f32_of_f64_R z FZ) as [V1 V2]. { eapply Rle_trans; [exact BZ|]. rewrite big32_pow. apply pow2_le. lia. }
    assert (Z2 : Rabs (val y - val64 z) <= / 2 ^ 24 * Rabs (val64 z) + / 2 ^ 140).
    { change val with R32. change val64 with R64. rewrite E1, V1. eapply Rle_trans; [apply rnd32_err|].
      apply Rplus_le_compat; [unfold u32; simpl pow; lra|]. unfold tiny32. replace (/ 2 ^ 140) with (bpow radix2 (-140)); [apply bpow_le; lia|].
      change (-140)%Z with (- Z.of_nat 140)%Z. rewrite bpow_opp, bpow_powerRZ, <- pow_powerRZ. reflexivity. }
    assert (Z3 : Rabs (val64 z) <= Rabs (val y) + Rabs (val y - val64 z)).
    { replace (val64 z) with (val y + - (val y - val64 z)) at 1 by ring. eapply Rle_trans; [apply Rabs_triang|]. rewrite Rabs_Ropp. lra. }
    assert (T : 0 < / 2 ^ 140 <= / 2 ^ 60) by (split; [apply Rinv_0_lt_compat, pow_lt; lra|apply Rinv_le_contravar; [apply pow_lt; lra|apply pow2_le; lia]]).
    set (t := / 2 ^ 140) in *. clearbody t.
    assert (Z4 : Rabs (val y - val64 z) <= / 2 ^ 22). { clear - Z2 Z3 AY T. pose proof (Rabs_pos (val64 z)). simpl pow in *. lra. }
    split; [exact FX|]. split; [exact FZ|]. unfold within in W. apply Rabs_le_iff in W, Z4. apply Rabs_le_iff. clear - W Z4. simpl pow in *. lra. }
  intros x y z (A1 & A2 & A3 & A4) (B1 & B2 & B3 & B4).
  split; [|split; [|split]]; intros Fq Bq I;
    [destruct (A1 Fq Bq I) as (X1 & X2)|destruct (A2 Fq Bq I) as (X1 & X2)|destruct (A3 Fq Bq I) as (X1 & X2)|destruct (A4 Fq Bq I) as (X1 & X2)];
    eapply G; eauto.
Qed.
Print Assumptions C91_colors_to_double.

(** A scene with a triangle, texture coordinates, a normal, a tangent and custom data is saved with
    the default settings by either build and meets the hypotheses; the numbers that custom data
    needs are those of C42_case, C43_case and C74_case. *)
Lemma up_d : unit_vector_d (dv3 0 0 1).
Proof.
  assert (Z : val64 (f64_of_Z 0) = 0) by reflexivity. assert (O : val64 (f64_of_Z 1) = 1) by (apply (f64_of_Z_exact 1); lia).
  unfold unit_vector_d, dot3_d, finite3_d, dv3. cbn [fst snd]. rewrite Z, O, Rabs_R0, Rabs_R1. replace (0 * 0 + 0 * 0 + 1 * 1 - 1) with 0 by ring. rewrite Rabs_R0.
  split; [repeat split; reflexivity|]. simpl pow. lra.
Qed.
Example C91_case : exists out l', log2_64_ok ieee_d /\ asin_64_ok ieee_d /\ sin_cos_ok ieee_libm /\
  precision_ok_d (default_precision_d ieee_libm ieee_d) /\ list_ok_d ieee_d [(scene_d, demo_name)] /\
  saved_d ieee_d true (default_precision_d ieee_libm ieee_d) [(scene_d, demo_name)] = Ok out /\
  d_uv_prec (default_precision_d ieee_libm ieee_d) = 14%nat /\ d_normal_precision (default_precision_d ieee_libm ieee_d) = 7%nat /\
  read_tmf ieee_libm false out = Ok l' /\
  exists n', map (fun mn => normals (fst mn)) l' = [Some [n']] /\ same_direction_fd (/ 127) n' (dv3 0 0 1).
Proof.
  destruct C85_case as (A1 & A2 & A3 & A4 & A5 & A6 & A7).
  destruct (C85_default_settings ieee_libm ieee_d exact_sin_cos64 true true _ A1 A2 A3 A4 A5 A6 A7) as (out & _ & S & _).
  assert (WN : d_normal_precision (default_precision_d ieee_libm ieee_d) = 7%nat) by (apply one_degree_bits; auto).
  assert (WT : d_tangent_prec (default_precision_d ieee_libm ieee_d) = 7%nat) by (apply one_degree_bits; auto).
  assert (HP : precision_ok_d (default_precision_d ieee_libm ieee_d)) by (split; lia).
  assert (SC : sin_cos_ok ieee_libm) by exact exact_sin_cos_ok.
  destruct (C91_normals_to_default ieee_d ieee_libm false _ _ out A4 SC HP A6 S) as (l' & R & F); [rewrite WN; lia|].
  exists out, l'. split; [exact A2|]. split; [exact A4|]. split; [exact SC|]. split; [exact HP|]. split; [exact A6|]. split; [exact S|].
  split; [apply uv_bits; auto|]. split; [exact WN|]. split; [exact R|]. rewrite WN in F.
  inversion F as [|? b ? ? X F2]; subst. inversion F2; subst. cbn [map]. destruct (normals (fst b)) as [ns|]; cbn [fst d_normals scene_d arrays] in X; [|contradiction].
  inversion X as [|? n' ? ? X1 X2]; subst. inversion X2; subst. exists n'. split; [reflexivity|]. specialize (X1 up_d).
  replace (/ 127) with (/ (2 ^ 7 - 1)) by (simpl pow; f_equal; lra). exact X1.
Qed.
Example C91_case_back : exists out, log2_ok ieee_libm /\ asin_ok ieee_libm /\ sin_cos64_ok exact_sin_cos64 /\
  precision_ok (default_precision ieee_libm) /\ list_ok ieee_libm [(scene, demo_name)] /\
  saved ieee_libm true (default_precision ieee_libm) [(scene, demo_name)] = Ok out /\
  uv_prec (default_precision ieee_libm) = 14%nat /\ normal_precision (default_precision ieee_libm) = 7%nat /\ tangent_prec (default_precision ieee_libm) = 7%nat.
Proof.
  destruct C80_case as (A1 & A2 & A3 & A4 & A5 & A6).
  destruct (C80_default_settings ieee_libm ieee_libm true true _ A1 A2 A3 A4 A5 A6) as (out & _ & S & _).
  exists out. split; [exact A1|]. split; [exact A3|]. split; [exact exact_sin_cos64_ok|]. split; [exact (default_fine _ A1)|]. split; [exact A5|]. split; [exact S|].
  split; [apply uv_bits; auto|]. split; apply normal_bits; auto.
Qed.
