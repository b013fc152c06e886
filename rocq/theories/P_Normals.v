(** Properties C35, C36 and C37: accuracy of normals and tangents. *)
From Coq Require Import List NArith ZArith Arith Lia Bool Reals Lra.
From Flocq Require Import Core IEEE754.BinarySingleNaN.
From Verif Require Import Base UnalignedRW ReadExt Floats Floats_proofs FloatReal_proofs Utilis Normals CustomData Mesh Tmf File FileSpec SaveSpec
  ValueSpec Demo Save_proofs Save2_proofs Codec_proofs Image_proofs Quant_proofs Log2_proofs Trig_proofs NormalReal_proofs P_Save P_Uv.
Import ListNotations.
Open Scope res_scope.
Local Open Scope R_scope.

(** [on_normals P] says that the normal arrays of two meshes are both absent, or
    equally long with [P] between the normals; [on_tangents P] the same of tangents. *)
Definition on_normals (P : vec3 -> vec3 -> Prop) (a b : mesh * list N) : Prop :=
  arrays P (normals (fst a)) (normals (fst b)).
Definition on_tangents (P : tangent -> tangent -> Prop) (a b : mesh * list N) : Prop :=
  arrays P (tangents (fst a)) (tangents (fst b)).

Lemma normals_load (P : vec3 -> vec3 -> Prop) lm lm' oc' p l out :
  precision_ok p -> list_ok lm l -> saved lm true p l = Ok out ->
  (forall u u', normal_rel lm lm' (normal_precision p) u u' -> P u u') ->
  exists l', read_tmf lm' oc' out = Ok l' /\ Forall2 (on_normals P) l l'.
Proof.
  intros HP HL S H. destruct (saved_loads_as lm lm' oc' p l out HP HL S) as (l' & R & F).
  exists l'. split; auto. eapply F2_impl; [|exact F]. intros a b (_ & edge & _ & [_ M _ _ _]).
  unfold on_normals, arrays. cbn [with_custom_data normals] in M.
  destruct (normals (fst a)), (normals (fst b)); try contradiction; auto.
  cbn [orel] in M. eapply F2_impl; [|exact M]. exact H.
Qed.
Lemma tangents_load (P : tangent -> tangent -> Prop) lm lm' oc' p l out :
  precision_ok p -> list_ok lm l -> saved lm true p l = Ok out ->
  (forall u u', tangent_rel lm lm' (tangent_prec p) u u' -> P u u') ->
  exists l', read_tmf lm' oc' out = Ok l' /\ Forall2 (on_tangents P) l l'.
Proof.
  intros HP HL S H. destruct (saved_loads_as lm lm' oc' p l out HP HL S) as (l' & R & F).
  exists l'. split; auto. eapply F2_impl; [|exact F]. intros a b (_ & edge & _ & [_ _ _ M _]).
  unfold on_tangents, arrays. cbn [with_custom_data tangents] in M.
  destruct (tangents (fst a)), (tangents (fst b)); try contradiction; auto.
  cbn [orel] in M. eapply F2_impl; [|exact M]. exact H.
Qed.

(** ** The cosine *)

Lemma norm_near a e : Rabs (dot3 a a - 1) <= e -> 0 <= e <= / 4 -> 1 - e <= norm3 a <= 1 + e / 2.
Proof.
  intros H E. apply Rabs_le_iff in H. unfold norm3. split.
  - rewrite <- (sqrt_square (1 - e)) by lra. apply sqrt_le_1_alt.
    replace ((1 - e) * (1 - e)) with (1 - e - e * (1 - e)) by ring.
    assert (0 <= e * (1 - e)) by (apply Rmult_le_pos; lra). lra.
  - rewrite <- (sqrt_square (1 + e / 2)) by lra. apply sqrt_le_1_alt.
    replace ((1 + e / 2) * (1 + e / 2)) with (1 + e + (e / 2) * (e / 2)) by field.
    assert (0 <= (e / 2) * (e / 2)) by apply Rle_0_sqr. lra.
Qed.

Lemma close_cosine s a b : 0 <= s <= 1 -> unit_vector a -> normal_close s a b ->
  1 - s - 2 * (s * s) - / 2 ^ 15 <= cosine a b.
Proof.
  intros Hs (_ & UN & _) [_ UB D _ _ _ _]. pose proof u32_small as U.
  assert (E20 : / 2 ^ 20 = 16 * u32) by (unfold u32; simpl pow; lra). rewrite E20 in UN.
  assert (E15 : / 2 ^ 15 = 512 * u32) by (unfold u32; simpl pow; lra). rewrite E15.
  apply norm_near in UN; [|lra]. apply norm_near in UB; [|lra].
  assert (SS : 0 <= s * s <= 1) by (split; [apply Rmult_le_pos; lra|replace 1 with (1 * 1) by ring; apply mul_le; lra]).
  set (n := norm3 a * norm3 b).
  assert (N1 : (1 - 16 * u32) * (1 - 64 * u32) <= n) by (apply mul_le; lra).
  assert (N2 : n <= (1 + 16 * u32 / 2) * (1 + 64 * u32 / 2)) by (apply mul_le; lra).
  assert (0 <= u32 * u32 <= / 16777216 * u32).
  { split; [apply Rmult_le_pos; lra|apply Rmult_le_compat_r; lra]. }
  assert (N1' : 1 - 80 * u32 <= n) by lra. assert (N2' : n <= 1 + 41 * u32) by lra.
  unfold cosine. fold n. set (L := 1 - s - 2 * (s * s) - 256 * u32) in *.
  apply Rmult_le_reg_r with n; [lra|]. unfold Rdiv. rewrite Rmult_assoc, Rinv_l, Rmult_1_r by lra.
  eapply Rle_trans; [|exact D].
  replace (1 - s - 2 * (s * s) - 512 * u32) with (L - 256 * u32) by (unfold L; ring).
  destruct (Rle_lt_dec 0 (L - 256 * u32)) as [G|G].
  - assert ((L - 256 * u32) * n <= (L - 256 * u32) * (1 + 41 * u32)) by (apply Rmult_le_compat_l; lra).
    assert (L * u32 <= 1 * u32) by (apply Rmult_le_compat_r; unfold L; lra). lra.
  - assert ((256 * u32 - L) * (1 - 80 * u32) <= (256 * u32 - L) * n) by (apply Rmult_le_compat_l; lra).
    assert (- 2.1 * u32 <= L * u32) by (apply Rmult_le_compat_r; unfold L; lra). lra.
Qed.

Lemma step_01 p : (1 <= p)%nat -> 0 <= / (2 ^ p - 1) <= 1.
Proof.
  intros B. assert (2 <= 2 ^ p) by (replace 2 with (2 ^ 1) at 1 by lra; apply Rle_pow; [lra|lia]).
  split; [left; apply Rinv_0_lt_compat; lra|]. rewrite <- Rinv_1. apply Rinv_le_contravar; lra.
Qed.

(** The bound of C35 for [p] bits. *)
Definition least_cosine (p : nat) : R :=
  1 - / (2 ^ p - 1) - 2 * (/ (2 ^ p - 1) * / (2 ^ p - 1)) - / 2 ^ 15.

Lemma rel_close lm lm' p a b : (1 <= p <= 24)%nat -> asin_ok lm -> sin_cos_ok lm' -> unit_vector a ->
  normal_rel lm lm' p a b -> normal_close (/ (2 ^ p - 1)) a b.
Proof.
  intros B A S U (c & E & ->). rewrite <- steps_pow. now apply (normal_accuracy (E:=ioerr) lm).
Qed.

(** C35. The cosine of the angle between a unit normal and what it loads as, with 1 to
    24 bits, is at least 1 - s - 2 s^2 (less 2^-15 of rounding) with s = 1/(2^p-1). *)
Theorem C35_normal_cosine_bound : forall lm lm' oc' p l out,
  asin_ok lm -> sin_cos_ok lm' -> (1 <= normal_precision p <= 24)%nat ->
  precision_ok p -> list_ok lm l -> saved lm true p l = Ok out ->
  exists l', read_tmf lm' oc' out = Ok l' /\
    Forall2 (on_normals (fun n n' => unit_vector n -> least_cosine (normal_precision p) <= cosine n n')) l l'.
Proof.
  intros lm lm' oc' p l out A SC B HP HL S. apply (normals_load _ lm lm' oc' p l out HP HL S).
  intros n n' R U. apply close_cosine; [apply step_01; lia|exact U|]. now apply (rel_close lm lm').
Qed.
Print Assumptions C35_normal_cosine_bound.
Theorem C35_tangent_cosine_bound : forall lm lm' oc' p l out,
  asin_ok lm -> sin_cos_ok lm' -> (1 <= tangent_prec p <= 24)%nat ->
  precision_ok p -> list_ok lm l -> saved lm true p l = Ok out ->
  exists l', read_tmf lm' oc' out = Ok l' /\
    Forall2 (on_tangents (fun t t' => unit_vector (fst t) -> least_cosine (tangent_prec p) <= cosine (fst t) (fst t'))) l l'.
Proof.
  intros lm lm' oc' p l out A SC B HP HL S. apply (tangents_load _ lm lm' oc' p l out HP HL S).
  intros n n' [R _] U. apply close_cosine; [apply step_01; lia|exact U|]. now apply (rel_close lm lm').
Qed.
Print Assumptions C35_tangent_cosine_bound.

(** With the default setting the cosine is at least 0.9919 (an angle below 7.3 degrees). *)
Definition normal_default (lm : libm) : nat := normal_from_deg_dev lm f1.
Theorem C35_default_setting : forall lm lm' oc' p l out,
  asin_ok lm -> sin_cos_ok lm' ->
  finite (m_log2 lm (f32_of_Z 90)) -> 6 < val (m_log2 lm (f32_of_Z 90)) <= 7 -> normal_precision p = normal_default lm ->
  precision_ok p -> list_ok lm l -> saved lm true p l = Ok out ->
  exists l', read_tmf lm' oc' out = Ok l' /\
    Forall2 (on_normals (fun n n' => unit_vector n -> 0.9919 <= cosine n n')) l l'.
Proof.
  intros lm lm' oc' p l out A SC F1 F2 HN HP HL S.
  assert (W : normal_default lm = 7%nat).
  { unfold normal_default, normal_from_deg_dev. replace (fdiv (f32_of_Z 90) f1) with (f32_of_Z 90).
    2:{ apply B2SF_inj. vm_compute. reflexivity. }
    enough (u8_of_f32 (fceil (m_log2 lm (f32_of_Z 90))) = 7%nat) as -> by reflexivity.
    apply Nat2Z.inj. rewrite u8_ceil by exact F1. rewrite (Zceil_imp 7); [reflexivity|]. cbn. exact F2. }
  destruct (C35_normal_cosine_bound lm lm' oc' p l out A SC) as (l' & R & F); auto.
  { rewrite HN, W. lia. }
  exists l'. split; auto. eapply F2_impl; [|exact F]. intros a b H. unfold on_normals, arrays in *.
  destruct (normals (fst a)), (normals (fst b)); auto. eapply F2_impl; [|exact H]. cbv beta. intros n n' G U.
  eapply Rle_trans; [|apply G, U]. rewrite HN, W. unfold least_cosine. simpl pow. lra.
Qed.
Print Assumptions C35_default_setting.

(** ** Meshes with one normal *)
Definition normal_mesh (n : vec3) : mesh := with_normals empty (Some [n]).
Lemma normal_mesh_saved lm p n : precision_ok p -> (uv_prec p <= 30)%nat ->
  list_ok lm [(normal_mesh n, [])] /\ exists out, saved lm true p [(normal_mesh n, [])] = Ok out.
Proof.
  intros [H1 H2] H3. split.
  { split; [reflexivity|]. apply Forall_cons; [|apply Forall_nil]. cbn [fst snd].
    split; [unfold normal_mesh; storable_tac|]. split; [apply name_ok_ascii; reflexivity|]. reflexivity. }
  apply C53_without_vertices_saved; auto. apply Forall_cons; [|apply Forall_nil].
  cbn [fst]. split; [reflexivity|]. split; [|apply Forall_nil].
  intros l I. cbn in I. repeat (destruct I as [I|I]; [discriminate I|]). contradiction.
Qed.

Lemma normal_mesh_loads lm lm' oc' p n c : precision_ok p -> (uv_prec p <= 30)%nat ->
  normal_to_encoding (E:=ioerr) lm true n (normal_precision p) = Ok c ->
  exists out l', saved lm true p [(normal_mesh n, [])] = Ok out /\ read_tmf lm' oc' out = Ok l' /\
    map (fun mn => normals (fst mn)) l' = [Some [normal_from_encoding lm' (low_code (normal_precision p) c) (normal_precision p)]].
Proof.
  intros HP HU HC. destruct (normal_mesh_saved lm p n HP HU) as (HL & out & S).
  destruct (normals_load _ lm lm' oc' p _ out HP HL S (fun u u' H => H)) as (l' & R & F).
  exists out, l'. split; auto. split; auto.
  inversion F as [|a b ? ? G F2]; subst. inversion F2; subst. unfold on_normals, arrays in G.
  cbn [fst normals normal_mesh with_normals] in G. cbn [map]. destruct (normals (fst b)) as [nb|]; [|contradiction].
  inversion G as [|? u ? ? U G2]; subst. inversion G2; subst. destruct U as (c' & E & ->).
  rewrite HC in E. apply Ok_inj in E. now subst c'.
Qed.

(** A library with correctly rounded functions and the normal (0.6, 0, -0.8) meet the
    hypotheses. *)
Definition slanted : vec3 := (flit 3 5, f0, fneg (flit 4 5)).
Lemma slanted_unit : unit_vector slanted.
Proof.
  destruct (flit_R 3 5) as [A1 A2]; [lia|lia|]. destruct (flit_R 4 5) as [B1 B2]; [lia|lia|].
  pose proof (rnd32_err1 (3 / 5)) as E1. rewrite Rabs_pos_eq in E1 by lra. specialize (E1 ltac:(lra)).
  pose proof (rnd32_err1 (4 / 5)) as E2. rewrite Rabs_pos_eq in E2 by lra. specialize (E2 ltac:(lra)).
  rewrite <- A1 in E1. rewrite <- B1 in E2. apply Rabs_le_iff in E1, E2.
  unfold unit_vector, finite3, dot3, slanted, finite. cbn [fst snd]. change val with R32. rewrite fneg_fin, fneg_R.
  change (R32 f0) with 0. set (a := R32 (flit 3 5)) in *. set (b := R32 (flit 4 5)) in *.
  assert (U : u32 = / 16777216) by reflexivity. rewrite U in *.
  split; [repeat split; auto|].
  assert (Q1 : 0.6 - 0.0000001 <= a <= 0.6 + 0.0000001) by lra.
  assert (Q2 : 0.8 - 0.0000001 <= b <= 0.8 + 0.0000001) by lra.
  assert (0.6 - 0.0000001 <= a) by lra.
  assert ((0.6 - 0.0000001) * (0.6 - 0.0000001) <= a * a <= (0.6 + 0.0000001) * (0.6 + 0.0000001)) by (split; apply mul_le; lra).
  assert ((0.8 - 0.0000001) * (0.8 - 0.0000001) <= b * b <= (0.8 + 0.0000001) * (0.8 + 0.0000001)) by (split; apply mul_le; lra).
  repeat split; apply Rabs_le_iff; simpl pow; lra.
Qed.
Lemma prec7_ok : precision_ok (mk_prec (flit 1 10) 7 14 8).
Proof. split; cbn; lia. Qed.
Example C35_case : exists out l' n', saved exact_libm true (mk_prec (flit 1 10) 7 14 8) [(normal_mesh slanted, [])] = Ok out /\
  read_tmf exact_libm true out = Ok l' /\ map (fun mn => normals (fst mn)) l' = [Some [n']] /\ 0.99 <= cosine slanted n'.
Proof.
  destruct (normal_mesh_saved exact_libm _ slanted prec7_ok) as (HL & out & S); [cbn; lia|].
  assert (B : (1 <= normal_precision (mk_prec (flit 1 10) 7 14 8) <= 24)%nat) by (cbn; lia).
  destruct (C35_normal_cosine_bound exact_libm exact_libm true _ _ out exact_asin_ok exact_sin_cos_ok B prec7_ok HL S) as (l' & R & F).
  inversion F as [|a b ? ? G F2]; subst. inversion F2; subst. unfold on_normals, arrays in G.
  cbn [fst normals normal_mesh with_normals] in G. destruct (normals (fst b)) as [nb|] eqn:NB; [|contradiction].
  inversion G as [|? u ? ? U G2]; subst. inversion G2; subst. specialize (U slanted_unit).
  exists out, [b], u. split; [exact S|]. split; [exact R|]. split; [cbn [map]; now rewrite NB|].
  eapply Rle_trans; [|exact U]. unfold least_cosine. cbn [normal_precision]. simpl pow. lra.
Qed.

(** With any other setting: the cosine is at least 1 - t - 2 t^2 where t is 2.002/90 of
    the angle asked for in degrees. *)
Theorem C35_degrees : forall lm lm' oc' p l out deg,
  asin_ok lm -> sin_cos_ok lm' -> log2_ok lm -> finite deg -> / 2 ^ 16 <= val deg <= 45 ->
  normal_precision p = normal_from_deg_dev lm deg -> (normal_precision p <= 24)%nat ->
  precision_ok p -> list_ok lm l -> saved lm true p l = Ok out ->
  exists l', read_tmf lm' oc' out = Ok l' /\
    Forall2 (on_normals (fun n n' => unit_vector n ->
      let t := 2.002 * (val deg / 90) in 1 - t - 2 * (t * t) - / 2 ^ 15 <= cosine n n')) l l'.
Proof.
  intros lm lm' oc' p l out d A SC L Fd Hd HU HB HP HL S. change val with R32 in *.
  assert (B1 : (1 <= normal_precision p)%nat) by (rewrite HU; unfold normal_from_deg_dev; lia).
  destruct (f32_of_Z_exact 90) as [N1 N2]; [lia|]. simpl pow in Hd.
  assert (I : 2 <= 90 / R32 d <= 90 * 65536).
  { split; apply Rmult_le_reg_r with (R32 d); try lra; unfold Rdiv; rewrite Rmult_assoc, Rinv_l by lra; lra. }
  destruct (fdiv_R (f32_of_Z 90) d N2) as [D1 D2]; [lra|rewrite N1; apply Rabs_le_iff|].
  { pose proof big32_ge. assert (90 * 65536 <= IZR (2 ^ 100)) by (cbn; lra). lra. }
  rewrite N1 in D1.
  pose proof (rnd32_err (90 / R32 d)) as Er. rewrite <- D1, (Rabs_pos_eq (90 / R32 d)) in Er by lra.
  pose proof tiny32_bound as [_ Ti]. apply Rabs_le_iff in Er.
  assert (Q : R32 (fdiv (f32_of_Z 90) d) >= (1 - 2 * u32) * (90 / R32 d)) by (unfold u32 in *; lra).
  destruct (width_covers lm (fdiv (f32_of_Z 90) d) L D2) as [W _]; [unfold u32 in *; lra|]. cbv zeta in W.
  set (w := u8_of_f32 (fceil (m_log2 lm (fdiv (f32_of_Z 90) d)))) in *.
  assert (WP : (w <= normal_precision p)%nat) by (rewrite HU; unfold normal_from_deg_dev; fold w; lia).
  assert (P2 : IZR (2 ^ Z.of_nat w) = 2 ^ w) by (rewrite <- pow_IZR; reflexivity).
  rewrite P2 in W. assert (W2 : 2 ^ w <= 2 ^ normal_precision p) by (apply Rle_pow; [lra|exact WP]).
  assert (T2 : 2 <= 2 ^ normal_precision p) by (replace 2 with (2 ^ 1) at 1 by lra; apply Rle_pow; [lra|lia]).
  set (s := / (2 ^ normal_precision p - 1)).
  assert (ST : s <= 2.002 * (R32 d / 90)).
  { unfold s. apply Rmult_le_reg_l with (2 ^ normal_precision p - 1); [lra|]. rewrite Rinv_r by lra.
    assert (E : (90 / R32 d) * (R32 d / 90) = 1) by (field; lra).
    assert (0.9997 * (90 / R32 d) <= 2 ^ normal_precision p) by (unfold u32 in Q; lra).
    assert (0 < R32 d / 90) by lra.
    assert (G : (0.9997 * (90 / R32 d)) * (R32 d / 90) <= 2 ^ normal_precision p * (R32 d / 90)) by (apply Rmult_le_compat_r; lra).
    rewrite Rmult_assoc, E in G.
    assert (2 * (R32 d / 90) <= 2 ^ normal_precision p * (R32 d / 90)) by (apply Rmult_le_compat_r; lra). lra. }
  destruct (C35_normal_cosine_bound lm lm' oc' p l out A SC) as (l' & R & F); auto.
  exists l'. split; auto. eapply F2_impl; [|exact F]. intros a b H. unfold on_normals, arrays in *.
  destruct (normals (fst a)), (normals (fst b)); auto. eapply F2_impl; [|exact H]. cbv beta zeta. intros n n' G U.
  eapply Rle_trans; [|apply G, U]. unfold least_cosine. fold s.
  destruct (step_01 (normal_precision p) B1) as [S0 _]. fold s in S0.
  assert (s * s <= 2.002 * (R32 d / 90) * (2.002 * (R32 d / 90))) by (apply mul_le; lra). lra.
Qed.
Print Assumptions C35_degrees.
Example C35_degrees_case : asin_ok exact_libm /\ sin_cos_ok exact_libm /\ log2_ok exact_libm /\
  finite f1 /\ / 2 ^ 16 <= val f1 <= 45.
Proof.
  split; [apply exact_asin_ok|]. split; [apply exact_sin_cos_ok|]. split; [apply exact_log2_ok|].
  destruct f1_R as [A B]. split; [exact B|]. change val with R32. rewrite A. simpl pow. lra.
Qed.

(** The documented guarantee (the angle asked for is the largest angle) is false: with
    a setting of 1 degree, the normal (0, 2^-12, 1-2^-24) turns by more than 7 degrees. *)
Definition polar : vec3 := (f0, flit 1 4096, almost_one).
Lemma R32_SF x sf : B2SF x = sf -> R32 x = SF2R radix2 sf /\ is_finite x = is_finite_SF sf.
Proof. intros <-. destruct x; split; reflexivity. Qed.
Lemma polar_unit : unit_vector polar.
Proof.
  destruct (R32_SF (flit 1 4096) (SpecFloat.S754_finite false 8388608 (-35))) as [A1 A2]; [vm_compute; reflexivity|].
  destruct (R32_SF almost_one (SpecFloat.S754_finite false 16777215 (-24))) as [B1 B2]; [vm_compute; reflexivity|].
  unfold unit_vector, finite3, dot3, polar, finite. cbn [fst snd]. change val with R32. rewrite A1, B1.
  change (R32 f0) with 0. unfold SF2R, F2R. cbn. repeat split; auto; apply Rabs_le_iff; lra.
Qed.
Theorem C35_degrees_refuted : forall lm lm', m_log2 lm (f32_of_Z 90) = f32_of_Z 7 ->
  m_asin lm f0 = f0 -> m_sin_cos lm' f0 = (f0, f1) ->
  exists out l' n', saved lm true (mk_prec (flit 1 10) (normal_default lm) 14 8) [(normal_mesh polar, [])] = Ok out /\
  read_tmf lm' true out = Ok l' /\ map (fun mn => normals (fst mn)) l' = [Some [n']] /\
  unit_vector polar /\ cosine polar n' < cos (7 * (PI / 180)).
Proof.
  intros lm lm' L A SC.
  assert (W : normal_default lm = 7%nat).
  { unfold normal_default, normal_from_deg_dev. replace (fdiv (f32_of_Z 90) f1) with (f32_of_Z 90).
    2:{ apply B2SF_inj. vm_compute. reflexivity. }
    rewrite L. vm_compute. reflexivity. }
  rewrite W. set (pr := mk_prec (flit 1 10) 7 14 8).
  set (c := mk_ncode 0 126 false false false).
  assert (E : normal_to_encoding (E:=ioerr) lm true polar (normal_precision pr) = Ok c).
  { unfold normal_to_encoding, polar, vx, vy, vz. cbn [fst snd normal_precision pr].
    replace (mask_f32 true 7) with (Ok (E:=ioerr) (f32_of_Z 127)) by reflexivity. cbn [bind].
    replace (fdiv (fabs f0) (fsqrt (fadd (fmul (fabs f0) (fabs f0)) (fmul (fabs (flit 1 4096)) (fabs (flit 1 4096)))))) with f0
      by (apply B2SF_inj; vm_compute; reflexivity).
    rewrite A. unfold c. f_equal; try (f_equal; vm_compute; reflexivity). }
  destruct (normal_mesh_loads lm lm' true pr polar c prec7_ok) as (out & l' & S & R & M); [cbn; lia|exact E|].
  exists out, l'. eexists. split; [exact S|]. split; [exact R|]. split; [exact M|]. split; [apply polar_unit|].
  unfold normal_from_encoding, low_code. cbn [normal_precision pr c n_asine n_z n_sx n_sy n_sz Nat.eqb].
  change (low 7 0) with 0%N. change (low 7 126) with 126%N.
  replace (fmul (fdiv (f32_of_N 0) (f32_of_N (mask_u64 7))) half_pi) with f0 by (apply B2SF_inj; vm_compute; reflexivity).
  rewrite SC. set (z := fdiv (f32_of_N 126) (f32_of_N (mask_u64 7))).
  set (r := fsqrt (fsub f1 (fmul z z))).
  let v := eval vm_compute in (B2SF z) in destruct (R32_SF z v) as [Z1 _]; [vm_compute; reflexivity|].
  let v := eval vm_compute in (B2SF (fmul f1 r)) in destruct (R32_SF (fmul f1 r) v) as [Y1 _]; [vm_compute; reflexivity|].
  let v := eval vm_compute in (B2SF (fmul f0 r)) in destruct (R32_SF (fmul f0 r) v) as [X1 _]; [vm_compute; reflexivity|].
  destruct (R32_SF (flit 1 4096) (SpecFloat.S754_finite false 8388608 (-35))) as [A1 _]; [vm_compute; reflexivity|].
  destruct (R32_SF almost_one (SpecFloat.S754_finite false 16777215 (-24))) as [B1 _]; [vm_compute; reflexivity|].
  set (n' := (fmul f0 r, fmul f1 r, z)).
  assert (D : dot3 polar n' <= 0.99218).
  { unfold dot3, polar, n'. cbn [fst snd]. change val with R32. rewrite Z1, Y1, X1, A1, B1. unfold SF2R, F2R. cbn. lra. }
  assert (N1 : 0.9999 <= norm3 polar).
  { unfold norm3. rewrite <- (sqrt_square 0.9999) by lra. apply sqrt_le_1_alt.
    unfold dot3, polar. cbn [fst snd]. change val with R32. rewrite A1, B1. unfold SF2R, F2R. cbn. lra. }
  assert (N2 : 0.9999 <= norm3 n').
  { unfold norm3. rewrite <- (sqrt_square 0.9999) by lra. apply sqrt_le_1_alt.
    unfold dot3, n'. cbn [fst snd]. change val with R32. rewrite Z1, Y1, X1. unfold SF2R, F2R. cbn. lra. }
  assert (N3 : 0.9999 * 0.9999 <= norm3 polar * norm3 n') by (apply mul_le; lra).
  apply Rlt_le_trans with 0.9925.
  - unfold cosine. apply Rmult_lt_reg_r with (norm3 polar * norm3 n'); [lra|]. unfold Rdiv.
    rewrite Rmult_assoc, Rinv_l by lra. lra.
  - pose proof PI_bounds as PB. set (a := 7 * (PI / 180)).
    pose proof (cos_ge_parabola a) as C. assert (a * a <= 0.12218 * 0.12218) by (unfold a; apply mul_le; lra). lra.
Qed.
Print Assumptions C35_degrees_refuted.
Example C35_degrees_refuted_case : m_log2 demo (f32_of_Z 90) = f32_of_Z 7 /\ m_asin demo f0 = f0 /\ m_sin_cos demo f0 = (f0, f1).
Proof.
  split; [apply B2SF_inj; vm_compute; reflexivity|]. split; [reflexivity|]. cbn [m_sin_cos demo]. now f_equal.
Qed.

(** C36. A unit normal loads with length 1 (up to rounding), the z component within
    1/(2^p-1) and on the same side, the x and y components on the same side up to 2^-19. *)
Theorem C36_unit_length_and_sides : forall lm lm' oc' p l out,
  asin_ok lm -> sin_cos_ok lm' -> (1 <= normal_precision p <= 24)%nat ->
  precision_ok p -> list_ok lm l -> saved lm true p l = Ok out ->
  exists l', read_tmf lm' oc' out = Ok l' /\
    Forall2 (on_normals (fun n n' => unit_vector n ->
      finite3 n' /\ Rabs (dot3 n' n' - 1) <= / 2 ^ 18 /\
      within (/ (2 ^ normal_precision p - 1) + / 2 ^ 22) (vz n) (vz n') /\
      same_side 0 (vz n) (vz n') /\ same_side (/ 2 ^ 19) (vx n) (vx n') /\ same_side (/ 2 ^ 19) (vy n) (vy n'))) l l'.
Proof.
  intros lm lm' oc' p l out A SC B HP HL S. apply (normals_load _ lm lm' oc' p l out HP HL S).
  intros n n' R U. destruct (rel_close lm lm' _ n n' B A SC U R) as [H1 H2 _ H3 H4 H5 H6].
  assert (U32 : u32 = / 16777216) by reflexivity. rewrite U32 in *.
  assert (W : forall x y, same_side (19 * / 16777216) x y -> same_side (/ 2 ^ 19) x y).
  { intros x y [Y1 Y2]. split; intros G; [specialize (Y1 G)|specialize (Y2 G)]; simpl pow; lra. }
  split; [exact H1|]. split; [eapply Rle_trans; [exact H2|simpl pow; lra]|].
  split; [unfold within; change val with R32; eapply Rle_trans; [exact H3|simpl pow; lra]|]. auto.
Qed.
Print Assumptions C36_unit_length_and_sides.
Example C36_case : unit_vector slanted /\ list_ok exact_libm [(normal_mesh slanted, [])] /\
  exists out, saved exact_libm true (mk_prec (flit 1 10) 7 14 8) [(normal_mesh slanted, [])] = Ok out.
Proof. split; [apply slanted_unit|]. apply normal_mesh_saved; [apply prec7_ok|cbn; lia]. Qed.

(** Precision 0 loads vectors of length sqrt 3, whatever was saved. *)
Theorem C36_precision_zero_refuted : forall lm lm' oc' p l out,
  normal_precision p = 0%nat -> precision_ok p -> list_ok lm l -> saved lm true p l = Ok out ->
  exists l', read_tmf lm' oc' out = Ok l' /\ Forall2 (on_normals (fun n n' => dot3 n' n' = 3)) l l'.
Proof.
  intros lm lm' oc' p l out Z HP HL S. apply (normals_load _ lm lm' oc' p l out HP HL S).
  intros n n' (c & _ & ->). rewrite Z. unfold normal_from_encoding. cbn [Nat.eqb].
  unfold dot3. cbn [fst snd]. change val with R32. rewrite !sg_R, (proj1 f1_R).
  replace (sg _ * 1 * (sg _ * 1) + _ + _) with (sg (n_sx (low_code 0 c)) * sg (n_sx (low_code 0 c)) + sg (n_sy (low_code 0 c)) * sg (n_sy (low_code 0 c)) + sg (n_sz (low_code 0 c)) * sg (n_sz (low_code 0 c))) by ring.
  rewrite !sg_sq. ring.
Qed.
Print Assumptions C36_precision_zero_refuted.
Example C36_precision_zero_case : exists out, saved demo true (mk_prec (flit 1 10) 0 14 8) demo_list = Ok out /\
  precision_ok (mk_prec (flit 1 10) 0 14 8).
Proof. eexists. split; [vm_compute; reflexivity|]. split; cbn; lia. Qed.

(** With 25 to 30 bits, the normal (0,0,1) loads with z = 0. *)
Theorem C36_wide_codes_lose_z : forall lm lm' oc' p l out,
  precision_ok p -> list_ok lm l -> saved lm true p l = Ok out -> (25 <= normal_precision p)%nat ->
  exists l', read_tmf lm' oc' out = Ok l' /\ Forall2 (on_normals (fun n n' => vz n = f1 -> vz n' = f0)) l l'.
Proof.
  intros lm lm' oc' p l out HP HL S B. apply (normals_load _ lm lm' oc' p l out HP HL S).
  intros n n' (c & E & ->) Z. unfold normal_to_encoding in E.
  destruct (mask_f32 true (normal_precision p)) as [mul| |] eqn:M; try discriminate E. cbn [bind] in E.
  rewrite Z in E. apply Ok_inj in E. subst c. unfold low_code. cbn [n_asine n_z n_sx n_sy n_sz].
  replace (fabs f1) with f1 by (apply B2SF_inj; reflexivity).
  rewrite (one_lost _ _ B M). unfold normal_from_encoding. destruct (Nat.eqb_spec (normal_precision p) 0) as [?|_]; [lia|].
  cbn [n_asine n_z n_sx n_sy n_sz]. destruct (m_sin_cos lm' _) as [sf cf]. unfold vz. cbn [snd].
  pose proof (mask_30 _ _ M) as B'. revert B B'. generalize (normal_precision p) as q. intros q B B'.
  replace (flt f1 f0) with false by reflexivity.
  assert (q = 25 \/ q = 26 \/ q = 27 \/ q = 28 \/ q = 29 \/ q = 30)%nat as H by lia.
  repeat (destruct H as [->|H]; [vm_compute; reflexivity|]). rewrite H. vm_compute. reflexivity.
Qed.
Print Assumptions C36_wide_codes_lose_z.
Example C36_wide_case : exists out, saved demo true (mk_prec (flit 1 10) 25 14 8) demo_list = Ok out.
Proof. eexists. vm_compute. reflexivity. Qed.

(** A length barely above 1 is enough with 24 bits: (0, 0, 1+2^-23) loads with z = 0. *)
Definition overlong : vec3 := (f0, f0, fadd f1 (flit 1 8388608)).
Theorem C36_overlong_loses_z : forall lm lm', exists out l' n',
  saved lm true (mk_prec (flit 1 10) 24 14 8) [(normal_mesh overlong, [])] = Ok out /\
  read_tmf lm' true out = Ok l' /\ map (fun mn => normals (fst mn)) l' = [Some [n']] /\ vz n' = f0.
Proof.
  intros lm lm'. set (pr := mk_prec (flit 1 10) 24 14 8).
  assert (HP : precision_ok pr) by (split; cbn; lia).
  edestruct (normal_mesh_loads lm lm' true pr overlong) as (out & l' & S & R & M); [exact HP|cbn; lia| |].
  { unfold normal_to_encoding. cbn [normal_precision pr].
    replace (mask_f32 true 24) with (Ok (E:=ioerr) (f32_of_Z 16777215)) by reflexivity. cbn [bind]. reflexivity. }
  exists out, l'. eexists. split; [exact S|]. split; [exact R|]. split; [exact M|].
  unfold normal_from_encoding, low_code. cbn [normal_precision pr Nat.eqb n_asine n_z n_sx n_sy n_sz].
  destruct (m_sin_cos lm' _) as [sf cf]. unfold vz at 1. cbn [snd].
  replace (low 24 _) with 0%N by (vm_compute; reflexivity).
  replace (flt (vz overlong) f0) with false by (vm_compute; reflexivity).
  apply B2SF_inj. vm_compute. reflexivity.
Qed.
Print Assumptions C36_overlong_loses_z.

(** The octant itself is not kept: (1, 2^-40, 0) loads with a negative y when the
    cosine of the f32 nearest to pi/2 is negative, which it is when correctly rounded. *)
Definition equatorial : vec3 := (f1, flit 1 1099511627776, f0).
Theorem C36_octant_refuted : forall lm lm', m_asin lm f1 = f32_FRAC_PI_2 ->
  finite (snd (m_sin_cos lm' f32_FRAC_PI_2)) -> -1 <= val (snd (m_sin_cos lm' f32_FRAC_PI_2)) < 0 ->
  exists out l' n', saved lm true (mk_prec (flit 1 10) 7 14 8) [(normal_mesh equatorial, [])] = Ok out /\
  read_tmf lm' true out = Ok l' /\ map (fun mn => normals (fst mn)) l' = [Some [n']] /\
  0 < val (vy equatorial) /\ val (vy n') < 0.
Proof.
  intros lm lm' A F C. set (pr := mk_prec (flit 1 10) 7 14 8).
  assert (E : normal_to_encoding (E:=ioerr) lm true equatorial (normal_precision pr) = Ok (mk_ncode 127 0 false false false)).
  { unfold normal_to_encoding, equatorial, vx, vy, vz. cbn [fst snd normal_precision pr].
    replace (mask_f32 true 7) with (Ok (E:=ioerr) (f32_of_Z 127)) by reflexivity. cbn [bind].
    match goal with |- context [m_asin lm ?t] => replace t with f1 by (apply B2SF_inj; vm_compute; reflexivity) end.
    rewrite A. f_equal; try (f_equal; vm_compute; reflexivity). }
  destruct (normal_mesh_loads lm lm' true pr equatorial (mk_ncode 127 0 false false false) prec7_ok) as (out & l' & S & R & M); [cbn; lia|exact E|].
  exists out, l'. eexists. split; [exact S|]. split; [exact R|]. split; [exact M|].
  split.
  { destruct (R32_SF (flit 1 1099511627776) (SpecFloat.S754_finite false 8388608 (-63))) as [A1 _]; [vm_compute; reflexivity|].
    unfold equatorial, vy. cbn [fst snd]. change val with R32. rewrite A1. unfold SF2R, F2R. cbn. lra. }
  unfold normal_from_encoding, low_code. cbn [normal_precision pr n_asine n_z n_sx n_sy n_sz Nat.eqb].
  change (low 7 0) with 0%N. change (low 7 127) with 127%N.
  match goal with |- context [m_sin_cos lm' ?t] => replace t with f32_FRAC_PI_2 by (apply B2SF_inj; vm_compute; reflexivity) end.
  destruct (m_sin_cos lm' f32_FRAC_PI_2) as [sf cf]. unfold vy. cbn [fst snd] in *.
  match goal with |- context [fsqrt ?t] => replace (fsqrt t) with f1 by (apply B2SF_inj; vm_compute; reflexivity) end.
  change val with R32 in *. destruct f1_R as [O1 O2].
  destruct (fmul_R cf f1 F O2) as [P1 _]; [rewrite O1; apply fits32, Rabs_le_iff; lra|].
  rewrite P1, O1, Rmult_1_r, rnd32_R32. lra.
Qed.
Print Assumptions C36_octant_refuted.

Lemma rnd32_half_pi : rnd32 (PI / 2) = H.
Proof.
  pose proof PI_bounds as PB. unfold round, scaled_mantissa.
  assert (C : cexp radix2 fexp32 (PI / 2) = (-23)%Z).
  { unfold cexp. rewrite (mag_unique radix2 (PI / 2) 1); [now vm_compute|]. rewrite Rabs_pos_eq by lra. cbn. lra. }
  rewrite C. change (bpow radix2 (- (-23))) with (IZR (2 ^ 23)).
  rewrite (Znearest_imp _ _ 13176795).
  - unfold H, F2R. cbn. lra.
  - apply Rabs_def1; cbn; lra.
Qed.
Lemma exact_asin_one : m_asin exact_libm f1 = f32_FRAC_PI_2.
Proof.
  cbn [m_asin exact_libm]. change (val f1) with (R32 f1). rewrite (proj1 f1_R), asin_1.
  pose proof PI_bounds as PB. destruct (f32_of_R_R (PI / 2)) as [A B].
  { apply fits32, Rabs_le_iff. lra. }
  rewrite rnd32_half_pi in A. destruct half_pi_R as [C D]. fold H in C. pose proof H_bounds as HB.
  apply B2R_inj.
  - destruct (f32_of_R (PI / 2)); cbn in *; try discriminate; auto. cbn in A. lra.
  - reflexivity.
  - unfold R32 in *. congruence.
Qed.
Lemma exact_cos_negative : finite (snd (m_sin_cos exact_libm f32_FRAC_PI_2)) /\
  -1 <= val (snd (m_sin_cos exact_libm f32_FRAC_PI_2)) < 0.
Proof.
  destruct half_pi_R as [C D]. fold H in C. cbn [m_sin_cos exact_libm snd]. change (val f32_FRAC_PI_2) with (R32 f32_FRAC_PI_2).
  rewrite C. pose proof (COS_bound H) as CB. pose proof PI_bounds as PB.
  destruct (f32_of_R_R (cos H)) as [A B]; [apply fits32, Rabs_le_iff; lra|]. split; [exact B|].
  change val with R32. rewrite A.
  assert (N : cos H <= - / 1073741824).
  { set (d := H - PI / 2). assert (Hd : / 33554432 <= d <= / 1000) by (unfold d, H; lra).
    replace H with (PI / 2 + d) by (unfold d; ring). rewrite cos_plus, cos_PI2, sin_PI2.
    destruct (MVT_cor2 sin cos 0 d) as (c & E & Hc); [lra|intros; apply derivable_pt_lim_sin|].
    rewrite sin_0 in E. pose proof (cos_ge_parabola c).
    assert (c * c <= / 1000 * / 1000) by (apply mul_le; lra).
    assert (/ 2 * / 33554432 <= cos c * (d - 0)) by (apply mul_le; lra). lra. }
  pose proof (rnd32_err (cos H)) as E. rewrite (Rabs_left1 (cos H)) in E by lra. apply Rabs_le_iff in E.
  pose proof tiny32_bound as [_ T]. unfold u32 in E. split.
  - replace (-1) with (rnd32 (-1)) by (apply (rnd32_Z (-1)); lia). apply rnd32_le. lra.
  - change (2 ^ 100)%Z with 1267650600228229401496703205376%Z in T. lra.
Qed.
Example C36_octant_case : m_asin exact_libm f1 = f32_FRAC_PI_2 /\ finite (snd (m_sin_cos exact_libm f32_FRAC_PI_2)) /\
  -1 <= val (snd (m_sin_cos exact_libm f32_FRAC_PI_2)) < 0.
Proof. split; [apply exact_asin_one|apply exact_cos_negative]. Qed.

Lemma sign_of x : finite x -> (0 < val x -> Bsign x = false) /\ (val x < 0 -> Bsign x = true).
Proof.
  intros F. split; intros V; destruct x as [s|s| |s m e ?]; try discriminate F; try (exfalso; unfold val in V; cbn [B2R] in V; lra);
    unfold val in V; cbn [B2R] in V; destruct s; auto; exfalso.
  - pose proof (F2R_lt_0 radix2 (Float radix2 (cond_Zopp true (Z.pos m)) e) eq_refl). lra.
  - pose proof (F2R_gt_0 radix2 (Float radix2 (cond_Zopp false (Z.pos m)) e) eq_refl). lra.
Qed.
(** C37. Tangents keep their number and their handedness, which is read as its sign
    bit: every handedness is loaded as 1 or -1. *)
Theorem C37_handedness : forall lm lm' oc' p l out,
  precision_ok p -> list_ok lm l -> saved lm true p l = Ok out ->
  exists l', read_tmf lm' oc' out = Ok l' /\
    Forall2 (on_tangents (fun t t' =>
      (finite (snd t) /\ 0 < val (snd t) -> snd t' = f1) /\
      (finite (snd t) /\ val (snd t) < 0 -> snd t' = fneg f1) /\
      (snd t' = f1 \/ snd t' = fneg f1) /\
      (snd t = f1 \/ snd t = fneg f1 -> snd t' = snd t))) l l'.
Proof.
  intros lm lm' oc' p l out HP HL S. apply (tangents_load _ lm lm' oc' p l out HP HL S).
  intros t t' [_ ->]. unfold ht_from_bool, ht_to_bool.
  split; [|split; [|split]].
  - intros [F V]. rewrite (proj1 (sign_of _ F)); auto.
  - intros [F V]. rewrite (proj2 (sign_of _ F)); auto.
  - destruct (Bsign (snd t)); auto.
  - intros [->| ->]; reflexivity.
Qed.
Print Assumptions C37_handedness.
Definition tangent_mesh : mesh := with_tangents empty (Some [((f1, f0, f0), f1); ((f0, f1, f0), fneg f1)]).
Example C37_case : list_ok demo [(tangent_mesh, [])] /\
  exists out, saved demo true demo_prec [(tangent_mesh, [])] = Ok out.
Proof.
  split.
  - split; [reflexivity|]. apply Forall_cons; [|apply Forall_nil]. cbn [fst snd].
    split; [unfold tangent_mesh; storable_tac|]. split; [apply name_ok_ascii; reflexivity|]. reflexivity.
  - eexists. vm_compute. reflexivity.
Qed.
