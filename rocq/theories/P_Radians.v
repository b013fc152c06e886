(** Property C35, for a setting in radians. *)
From Coq Require Import List NArith ZArith Arith Lia Bool Reals Lra.
From Flocq Require Import Core IEEE754.BinarySingleNaN.
From Verif Require Import Base UnalignedRW ReadExt Floats Floats_proofs FloatReal_proofs Utilis Normals CustomData Mesh Tmf File FileSpec SaveSpec
  ValueSpec Demo Save_proofs Save2_proofs Codec_proofs Image_proofs Quant_proofs Log2_proofs Trig_proofs NormalReal_proofs P_Save P_Uv P_Normals.
Import ListNotations.
Open Scope res_scope.
Local Open Scope R_scope.

(** From 2^-20 to 0.78 radians the cosine is bounded as in C35_degrees (1.5707 is a little less than a right angle). *)
Theorem C35_radians : forall lm lm' oc' p l out rad,
  asin_ok lm -> sin_cos_ok lm' -> log2_ok lm -> finite rad -> / 2 ^ 20 <= val rad <= 0.78 ->
  normal_precision p = normal_from_rad_dev lm rad -> (normal_precision p <= 24)%nat ->
  precision_ok p -> list_ok lm l -> saved lm true p l = Ok out ->
  exists l', read_tmf lm' oc' out = Ok l' /\
    Forall2 (on_normals (fun n n' => unit_vector n ->
      let t := 2.002 * (val rad / 1.5707) in 1 - t - 2 * (t * t) - / 2 ^ 15 <= cosine n n')) l l'.
Proof.
  intros lm lm' oc' p l out d A SC L Fd Hd HU HB HP HL S. change val with R32 in *.
  destruct half_pi_R as [N1 N2]. simpl pow in Hd. set (h := f32_FRAC_PI_2) in *.
  assert (NB : 1.5707 <= R32 h <= 1.571) by (rewrite N1; lra). clear N1.
  assert (I : 2.01 <= R32 h / R32 d <= 2 * 1048576).
  { split; apply Rmult_le_reg_r with (R32 d); try lra; unfold Rdiv; rewrite Rmult_assoc, Rinv_l by lra; lra. }
  destruct (fdiv_R h d N2) as [D1 D2]; [lra|apply Rabs_le_iff|].
  { pose proof big32_ge. assert (2 * 1048576 <= IZR (2 ^ 100)) by (cbn; lra). lra. }
  pose proof (rnd32_err (R32 h / R32 d)) as Er. rewrite <- D1, (Rabs_pos_eq (R32 h / R32 d)) in Er by lra.
  pose proof tiny32_bound as [_ Ti]. apply Rabs_le_iff in Er.
  assert (Q : R32 (fdiv h d) >= (1 - 2 * u32) * (R32 h / R32 d)) by (unfold u32 in *; lra).
  destruct (width_covers lm (fdiv h d) L D2) as [W _]; [unfold u32 in *; lra|]. cbv zeta in W.
  set (w := u8_of_f32 (fceil (m_log2 lm (fdiv h d)))) in *.
  assert (WP : normal_precision p = w) by (rewrite HU; reflexivity).
  assert (P2 : IZR (2 ^ Z.of_nat w) = 2 ^ w) by (rewrite <- pow_IZR; reflexivity).
  rewrite P2, <- WP in W.
  assert (B1 : (1 <= normal_precision p)%nat).
  { destruct (normal_precision p); [exfalso; simpl pow in W; unfold u32 in Q; lra|lia]. }
  assert (T2 : 2 <= 2 ^ normal_precision p) by (replace 2 with (2 ^ 1) at 1 by lra; apply Rle_pow; [lra|lia]).
  set (s := / (2 ^ normal_precision p - 1)). set (g := R32 d / 1.5707).
  assert (G0 : 0 < g) by (unfold g; lra).
  assert (ST : s <= 2.002 * g).
  { unfold s. apply Rmult_le_reg_l with (2 ^ normal_precision p - 1); [lra|]. rewrite Rinv_r by lra.
    assert (E : 1.5707 / R32 d * g = 1) by (unfold g; field; lra).
    assert (M : 1.5707 / R32 d <= R32 h / R32 d) by (apply Rmult_le_compat_r; [apply Rlt_le, Rinv_0_lt_compat|]; lra).
    assert (0.9997 * (1.5707 / R32 d) <= 2 ^ normal_precision p) by (unfold u32 in Q; lra).
    assert (G : (0.9997 * (1.5707 / R32 d)) * g <= 2 ^ normal_precision p * g) by (apply Rmult_le_compat_r; lra).
    rewrite Rmult_assoc, E in G.
    assert (2 * g <= 2 ^ normal_precision p * g) by (apply Rmult_le_compat_r; lra). lra. }
  destruct (C35_normal_cosine_bound lm lm' oc' p l out A SC) as (l' & R & F); auto.
  exists l'. split; auto. eapply F2_impl; [|exact F]. intros a b H. unfold on_normals, arrays in *.
  destruct (normals (fst a)), (normals (fst b)); auto. eapply F2_impl; [|exact H]. cbv beta zeta. intros n n' G U.
  eapply Rle_trans; [|apply G, U]. unfold least_cosine. fold s.
  destruct (step_01 (normal_precision p) B1) as [S0 _]. fold s in S0.
  assert (s * s <= 2.002 * g * (2.002 * g)) by (apply mul_le; lra). lra.
Qed.
Print Assumptions C35_radians.
(** A sixty-fourth of a radian, which takes at most 8 bits. *)
Definition sixty_fourth : f32 := flit 1 64.
Lemma sixty_fourth_R : finite sixty_fourth /\ val sixty_fourth = / 64.
Proof.
  let v := eval vm_compute in (B2SF sixty_fourth) in destruct (R32_SF sixty_fourth v) as [A B]; [vm_compute; reflexivity|].
  split; [exact B|]. change val with R32. rewrite A. unfold SF2R, F2R. cbn. lra.
Qed.
Definition radian_prec : prec_info := mk_prec (flit 1 10) (normal_from_rad_dev exact_libm sixty_fourth) 14 8.
Lemma radian_bits : (normal_from_rad_dev exact_libm sixty_fourth <= 8)%nat.
Proof.
  unfold normal_from_rad_dev.
  assert (X : fin (fdiv f32_FRAC_PI_2 sixty_fourth) /\ 100 <= R32 (fdiv f32_FRAC_PI_2 sixty_fourth) <= 101).
  { let v := eval vm_compute in (B2SF (fdiv f32_FRAC_PI_2 sixty_fourth)) in destruct (R32_SF (fdiv f32_FRAC_PI_2 sixty_fourth) v) as [A B]; [vm_compute; reflexivity|].
    split; [exact B|]. rewrite A. unfold SF2R, F2R. cbn. lra. }
  destruct X as [F V]. destruct (width_covers exact_libm _ exact_log2_ok F ltac:(lra)) as [_ W]. cbv zeta in W.
  set (w := u8_of_f32 _) in *. destruct (le_lt_dec w 8) as [|Lt]; auto. exfalso. specialize (W ltac:(lia)).
  assert (P2 : IZR (2 ^ Z.of_nat w) = 2 ^ w) by (rewrite <- pow_IZR; reflexivity). rewrite P2 in W.
  assert (2 ^ 9 <= 2 ^ w) by (apply Rle_pow; [lra|lia]). simpl pow in *. lra.
Qed.
Example C35_radians_case : exists out, asin_ok exact_libm /\ sin_cos_ok exact_libm /\ log2_ok exact_libm /\
  finite sixty_fourth /\ / 2 ^ 20 <= val sixty_fourth <= 0.78 /\ (normal_precision radian_prec <= 24)%nat /\
  precision_ok radian_prec /\ list_ok exact_libm [(normal_mesh polar, [])] /\
  saved exact_libm true radian_prec [(normal_mesh polar, [])] = Ok out /\ unit_vector polar.
Proof.
  destruct sixty_fourth_R as [S1 S2]. pose proof radian_bits as RB.
  assert (SV : exists out, saved exact_libm true radian_prec [(normal_mesh polar, [])] = Ok out).
  { apply C53_without_vertices_saved; [cbn [normal_precision radian_prec]; lia|apply Nat.leb_le; reflexivity|apply Nat.leb_le; reflexivity|].
    apply Forall_cons; [|apply Forall_nil]. cbn [fst]. split; [reflexivity|]. split; [|apply Forall_nil].
    intros l I. unfold normal_mesh in I. cbn [with_normals empty vertex_triangles normal_triangles uv_triangles tangent_triangles In] in I.
    repeat (destruct I as [I|I]; [discriminate I|]). contradiction. }
  destruct SV as [out SV]. exists out. split; [apply exact_asin_ok|]. split; [apply exact_sin_cos_ok|]. split; [apply exact_log2_ok|].
  split; [exact S1|]. split; [rewrite S2; simpl pow; lra|]. split; [cbn [normal_precision radian_prec]; lia|].
  split; [split; cbn [normal_precision radian_prec uv_prec tangent_prec]; lia|]. split; [|split; [exact SV|apply polar_unit]].
  split; [reflexivity|]. apply Forall_cons; [|apply Forall_nil]. cbn [fst snd]. split; [|split; [apply name_ok_ascii; reflexivity|reflexivity]].
  unfold normal_mesh. constructor; cbn [with_normals empty normals normal_triangles vertices vertex_triangles uvs uv_triangles tangents tangent_triangles custom_data];
    first [apply small_none | apply indices_none | apply Forall_nil | apply small_some; reflexivity].
Qed.
