(** Properties C33 and C34: accuracy of UV coordinates. *)
From Coq Require Import List NArith ZArith Arith Lia Bool Reals Lra.
From Flocq Require Import Core IEEE754.BinarySingleNaN.
From Verif Require Import Base UnalignedRW ReadExt Floats Floats_proofs FloatReal_proofs Uv CustomData Mesh Tmf File FileSpec SaveSpec
  ValueSpec Demo Save_proofs Save2_proofs Codec_proofs Image_proofs Quant_proofs Log2_proofs P_Save.
Import ListNotations.
Open Scope res_scope.
Local Open Scope R_scope.

(** The theorems speak of whole files: a list [l] of meshes is saved with the
    precisions [p] and loaded as [l'], mesh by mesh in the same order. [on_uvs P]
    says that the UV arrays of two meshes are both absent, or equally long with
    [P] between the coordinates. *)
Definition on_uvs (P : f32 -> f32 -> Prop) (a b : mesh * list N) : Prop :=
  arrays (fun u u' : vec2 => P (fst u) (fst u') /\ P (snd u) (snd u')) (uvs (fst a)) (uvs (fst b)).

Lemma uvs_load (P : f32 -> f32 -> Prop) lm lm' oc' p l out :
  precision_ok p -> list_ok lm l -> saved lm true p l = Ok out ->
  (forall u u', uv_rel (uv_prec p) u u' -> P (fst u) (fst u') /\ P (snd u) (snd u')) ->
  exists l', read_tmf lm' oc' out = Ok l' /\ Forall2 (on_uvs P) l l'.
Proof.
  intros HP HL S H. destruct (saved_loads_as lm lm' oc' p l out HP HL S) as (l' & R & F).
  exists l'. split; auto. eapply F2_impl; [|exact F]. intros a b (_ & edge & _ & [_ _ M _ _]).
  unfold on_uvs, arrays. cbn [with_custom_data uvs] in M. destruct (uvs (fst a)), (uvs (fst b)); try contradiction; auto.
  cbn [orel] in M. eapply F2_impl; [|exact M]. exact H.
Qed.

(** One mesh with one pair of UVs. *)
Definition uv_mesh (x y : f32) : mesh := with_uvs empty (Some [(x, y)]).
Lemma uv_mesh_loads lm lm' oc' p x y mul out :
  precision_ok p -> (segment_count lm true (uv_mesh x y) < 65536)%N ->
  saved lm true p [(uv_mesh x y, [])] = Ok out -> uv_prec p <> 0%nat -> mask_f32 (E:=ioerr) true (uv_prec p) = Ok mul ->
  exists l', read_tmf lm' oc' out = Ok l' /\ map (fun mn => uvs (fst mn)) l' = [Some [uv_image (uv_prec p) mul (f32_of_N (mask_u64 (uv_prec p))) (x, y)]].
Proof.
  intros HP HC S N0 M.
  assert (HL : list_ok lm [(uv_mesh x y, [])]).
  { split; [reflexivity|]. apply Forall_cons; [|apply Forall_nil]. cbn [fst snd].
    split; [unfold uv_mesh; storable_tac|]. split; [apply name_ok_ascii; reflexivity|exact HC]. }
  destruct (saved_loads_as lm lm' oc' p _ out HP HL S) as (l' & R & F). exists l'. split; auto.
  inversion F as [|a b ? ? (_ & edge & _ & [_ _ G _ _]) F2]; subst. inversion F2; subst.
  cbn [fst uv_mesh with_custom_data with_uvs uvs empty image_rels ru] in G. cbn [map].
  destruct (uvs (fst b)) as [ub|]; [|contradiction]. cbn [orel] in G.
  inversion G as [|? u ? ? U G2]; subst. inversion G2; subst. unfold uv_rel in U.
  destruct (Nat.eqb_spec (uv_prec p) 0) as [E|_]; [contradiction|]. destruct U as (mul' & M' & ->).
  rewrite M in M'. apply Ok_inj in M'. now subst mul'.
Qed.

Lemma uv_mesh_saved lm p x y : precision_ok p -> (uv_prec p <= 30)%nat ->
  exists out, saved lm true p [(uv_mesh x y, [])] = Ok out.
Proof.
  intros [H1 H2] H3. apply C53_without_vertices_saved; auto. apply Forall_cons; [|apply Forall_nil].
  cbn [fst]. split; [reflexivity|]. split; [|apply Forall_nil].
  intros l I. cbn in I. repeat (destruct I as [I|I]; [discriminate I|]). contradiction.
Qed.

Lemma steps_pow p : IZR (steps p) = 2 ^ p - 1.
Proof. unfold steps. rewrite minus_IZR, <- pow_IZR. reflexivity. Qed.

(** C33. A coordinate in [0,1] stored with 1 to 24 bits loads inside [0,1] and within
    1/(2^p-1) (and the rounding errors, less than 2^-22) of what it was. *)
Theorem C33_uv_error_bound : forall lm lm' oc' p l out,
  precision_ok p -> list_ok lm l -> saved lm true p l = Ok out -> (1 <= uv_prec p <= 24)%nat ->
  exists l', read_tmf lm' oc' out = Ok l' /\
    Forall2 (on_uvs (fun x y => in_unit x ->
       in_unit y /\ within (/ (2 ^ uv_prec p - 1) + / 2 ^ 22) x y)) l l'.
Proof.
  intros lm lm' oc' p l out HP HL S B. apply (uvs_load _ lm lm' oc' p l out HP HL S).
  intros u u' U. unfold uv_rel in U. destruct (Nat.eqb_spec (uv_prec p) 0) as [E|_]; [lia|].
  destruct U as (mul & M & ->). unfold uv_image. cbn [fst snd].
  assert (G : forall x, in_unit x ->
    in_unit (uv_value (f32_of_N (mask_u64 (uv_prec p))) (low (uv_prec p) (uv_code mul x))) /\
    within (/ (2 ^ uv_prec p - 1) + / 2 ^ 22) x (uv_value (f32_of_N (mask_u64 (uv_prec p))) (low (uv_prec p) (uv_code mul x)))).
  { intros x [Fx Hx]. destruct (uv_coordinate (uv_prec p) mul x B M Fx Hx) as (A1 & A2 & A3). cbv zeta in *.
    split; [split; [exact A1|exact A2]|]. unfold within. rewrite <- steps_pow.
    eapply Rle_trans; [exact A3|]. unfold u32. simpl pow. lra. }
  split; apply G.
Qed.
Print Assumptions C33_uv_error_bound.

(** The demo mesh (coordinates 0 and 1, 14 bits) meets the hypotheses. *)
Lemma unit_f0 : in_unit f0. Proof. split; [reflexivity|]. change (val f0) with 0. lra. Qed.
Lemma unit_f1 : in_unit f1.
Proof. destruct f1_R as [A B]. split; [exact B|]. change (val f1) with (R32 f1). lra. Qed.
Example C33_case : exists out l', saved demo true demo_prec demo_list = Ok out /\ (1 <= uv_prec demo_prec <= 24)%nat /\
  in_unit f0 /\ in_unit f1 /\ read_tmf demo false out = Ok l' /\
  exists a b c d, map (fun mn => uvs (fst mn)) l' = [Some [(a, b); (c, d)]; None] /\
    within (/ 16000) f0 a /\ within (/ 16000) f1 b /\ within (/ 16000) f1 c /\ within (/ 16000) f0 d.
Proof.
  assert (exists out, saved demo true demo_prec demo_list = Ok out) as [out S] by (eexists; vm_compute; reflexivity).
  destruct demo_ok as [D1 D2]. assert (B : (1 <= uv_prec demo_prec <= 24)%nat) by (cbn; lia).
  destruct (C33_uv_error_bound _ demo false _ _ _ D1 D2 S B) as (l' & R & F).
  exists out, l'. split; auto. split; auto. split; [apply unit_f0|]. split; [apply unit_f1|]. split; auto.
  pose proof unit_f0 as U0. pose proof unit_f1 as U1.
  inversion F as [|a b ? ? E1 F2]; subst. inversion F2 as [|c d ? ? E2 F3]; subst. inversion F3; subst.
  unfold on_uvs, arrays in E1, E2. cbn [fst uvs demo_mesh empty] in E1, E2.
  destruct b as [b nb], d as [d nd]. cbn [fst] in E1, E2. cbn [map fst].
  destruct (uvs b) as [ub|]; [|contradiction]. destruct (uvs d) as [ud|]; [contradiction|].
  inversion E1 as [|? [a1 b1] ? ? [G1 G2] E3]; subst. inversion E3 as [|? [c1 d1] ? ? [G3 G4] E4]; subst.
  inversion E4; subst. cbn [fst snd] in *.
  assert (W : forall x y, within (/ (2 ^ uv_prec demo_prec - 1) + / 2 ^ 22) x y -> within (/ 16000) x y).
  { intros x y H. unfold within in *. eapply Rle_trans; [exact H|]. cbn [uv_prec demo_prec]. simpl pow. lra. }
  exists a1, b1, c1, d1. split; [reflexivity|].
  repeat split; apply W; [apply G1|apply G2|apply G3|apply G4]; auto.
Qed.

(** Zero and negative coordinates load as 0. *)
Theorem C33_negative_coordinates : forall lm lm' oc' p l out,
  precision_ok p -> list_ok lm l -> saved lm true p l = Ok out -> (uv_prec p <= 24)%nat ->
  exists l', read_tmf lm' oc' out = Ok l' /\
    Forall2 (on_uvs (fun x y => finite x /\ val x <= 0 /\ - 2 ^ 100 <= val x -> finite y /\ val y = 0)) l l'.
Proof.
  intros lm lm' oc' p l out HP HL S B. apply (uvs_load _ lm lm' oc' p l out HP HL S).
  intros u u' U. unfold uv_rel in U. destruct (Nat.eqb_spec (uv_prec p) 0) as [E|E].
  { subst u'. cbn [fst snd]. split; intros _; split; reflexivity. }
  destruct U as (mul & M & ->). unfold uv_image. cbn [fst snd].
  assert (B' : (1 <= uv_prec p <= 24)%nat) by lia.
  destruct (mask_R _ _ M B') as [M1 M2].
  assert (G : forall x, finite x /\ val x <= 0 /\ - 2 ^ 100 <= val x ->
    finite (uv_value (f32_of_N (mask_u64 (uv_prec p))) (low (uv_prec p) (uv_code mul x))) /\
    val (uv_value (f32_of_N (mask_u64 (uv_prec p))) (low (uv_prec p) (uv_code mul x))) = 0).
  { intros x (Fx & Hx & Hb). change (val x) with (R32 x) in Hx, Hb.
    assert (1 <= IZR (steps (uv_prec p)) < IZR (2 ^ 24)).
    { pose proof (steps_bounds _ B'). split; [apply IZR_le|apply IZR_lt]; lia. }
    destruct (fmul_R x mul Fx M2) as [A1 A2].
    { rewrite M1, Rabs_left1 by nra. apply Rle_trans with (2 ^ 100 * 2 ^ 24).
      - assert (0 < 2 ^ 100) by (apply pow_lt; lra).
        assert (IZR (2 ^ 24) = 2 ^ 24) by (simpl; lra). nra.
      - rewrite <- pow_add. rewrite big32_pow. apply pow2_le. lia. }
    unfold uv_code. rewrite u64_neg; auto.
    2:{ rewrite A1. rewrite <- rnd32_0. apply rnd32_le. rewrite M1. nra. }
    unfold low. rewrite N.mod_0_l by (apply N.pow_nonzero; lia).
    destruct (value32_R (uv_prec p) 0 B') as (V1 & V2 & _).
    { pose proof (steps_bounds _ B'). cbn. lia. }
    cbv zeta in *. unfold uv_value. split; [exact V2|]. unfold val. unfold R32 in V1. rewrite V1.
    cbn [Z.of_N]. unfold Rdiv. rewrite Rmult_0_l. apply rnd32_0. }
  split; apply G.
Qed.
Print Assumptions C33_negative_coordinates.

(** With 25 to 30 bits the coordinate 1.0 loads as 0.0. *)
Theorem C33_wide_codes_lose_one : forall lm lm' oc' p l out,
  precision_ok p -> list_ok lm l -> saved lm true p l = Ok out -> (25 <= uv_prec p)%nat ->
  exists l', read_tmf lm' oc' out = Ok l' /\ Forall2 (on_uvs (fun x y => x = f1 -> y = f0)) l l'.
Proof.
  intros lm lm' oc' p l out HP HL S B. apply (uvs_load _ lm lm' oc' p l out HP HL S).
  intros u u' U. unfold uv_rel in U. destruct (Nat.eqb_spec (uv_prec p) 0) as [E|_]; [lia|].
  destruct U as (mul & M & ->). unfold uv_image. cbn [fst snd].
  assert (G : forall x, x = f1 -> uv_value (f32_of_N (mask_u64 (uv_prec p))) (low (uv_prec p) (uv_code mul x)) = f0).
  { intros x ->. unfold uv_code. rewrite (one_lost _ _ B M).
    pose proof (mask_30 _ _ M) as B'. clear -B B'.
    assert (uv_prec p = 25 \/ uv_prec p = 26 \/ uv_prec p = 27 \/ uv_prec p = 28 \/ uv_prec p = 29 \/ uv_prec p = 30)%nat as H by lia.
    repeat (destruct H as [->|H]; [vm_compute; reflexivity|]). rewrite H. vm_compute. reflexivity. }
  split; apply G.
Qed.
Print Assumptions C33_wide_codes_lose_one.
Example C33_wide_case : exists out, saved demo true (mk_prec (flit 1 10) 7 25 8) demo_list = Ok out /\
  precision_ok (mk_prec (flit 1 10) 7 25 8).
Proof. eexists. split; [vm_compute; reflexivity|]. split; cbn; lia. Qed.

(** Coordinates above 1 wrap around: 2.0 comes back as 16382/16383. *)
Definition f2 : f32 := f32_of_Z 2.
Theorem C33_above_one_refuted : exists out l' y z,
  saved demo true demo_prec [(uv_mesh f2 f0, [])] = Ok out /\ read_tmf demo true out = Ok l' /\
  map (fun mn => uvs (fst mn)) l' = [Some [(y, z)]] /\ finite y /\ val y < 1.
Proof.
  assert (exists out, saved demo true demo_prec [(uv_mesh f2 f0, [])] = Ok out) as [out S]
    by (eexists; vm_compute; reflexivity).
  destruct (uv_mesh_loads demo demo true demo_prec f2 f0 (f32_of_Z 16383) out) as (l' & R & M); auto.
  { split; cbn; lia. }
  { vm_compute. reflexivity. }
  { discriminate. }
  exists out, l'. eexists. eexists. split; [exact S|]. split; [exact R|]. split; [exact M|]. cbn [fst].
  replace (uv_value _ _) with (flit 16382 16383) by (apply B2SF_inj; vm_compute; reflexivity).
  destruct (flit_R 16382 16383) as [A B]; [lia|lia|]. split; [exact B|].
  change (val (flit 16382 16383)) with (R32 (flit 16382 16383)). rewrite A.
  pose proof (rnd32_err (16382 / 16383)) as Er. rewrite (Rabs_pos_eq (16382 / 16383)) in Er by lra.
  pose proof tiny32_bound as [_ T]. apply Rabs_le_iff in Er. unfold u32 in Er. lra.
Qed.
Print Assumptions C33_above_one_refuted.

(** C34. With the default precision, no coordinate in [0,1] moves by a tenth of a
    pixel of a texture of 1024 pixels. All that is needed of the platform's log2 is
    that it maps 10240 to something above 13 and at most 14. *)
Theorem C34_default_pixel_deviation : forall lm lm' oc' p l out,
  finite (m_log2 lm (f32_of_Z 10240)) -> 13 < val (m_log2 lm (f32_of_Z 10240)) <= 14 ->
  uv_prec p = uv_default lm ->
  precision_ok p -> list_ok lm l -> saved lm true p l = Ok out ->
  exists l', read_tmf lm' oc' out = Ok l' /\
    Forall2 (on_uvs (fun x y => in_unit x -> in_unit y /\ Rabs (val y - val x) * 1024 < / 10)) l l'.
Proof.
  intros lm lm' oc' p l out F1 F2 HU HP HL S.
  assert (W : uv_default lm = 14%nat).
  { unfold uv_default, uv_from_resolution.
    replace (fdiv (f32_of_Z 1024) (flit 1 10)) with (f32_of_Z 10240).
    2:{ apply B2SF_inj. vm_compute. reflexivity. }
    apply Nat2Z.inj. rewrite u8_ceil by exact F1.
    rewrite (Zceil_imp 14); [reflexivity|]. cbn. exact F2. }
  destruct (C33_uv_error_bound lm lm' oc' p l out HP HL S) as (l' & R & F).
  { rewrite HU, W. lia. }
  exists l'. split; auto. eapply F2_impl; [|exact F]. intros a b H. unfold on_uvs, arrays in *.
  destruct (uvs (fst a)), (uvs (fst b)); auto. eapply F2_impl; [|exact H]. cbv beta.
  assert (G : forall x y, (in_unit x -> in_unit y /\ within (/ (2 ^ uv_prec p - 1) + / 2 ^ 22) x y) ->
    in_unit x -> in_unit y /\ Rabs (val y - val x) * 1024 < / 10).
  { intros x y H1 H2. destruct (H1 H2) as [H3 H4]. split; auto. unfold within in H4. rewrite HU, W in H4.
    simpl pow in H4. lra. }
  intros u u' [H1 H2]. split; apply G; auto.
Qed.
Print Assumptions C34_default_pixel_deviation.
(** The demo library and a correctly rounded library meet the hypothesis on log2. *)
Lemma demo_10240 : m_log2 demo (f32_of_Z 10240) = f32_of_Z 14.
Proof. apply B2SF_inj. vm_compute. reflexivity. Qed.
Example C34_case : finite (m_log2 demo (f32_of_Z 10240)) /\ 13 < val (m_log2 demo (f32_of_Z 10240)) <= 14 /\
  uv_prec demo_prec = uv_default demo.
Proof.
  rewrite demo_10240. destruct (f32_of_Z_exact 14) as [A B]; [lia|]. split; [exact B|].
  change (val (f32_of_Z 14)) with (R32 (f32_of_Z 14)). rewrite A. split; [lra|]. vm_compute. reflexivity.
Qed.

(** For any other resolution and deviation: with an accurate log2, a coordinate moves
    by little more than twice the requested deviation (in pixels). *)
Theorem C34_pixel_deviation : forall lm lm' oc' p l out resolution deviation,
  log2_ok lm -> finite resolution -> finite deviation ->
  0 < val deviation -> val deviation <= val resolution -> val resolution <= 2 ^ 24 * val deviation ->
  uv_prec p = uv_from_resolution lm resolution deviation -> (1 <= uv_prec p <= 24)%nat ->
  precision_ok p -> list_ok lm l -> saved lm true p l = Ok out ->
  exists l', read_tmf lm' oc' out = Ok l' /\
    Forall2 (on_uvs (fun x y => in_unit x -> in_unit y /\
      Rabs (val y - val x) * val resolution <= 2.002 * val deviation + val resolution / 2 ^ 22)) l l'.
Proof.
  intros lm lm' oc' p l out r d L Fr Fd Pd Hd Hr HU HB HP HL S.
  change val with R32 in *.
  assert (I : 1 <= R32 r / R32 d <= 2 ^ 24).
  { split; apply Rmult_le_reg_r with (R32 d); auto; unfold Rdiv; rewrite Rmult_assoc, Rinv_l by lra; lra. }
  destruct (fdiv_R r d Fr) as [D1 D2]; [lra| |].
  { rewrite Rabs_pos_eq by lra. eapply Rle_trans; [apply I|]. rewrite big32_pow. apply pow2_le. lia. }
  pose proof (rnd32_err (R32 r / R32 d)) as Er. rewrite <- D1, (Rabs_pos_eq (R32 r / R32 d)) in Er by lra.
  pose proof tiny32_bound as [_ Ti]. apply Rabs_le_iff in Er.
  assert (Q : R32 (fdiv r d) >= (1 - 2 * u32) * (R32 r / R32 d)) by (unfold u32 in *; lra).
  destruct (width_covers lm (fdiv r d) L D2) as [W _]; [unfold u32 in *; lra|].
  fold (uv_from_resolution lm r d) in W. cbv zeta in W. rewrite <- HU in W.
  destruct (C33_uv_error_bound lm lm' oc' p l out HP HL S HB) as (l' & R & F).
  exists l'. split; auto. eapply F2_impl; [|exact F]. intros a b H. unfold on_uvs, arrays in *.
  destruct (uvs (fst a)), (uvs (fst b)); auto. eapply F2_impl; [|exact H]. cbv beta.
  assert (P2 : IZR (2 ^ Z.of_nat (uv_prec p)) = 2 ^ uv_prec p) by (rewrite <- pow_IZR; reflexivity).
  rewrite P2 in W.
  assert (2 <= 2 ^ uv_prec p).
  { replace 2 with (2 ^ 1) at 1 by lra. apply Rle_pow; [lra|lia]. }
  assert (B : / (2 ^ uv_prec p - 1) * R32 r <= 2.002 * R32 d).
  { apply Rmult_le_reg_l with (2 ^ uv_prec p - 1); [lra|]. rewrite <- Rmult_assoc, Rinv_r, Rmult_1_l by lra.
    assert (E : (R32 r / R32 d) * R32 d = R32 r) by (field; lra).
    assert (0.9997 * (R32 r / R32 d) <= 2 ^ uv_prec p) by (unfold u32 in Q; lra).
    assert (0.9997 * R32 r <= 2 ^ uv_prec p * R32 d).
    { rewrite <- E at 1. rewrite <- Rmult_assoc. apply Rmult_le_compat_r; lra. }
    nra. }
  assert (G : forall x y, (in_unit x -> in_unit y /\ within (/ (2 ^ uv_prec p - 1) + / 2 ^ 22) x y) ->
    in_unit x -> in_unit y /\ Rabs (val y - val x) * R32 r <= 2.002 * R32 d + R32 r / 2 ^ 22).
  { intros x y H1 H2. destruct (H1 H2) as [H3 H4]. split; auto. unfold within in H4.
    apply Rle_trans with ((/ (2 ^ uv_prec p - 1) + / 2 ^ 22) * R32 r); [apply Rmult_le_compat_r; lra|].
    rewrite Rmult_plus_distr_r. unfold Rdiv. rewrite (Rmult_comm (R32 r)). apply Rplus_le_compat_r. exact B. }
  intros u u' [H1 H2]. split; apply G; auto.
Qed.
Print Assumptions C34_pixel_deviation.
(** A correctly rounded log2 is accurate enough. *)
Example C34_accurate_library : log2_ok exact_libm.
Proof. apply exact_log2_ok. Qed.

(** The documented bound itself does not hold: for 1024 pixels and a deviation of one
    pixel, the coordinate 1 - 2^-24 moves by more than a pixel. *)
Definition almost_one : f32 := flit 16777215 16777216.
Theorem C34_one_pixel_refuted : forall lm, m_log2 lm (f32_of_Z 1024) = f32_of_Z 10 ->
  exists out l' y z,
  saved lm true (mk_prec (flit 1 10) 7 (uv_from_resolution lm (f32_of_Z 1024) f1) 8) [(uv_mesh almost_one f0, [])] = Ok out /\
  read_tmf lm true out = Ok l' /\ map (fun mn => uvs (fst mn)) l' = [Some [(y, z)]] /\
  in_unit almost_one /\ Rabs (val y - val almost_one) * 1024 > 1.
Proof.
  intros lm H.
  assert (W : uv_from_resolution lm (f32_of_Z 1024) f1 = 10%nat).
  { unfold uv_from_resolution. replace (fdiv (f32_of_Z 1024) f1) with (f32_of_Z 1024).
    2:{ apply B2SF_inj. vm_compute. reflexivity. }
    rewrite H. vm_compute. reflexivity. }
  rewrite W. set (pr := mk_prec (flit 1 10) 7 10 8).
  assert (HP : precision_ok pr) by (split; cbn; lia).
  destruct (uv_mesh_saved lm pr almost_one f0 HP) as [out S]; [cbn; lia|].
  destruct (uv_mesh_loads lm lm true pr almost_one f0 (f32_of_Z 1023) out) as (l' & R & M); auto.
  { vm_compute. reflexivity. }
  { discriminate. }
  exists out, l'. eexists. eexists. split; [exact S|]. split; [exact R|]. split; [exact M|]. cbn [fst].
  replace (uv_value _ _) with (flit 1022 1023) by (apply B2SF_inj; vm_compute; reflexivity).
  destruct (flit_R 1022 1023) as [A B]; [lia|lia|].
  destruct (flit_R 16777215 16777216) as [A1 B1]; [lia|lia|].
  change val with R32. unfold in_unit. change val with R32. fold almost_one in A1, B1. rewrite A.
  assert (X : R32 almost_one = 16777215 / 16777216).
  { rewrite A1. apply round_generic; [auto with typeclass_instances|].
    change fexp32 with (FLT_exp (-149) 24). apply generic_format_FLT.
    exists (Float radix2 16777215 (-24)); cbn; [unfold F2R; cbn; lra|lia|lia]. }
  rewrite X. split; [split; [exact B1|lra]|].
  pose proof (rnd32_err (1022 / 1023)) as Er. rewrite (Rabs_pos_eq (1022 / 1023)) in Er by lra.
  pose proof tiny32_bound as [_ T]. apply Rabs_le_iff in Er. unfold u32 in Er.
  rewrite Rabs_left1 by lra. lra.
Qed.
Print Assumptions C34_one_pixel_refuted.
Example C34_one_pixel_case : m_log2 demo (f32_of_Z 1024) = f32_of_Z 10.
Proof. apply B2SF_inj. vm_compute. reflexivity. Qed.
