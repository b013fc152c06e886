(** Property C74: what a program built with [double_precision] does with texture coordinates and
    colour channels above 1 and with those that are no numbers. *)
From Coq Require Import List NArith ZArith Arith Lia Bool Reals Lra.
From Flocq Require Import Core IEEE754.BinarySingleNaN.
From Verif Require Import Base UnalignedRW ReadExt Floats Floats_proofs FloatReal_proofs Utilis Mesh Tmf File FileSpec SaveSpec
  ValueSpec VertexSpec Demo Save_proofs Save2_proofs Codec_proofs Image_proofs Quant_proofs Log2_proofs NormalReal_proofs VertexReal_proofs
  CustomReal_proofs P_Save P_Uv P_Custom Double DoubleSpec DoubleSave DoubleSaveSpec DoubleValueSpec DoubleMesh Double2_proofs DMerge_proofs DCodec_proofs DSave_proofs
  DQuant_proofs DVertex_proofs DPiece_proofs DCustom_proofs P_Double P_DoubleSave P_DoubleValue.
Import ListNotations.
Open Scope res_scope.
Local Open Scope R_scope.

(** The code of any number from 0 to 2^30, before its high bits are cut off. *)
Lemma code_above_d p mul x : (1 <= p <= 30)%nat -> R64 mul = IZR (steps p) -> fin mul -> fin x -> 0 <= R64 x <= 2 ^ 30 ->
  let q := u64_of_f64 (dmul x mul) in
  Rabs (IZR (Z.of_N q) / IZR (steps p) - R64 x) <= / IZR (steps p) + (R64 x + 1) * u64.
Proof.
  intros B M F Fx Hx q. pose proof (steps_bounds_d p B) as SB.
  set (S := IZR (steps p)) in *.
  assert (HS : 1 <= S < 2 ^ 30).
  { unfold S. split; [apply IZR_le; lia|]. replace (2 ^ 30) with (IZR (2 ^ 30)) by (simpl; lra). apply IZR_lt. lia. }
  assert (HM : 0 <= R64 x * S <= 2 ^ 60).
  { split; [apply Rmult_le_pos; lra|]. replace (2 ^ 60) with (2 ^ 30 * 2 ^ 30) by (simpl; lra).
    apply Rmult_le_compat; lra. }
  destruct (dmul_R x mul Fx F) as [A1 A2].
  { rewrite M, Rabs_pos_eq by lra. eapply Rle_trans; [apply HM|]. eapply Rle_trans; [|apply big64_ge].
    replace (2 ^ 60) with (IZR (2 ^ 60)) by (simpl; lra). apply IZR_le. lia. }
  rewrite M in A1. set (t := rnd64 (R64 x * S)) in *.
  pose proof (rnd64_err (R64 x * S)) as Er. fold t in Er. rewrite (Rabs_pos_eq (R64 x * S)) in Er by lra.
  pose proof tiny64_bound as [_ Ti]. apply Rabs_le_iff in Er.
  assert (U : 0 < u64 < 1) by (unfold u64; lra). assert (Tu : tiny64 <= u64) by (unfold u64; lra).
  assert (T : 0 <= t < 2 ^ 64).
  { split; [unfold t; rewrite <- rnd64_0; apply rnd64_le; lra|].
    assert (u64 * (R64 x * S) <= 1 * (R64 x * S)) by (apply Rmult_le_compat_r; lra).
    simpl pow in *. lra. }
  assert (E : Z.of_N q = Zfloor t).
  { unfold q. rewrite u64_floor_d, A1; auto; rewrite A1; [apply T|].
    eapply Rlt_le_trans; [apply T|]. simpl. lra. }
  rewrite E. pose proof (Zfloor_lb t). pose proof (Zfloor_ub t).
  assert (Rabs (IZR (Zfloor t) - R64 x * S) <= 1 + (R64 x + 1) * u64 * S).
  { apply Rabs_le_iff. assert (u64 * 1 <= u64 * S) by (apply Rmult_le_compat_l; lra).
    replace ((R64 x + 1) * u64 * S) with (u64 * (R64 x * S) + u64 * S) by ring. lra. }
  replace (IZR (Zfloor t) / S - R64 x) with ((IZR (Zfloor t) - R64 x * S) * / S) by (field; lra).
  rewrite Rabs_mult, (Rabs_pos_eq (/ S)) by (left; apply Rinv_0_lt_compat; lra).
  replace (/ S + (R64 x + 1) * u64) with ((1 + (R64 x + 1) * u64 * S) * / S) by (field; lra).
  apply Rmult_le_compat_r; auto. left; apply Rinv_0_lt_compat; lra.
Qed.

(** Loads inside [0,1], moved down by a whole number of turns of 2^w/(2^w-1) each. *)
Definition wrapped_d (w : nat) (x y : f64) : Prop :=
  in_unit_d y /\ exists turns : nat,
    Rabs (val64 x - INR turns * (2 ^ w / (2 ^ w - 1)) - val64 y) <= / (2 ^ w - 1) + (val64 x + 3) / 2 ^ 53.
Lemma wraps_d w mul x : mask_f64 (E:=ioerr) true w = Ok mul -> (1 <= w)%nat -> finite64 x -> 0 <= val64 x <= 2 ^ 30 ->
  wrapped_d w x (uv_value_d w (low w (uv_code_d mul x))).
Proof.
  intros M W Fx Hx. pose proof (mask_d30 _ _ M) as W30. assert (B : (1 <= w <= 30)%nat) by lia. destruct (mask_R_d _ _ M B) as [M1 M2].
  unfold wrapped_d. change val64 with R64 in *.
  pose proof (code_above_d w mul x B M1 M2 Fx Hx) as C. cbv zeta in C. fold (uv_code_d mul x) in C.
  set (q := uv_code_d mul x) in *.
  assert (P : (2 ^ N.of_nat w <> 0)%N) by (apply N.pow_nonzero; lia).
  assert (Hl : (Z.of_N (low w q) <= steps w)%Z).
  { unfold low, steps. pose proof (N.mod_lt q _ P) as L. apply N2Z.inj_lt in L.
    rewrite N2Z.inj_pow, nat_N_Z in L. change (Z.of_N 2) with 2%Z in L. lia. }
  destruct (value_d w (low w q) B Hl) as (_ & V2 & V3 & V4). cbv zeta in *. fold (uv_value_d w (low w q)) in V2, V3, V4.
  split; [split; [exact V2|exact V3]|]. exists (N.to_nat (q / 2 ^ N.of_nat w)).
  assert (D : IZR (Z.of_N q) = 2 ^ w * INR (N.to_nat (q / 2 ^ N.of_nat w)) + IZR (Z.of_N (low w q))).
  { rewrite (N.div_mod' q (2 ^ N.of_nat w)) at 1. unfold low.
    rewrite N2Z.inj_add, N2Z.inj_mul, plus_IZR, mult_IZR, N2Z.inj_pow, nat_N_Z.
    change (Z.of_N 2) with 2%Z. rewrite <- pow_IZR, INR_IZR_INZ, N_nat_Z. reflexivity. }
  rewrite D in C. rewrite <- steps_pow. pose proof (steps_bounds_d w B) as SB.
  assert (1 <= IZR (steps w)) by (apply IZR_le; lia).
  set (k := INR (N.to_nat (q / 2 ^ N.of_nat w))) in *. set (m := IZR (Z.of_N (low w q))) in *.
  replace ((2 ^ w * k + m) / IZR (steps w)) with (k * (2 ^ w / IZR (steps w)) + m / IZR (steps w)) in C by (field; lra).
  apply Rabs_le_iff in C, V4. apply Rabs_le_iff. unfold u64 in *. simpl pow in *. unfold Rdiv in *. lra.
Qed.
(** Negative numbers, NaN and minus infinity load as 0, plus infinity as 1. *)
Definition specials_d (x y : f64) : Prop :=
  (x = B754_nan -> y = d0) /\ (x = B754_infinity true -> y = d0) /\ (x = B754_infinity false -> y = d1) /\
  (finite64 x -> - 2 ^ 100 <= val64 x <= 0 -> y = d0).
Lemma special_codes_d w : (1 <= w <= 30)%nat -> let mul := f64_of_Z (steps w) in
  uv_code_d mul B754_nan = 0%N /\ uv_code_d mul (B754_infinity true) = 0%N /\
  uv_value_d w (low w (uv_code_d mul (B754_infinity false))) = d1 /\ uv_value_d w (low w 0) = d0.
Proof.
  intros B. assert (H : In w (seq 1 30)) by (apply in_seq; lia). clear B. cbn in H. cbv zeta.
  repeat (destruct H as [<-|H]; [split; [vm_compute; reflexivity|split; [vm_compute; reflexivity|split; apply B2SF_inj; vm_compute; reflexivity]]|]). contradiction.
Qed.
Lemma special_values_d w mul x : mask_f64 (E:=ioerr) true w = Ok mul -> (1 <= w)%nat -> specials_d x (uv_value_d w (low w (uv_code_d mul x))).
Proof.
  intros M W. pose proof (mask_d30 _ _ M) as W30. assert (B : (1 <= w <= 30)%nat) by lia. destruct (mask_R_d _ _ M B) as [M1 M2].
  destruct (special_codes_d w B) as (S1 & S2 & S3 & S4). rewrite <- (mask_is_d _ _ M) in *.
  split; [intros ->; now rewrite S1|]. split; [intros ->; now rewrite S2|]. split; [now intros ->|].
  intros Fx [Hb Hx]. change (val64 x) with (R64 x) in *.
  assert (HS : 1 <= IZR (steps w) < IZR (2 ^ 30)) by (pose proof (steps_bounds_d _ B); split; [apply IZR_le|apply IZR_lt]; lia).
  destruct (dmul_R x mul Fx M2) as [A1 A2].
  { rewrite M1, Rabs_left1 by nra. apply Rle_trans with (2 ^ 100 * 2 ^ 30).
    - assert (0 < 2 ^ 100) by (apply pow_lt; lra). assert (IZR (2 ^ 30) = 2 ^ 30) by (simpl; lra). nra.
    - rewrite <- pow_add. rewrite big64_pow. apply pow2_le. lia. }
  unfold uv_code_d. rewrite u64_neg_d; auto. rewrite A1, <- rnd64_0. apply rnd64_le. rewrite M1. nra.
Qed.

(** Texture coordinates, with every width the save accepts. *)
Theorem C74_uvs_wrap : forall lm sc oc' p l out,
  precision_ok_d p -> list_ok_d lm l -> saved_d lm true p l = Ok out -> (1 <= d_uv_prec p)%nat ->
  exists l', read_tmf_d sc oc' out = Ok l' /\
    Forall2 (on_uvs_d (fun x y => (finite64 x -> 0 <= val64 x <= 2 ^ 30 -> wrapped_d (d_uv_prec p) x y) /\ specials_d x y)) l l'.
Proof.
  intros lm sc oc' p l out HP HL S B. apply (uvs_load_d _ lm sc oc' p l out HP HL S).
  intros u u' U. unfold uv_rel_d in U. destruct (Nat.eqb_spec (d_uv_prec p) 0) as [E|_]; [lia|].
  destruct U as (mul & M & ->). cbn [fst snd].
  split; (split; [intros; now apply wraps_d|now apply special_values_d]).
Qed.
Print Assumptions C74_uvs_wrap.

(** Colour channels, w being the number of bits of the array. *)
Theorem C74_colors_wrap : forall lm sc oc' p l out,
  log2_64_ok lm -> precision_ok_d p -> list_ok_d lm l -> saved_d lm true p l = Ok out ->
  exists l', read_tmf_d sc oc' out = Ok l' /\
    Forall2 (on_custom_d (fun d d' => forall cs q, d = XColor cs q -> finite64 q -> / 2 ^ 60 <= val64 q <= 1 - / 2 ^ 10 ->
      exists cs' q' (w : nat), d' = XColor cs' q' /\ 0.9997 <= 2 ^ w * val64 q <= 2.001 /\
        Forall2 (channels_d (fun x y => (finite64 x -> 0 <= val64 x <= 2 ^ 30 -> wrapped_d w x y) /\ specials_d x y)) cs cs')) l l'.
Proof.
  intros lm sc oc' p l out LG HP HL S. apply (custom_loads_d _ lm sc oc' p l out HP HL S).
  intros d d' DR cs q -> Fq Hq. destruct d' as [| | |cs' q']; try contradiction. destruct DR as (_ & mul & M & ->).
  pose proof (mask_d30 _ _ M) as W30. destruct (color_width_R_d lm q LG Fq Hq W30) as (W1 & WL).
  eexists. exists q', (color_width_d lm q). split; [reflexivity|]. split; [exact WL|].
  assert (G : forall x, let y := color_value_d (color_width_d lm q) (low (color_width_d lm q) (color_code_d mul x)) in
    (finite64 x -> 0 <= val64 x <= 2 ^ 30 -> wrapped_d (color_width_d lm q) x y) /\ specials_d x y).
  { intros x y. split; [intros; now apply wraps_d|now apply special_values_d]. }
  apply F2_map. intros v _. unfold channels_d, map4_d. cbn [fst snd]. split; [|split; [|split]]; apply G.
Qed.
Print Assumptions C74_colors_wrap.

(** ** The hypotheses can be met *)
Definition far_uvs_d : dmesh :=
  mk_dmesh None None None None (Some [(f64_of_Z 2, B754_nan); (B754_infinity true, B754_infinity false)]) None None None
    [mk_dcseg [99]%N 1 (XColor [(f64_of_Z 2, B754_nan, d1, B754_infinity false)] (dlit 1 1024))].
Example C74_wrap_case : log2_64_ok grid_d /\ precision_ok_d sixteenth_d /\ list_ok_d grid_d [(far_uvs_d, [])] /\
  (exists out, saved_d grid_d true sixteenth_d [(far_uvs_d, [])] = Ok out) /\ (1 <= d_uv_prec sixteenth_d)%nat /\
  finite64 (f64_of_Z 2) /\ 0 <= val64 (f64_of_Z 2) <= 2 ^ 30 /\
  finite64 (dlit 1 1024) /\ / 2 ^ 60 <= val64 (dlit 1 1024) <= 1 - / 2 ^ 10.
Proof.
  destruct thousandth_R as [T1 T2]. destruct (f64_of_Z_exact 2) as [A B]; [lia|].
  split; [apply grid_d_ok|]. split; [split; cbn; lia|]. split.
  { split; [reflexivity|]. apply Forall_cons; [|apply Forall_nil]. cbn [fst snd].
    split; [|split; [apply name_ok_ascii; reflexivity|reflexivity]].
    constructor; unfold far_uvs_d; cbn [d_normals d_normal_triangles d_vertices d_vertex_triangles d_uvs d_uv_triangles d_tangents d_tangent_triangles d_custom_data]; first [apply small_none | apply indices_none | apply small_some; vm_compute; reflexivity | idtac].
    repeat (apply Forall_cons || apply Forall_nil); unfold custom_ok_d; cbn [x_name x_name_len x_data];
      (split; [repeat (apply Forall_cons; [reflexivity|]); apply Forall_nil|]; split; [reflexivity|]; split; [lia|]); vm_compute; discriminate. }
  split; [eexists; vm_compute; reflexivity|]. split; [cbn; lia|]. split; [exact B|]. change val64 with R64 in *. rewrite A, T2.
  split; [simpl pow; lra|]. split; [exact T1|simpl pow; lra].
Qed.
