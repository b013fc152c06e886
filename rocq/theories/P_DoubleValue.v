(** Property C74: how accurately a program built with [double_precision] stores numbers. *)
From Coq Require Import List NArith ZArith Arith Lia Bool Reals Lra.
From Flocq Require Import Core IEEE754.BinarySingleNaN.
From Verif Require Import Base UnalignedRW ReadExt Floats Floats_proofs FloatReal_proofs Utilis Mesh Tmf File FileSpec SaveSpec
  ValueSpec VertexSpec Demo Save_proofs Save2_proofs Codec_proofs Image_proofs Quant_proofs Log2_proofs NormalReal_proofs VertexReal_proofs
  CustomReal_proofs P_Save P_Uv P_Custom Double DoubleSpec DoubleSave DoubleSaveSpec DoubleValueSpec Double2_proofs DMerge_proofs DCodec_proofs DSave_proofs
  DQuant_proofs DVertex_proofs DPiece_proofs DCustom_proofs P_Double P_DoubleSave.
Import ListNotations.
Open Scope res_scope.
Local Open Scope R_scope.

Lemma loads_as_d lm sc oc' p l out : precision_ok_d p -> list_ok_d lm l -> saved_d lm true p l = Ok out ->
  exists l', read_tmf_d sc oc' out = Ok l' /\ Forall2 (fun a b => snd a = snd b /\ loaded_as_d lm sc p (fst a) (fst b)) l l'.
Proof. intros HP [HL HF] S. destruct (saved_loads_d lm sc oc' p l out HP HL HF S) as (raws & l' & _ & _ & _ & _ & R & F). eauto. Qed.

(** ** Texture coordinates *)
Definition on_uvs_d (P : f64 -> f64 -> Prop) (a b : dmesh * list N) : Prop :=
  arrays (fun u u' : dvec2 => P (fst u) (fst u') /\ P (snd u) (snd u')) (d_uvs (fst a)) (d_uvs (fst b)).
Lemma uvs_load_d (P : f64 -> f64 -> Prop) lm sc oc' p l out :
  precision_ok_d p -> list_ok_d lm l -> saved_d lm true p l = Ok out ->
  (forall u u', uv_rel_d (d_uv_prec p) u u' -> P (fst u) (fst u') /\ P (snd u) (snd u')) ->
  exists l', read_tmf_d sc oc' out = Ok l' /\ Forall2 (on_uvs_d P) l l'.
Proof.
  intros HP HL S H. destruct (loads_as_d lm sc oc' p l out HP HL S) as (l' & R & F).
  exists l'. split; auto. eapply F2_impl; [|exact F]. intros a b (_ & edge & _ & M). pose proof (dr_u _ _ _ M) as U.
  unfold on_uvs_d, arrays. cbn [with_custom_data_d d_uvs image_rels_d du] in U. destruct (d_uvs (fst a)), (d_uvs (fst b)); try contradiction; auto.
  cbn [orel] in U. eapply F2_impl; [|exact U]. exact H.
Qed.

Lemma one_kept {E} p mul x : (1 <= p <= 30)%nat -> mask_f64 (E:=E) true p = Ok mul -> fin x -> R64 x = 1 ->
  let y := ddiv (f64_of_N (low p (u64_of_f64 (dmul x mul)))) (f64_of_N (mask_u64 p)) in fin y /\ R64 y = 1.
Proof.
  intros HP M Fx Vx y. destruct (mask_R_d _ _ M HP) as [M1 M2]. pose proof (steps_bounds_d p HP) as SB.
  destruct (code_R_d p mul x HP M1 M2 Fx ltac:(lra)) as (C1 & C2 & C3). cbv zeta in *. unfold y. rewrite C2.
  destruct (value_d p _ HP C3) as (V1 & V2 & _). cbv zeta in *. split; [exact V2|]. rewrite V1.
  rewrite C1, Vx, Rmult_1_l, rnd64_Z, Zfloor_IZR by lia. unfold Rdiv. rewrite Rinv_r by (apply IZR_neq; lia). apply rnd64_1.
Qed.

(** A coordinate in [0,1] loads in [0,1], within one step of the width and a rounding error, for
    every width the save accepts; 0 and 1 are kept. (Without the feature this holds up to 24 bits,
    and with more 1 loads as 0: C33.) *)
Theorem C74_uv_error_bound : forall lm sc oc' p l out,
  precision_ok_d p -> list_ok_d lm l -> saved_d lm true p l = Ok out -> (1 <= d_uv_prec p)%nat ->
  exists l', read_tmf_d sc oc' out = Ok l' /\
    Forall2 (on_uvs_d (fun x y => in_unit_d x ->
       in_unit_d y /\ within_d (/ (2 ^ d_uv_prec p - 1) + / 2 ^ 51) x y /\
       (val64 x = 0 -> val64 y = 0) /\ (val64 x = 1 -> val64 y = 1))) l l'.
Proof.
  intros lm sc oc' p l out HP HL S B. apply (uvs_load_d _ lm sc oc' p l out HP HL S).
  intros u u' U. unfold uv_rel_d in U. destruct (Nat.eqb_spec (d_uv_prec p) 0) as [E|_]; [lia|].
  destruct U as (mul & M & ->). cbn [fst snd]. pose proof (mask_d30 _ _ M) as B30.
  assert (G : forall x, in_unit_d x -> let y := uv_value_d (d_uv_prec p) (low (d_uv_prec p) (uv_code_d mul x)) in
    in_unit_d y /\ within_d (/ (2 ^ d_uv_prec p - 1) + / 2 ^ 51) x y /\ (val64 x = 0 -> val64 y = 0) /\ (val64 x = 1 -> val64 y = 1)).
  { intros x [Fx Hx] y. destruct (uv_coordinate_d (d_uv_prec p) mul x ltac:(lia) M Fx Hx) as (A1 & A2 & A3). cbv zeta in *.
    split; [split; [exact A1|exact A2]|]. split; [|split].
    - unfold within_d. rewrite <- steps_pow. eapply Rle_trans; [exact A3|]. unfold u64. simpl pow. lra.
    - intros V. unfold y, uv_value_d. assert (C0 : low (d_uv_prec p) (uv_code_d mul x) = 0%N).
      { destruct (mask_R_d _ _ M ltac:(lia)) as [M1 M2].
        destruct (code_R_d (d_uv_prec p) mul x ltac:(lia) M1 M2 Fx Hx) as (C1 & C2 & _). cbv zeta in *.
        unfold uv_code_d. rewrite C2. change (val64 x) with (R64 x) in V. rewrite V, Rmult_0_l, rnd64_0, Zfloor_IZR in C1. lia. }
      destruct (code_value_R_d (d_uv_prec p) (uv_code_d mul x) ltac:(lia)) as [_ Z]. exact (Z C0).
    - intros V. exact (proj2 (one_kept (d_uv_prec p) mul x ltac:(lia) M Fx V)). }
  split; apply G.
Qed.
Print Assumptions C74_uv_error_bound.

(** ** Vertices *)
Definition on_vertices_d (P : list dvec3 -> list dvec3 -> Prop) (a b : dmesh * list N) : Prop :=
  match d_vertices (fst a), d_vertices (fst b) with
  | Some x, Some y => in_pieces P x y
  | None, None => True
  | _, _ => False
  end.

(** With an accurate log2 and a precision from 2^-60 to 1, x and y move by little more than twice
    the requested fraction of the shortest edge where the stored box contains them, and z by that
    much times the ratio of the extents of z and y (as C40, without its limit on the numbers). *)
Theorem C74_movement_bound : forall lm sc oc' p l out,
  log2_64_ok lm -> precision_ok_d p -> list_ok_d lm l -> saved_d lm true p l = Ok out ->
  finite64 (d_vertex_precision p) -> / 2 ^ 60 <= val64 (d_vertex_precision p) <= 1 ->
  exists l', read_tmf_d sc oc' out = Ok l' /\
    Forall2 (fun a b => forall B s,
      Forall (bounded_d B) (vlist_d (d_vertices (fst a))) -> B <= 2 ^ 50 ->
      shortest_edge_d (d_vertices (fst a)) (d_vertex_triangles (fst a)) s -> / 2 ^ 20 <= s ->
      on_vertices_d (piece_moved_d B (s * val64 (d_vertex_precision p))) a b) l l'.
Proof.
  intros lm sc oc' p l out LG HP HL S Fp Hp. destruct (loads_as_d lm sc oc' p l out HP HL S) as (l' & R & F).
  exists l'. split; auto. eapply F2_impl; [|exact F]. intros [a na] [b nb] (_ & edge & EE & M) B s FB HB SE Hs. cbn [fst] in *.
  pose proof (dr_v _ _ _ M) as MV. clear M.
  unfold on_vertices_d. cbn [fst with_custom_data_d d_vertices image_rels_d dv] in *.
  destruct (d_vertices a) as [va|], (d_vertices b) as [vb|]; try contradiction; auto. cbn [olift vlist_d] in *.
  assert (FB' : Forall (bounded_d (2 ^ 50)) va).
  { eapply Forall_impl; [|exact FB]. intros v (A1 & A2 & A3 & A4). repeat split; try apply A1; lra. }
  pose proof (shortest_edge_R_d (d_vertex_triangles a) (Some va) edge s FB' Hs SE EE) as NE.
  pose proof (edge_bound_d (Some va) (d_vertex_triangles a) s FB' SE) as SB.
  destruct MV as (ps & -> & -> & FP). exists ps. split; [reflexivity|]. split; [reflexivity|].
  clear -LG FB HB NE Hs SB Fp Hp FP. induction ps as [|[x y] ps IH]; constructor.
  - apply Forall_inv in FP. cbn [fst snd] in *. destruct FP as (q & mx & my & mz & V & Mx & My & Mz & ->).
    cbn [map concat fst] in FB. apply Forall_app in FB as [FB _]. eapply piece_close_d; eauto.
  - apply Forall_inv_tail in FP. cbn [map concat] in FB. apply Forall_app in FB as [_ FB]. auto.
Qed.
Print Assumptions C74_movement_bound.

(** ** Custom data *)
Definition on_custom_d (P : dcdata -> dcdata -> Prop) (a b : dmesh * list N) : Prop :=
  Forall2 (fun s s' => x_name s' = x_name s /\ P (x_data s) (x_data s')) (rev (d_custom_data (fst a))) (d_custom_data (fst b)).
Lemma custom_loads_d (P : dcdata -> dcdata -> Prop) lm sc oc' p l out :
  precision_ok_d p -> list_ok_d lm l -> saved_d lm true p l = Ok out ->
  (forall d d', data_rel_d lm d d' -> P d d') ->
  exists l', read_tmf_d sc oc' out = Ok l' /\ Forall2 (on_custom_d P) l l'.
Proof.
  intros HP HL S H. destruct (loads_as_d lm sc oc' p l out HP HL S) as (l' & R & F).
  exists l'. split; auto. eapply F2_impl; [|exact F]. intros a b (_ & edge & _ & M). pose proof (dr_s _ _ _ M) as MS.
  unfold on_custom_d. cbn [with_custom_data_d d_custom_data image_rels_d ds] in MS. eapply F2_impl; [|exact MS].
  intros s s' (A & _ & B). split; auto.
Qed.

(** Floats load between the least and (but for the rounding) the greatest of them, within little
    more than twice the requested precision, however fine; equal floats load exactly. *)
Theorem C74_float_error_bound : forall lm sc oc' p l out,
  log2_64_ok lm -> precision_ok_d p -> list_ok_d lm l -> saved_d lm true p l = Ok out ->
  exists l', read_tmf_d sc oc' out = Ok l' /\
    Forall2 (on_custom_d (fun d d' => forall fs q, d = XFloat fs q ->
      exists fs' q', d' = XFloat fs' q' /\ length fs' = length fs /\
      forall B lo hi, ranges_d B lo hi fs -> B <= 2 ^ 60 -> finite64 q -> 0 < val64 q ->
        (/ 2 ^ 60 * val64 q <= hi - lo <= 2 ^ 60 * val64 q ->
           Forall2 (fun x y => finite64 y /\ lo <= val64 y <= hi + / 2 ^ 50 * B + / 2 ^ 99 /\
                               within_d (2.002 * val64 q + / 2 ^ 48 * B + / 2 ^ 99) x y) fs fs') /\
        (lo = hi -> Forall2 (fun x y => finite64 y /\ val64 y = val64 x) fs fs'))) l l'.
Proof.
  intros lm sc oc' p l out LG HP HL S. apply (custom_loads_d _ lm sc oc' p l out HP HL S).
  intros d d' DR fs q ->. destruct d' as [| |fs' q'|]; try contradiction. destruct DR as (_ & mul & M & ->).
  exists (map (float_image_d lm fs q mul) fs), q'. split; [reflexivity|]. split; [apply map_length|].
  intros B lo hi HR HB Fq Pq. destruct (ranges_is_d _ _ _ _ HR) as (A1 & A2 & E1 & E2 & B1 & B2 & LH & FR).
  pose proof (mask_d30 _ _ M) as W30. assert (W1 : (1 <= float_width_d lm fs q)%nat) by (unfold float_width_d; lia).
  assert (IM : forall x, float_image_d lm fs q mul x =
    dequantize_d (low (float_width_d lm fs q) (float_code1_d (snd (float_range_d fs)) (fst (float_range_d fs)) mul x))
      (f64_of_N (mask_u64 (float_width_d lm fs q))) (dsub (fst (float_range_d fs)) (snd (float_range_d fs))) (snd (float_range_d fs))) by reflexivity.
  split.
  - intros Hs. destruct (float_width_R_d lm fs B lo hi q LG HR HB Fq Pq Hs W30) as (_ & WL & WU).
    destruct HR as (FF & FB & HR1 & HR2). rewrite Forall_forall in FR, FF, FB.
    cbv zeta in *. set (w := float_width_d lm fs q) in *.
    assert (SP : lo < hi).
    { assert (0 < / 2 ^ 60 * val64 q) by (apply Rmult_lt_0_compat; [apply Rinv_0_lt_compat, pow_lt|]; lra). lra. }
    destruct (mask_R_d _ _ M ltac:(lia)) as [M1 M2].
    apply F2_map. intros x I. rewrite IM.
    destruct (float_R_d w mul (snd (float_range_d fs)) (fst (float_range_d fs)) x B ltac:(lia) M1 M2 A2 A1 (FF x I)) as (Y1 & Y2 & Y3);
      rewrite ?E1, ?E2; auto.
    cbv zeta in *. rewrite E1, E2 in *. split; [exact Y1|]. split; [exact Y2|]. unfold within_d. change val64 with R64 in *.
    eapply Rle_trans; [exact Y3|]. apply Rplus_le_compat_r, Rplus_le_compat_r.
    rewrite steps_pow. assert (P2 : 2 <= 2 ^ w) by (replace 2 with (2 ^ 1) at 1 by lra; apply pow2_le; lia).
    apply Rmult_le_reg_r with (2 ^ w - 1); [lra|]. unfold Rdiv. rewrite Rmult_assoc, Rinv_l by lra.
    assert (2 * R64 q <= 2 ^ w * R64 q) by (apply Rmult_le_compat_r; lra). lra.
  - destruct HR as (FF & FB & HR1 & HR2). rewrite Forall_forall in FR, FF, FB.
    intros Heq. apply F2_map. intros x I. rewrite IM. pose proof (FR x I) as X.
    assert (C0 : float_code1_d (snd (float_range_d fs)) (fst (float_range_d fs)) mul x = 0%N).
    { apply (flat_code_d mul _ _ x B); auto; rewrite ?E1, ?E2; auto; [apply (FF x I)|lra]. }
    rewrite C0. apply Rabs_le_iff in B1, B2.
    destruct (dsub_R (fst (float_range_d fs)) (snd (float_range_d fs)) A1 A2) as [_ D2]; [rewrite E1, E2; apply (fits_B_d B); auto; apply Rabs_le_iff; lra|].
    destruct (dequantize_low_d (float_width_d lm fs q) 0 (dsub (fst (float_range_d fs)) (snd (float_range_d fs))) (snd (float_range_d fs)) B) as [Y1 Y2]; [lia|exact D2|exact A2| |exact HB| |].
    { rewrite E2. apply Rabs_le_iff. lra. }
    { left. apply N.mod_0_l, N.pow_nonzero. lia. }
    cbv zeta in *. split; [exact Y1|]. change val64 with R64. rewrite Y2, E2. lra.
Qed.
Print Assumptions C74_float_error_bound.

(** A colour channel in [0,1] loads in [0,1], within little more than twice the precision, and 1
    is kept, with every precision up to 1 - 2^-10. (Without the feature: down to 2^-23, C43.) *)
Definition channels_d (P : f64 -> f64 -> Prop) (v v' : dvec4) : Prop :=
  P (fst (fst (fst v))) (fst (fst (fst v'))) /\ P (snd (fst (fst v))) (snd (fst (fst v'))) /\
  P (snd (fst v)) (snd (fst v')) /\ P (snd v) (snd v').
Theorem C74_color_error_bound : forall lm sc oc' p l out,
  log2_64_ok lm -> precision_ok_d p -> list_ok_d lm l -> saved_d lm true p l = Ok out ->
  exists l', read_tmf_d sc oc' out = Ok l' /\
    Forall2 (on_custom_d (fun d d' => forall cs q, d = XColor cs q ->
      exists cs' q', d' = XColor cs' q' /\
        Forall2 (channels_d (fun x y => finite64 q -> / 2 ^ 60 <= val64 q <= 1 - / 2 ^ 10 -> in_unit_d x ->
          in_unit_d y /\ within_d (2.002 * val64 q + / 2 ^ 51) x y /\ (val64 x = 1 -> val64 y = 1))) cs cs')) l l'.
Proof.
  intros lm sc oc' p l out LG HP HL S. apply (custom_loads_d _ lm sc oc' p l out HP HL S).
  intros d d' DR cs q ->. destruct d' as [| | |cs' q']; try contradiction. destruct DR as (_ & mul & M & ->).
  eexists. exists q'. split; [reflexivity|].
  assert (G : forall x, let y := color_value_d (color_width_d lm q) (low (color_width_d lm q) (color_code_d mul x)) in
    finite64 q -> / 2 ^ 60 <= val64 q <= 1 - / 2 ^ 10 -> in_unit_d x ->
    in_unit_d y /\ within_d (2.002 * val64 q + / 2 ^ 51) x y /\ (val64 x = 1 -> val64 y = 1)).
  { intros x y Fq Hq [Fx Hx]. pose proof (mask_d30 _ _ M) as W30.
    destruct (color_width_R_d lm q LG Fq Hq W30) as (W1 & WL & WU). cbv zeta in *. set (w := color_width_d lm q) in *.
    assert (Q0 : 0 < val64 q) by (assert (0 < / 2 ^ 60) by (apply Rinv_0_lt_compat, pow_lt; lra); lra).
    destruct (color_channel_d w mul x ltac:(lia) M Fx Hx) as (Y1 & Y2 & Y3). cbv zeta in *. fold y in Y1, Y2, Y3.
    split; [split; [exact Y1|exact Y2]|]. split.
    - unfold within_d. change val64 with R64 in *. eapply Rle_trans; [exact Y3|].
      replace (4 * u64) with (/ 2 ^ 51) by (unfold u64; simpl pow; lra). apply Rplus_le_compat_r.
      rewrite steps_pow. assert (P2 : 2 <= 2 ^ w) by (replace 2 with (2 ^ 1) at 1 by lra; apply pow2_le; lia).
      apply Rmult_le_reg_r with (2 ^ w - 1); [lra|]. rewrite Rinv_l by lra.
      assert (2 * R64 q <= 2 ^ w * R64 q) by (apply Rmult_le_compat_r; lra). lra.
    - intros V. exact (proj2 (one_kept w mul x ltac:(lia) M Fx V)). }
  apply F2_map. intros v _. unfold channels_d, map4_d. cbn [fst snd]. split; [|split; [|split]]; apply G.
Qed.
Print Assumptions C74_color_error_bound.

(** ** Cases *)

(** A platform whose log2 is accurate, and exact and computable on powers of two. *)
Definition grid_log2_d (x : f64) : f64 :=
  match x with
  | B754_finite false m e _ => if (Zpos m =? 4503599627370496)%Z then f64_of_Z (52 + e) else f64_of_R (log2 (val64 x))
  | B754_finite true _ _ _ => f64_of_R (log2 (val64 x))
  | _ => d0
  end.
Definition grid_d : libm64 := mk_libm64 grid_log2_d (fun x => f64_of_R (asin (val64 x))) exact_sin_cos64.
Lemma exact_log2_d (x : f64) : fin x -> 0 < R64 x -> finite64 (f64_of_R (log2 (val64 x))) /\
  Rabs (val64 (f64_of_R (log2 (val64 x))) - log2 (val64 x)) <= / 2 ^ 30 * (1 + Rabs (log2 (val64 x))).
Proof.
  intros F P. change (val64 x) with (R64 x). destruct (f64_of_R_R (log2 (R64 x))) as [A B].
  - eapply Rle_trans; [apply (float_log2_bound_d x P)|]. eapply Rle_trans; [|apply big64_ge]. apply IZR_le. lia.
  - split; [exact B|]. change (val64 (f64_of_R (log2 (R64 x)))) with (R64 (f64_of_R (log2 (R64 x)))). rewrite A.
    eapply Rle_trans; [apply rnd64_err|]. pose proof (Rabs_pos (log2 (R64 x))). pose proof tiny64_bound as [_ T].
    unfold u64. simpl pow in *. lra.
Qed.
Lemma grid_d_ok : log2_64_ok grid_d.
Proof.
  intros x F P. cbn [l_log2 grid_d]. destruct x as [s|s| |s m e W]; try discriminate F.
  - exfalso. change (val64 (B754_zero s)) with 0 in P. lra.
  - cbn [grid_log2_d]. destruct s; [apply exact_log2_d; auto|]. destruct (Z.eqb_spec (Zpos m) 4503599627370496) as [E|_]; [|apply exact_log2_d; auto].
    assert (EB : (-1074 <= e <= 971)%Z).
    { pose proof W as W'. unfold SpecFloat.bounded in W'. apply andb_prop in W' as [W1 W2]. apply Zle_bool_imp_le in W2.
      unfold SpecFloat.canonical_mantissa in W1. apply Zeq_bool_eq in W1. unfold SpecFloat.fexp, SpecFloat.emin in W1. lia. }
    destruct (f64_of_Z_exact (52 + e)) as [A B]; [lia|]. split; [exact B|]. change val64 with R64. rewrite A.
    assert (V : R64 (B754_finite false m e W) = bpow radix2 (52 + e)).
    { unfold R64, B2R, F2R. cbn [Fnum Fexp cond_Zopp]. rewrite E. change 4503599627370496%Z with (radix2 ^ 52)%Z.
      rewrite (IZR_Zpower radix2 52) by lia. now rewrite <- bpow_plus. }
    rewrite V, log2_bpow, Rminus_diag_eq, Rabs_R0 by reflexivity. apply Rmult_le_pos; [left; apply Rinv_0_lt_compat, pow_lt; lra|].
    pose proof (Rabs_pos (IZR (52 + e))). lra.
Qed.
Lemma R64_SF (x : f64) sf : B2SF x = sf -> R64 x = SF2R radix2 sf /\ is_finite x = is_finite_SF sf.
Proof. intros <-. destruct x; split; reflexivity. Qed.

(** A mesh with a right-angled triangle with sides of 64/100, texture coordinates, floats and
    colours, and a precision of 1/16. *)
Definition leg_d : f64 := dmul (dlit 1 100) (f64_of_Z 64).
Definition legs : list dvec3 := [(d0, d0, d0); (leg_d, d0, d0); (d0, leg_d, d0)].
Definition tri_d : dmesh :=
  mk_dmesh None None (Some legs) (Some [0; 1; 2]%N) (Some [(d0, d1); (dlit 1 3, d0)]) None None None
    [mk_dcseg [119]%N 1 (XFloat [d0; dlit 1 3; d1] (dlit 1 1024)); mk_dcseg [99]%N 1 (XColor [(d0, d1, dlit 1 3, d1)] (dlit 1 1024))].
Definition sixteenth_d : dprec_info := mk_dprec (dlit 1 16) 7 28 8.
Lemma leg_d_R : finite64 leg_d /\ 0.63 <= val64 leg_d <= 0.65.
Proof.
  let v := eval vm_compute in (B2SF leg_d) in destruct (R64_SF leg_d v) as [A B]; [vm_compute; reflexivity|].
  split; [exact B|]. change val64 with R64. rewrite A. unfold SF2R, F2R. cbn. lra.
Qed.
Lemma sixteenth_d_R : finite64 (dlit 1 16) /\ val64 (dlit 1 16) = / 16.
Proof.
  let v := eval vm_compute in (B2SF (dlit 1 16)) in destruct (R64_SF (dlit 1 16) v) as [A B]; [vm_compute; reflexivity|].
  split; [exact B|]. change val64 with R64. rewrite A. unfold SF2R, F2R. cbn. lra.
Qed.
Lemma thousandth_R : finite64 (dlit 1 1024) /\ val64 (dlit 1 1024) = / 1024.
Proof.
  let v := eval vm_compute in (B2SF (dlit 1 1024)) in destruct (R64_SF (dlit 1 1024) v) as [A B]; [vm_compute; reflexivity|].
  split; [exact B|]. change val64 with R64. rewrite A. unfold SF2R, F2R. cbn. lra.
Qed.
Lemma third_R : finite64 (dlit 1 3) /\ 0.33 <= val64 (dlit 1 3) <= 0.34.
Proof.
  let v := eval vm_compute in (B2SF (dlit 1 3)) in destruct (R64_SF (dlit 1 3) v) as [A B]; [vm_compute; reflexivity|].
  split; [exact B|]. change val64 with R64. rewrite A. unfold SF2R, F2R. cbn. lra.
Qed.
Lemma val64_0 : val64 d0 = 0. Proof. reflexivity. Qed.
Lemma val64_1 : val64 d1 = 1. Proof. apply d1_R. Qed.
Lemma tri_d_ok : list_ok_d grid_d [(tri_d, [])].
Proof.
  split; [reflexivity|]. apply Forall_cons; [|apply Forall_nil]. cbn [fst snd].
  split; [|split; [apply name_ok_ascii; reflexivity|vm_compute; reflexivity]].
  constructor; unfold tri_d; cbn [d_normals d_normal_triangles d_vertices d_vertex_triangles d_uvs d_uv_triangles d_tangents d_tangent_triangles d_custom_data]; first [apply small_none | apply indices_none | apply small_some; vm_compute; reflexivity
        | apply indices_some; vm_compute; reflexivity | idtac].
  repeat (apply Forall_cons || apply Forall_nil); unfold custom_ok_d; cbn [x_name x_name_len x_data];
      (split; [repeat (apply Forall_cons; [reflexivity|]); apply Forall_nil|]; split; [reflexivity|]; split; [lia|]); vm_compute; discriminate.
Qed.
Example C74_case : log2_64_ok grid_d /\ precision_ok_d sixteenth_d /\ list_ok_d grid_d [(tri_d, [])] /\
  (exists out, saved_d grid_d true sixteenth_d [(tri_d, [])] = Ok out) /\
  finite64 (d_vertex_precision sixteenth_d) /\ / 2 ^ 60 <= val64 (d_vertex_precision sixteenth_d) <= 1 /\
  Forall (bounded_d 1) (vlist_d (d_vertices tri_d)) /\ 1 <= 2 ^ 50 /\
  shortest_edge_d (d_vertices tri_d) (d_vertex_triangles tri_d) (val64 leg_d) /\ / 2 ^ 20 <= val64 leg_d /\
  ranges_d 1 0 1 [d0; dlit 1 3; d1] /\ finite64 (dlit 1 1024) /\ / 2 ^ 60 * val64 (dlit 1 1024) <= 1 - 0 <= 2 ^ 60 * val64 (dlit 1 1024) /\
  / 2 ^ 60 <= val64 (dlit 1 1024) <= 1 - / 2 ^ 10 /\ in_unit_d (dlit 1 3).
Proof.
  destruct leg_d_R as [L1 L2]. destruct sixteenth_d_R as [S1 S2]. destruct thousandth_R as [T1 T2]. destruct third_R as [H1 H2].
  split; [apply grid_d_ok|]. split; [split; cbn; lia|]. split; [apply tri_d_ok|].
  split; [eexists; vm_compute; reflexivity|]. cbn [d_vertex_precision sixteenth_d]. rewrite S2, T2. split; [exact S1|]. split; [simpl pow; lra|].
  split.
  { unfold tri_d, legs, vlist_d. cbn [d_vertices].
    repeat apply Forall_cons; try apply Forall_nil; repeat split; cbn [fst snd]; rewrite ?val64_0, ?Rabs_R0, ?(Rabs_pos_eq (val64 leg_d)); auto; try lra; reflexivity. }
  split; [simpl pow; lra|]. split.
  { unfold tri_d, legs, shortest_edge_d. cbn [d_vertices d_vertex_triangles].
    assert (D1 : dist3_d (d0, d0, d0) (leg_d, d0, d0) = val64 leg_d).
    { unfold dist3_d. cbn [fst snd]. rewrite val64_0. rewrite <- (sqrt_square (val64 leg_d)) at 3 by lra. f_equal. ring. }
    assert (D2 : dist3_d (d0, leg_d, d0) (d0, d0, d0) = val64 leg_d).
    { unfold dist3_d. cbn [fst snd]. rewrite val64_0. rewrite <- (sqrt_square (val64 leg_d)) at 3 by lra. f_equal. ring. }
    assert (D3 : val64 leg_d <= dist3_d (leg_d, d0, d0) (d0, leg_d, d0)).
    { unfold dist3_d. cbn [fst snd]. rewrite val64_0. rewrite <- (sqrt_square (val64 leg_d)) at 1 by lra. apply sqrt_le_1_alt.
      assert (0 <= val64 leg_d * val64 leg_d) by (apply Rle_0_sqr). lra. }
    split.
    - eapply side_first_d; try reflexivity. left. symmetry. exact D1.
    - intros d S. inversion S as [? ? ? ? va vb vc ? G1 G2 G3 D|? ? ? ? ? S']; subst; [|inversion S'].
      change (Some (d0, d0, d0) = Some va) in G1. change (Some (leg_d, d0, d0) = Some vb) in G2. change (Some (d0, leg_d, d0) = Some vc) in G3.
      injection G1 as <-. injection G2 as <-. injection G3 as <-. destruct D as [->|[->| ->]]; lra. }
  split; [simpl pow; lra|]. split.
  { unfold ranges_d, least, greatest. cbn [map]. rewrite val64_0, val64_1. split; [repeat constructor; exact H1|]. split.
    - repeat apply Forall_cons; try apply Forall_nil; rewrite ?val64_0, ?val64_1, ?Rabs_R0, ?Rabs_R1, ?Rabs_pos_eq; lra.
    - split; (split; [cbn [In]; auto|]); intros y I; cbn [In] in I; destruct I as [<-|[<-|[<-|[]]]]; lra. }
  split; [exact T1|]. split; [simpl pow; lra|]. split; [simpl pow; lra|]. split; [exact H1|lra].
Qed.

(** ** What the feature does not repair *)

Definition point_d (l : list dvec3) : dmesh := mk_dmesh None None (Some l) None None None None None [].
Definition shown_d (r : res ierr (list (dmesh * list N))) : list (option (list (SpecFloat.spec_float * SpecFloat.spec_float * SpecFloat.spec_float))) :=
  match r with
  | Ok l => map (fun mn => option_map (map (fun v => (B2SF (dvx v), B2SF (dvy v), B2SF (dvz v)))) (d_vertices (fst mn))) l
  | _ => []
  end.

(** The box misses the last vertex, as without the feature (C38): of (0,0,0) and (10,0,0) both
    load with x = 0, and a single vertex (0,0,5) loads with y = 5, whatever the precision and the
    platform. *)
Lemma vertices_stored_by_d lm vs prec edge out B : Forall (bounded_d B) vs -> B <= 2 ^ 60 -> (len vs <= 2 ^ 27)%N ->
  save_tmf_vertices_d lm true vs prec edge [] = Ok out ->
  exists x0 x1 y0 y1 z0 z1 px py pz vs', stored_box_d vs x0 x1 y0 y1 z0 z1 /\ read_tmf_vertices_d out = Ok vs' /\
    Forall2 (fun v v' => coordinate_stored_d B px x0 x1 (dvx v) (dvx v') /\ coordinate_stored_d B py y0 y1 (dvy v) (dvy v') /\
                         coordinate_stored_d B pz z0 z1 (dvz v) (dvz v')) vs vs'.
Proof.
  intros F HB HL S. destruct (vertices_d lm vs prec edge out HL S) as (_ & _ & vs' & R & q & mx & my & mz & V & Mx & My & Mz & ->).
  destruct (vertices_stored_d lm vs prec edge q mx my mz B F HB V Mx My Mz) as [BX F2].
  do 9 eexists. eexists. split; [exact BX|]. split; [exact R|exact F2].
Qed.
Definition d10 : f64 := f64_of_Z 10.
Definition d5 : f64 := f64_of_Z 5.
Lemma val64_10 : val64 d10 = 10. Proof. apply (f64_of_Z_exact 10). lia. Qed.
Lemma val64_5 : val64 d5 = 5. Proof. apply (f64_of_Z_exact 5). lia. Qed.
Theorem C74_last_vertex_refuted : forall lm prec edge out,
  save_tmf_vertices_d lm true [(d0, d0, d0); (d10, d0, d0)] prec edge [] = Ok out ->
  exists a b, read_tmf_vertices_d out = Ok [a; b] /\ val64 (dvx a) = 0 /\ val64 (dvx b) = 0.
Proof.
  intros lm prec edge out S.
  assert (FB : Forall (bounded_d 10) [(d0, d0, d0); (d10, d0, d0)]).
  { repeat apply Forall_cons; try apply Forall_nil; repeat split; cbn [fst snd]; rewrite ?val64_0, ?val64_10, ?Rabs_R0, ?Rabs_pos_eq; lra. }
  destruct (vertices_stored_by_d lm _ prec edge out 10 FB ltac:(simpl pow; lra) ltac:(vm_compute; discriminate) S)
    as (x0 & x1 & y0 & y1 & z0 & z1 & px & py & pz & vs' & BX & R & F).
  inversion F as [|? a ? ? (A & _) F']; subst. inversion F' as [|? b ? ? (B & _) F'']; subst. inversion F''; subst.
  destruct BX as [_ [I0 L0] [I1 L1] _ _ _ _]. cbn [xs_d ys_d removelast map app In fst snd] in *. rewrite val64_0, val64_10 in *.
  assert (val64 x0 = 0) as E0 by (pose proof (L0 0 (or_introl eq_refl)); destruct I0 as [?|[?|[]]]; lra).
  assert (val64 x1 = 0) as E1 by (repeat (destruct I1 as [I1|I1]; [lra|]); contradiction).
  exists a, b. split; [exact R|]. split.
  - rewrite <- E0. apply (cs_flat_d _ _ _ _ _ _ A). lra.
  - rewrite <- E0. apply (cs_flat_d _ _ _ _ _ _ B). lra.
Qed.
Print Assumptions C74_last_vertex_refuted.
Theorem C74_single_vertex_refuted : forall lm prec edge out,
  save_tmf_vertices_d lm true [(d0, d0, d5)] prec edge [] = Ok out ->
  exists a, read_tmf_vertices_d out = Ok [a] /\ val64 (dvy a) = 5.
Proof.
  intros lm prec edge out S.
  assert (FB : Forall (bounded_d 10) [(d0, d0, d5)]).
  { repeat apply Forall_cons; try apply Forall_nil; repeat split; cbn [fst snd]; rewrite ?val64_0, ?val64_5, ?Rabs_R0, ?Rabs_pos_eq; lra. }
  destruct (vertices_stored_by_d lm _ prec edge out 10 FB ltac:(simpl pow; lra) ltac:(vm_compute; discriminate) S)
    as (x0 & x1 & y0 & y1 & z0 & z1 & px & py & pz & vs' & BX & R & F).
  inversion F as [|? a ? ? (_ & A & _) F']; subst. inversion F'; subst.
  destruct BX as [_ _ _ [I0 L0] _ _ _]. cbn [xs_d ys_d zs_d removelast map app In fst snd] in *. rewrite val64_5 in *.
  assert (val64 y0 = 5) as E0 by (destruct I0 as [?|[]]; lra).
  exists a. split; [exact R|]. rewrite <- E0. apply (cs_below_d _ _ _ _ _ _ A). unfold dvy. cbn [fst snd]. rewrite val64_0. lra.
Qed.
Print Assumptions C74_single_vertex_refuted.
Example C74_points_case : exists out out2,
  save_tmf_vertices_d demo_d true [(d0, d0, d0); (d10, d0, d0)] (dlit 1 10) (dlit 1 10) [] = Ok out /\
  save_tmf_vertices_d demo_d true [(d0, d0, d5)] (dlit 1 10) (dlit 1 10) [] = Ok out2.
Proof. eexists. eexists. split; vm_compute; reflexivity. Qed.

(** Nor does the documented guarantee on the length of edges hold: the mesh of C40, in f64. *)
Definition rod_d : f64 := dmul min_extent_d (f64_of_Z 1073741824).
Definition rod_mesh_d : dmesh :=
  mk_dmesh None None (Some [(d0, d0, d0); (d0, d0, rod_d); (d0, d0, dadd rod_d rod_d)]) (Some [0; 1; 2]%N) None None None None [].
Lemma rod_d_R : finite64 rod_d /\ 1073 <= val64 rod_d <= 1074 /\ val64 (dadd rod_d rod_d) = 2 * val64 rod_d.
Proof.
  let v := eval vm_compute in (B2SF rod_d) in destruct (R64_SF rod_d v) as [A B]; [vm_compute; reflexivity|].
  let v := eval vm_compute in (B2SF (dadd rod_d rod_d)) in destruct (R64_SF (dadd rod_d rod_d) v) as [A2 _]; [vm_compute; reflexivity|].
  split; [exact B|]. change val64 with R64. rewrite A2, A. unfold SF2R, F2R. cbn. lra.
Qed.
Theorem C74_edge_length_refuted : exists lm out l' a b c,
  log2_64_ok lm /\ precision_ok_d sixteenth_d /\ list_ok_d lm [(rod_mesh_d, [])] /\
  saved_d lm true sixteenth_d [(rod_mesh_d, [])] = Ok out /\ read_tmf_d exact_sin_cos64 true out = Ok l' /\
  map (fun mn => d_vertices (fst mn)) l' = [Some [a; b; c]] /\
  shortest_edge_d (d_vertices rod_mesh_d) (d_vertex_triangles rod_mesh_d) (val64 rod_d) /\
  dist3_d (d0, d0, d0) (d0, d0, rod_d) = val64 rod_d /\ dist3_d a b = 0.
Proof.
  destruct rod_d_R as (F & B & T).
  assert (P : precision_ok_d sixteenth_d) by (split; cbn; lia).
  assert (HL : list_ok_d grid_d [(rod_mesh_d, [])]).
  { split; [reflexivity|]. apply Forall_cons; [|apply Forall_nil]. cbn [fst snd].
    split; [|split; [apply name_ok_ascii; reflexivity|vm_compute; reflexivity]].
    constructor; unfold rod_mesh_d; cbn [d_normals d_normal_triangles d_vertices d_vertex_triangles d_uvs d_uv_triangles d_tangents d_tangent_triangles d_custom_data]; first [apply small_none | apply indices_none | apply small_some; vm_compute; reflexivity
        | apply indices_some; vm_compute; reflexivity | apply Forall_nil]. }
  assert (K : shown_d (let* o := map_err (fun _ => ENotTMFFile) (saved_d grid_d true sixteenth_d [(rod_mesh_d, [])]) in read_tmf_d exact_sin_cos64 true o) =
    [Some [(B2SF d0, B2SF d0, B2SF d0); (B2SF d0, B2SF d0, B2SF d0); (B2SF d0, B2SF d0, B2SF (dadd rod_d rod_d))]]) by (vm_compute; reflexivity).
  assert (exists out, saved_d grid_d true sixteenth_d [(rod_mesh_d, [])] = Ok out) as [out S] by (eexists; vm_compute; reflexivity).
  destruct (loads_as_d grid_d exact_sin_cos64 true sixteenth_d _ out P HL S) as (l' & R & _).
  rewrite S in K. cbn [map_err bind] in K. rewrite R in K. cbn [shown_d] in K.
  assert (exists z q, z = B2SF d0 /\ map (fun mn => option_map (map (fun v => (B2SF (dvx v), B2SF (dvy v), B2SF (dvz v)))) (d_vertices (fst mn))) l' =
    [Some [(z, z, z); (z, z, z); (z, z, q)]]) as (z & q & Z & K') by (exists (B2SF d0), (B2SF (dadd rod_d rod_d)); split; [reflexivity|exact K]).
  clear K. rename K' into K.
  destruct l' as [|[m n] [|? l']]; try discriminate K. cbn [map fst] in K.
  destruct (d_vertices m) as [[|a [|b [|c [|? ?]]]]|] eqn:V; try discriminate K. cbn [option_map map] in K. injection K as K1 K2 K3 K4 K5 K6 K7 K8 K9.
  exists grid_d, out, [(m, n)], a, b, c. split; [apply grid_d_ok|]. split; [exact P|]. split; [exact HL|].
  split; [exact S|]. split; [exact R|]. split; [cbn [map fst]; now rewrite V|].
  assert (D : dist3_d (d0, d0, d0) (d0, d0, rod_d) = val64 rod_d).
  { unfold dist3_d. cbn [fst snd]. rewrite val64_0. rewrite <- (sqrt_square (val64 rod_d)) at 3 by lra. f_equal. ring. }
  split; [|split; [exact D|]].
  - unfold rod_mesh_d, shortest_edge_d. cbn [d_vertices d_vertex_triangles].
    split; [eapply side_first_d; try reflexivity; left; symmetry; exact D|].
    revert T. generalize (dadd rod_d rod_d) as tip. intros tip T d S'. inversion S' as [? ? ? ? va vb vc ? G1 G2 G3 E|? ? ? ? ? S'']; subst; [|inversion S''].
    change (Some (d0, d0, d0) = Some va) in G1. change (Some (d0, d0, rod_d) = Some vb) in G2. change (Some (d0, d0, tip) = Some vc) in G3.
    injection G1 as <-. injection G2 as <-. injection G3 as <-.
    destruct E as [->|[->| ->]]; [lra| |].
    + unfold dist3_d. cbn [fst snd]. rewrite T, val64_0. rewrite <- (sqrt_square (val64 rod_d)) at 1 by lra. apply sqrt_le_1_alt. right. ring.
    + unfold dist3_d. cbn [fst snd]. rewrite T, val64_0. rewrite <- (sqrt_square (val64 rod_d)) at 1 by lra. apply sqrt_le_1_alt.
      assert (0 <= val64 rod_d * val64 rod_d) by apply Rle_0_sqr. lra.
  - rewrite Z in K1, K2, K3, K4, K5, K6. apply B2SF_inj in K1, K2, K3, K4, K5, K6. unfold dist3_d. change (fst (fst a)) with (dvx a). change (snd (fst a)) with (dvy a). change (snd a) with (dvz a).
    change (fst (fst b)) with (dvx b). change (snd (fst b)) with (dvy b). change (snd b) with (dvz b).
    rewrite K1, K2, K3, K4, K5, K6. rewrite val64_0. rewrite <- sqrt_0. f_equal. ring.
Qed.
Print Assumptions C74_edge_length_refuted.
