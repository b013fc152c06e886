(** Property C43: what happens to colour channels above 1 and to those that are no numbers. *)
From Coq Require Import List NArith ZArith Arith Lia Bool Reals Lra.
From Flocq Require Import Core IEEE754.BinarySingleNaN.
From Verif Require Import Base UnalignedRW ReadExt Floats Floats_proofs FloatReal_proofs Vertices CustomData Mesh Tmf File FileSpec SaveSpec
  ValueSpec VertexSpec Demo Save_proofs Save2_proofs Codec_proofs Image_proofs Quant_proofs Log2_proofs VertexReal_proofs
  CustomReal_proofs P_Save P_Uv P_Normals P_Vertices P_UvWrap P_Custom.
Import ListNotations.
Open Scope res_scope.
Local Open Scope R_scope.

(** How many bits a channel takes, for a precision from 2^-23 to 1 - 2^-10. *)
Lemma color_width_24 lm q : log2_ok lm -> finite q -> / 2 ^ 23 <= val q <= 1 - / 2 ^ 10 ->
  (1 <= color_width lm q <= 24)%nat /\ 0.9997 <= 2 ^ color_width lm q * val q <= 2.001.
Proof.
  intros LG Fq Hq.
  assert (P60 : / 2 ^ 60 <= / 2 ^ 23) by (apply Rinv_le_contravar; [apply pow_lt; lra|apply pow2_le; lia]).
  destruct (color_width_R lm q LG Fq ltac:(lra)) as (W1 & W). cbv zeta in *. set (w := color_width lm q) in *.
  split; [split; [exact W1|]|exact W].
  assert (Q0 : 0 < val q) by (assert (0 < / 2 ^ 23) by (apply Rinv_0_lt_compat, pow_lt; lra); lra).
  destruct (le_lt_dec w 24) as [|L]; auto. exfalso. assert (2 ^ 25 <= 2 ^ w) by (apply pow2_le; lia).
  assert (2 ^ 25 * val q <= 2 ^ w * val q) by (apply Rmult_le_compat_r; lra). simpl pow in *. lra.
Qed.

(** The channels of a loaded colour array, given the number of bits. *)
Lemma wide_colors (P : nat -> f32 -> f32 -> Prop) lm lm' oc' p l out :
  log2_ok lm -> precision_ok p -> list_ok lm l -> saved lm true p l = Ok out ->
  (forall w mul x, (1 <= w <= 24)%nat -> mask_f32 (E:=ioerr) true w = Ok mul -> P w x (color_value w (low w (color_code mul x)))) ->
  exists l', read_tmf lm' oc' out = Ok l' /\
    Forall2 (on_custom (fun d d' => forall cs q, as_color_rgba d = Some (cs, q) -> finite q -> / 2 ^ 23 <= val q <= 1 - / 2 ^ 10 ->
      exists cs' q' w, as_color_rgba d' = Some (cs', q') /\ 0.9997 <= 2 ^ w * val q <= 2.001 /\ Forall2 (channels (P w)) cs cs')) l l'.
Proof.
  intros LG HP HL S H. apply (custom_loads _ lm lm' oc' p l out HP HL S).
  intros d d' DR cs q E Fq Hq. destruct d; try discriminate E. injection E as -> ->.
  destruct d' as [| | |cs' q']; try contradiction. destruct DR as (mul & M & -> & _).
  destruct (color_width_24 lm q LG Fq Hq) as [W1 W2].
  eexists. exists q', (color_width lm q). split; [reflexivity|]. split; [exact W2|].
  apply F2_map. intros x _. unfold channels, map4. cbn [fst snd]. auto.
Qed.

(** C43. A channel above 1 wraps around: it loads inside [0,1], moved down by a whole number of
    turns of 2^w/(2^w-1) each, w being the number of bits of the array (up to one step and the
    rounding of the channel itself). It does not disturb the other channels. *)
Theorem C43_wraps : forall lm lm' oc' p l out,
  log2_ok lm -> precision_ok p -> list_ok lm l -> saved lm true p l = Ok out ->
  exists l', read_tmf lm' oc' out = Ok l' /\
    Forall2 (on_custom (fun d d' => forall cs q, as_color_rgba d = Some (cs, q) -> finite q -> / 2 ^ 23 <= val q <= 1 - / 2 ^ 10 ->
      exists cs' q' (w : nat), as_color_rgba d' = Some (cs', q') /\ 0.9997 <= 2 ^ w * val q <= 2.001 /\
        Forall2 (channels (fun x y => finite x -> 0 <= val x <= 2 ^ 30 ->
          in_unit y /\ exists turns : nat,
            Rabs (val x - INR turns * (2 ^ w / (2 ^ w - 1)) - val y) <= / (2 ^ w - 1) + (val x + 4) / 2 ^ 24)) cs cs')) l l'.
Proof.
  intros lm lm' oc' p l out LG HP HL S.
  apply (wide_colors (fun w x y => finite x -> 0 <= val x <= 2 ^ 30 ->
          in_unit y /\ exists turns : nat,
            Rabs (val x - INR turns * (2 ^ w / (2 ^ w - 1)) - val y) <= / (2 ^ w - 1) + (val x + 4) / 2 ^ 24) lm lm' oc' p l out LG HP HL S).
  intros w mul x B M Fx Hx. destruct (mask_R _ _ M B) as [M1 M2]. change val with R32 in *.
  pose proof (code_above w mul x B M1 M2 Fx Hx) as C. cbv zeta in C. fold (color_code mul x) in C.
  set (q := color_code mul x) in *.
  assert (P : (2 ^ N.of_nat w <> 0)%N) by (apply N.pow_nonzero; lia).
  assert (Hl : (Z.of_N (low w q) <= steps w)%Z).
  { unfold low, steps. pose proof (N.mod_lt q _ P) as L. apply N2Z.inj_lt in L.
    rewrite N2Z.inj_pow, nat_N_Z in L. change (Z.of_N 2) with 2%Z in L. lia. }
  unfold color_value. fold (mask_u64 w).
  destruct (value64_R w (low w q) B Hl) as (V1 & V2 & V3 & V4). cbv zeta in *. set (d := ddiv _ _) in *.
  destruct (f32_of_f64_R d V2) as [A1 A2].
  { rewrite Rabs_pos_eq by lra. eapply Rle_trans; [apply V3|]. eapply Rle_trans; [|apply big32_ge]. apply IZR_le. lia. }
  split.
  { split; [exact A2|]. change val with R32. rewrite A1. apply rnd32_between; [apply rnd32_0|apply (rnd32_Z 1); lia|exact V3]. }
  rewrite A1. exists (N.to_nat (q / 2 ^ N.of_nat w)).
  assert (D : IZR (Z.of_N q) = 2 ^ w * INR (N.to_nat (q / 2 ^ N.of_nat w)) + IZR (Z.of_N (low w q))).
  { rewrite (N.div_mod' q (2 ^ N.of_nat w)) at 1. unfold low.
    rewrite N2Z.inj_add, N2Z.inj_mul, plus_IZR, mult_IZR, N2Z.inj_pow, nat_N_Z.
    change (Z.of_N 2) with 2%Z. rewrite <- pow_IZR, INR_IZR_INZ, N_nat_Z. reflexivity. }
  rewrite D in C. rewrite <- steps_pow. pose proof (steps_bounds w B) as SB.
  assert (1 <= IZR (steps w)) by (apply IZR_le; lia).
  set (k := INR (N.to_nat (q / 2 ^ N.of_nat w))) in *. set (m := IZR (Z.of_N (low w q))) in *.
  replace ((2 ^ w * k + m) / IZR (steps w)) with (k * (2 ^ w / IZR (steps w)) + m / IZR (steps w)) in C by (field; lra).
  pose proof (rnd32_err (R64 d)) as E1. rewrite (Rabs_pos_eq (R64 d)) in E1 by lra.
  pose proof tiny32_bound as [_ Ti]. assert (u32 * R64 d <= u32) by (unfold u32; lra).
  apply Rabs_le_iff in C, V4, E1. apply Rabs_le_iff. unfold u32, u64 in *. simpl pow in *. unfold Rdiv in *. lra.
Qed.
Print Assumptions C43_wraps.

Lemma special_channels w : (1 <= w <= 24)%nat ->
  color_value w (low w (color_code (f32_of_Z (steps w)) B754_nan)) = f0 /\
  color_value w (low w (color_code (f32_of_Z (steps w)) (B754_infinity true))) = f0 /\
  color_value w (low w (color_code (f32_of_Z (steps w)) (B754_infinity false))) = f1.
Proof.
  intros B. assert (H : In w (seq 1 24)) by (apply in_seq; lia). clear B. cbn in H.
  repeat (destruct H as [<-|H]; [repeat split; apply B2SF_inj; vm_compute; reflexivity|]). contradiction.
Qed.
(** Channels that are no numbers: NaN and minus infinity load as 0.0, plus infinity as 1.0. *)
Theorem C43_not_numbers : forall lm lm' oc' p l out,
  log2_ok lm -> precision_ok p -> list_ok lm l -> saved lm true p l = Ok out ->
  exists l', read_tmf lm' oc' out = Ok l' /\
    Forall2 (on_custom (fun d d' => forall cs q, as_color_rgba d = Some (cs, q) -> finite q -> / 2 ^ 23 <= val q <= 1 - / 2 ^ 10 ->
      exists cs' q', as_color_rgba d' = Some (cs', q') /\
        Forall2 (channels (fun x y =>
          (x = B754_nan -> y = f0) /\ (x = B754_infinity true -> y = f0) /\ (x = B754_infinity false -> y = f1))) cs cs')) l l'.
Proof.
  intros lm lm' oc' p l out LG HP HL S.
  destruct (wide_colors (fun _ x y => (x = B754_nan -> y = f0) /\ (x = B754_infinity true -> y = f0) /\ (x = B754_infinity false -> y = f1))
    lm lm' oc' p l out LG HP HL S) as (l' & R & F).
  { intros w mul x B M. rewrite (mask_is _ _ M). destruct (special_channels _ B) as (S1 & S2 & S3).
    split; [intros ->; exact S1|split; intros ->; [exact S2|exact S3]]. }
  exists l'. split; [exact R|]. eapply F2_impl; [|exact F]. intros a b H. eapply F2_impl; [|exact H].
  intros s s' [H1 H2]. split; [exact H1|]. intros cs q E Fq Hq. destruct (H2 cs q E Fq Hq) as (cs' & q' & w & H3 & _ & H4). eauto.
Qed.
Print Assumptions C43_not_numbers.

Example C43_wraps_case : log2_ok exact_libm /\ precision_ok demo_prec /\ finite half /\ / 2 ^ 23 <= val half <= 1 - / 2 ^ 10 /\
  finite f2 /\ 0 <= val f2 <= 2 ^ 30 /\ let m := colors_mesh [(f2, B754_nan, B754_infinity false, B754_infinity true)] half in
  list_ok exact_libm [(m, [])] /\ exists out, saved exact_libm true demo_prec [(m, [])] = Ok out.
Proof.
  destruct half_R as [H1 H2], (f32_of_Z_exact 2) as [A B]; [lia|]. split; [apply exact_log2_ok|]. split; [apply demo_prec_ok|].
  split; [exact H1|]. split; [rewrite H2; simpl pow; lra|]. split; [exact B|]. split; [change (val f2) with (R32 (f32_of_Z 2)); rewrite A; simpl pow; lra|].
  split; [eapply custom_list_ok; [reflexivity|discriminate]|]. apply colors_saved; [apply exact_log2_ok|exact H1|rewrite H2; simpl pow; lra].
Qed.
