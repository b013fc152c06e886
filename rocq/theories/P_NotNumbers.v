(** Property C90: custom floats that are not numbers, or not finite. *)
From Coq Require Import List NArith ZArith Arith Lia Bool Reals Lra.
From Flocq Require Import Core IEEE754.BinarySingleNaN.
From Verif Require Import Base UnalignedRW ReadExt ByteLemmas BitIOSpec UnalignedRW_proofs BitLemmas BitSpec Floats Floats_proofs FloatReal_proofs Utilis Vertices CustomData Mesh Tmf File FileSpec SaveSpec
  ValueSpec VertexSpec FineSpec Demo Save_proofs Save2_proofs Codec_proofs Image_proofs Quant_proofs Log2_proofs VertexReal_proofs
  CustomReal_proofs Fine_proofs Fine2_proofs Fine3_proofs P_Save P_Uv P_Normals P_Vertices P_Custom P_Checked Panic_proofs File_proofs Merge_proofs NormalReal_proofs Agree_proofs P_Fine.
Import ListNotations.
Open Scope res_scope.
Local Open Scope R_scope.

(** The values of an array that are no NaN. *)
Definition numbers (l : list f32) : list f32 := filter (fun x => negb (is_nan x)) l.

(** ** NaN among numbers *)
Lemma fold_numbers l : forall mm, is_nan (fst mm) = false -> is_nan (snd mm) = false ->
  fold_left (fun mm x => (fmax (fst mm) x, fmin (snd mm) x)) l mm =
  fold_left (fun mm x => (fmax (fst mm) x, fmin (snd mm) x)) (numbers l) mm.
Proof.
  induction l as [|x l IH]; intros [mx mn] A B; [reflexivity|]. cbn [fst snd] in *. cbn [numbers filter fold_left fst snd].
  destruct (is_nan x) eqn:N; cbn [negb fold_left fst snd].
  - replace (fmax mx x) with mx by (unfold fmax; now rewrite A, N). replace (fmin mn x) with mn by (unfold fmin; now rewrite B, N). now apply IH.
  - apply IH; cbn [fst snd]; unfold fmax, fmin; rewrite ?A, ?B, ?N; destruct (flt _ _); assumption.
Qed.
Lemma range_numbers l : float_range l = float_range (numbers l).
Proof. apply fold_numbers; reflexivity. Qed.
Lemma width_numbers lm l q : float_width lm l q = float_width lm (numbers l) q.
Proof. unfold float_width. now rewrite range_numbers. Qed.
Lemma image_numbers lm l q mul x : float_image lm l q mul x = float_image lm (numbers l) q mul x.
Proof. rewrite !image1. now rewrite <- range_numbers, <- width_numbers. Qed.
Lemma nan_code mn mx mul : float_code1 mn mx mul B754_nan = 0%N.
Proof.
  unfold float_code1. replace (fsub B754_nan mn) with (B754_nan (prec:=24) (emax:=128)) by (destruct mn; reflexivity).
  replace (fdiv B754_nan (fsub mx mn)) with (B754_nan (prec:=24) (emax:=128)) by (destruct (fsub mx mn); reflexivity).
  replace (fmul B754_nan mul) with (B754_nan (prec:=24) (emax:=128)) by (destruct mul; reflexivity). reflexivity.
Qed.
Lemma not_nan (x : f32) : x <> B754_nan -> is_nan x = false.
Proof. destruct x; try reflexivity. intros H. now elim H. Qed.

(** What C42 says, for one value of the array. *)
Lemma value_bound lm fs q mul B lo hi x : log2_ok lm -> mask_f32 (E:=ioerr) true (float_width lm fs q) = Ok mul ->
  ranges B lo hi fs -> B <= 2 ^ 60 -> finite q -> 0 < val q -> In x fs ->
  let y := float_image lm fs q mul x in
  (/ 2 ^ 60 * val q <= hi - lo <= 2 ^ 23 * val q ->
     finite y /\ lo <= val y <= hi + / 2 ^ 22 * B + / 2 ^ 99 /\ within (2.002 * val q + / 2 ^ 20 * B + / 2 ^ 99) x y) /\
  (lo = hi -> finite y /\ val y = val x).
Proof.
  intros LG M HR HB Fq Pq I y. destruct (ranges_is _ _ _ _ HR) as (A1 & A2 & E1 & E2 & B1 & B2 & LH & FR).
  pose proof (mask_30 _ _ M) as W30. assert (W1 : (1 <= float_width lm fs q)%nat) by (unfold float_width; lia).
  destruct HR as (FF & FB & HR1 & HR2). rewrite Forall_forall in FR, FF, FB. unfold y. rewrite image1.
  split.
  - intros Hs.
    destruct (float_width_R lm fs B lo hi q LG (conj (proj2 (Forall_forall _ _) FF) (conj (proj2 (Forall_forall _ _) FB) (conj HR1 HR2))) HB Fq Pq) as (_ & WL & WU).
    { split; [apply Hs|]. eapply Rle_trans; [apply Hs|]. apply Rmult_le_compat_r; [lra|]. apply pow2_le. lia. }
    cbv zeta in *. set (w := float_width lm fs q) in *.
    assert (W24 : (w <= 24)%nat).
    { destruct (le_lt_dec w 24) as [|L]; auto. exfalso. specialize (WU ltac:(lia)).
      assert (2 ^ 25 <= 2 ^ w) by (apply pow2_le; lia).
      assert (2 ^ 25 * val q <= 2 ^ w * val q) by (apply Rmult_le_compat_r; lra).
      replace (2 ^ 25) with (4 * 2 ^ 23) in * by (simpl pow; lra). simpl pow in *. lra. }
    assert (SP : lo < hi).
    { assert (0 < / 2 ^ 60 * val q) by (apply Rmult_lt_0_compat; [apply Rinv_0_lt_compat, pow_lt|]; lra). lra. }
    destruct (mask_R _ _ M ltac:(lia)) as [M1 M2].
    destruct (float_R w mul (snd (float_range fs)) (fst (float_range fs)) x B ltac:(lia) M1 M2 A2 A1 (FF x I)) as (Y1 & Y2 & Y3);
      rewrite ?E1, ?E2; auto.
    cbv zeta in *. rewrite E1, E2 in *. split; [exact Y1|]. split; [exact Y2|]. unfold within. change val with R32 in *.
    eapply Rle_trans; [exact Y3|]. apply Rplus_le_compat_r, Rplus_le_compat_r.
    rewrite steps_pow. assert (P2 : 2 <= 2 ^ w) by (replace 2 with (2 ^ 1) at 1 by lra; apply pow2_le; lia).
    apply Rmult_le_reg_r with (2 ^ w - 1); [lra|]. unfold Rdiv. rewrite Rmult_assoc, Rinv_l by lra.
    assert (2 * R32 q <= 2 ^ w * R32 q) by (apply Rmult_le_compat_r; lra). lra.
  - intros Heq. pose proof (FR x I) as X.
    rewrite (flat_code mul _ _ x B); auto; rewrite ?E1, ?E2; auto; [|apply (FF x I)|lra].
    replace (low (float_width lm fs q) 0) with 0%N by (symmetry; apply N.mod_0_l, N.pow_nonzero; lia).
    destruct (decode_low (float_width lm fs q) (snd (float_range fs)) (fst (float_range fs)) 0 B) as [Y1 Y2]; rewrite ?E1, ?E2; auto.
    cbv zeta in *. split; [exact Y1|]. change val with R32. rewrite Y2, E2. lra.
Qed.

(** C90. NaNs among numbers do not disturb the numbers: these load within the bounds of C42
    (B, lo and hi being those of the numbers alone). But no NaN survives: every one loads as
    the least of the numbers. *)
Theorem C90_nan_is_least : forall lm lm' oc' p l out,
  log2_ok lm -> precision_ok p -> list_ok lm l -> saved lm true p l = Ok out ->
  exists l', read_tmf lm' oc' out = Ok l' /\
    Forall2 (on_custom (fun d d' => forall fs q, as_float d = Some (fs, q) ->
      exists fs' q', as_float d' = Some (fs', q') /\ length fs' = length fs /\
      forall B lo hi, ranges B lo hi (numbers fs) -> B <= 2 ^ 60 -> finite q -> 0 < val q ->
        Forall2 (fun x y => x = B754_nan -> finite y /\ val y = lo) fs fs' /\
        (/ 2 ^ 60 * val q <= hi - lo <= 2 ^ 23 * val q ->
           Forall2 (fun x y => x <> B754_nan -> finite y /\ lo <= val y <= hi + / 2 ^ 22 * B + / 2 ^ 99 /\
                               within (2.002 * val q + / 2 ^ 20 * B + / 2 ^ 99) x y) fs fs') /\
        (lo = hi -> Forall2 (fun x y => x <> B754_nan -> finite y /\ val y = val x) fs fs'))) l l'.
Proof.
  intros lm lm' oc' p l out LG HP HL S. apply (custom_loads _ lm lm' oc' p l out HP HL S).
  intros d d' DR fs q E. destruct d; try discriminate E. injection E as -> ->.
  destruct d' as [| |fs' q'|]; try contradiction. destruct DR as (mul & M & -> & _).
  exists (map (float_image lm fs q mul) fs), q'. split; [reflexivity|]. split; [apply map_length|].
  intros B lo hi HR HB Fq Pq. rewrite width_numbers in M.
  assert (V : forall x, In x fs -> x <> B754_nan -> In x (numbers fs)).
  { intros x I H. apply filter_In. split; [exact I|]. now rewrite not_nan. }
  split; [|split].
  - apply F2_map. intros x I ->. rewrite image_numbers, image1, nan_code.
    destruct (ranges_is _ _ _ _ HR) as (A1 & A2 & E1 & E2 & B1 & B2 & LH & FR). pose proof (mask_30 _ _ M) as W30.
    replace (low (float_width lm (numbers fs) q) 0) with 0%N by (symmetry; apply N.mod_0_l, N.pow_nonzero; lia).
    destruct (decode_low (float_width lm (numbers fs) q) (snd (float_range (numbers fs))) (fst (float_range (numbers fs))) 0 B) as [Y1 Y2];
      rewrite ?E1, ?E2; auto; [unfold float_width in *; lia|].
    cbv zeta in *. split; [exact Y1|]. change val with R32. now rewrite Y2.
  - intros Hs. apply F2_map. intros x I H. rewrite image_numbers. now apply (value_bound lm (numbers fs) q mul B lo hi x LG M HR HB Fq Pq (V x I H)).
  - intros Hs. apply F2_map. intros x I H. rewrite image_numbers. now apply (value_bound lm (numbers fs) q mul B lo hi x LG M HR HB Fq Pq (V x I H)).
Qed.
Print Assumptions C90_nan_is_least.

(** An array of NaNs only: every one loads as the greatest finite float, 3.4e38. *)
Theorem C90_only_nan : forall lm lm' oc' p l out,
  precision_ok p -> list_ok lm l -> saved lm true p l = Ok out ->
  exists l', read_tmf lm' oc' out = Ok l' /\
    Forall2 (on_custom (fun d d' => forall fs q, as_float d = Some (fs, q) -> Forall (fun x => x = B754_nan) fs ->
      exists q', as_float d' = Some (map (fun _ => f32_MAX) fs, q'))) l l'.
Proof.
  intros lm lm' oc' p l out HP HL S. apply (custom_loads _ lm lm' oc' p l out HP HL S).
  intros d d' DR fs q E A. destruct d; try discriminate E. injection E as -> ->.
  destruct d' as [| |fs' q'|]; try contradiction. destruct DR as (mul & M & -> & _).
  exists q'. cbn [as_float]. do 2 f_equal. apply map_ext_in. intros x I. rewrite Forall_forall in A. rewrite (A x I), image_numbers, image1, nan_code.
  rewrite width_numbers in M. pose proof (mask_30 _ _ M) as W30.
  replace (low (float_width lm (numbers fs) q) 0) with 0%N by (symmetry; apply N.mod_0_l, N.pow_nonzero; lia).
  replace (numbers fs) with (@nil f32).
  2:{ clear -A. induction fs as [|x fs IH]; [reflexivity|]. cbn. rewrite (A x) by now left. cbn. apply IH. intros y I. apply A. now right. }
  assert (W1 : (1 <= float_width lm [] q)%nat) by (unfold float_width; lia).
  assert (W3 : (float_width lm [] q <= 30)%nat).
  { replace (@nil f32) with (numbers fs); [exact W30|].
    clear -A. induction fs as [|x fs IH]; [reflexivity|]. cbn. rewrite (A x) by now left. cbn. apply IH. intros y I. apply A. now right. }
  assert (H : In (float_width lm [] q) (seq 1 30)) by (apply in_seq; lia). clear -H. set (w := float_width lm [] q) in *. clearbody w. cbn in H.
  repeat (destruct H as [<-|H]; [apply B2SF_inj; vm_compute; reflexivity|]). contradiction.
Qed.
Print Assumptions C90_only_nan.

(** ** Infinities *)
Lemma fold_max_inf l : forall mm, fst mm = B754_infinity false ->
  fst (fold_left (fun mm x => (fmax (fst mm) x, fmin (snd mm) x)) l mm) = B754_infinity false.
Proof.
  induction l as [|x l IH]; intros [mx mn] A; [exact A|]. cbn [fst] in A. subst mx. cbn [fold_left fst snd]. apply IH. cbn [fst].
  destruct x as [s|[]| |[] m e h]; reflexivity.
Qed.
Lemma fold_min_inf l : forall mm, snd mm = B754_infinity true ->
  snd (fold_left (fun mm x => (fmax (fst mm) x, fmin (snd mm) x)) l mm) = B754_infinity true.
Proof.
  induction l as [|x l IH]; intros [mx mn] A; [exact A|]. cbn [snd] in A. subst mn. cbn [fold_left fst snd]. apply IH. cbn [snd].
  destruct x as [s|[]| |[] m e h]; reflexivity.
Qed.
(** The greatest is never NaN or minus infinity and the least never NaN or plus infinity. *)
Definition proper (mm : f32 * f32) : Prop :=
  (fin (fst mm) \/ fst mm = B754_infinity false) /\ (fin (snd mm) \/ snd mm = B754_infinity true).
Lemma step_proper mm x : proper mm -> proper (fmax (fst mm) x, fmin (snd mm) x).
Proof.
  destruct mm as [mx mn]. intros [A B]. cbn [fst snd] in *. split; cbn [fst snd].
  - destruct A as [A | ->]; [|right; destruct x as [s|[]| |[] m e h]; reflexivity].
    unfold fmax. replace (is_nan mx) with false by (destruct mx; try discriminate; reflexivity).
    destruct (is_nan x) eqn:N; [now left|]. destruct (flt mx x) eqn:L; [|now left].
    destruct x as [s|[]| |s m e h]; try discriminate; [now left| |now right|now left]. exfalso. destruct mx as [s|s| |[] m e h]; discriminate.
  - destruct B as [B | ->]; [|right; destruct x as [s|[]| |[] m e h]; reflexivity].
    unfold fmin. replace (is_nan mn) with false by (destruct mn; try discriminate; reflexivity).
    destruct (is_nan x) eqn:N; [now left|]. destruct (flt x mn) eqn:L; [|now left].
    destruct x as [s|[]| |s m e h]; try discriminate; [now left|now right| |now left]. exfalso. destruct mn as [s|s| |[] m e h]; discriminate.
Qed.
Lemma fold_proper l : forall mm, proper mm -> proper (fold_left (fun mm x => (fmax (fst mm) x, fmin (snd mm) x)) l mm).
Proof. induction l as [|x l IH]; intros mm A; [exact A|]. cbn [fold_left]. apply IH. now apply step_proper. Qed.
Lemma fold_inf l s : In (B754_infinity s) l -> forall mm, proper mm ->
  let r := fold_left (fun mm x => (fmax (fst mm) x, fmin (snd mm) x)) l mm in
  if s then snd r = B754_infinity true else fst r = B754_infinity false.
Proof.
  induction l as [|x l IH]; intros [] mm A; cbv zeta; cbn [fold_left].
  - subst x. destruct s.
    + apply fold_min_inf. cbn [snd]. destruct A as [_ [A|A]]; [|now rewrite A].
      destruct (snd mm) as [s|s| |[] m e h]; try discriminate; reflexivity.
    + apply fold_max_inf. cbn [fst]. destruct A as [[A|A] _]; [|now rewrite A].
      destruct (fst mm) as [s|s| |[] m e h]; try discriminate; reflexivity.
  - apply IH; auto. now apply step_proper.
Qed.
Lemma infinite_span l s : In (B754_infinity s) l -> fsub (fst (float_range l)) (snd (float_range l)) = B754_infinity false.
Proof.
  intros I. assert (P0 : proper (f32_MIN, f32_MAX)) by (split; left; reflexivity).
  pose proof (fold_inf l s I _ P0) as H. pose proof (fold_proper l _ P0) as [A B]. cbv zeta in H. fold (float_range l) in *.
  destruct s; rewrite H.
  - destruct A as [A|A]; [|rewrite A; reflexivity]. destruct (fst (float_range l)); try discriminate; reflexivity.
  - destruct B as [B|B]; [|rewrite B; reflexivity]. destruct (snd (float_range l)); try discriminate; reflexivity.
Qed.
Lemma infinite_width lm l s q : log2_infinite lm -> In (B754_infinity s) l -> finite q -> 0 < val q -> float_width lm l q = 255%nat.
Proof.
  intros L I F P. unfold float_width. rewrite (infinite_span l s I).
  replace (fdiv (B754_infinity false) q) with (B754_infinity (prec:=24) (emax:=128) false).
  { unfold log2_infinite in L. rewrite L. reflexivity. }
  destruct q as [z|z| |[] m e h]; try discriminate; cbn in P; [lra| |reflexivity].
  exfalso. assert (F2R (Float radix2 (Z.neg m) e) < 0) by (apply F2R_lt_0; reflexivity). lra.
Qed.

(** An infinite value cannot be stored with any precision: with overflow checks the save
    panics, and the file that a build without them writes is refused by every build. *)
Theorem C90_infinite : forall lm p l m name s fs q z,
  log2_infinite lm -> In (m, name) l -> In s (custom_data m) -> as_float (c_data s) = Some (fs, q) ->
  finite q -> 0 < val q -> In (B754_infinity z) fs ->
  (Forall (fun mn => any_mesh (fst mn)) l -> saved lm true p l = Panic) /\
  (settings_ok p -> release_list lm l -> forall out, saved lm false p l = Ok out ->
   forall lm' oc', exists w, (64 <= w)%N /\ read_tmf lm' oc' out = Err (EInvalidPrecision w)).
Proof.
  intros lm p l m name s fs q z LI I Is D F P Iz. pose proof (infinite_width lm fs z q LI Iz F P) as W.
  destruct (c_data s) as [| |fs' q'|] eqn:ED; try discriminate D. injection D as -> ->.
  split.
  - intros H. apply (float_panics lm p l m name s fs q); auto. now apply any_meshes.
  - intros HP HL out S lm' oc'. destruct (release_writable _ _ HL) as [A B].
    apply (saved_fair lm lm' oc' p l out HP A B S). apply Exists_exists. exists (m, name). split; [exact I|]. cbn [fst].
    destruct HL as [_ HL]. rewrite Forall_forall in HL. destruct (HL _ I) as (ST & [_ M] & _). cbn [fst] in ST, M.
    rewrite Forall_forall in M. specialize (M s Is). rewrite ED in M.
    apply (float_unloadable lm lm' oc' p m s fs q); auto.
    destruct ST. rewrite Forall_forall in *. auto.
Qed.
Print Assumptions C90_infinite.

(** ** The hypotheses can be met *)
Definition gappy : list f32 := [B754_nan; nine_tenths; f0; B754_nan; f1].
Example C90_nan_case : exists out, log2_ok grid_libm /\ precision_ok demo_prec /\
  list_ok grid_libm [(floats_mesh gappy half, [])] /\
  saved grid_libm true demo_prec [(floats_mesh gappy half, [])] = Ok out /\
  ranges 1 0 1 (numbers gappy) /\ finite half /\ 0 < val half /\ / 2 ^ 60 * val half <= 1 - 0 <= 2 ^ 23 * val half.
Proof.
  assert (HL : list_ok grid_libm [(floats_mesh gappy half, [])]) by (eapply custom_list_ok; [reflexivity|discriminate]).
  destruct (grid_saves demo_prec _ demo_prec_ok HL) as (out & l' & S & R & R'); [vm_compute; reflexivity|].
  exists out. split; [apply grid_log2_ok|]. split; [apply demo_prec_ok|]. split; [exact HL|]. split; [exact S|].
  destruct half_R as [H1 ->], nine_R as [N1 N], f1_val as [F1 V1]. split; [|split; [exact H1|simpl pow; lra]].
  replace (numbers gappy) with [nine_tenths; f0; f1] by reflexivity.
  clear - N1 N F1 V1. revert N1 N F1 V1. generalize nine_tenths as n, f1 as one. intros n one N1 N F1 V1. unfold ranges.
  assert (F0 : finite f0) by reflexivity.
  split; [repeat apply Forall_cons; auto|]. split; [repeat apply Forall_cons; auto; rewrite ?val_0, ?V1, ?Rabs_R0, ?Rabs_R1; try lra; rewrite Rabs_pos_eq by lra; lra|].
  split; (split; [|intros x; cbn [In]; intros [<-|[<-|[<-|[]]]]; rewrite ?val_0, ?V1; lra]).
  - right. left. apply val_0.
  - right. right. left. exact V1.
Qed.
Example C90_only_nan_case : exists out, list_ok grid_libm [(floats_mesh [B754_nan; B754_nan] half, [])] /\
  saved grid_libm true demo_prec [(floats_mesh [B754_nan; B754_nan] half, [])] = Ok out.
Proof.
  assert (HL : list_ok grid_libm [(floats_mesh [B754_nan; B754_nan] half, [])]) by (eapply custom_list_ok; [reflexivity|discriminate]).
  destruct (grid_saves demo_prec _ demo_prec_ok HL) as (out & l' & S & _); [vm_compute; reflexivity|]. eauto.
Qed.
(** The greatest finite float is no NaN, and far from anything that was stored. *)
Example C90_only_nan_value : is_nan f32_MAX = false /\ finite f32_MAX /\ 2 ^ 127 < val f32_MAX.
Proof.
  split; [reflexivity|]. split; [reflexivity|]. unfold f32_MAX.
  match goal with |- _ < val ?x => let v := eval vm_compute in (B2SF x) in destruct (R32_SF x v) as [A B]; [vm_compute; reflexivity|] end.
  change val with R32. rewrite A. unfold SF2R, F2R. simpl pow. cbn. lra.
Qed.
Definition endless : mesh := floats_mesh [f1; B754_infinity true] half.
Example C90_infinite_case : log2_infinite full_libm /\ settings_ok sixteenth /\ any_mesh endless /\ release_list full_libm [(endless, [])] /\
  finite half /\ 0 < val half /\ exists out, saved full_libm false sixteenth [(endless, [])] = Ok out.
Proof.
  split; [reflexivity|]. split; [unfold settings_ok, sixteenth; cbn; lia|].
  split. { intros l [I|[I|[I|[I|[]]]]]; discriminate I. }
  split.
  { destruct (custom_list_ok full_libm endless _ eq_refl) as [A B]; [discriminate|]. split; [reflexivity|].
    apply Forall_cons; [|apply Forall_nil]. apply Forall_inv in B. cbn [fst snd] in *. destruct B as (B1 & B2 & _).
    split; [exact B1|]. split; [split; [intros v E; discriminate E|]|].
    - apply Forall_cons; [|apply Forall_nil]. cbn. discriminate.
    - split; [apply Forall_cons; [exact Logic.I|apply Forall_nil]|]. split; [exact B2|reflexivity]. }
  destruct half_R as [H1 ->]. split; [exact H1|]. split; [lra|].
  destruct (C53_release_exact full_libm sixteenth [(endless, [])]) as [_ [_ SV]].
  { constructor; [|constructor]. cbn [fst]. split; [|constructor; [cbn; lia|constructor]]. intros l [I|[I|[I|[I|[]]]]]; discriminate I. }
  apply SV. constructor; [|constructor]. cbn [fst]. intros [X|(v & t & X & _)]; discriminate X.
Qed.
