(** Property C90 in double precision: custom floats that are not numbers, or not finite. *)
From Coq Require Import List NArith ZArith Arith Lia Bool Reals Lra.
From Flocq Require Import Core IEEE754.BinarySingleNaN.
From Verif Require Import Base UnalignedRW ReadExt ByteLemmas BitIOSpec UnalignedRW_proofs BitLemmas BitSpec Floats Floats_proofs FloatReal_proofs Utilis Vertices CustomData Mesh Tmf File FileSpec SaveSpec
  ValueSpec VertexSpec Demo P_Save Save_proofs Save2_proofs Codec_proofs Image_proofs Quant_proofs Log2_proofs VertexReal_proofs Panic_proofs File_proofs Merge_proofs NormalReal_proofs Agree_proofs
  CustomReal_proofs P_Uv Double DoubleSpec Double2_proofs DoubleSave DoubleSaveSpec DoubleValueSpec DoublePanicSpec DoubleMesh DoubleEdit DMerge_proofs DCodec_proofs DSave_proofs DAgree_proofs DSplit_proofs
  DQuant_proofs DVertex_proofs DCustom_proofs DPanic_proofs P_Double P_DoubleSave P_DoubleValue P_DoubleChecked DFineSpec DFine_proofs DFine2_proofs DFine3_proofs DWidenFloat_proofs P_DoubleFine.
Import ListNotations.
Open Scope res_scope.
Local Open Scope R_scope.

(** The values of an array that are no NaN. *)
Definition numbers_d (l : list f64) : list f64 := filter (fun x => negb (is_nan x)) l.

(** ** NaN among numbers_d *)
Lemma fold_numbers_d l : forall mm, is_nan (fst mm) = false -> is_nan (snd mm) = false ->
  fold_left (fun mm x => (dmax (fst mm) x, dmin (snd mm) x)) l mm =
  fold_left (fun mm x => (dmax (fst mm) x, dmin (snd mm) x)) (numbers_d l) mm.
Proof.
  induction l as [|x l IH]; intros [mx mn] A B; [reflexivity|]. cbn [fst snd] in *. cbn [numbers_d filter fold_left fst snd].
  destruct (is_nan x) eqn:N; cbn [negb fold_left fst snd].
  - replace (dmax mx x) with mx by (unfold dmax; now rewrite A, N). replace (dmin mn x) with mn by (unfold dmin; now rewrite B, N). now apply IH.
  - apply IH; cbn [fst snd]; unfold dmax, dmin; rewrite ?A, ?B, ?N; destruct (dlt _ _); assumption.
Qed.
Lemma range_numbers_d l : float_range_d l = float_range_d (numbers_d l).
Proof. apply fold_numbers_d; reflexivity. Qed.
Lemma width_numbers_d lm l q : float_width_d lm l q = float_width_d lm (numbers_d l) q.
Proof. unfold float_width_d. now rewrite range_numbers_d. Qed.
Lemma image_numbers_d lm l q mul x : float_image_d lm l q mul x = float_image_d lm (numbers_d l) q mul x.
Proof. rewrite !float_image1_d. now rewrite <- range_numbers_d, <- width_numbers_d. Qed.
Lemma nan_code_d mn mx mul : float_code1_d mn mx mul B754_nan = 0%N.
Proof.
  unfold float_code1_d. replace (dsub B754_nan mn) with (B754_nan (prec:=53) (emax:=1024)) by (destruct mn; reflexivity).
  replace (ddiv B754_nan (dsub mx mn)) with (B754_nan (prec:=53) (emax:=1024)) by (destruct (dsub mx mn); reflexivity).
  replace (dmul B754_nan mul) with (B754_nan (prec:=53) (emax:=1024)) by (destruct mul; reflexivity). reflexivity.
Qed.
Lemma not_nan_d (x : f64) : x <> B754_nan -> is_nan x = false.
Proof. destruct x; try reflexivity. intros H. now elim H. Qed.

(** What C74 says, for one value of the array. *)
Lemma value_bound_d lm fs q mul B lo hi x : log2_64_ok lm -> mask_f64 (E:=ioerr) true (float_width_d lm fs q) = Ok mul ->
  ranges_d B lo hi fs -> B <= 2 ^ 60 -> finite64 q -> 0 < val64 q -> In x fs ->
  let y := float_image_d lm fs q mul x in
  (/ 2 ^ 60 * val64 q <= hi - lo <= 2 ^ 60 * val64 q ->
     finite64 y /\ lo <= val64 y <= hi + / 2 ^ 50 * B + / 2 ^ 99 /\ within_d (2.002 * val64 q + / 2 ^ 48 * B + / 2 ^ 99) x y) /\
  (lo = hi -> finite64 y /\ val64 y = val64 x).
Proof.
  intros LG M HR HB Fq Pq I y. destruct (ranges_is_d _ _ _ _ HR) as (A1 & A2 & E1 & E2 & B1 & B2 & LH & FR).
  pose proof (mask_d30 _ _ M) as W30. assert (W1 : (1 <= float_width_d lm fs q)%nat) by (unfold float_width_d; lia).
  unfold y. rewrite float_image1_d.
  split.
  - intros Hs. destruct (float_width_R_d lm fs B lo hi q LG HR HB Fq Pq Hs W30) as (_ & WL & WU).
    destruct HR as (FF & FB & HR1 & HR2). rewrite Forall_forall in FR, FF, FB.
    cbv zeta in *. set (w := float_width_d lm fs q) in *.
    assert (SP : lo < hi).
    { assert (0 < / 2 ^ 60 * val64 q) by (apply Rmult_lt_0_compat; [apply Rinv_0_lt_compat, pow_lt|]; lra). lra. }
    destruct (mask_R_d _ _ M ltac:(lia)) as [M1 M2].
    destruct (float_R_d w mul (snd (float_range_d fs)) (fst (float_range_d fs)) x B ltac:(lia) M1 M2 A2 A1 (FF x I)) as (Y1 & Y2 & Y3);
      rewrite ?E1, ?E2; auto.
    cbv zeta in *. rewrite E1, E2 in *. split; [exact Y1|]. split; [exact Y2|]. unfold within_d. change val64 with R64 in *.
    eapply Rle_trans; [exact Y3|]. apply Rplus_le_compat_r, Rplus_le_compat_r.
    rewrite steps_pow. assert (P2 : 2 <= 2 ^ w) by (replace 2 with (2 ^ 1) at 1 by lra; apply pow2_le; lia).
    apply Rmult_le_reg_r with (2 ^ w - 1); [lra|]. unfold Rdiv. rewrite Rmult_assoc, Rinv_l by lra.
    assert (2 * R64 q <= 2 ^ w * R64 q) by (apply Rmult_le_compat_r; lra). lra.
  - destruct HR as (FF & FB & HR1 & HR2). rewrite Forall_forall in FR, FF, FB.
    intros Heq. pose proof (FR x I) as X.
    assert (C0 : float_code1_d (snd (float_range_d fs)) (fst (float_range_d fs)) mul x = 0%N).
    { apply (flat_code_d mul _ _ x B); auto; rewrite ?E1, ?E2; auto; [apply (FF x I)|lra]. }
    rewrite C0. apply Rabs_le_iff in B1, B2.
    destruct (dsub_R (fst (float_range_d fs)) (snd (float_range_d fs)) A1 A2) as [_ D2]; [rewrite E1, E2; apply (fits_B_d B); auto; apply Rabs_le_iff; lra|].
    destruct (dequantize_low_d (float_width_d lm fs q) 0 (dsub (fst (float_range_d fs)) (snd (float_range_d fs))) (snd (float_range_d fs)) B) as [Y1 Y2]; [lia|exact D2|exact A2| |exact HB| |].
    { rewrite E2. apply Rabs_le_iff. lra. }
    { left. apply N.mod_0_l, N.pow_nonzero. lia. }
    cbv zeta in *. split; [exact Y1|]. change val64 with R64. rewrite Y2, E2. lra.
Qed.

(** C90 in double precision. NaNs among numbers do not disturb the numbers, and every NaN loads
    as the least of the numbers. *)
Theorem C90_nan_is_least_double : forall lm sc oc' p l out,
  log2_64_ok lm -> precision_ok_d p -> list_ok_d lm l -> saved_d lm true p l = Ok out ->
  exists l', read_tmf_d sc oc' out = Ok l' /\
    Forall2 (on_custom_d (fun d d' => forall fs q, d = XFloat fs q ->
      exists fs' q', d' = XFloat fs' q' /\ length fs' = length fs /\
      forall B lo hi, ranges_d B lo hi (numbers_d fs) -> B <= 2 ^ 60 -> finite64 q -> 0 < val64 q ->
        Forall2 (fun x y => x = B754_nan -> finite64 y /\ val64 y = lo) fs fs' /\
        (/ 2 ^ 60 * val64 q <= hi - lo <= 2 ^ 60 * val64 q ->
           Forall2 (fun x y => x <> B754_nan -> finite64 y /\ lo <= val64 y <= hi + / 2 ^ 50 * B + / 2 ^ 99 /\
                               within_d (2.002 * val64 q + / 2 ^ 48 * B + / 2 ^ 99) x y) fs fs') /\
        (lo = hi -> Forall2 (fun x y => x <> B754_nan -> finite64 y /\ val64 y = val64 x) fs fs'))) l l'.
Proof.
  intros lm sc oc' p l out LG HP HL S. apply (custom_loads_d _ lm sc oc' p l out HP HL S).
  intros d d' DR fs q ->. destruct d' as [| |fs' q'|]; try contradiction. destruct DR as (_ & mul & M & ->).
  exists (map (float_image_d lm fs q mul) fs), q'. split; [reflexivity|]. split; [apply map_length|].
  intros B lo hi HR HB Fq Pq. rewrite width_numbers_d in M.
  assert (V : forall x, In x fs -> x <> B754_nan -> In x (numbers_d fs)).
  { intros x I H. apply filter_In. split; [exact I|]. now rewrite not_nan_d. }
  split; [|split].
  - apply F2_map. intros x I ->. rewrite image_numbers_d, float_image1_d, nan_code_d.
    destruct (ranges_is_d _ _ _ _ HR) as (A1 & A2 & E1 & E2 & B1 & B2 & LH & FR). pose proof (mask_d30 _ _ M) as W30.
    assert (W1 : (1 <= float_width_d lm (numbers_d fs) q)%nat) by (unfold float_width_d; lia). apply Rabs_le_iff in B1, B2.
    destruct (dsub_R (fst (float_range_d (numbers_d fs))) (snd (float_range_d (numbers_d fs))) A1 A2) as [_ D2]; [rewrite E1, E2; apply (fits_B_d B); auto; apply Rabs_le_iff; lra|].
    destruct (dequantize_low_d (float_width_d lm (numbers_d fs) q) 0 (dsub (fst (float_range_d (numbers_d fs))) (snd (float_range_d (numbers_d fs)))) (snd (float_range_d (numbers_d fs))) B) as [Y1 Y2]; [lia|exact D2|exact A2| |exact HB| |].
    { rewrite E2. apply Rabs_le_iff. lra. }
    { left. apply N.mod_0_l, N.pow_nonzero. lia. }
    cbv zeta in *. split; [exact Y1|]. change val64 with R64. now rewrite Y2.
  - intros Hs. apply F2_map. intros x I H. rewrite image_numbers_d. now apply (value_bound_d lm (numbers_d fs) q mul B lo hi x LG M HR HB Fq Pq (V x I H)).
  - intros Hs. apply F2_map. intros x I H. rewrite image_numbers_d. now apply (value_bound_d lm (numbers_d fs) q mul B lo hi x LG M HR HB Fq Pq (V x I H)).
Qed.
Print Assumptions C90_nan_is_least_double.

(** An array of NaNs only is the one that keeps them: every one loads as NaN. (Without the
    feature they load as the greatest finite float.) *)
Theorem C90_only_nan_double : forall lm sc oc' p l out,
  precision_ok_d p -> list_ok_d lm l -> saved_d lm true p l = Ok out ->
  exists l', read_tmf_d sc oc' out = Ok l' /\
    Forall2 (on_custom_d (fun d d' => forall fs q, d = XFloat fs q -> Forall (fun x => x = B754_nan) fs ->
      exists q', d' = XFloat fs q')) l l'.
Proof.
  intros lm sc oc' p l out HP HL S. apply (custom_loads_d _ lm sc oc' p l out HP HL S).
  intros d d' DR fs q -> A. destruct d' as [| |fs' q'|]; try contradiction. destruct DR as (_ & mul & M & ->).
  exists q'. f_equal. transitivity (map (fun x : f64 => x) fs); [|apply map_id]. apply map_ext_in. intros x I. rewrite Forall_forall in A. rewrite (A x I), image_numbers_d, float_image1_d, nan_code_d.
  rewrite width_numbers_d in M. pose proof (mask_d30 _ _ M) as W30.
  replace (low (float_width_d lm (numbers_d fs) q) 0) with 0%N by (symmetry; apply N.mod_0_l, N.pow_nonzero; lia).
  assert (NE : numbers_d fs = []).
  { clear -A. induction fs as [|x fs IH]; [reflexivity|]. cbn. rewrite (A x) by now left. cbn. apply IH. intros y I. apply A. now right. }
  rewrite NE in *.
  assert (W1 : (1 <= float_width_d lm [] q)%nat) by (unfold float_width_d; lia).
  assert (H : In (float_width_d lm [] q) (seq 1 30)) by (apply in_seq; lia). clear -H. set (w := float_width_d lm [] q) in *. clearbody w. cbn in H.
  repeat (destruct H as [<-|H]; [apply B2SF_inj; vm_compute; reflexivity|]). contradiction.
Qed.
Print Assumptions C90_only_nan_double.

(** ** Infinities *)
Lemma fold_max_inf_d l : forall mm, fst mm = B754_infinity false ->
  fst (fold_left (fun mm x => (dmax (fst mm) x, dmin (snd mm) x)) l mm) = B754_infinity false.
Proof.
  induction l as [|x l IH]; intros [mx mn] A; [exact A|]. cbn [fst] in A. subst mx. cbn [fold_left fst snd]. apply IH. cbn [fst].
  destruct x as [s|[]| |[] m e h]; reflexivity.
Qed.
Lemma fold_min_inf_d l : forall mm, snd mm = B754_infinity true ->
  snd (fold_left (fun mm x => (dmax (fst mm) x, dmin (snd mm) x)) l mm) = B754_infinity true.
Proof.
  induction l as [|x l IH]; intros [mx mn] A; [exact A|]. cbn [snd] in A. subst mn. cbn [fold_left fst snd]. apply IH. cbn [snd].
  destruct x as [s|[]| |[] m e h]; reflexivity.
Qed.
(** The greatest is never NaN or minus infinity and the least never NaN or plus infinity. *)
Definition proper_d (mm : f64 * f64) : Prop :=
  (fin (fst mm) \/ fst mm = B754_infinity false) /\ (fin (snd mm) \/ snd mm = B754_infinity true).
Lemma step_proper_d mm x : proper_d mm -> proper_d (dmax (fst mm) x, dmin (snd mm) x).
Proof.
  destruct mm as [mx mn]. intros [A B]. cbn [fst snd] in *. split; cbn [fst snd].
  - destruct A as [A | ->]; [|right; destruct x as [s|[]| |[] m e h]; reflexivity].
    unfold dmax. replace (is_nan mx) with false by (destruct mx; try discriminate; reflexivity).
    destruct (is_nan x) eqn:N; [now left|]. destruct (dlt mx x) eqn:L; [|now left].
    destruct x as [s|[]| |s m e h]; try discriminate; [now left| |now right|now left]. exfalso. destruct mx as [s|s| |[] m e h]; discriminate.
  - destruct B as [B | ->]; [|right; destruct x as [s|[]| |[] m e h]; reflexivity].
    unfold dmin. replace (is_nan mn) with false by (destruct mn; try discriminate; reflexivity).
    destruct (is_nan x) eqn:N; [now left|]. destruct (dlt x mn) eqn:L; [|now left].
    destruct x as [s|[]| |s m e h]; try discriminate; [now left|now right| |now left]. exfalso. destruct mn as [s|s| |[] m e h]; discriminate.
Qed.
Lemma fold_proper_d l : forall mm, proper_d mm -> proper_d (fold_left (fun mm x => (dmax (fst mm) x, dmin (snd mm) x)) l mm).
Proof. induction l as [|x l IH]; intros mm A; [exact A|]. cbn [fold_left]. apply IH. now apply step_proper_d. Qed.
Lemma fold_inf_d l s : In (B754_infinity s) l -> forall mm, proper_d mm ->
  let r := fold_left (fun mm x => (dmax (fst mm) x, dmin (snd mm) x)) l mm in
  if s then snd r = B754_infinity true else fst r = B754_infinity false.
Proof.
  induction l as [|x l IH]; intros [] mm A; cbv zeta; cbn [fold_left].
  - subst x. destruct s.
    + apply fold_min_inf_d. cbn [snd]. destruct A as [_ [A|A]]; [|now rewrite A].
      destruct (snd mm) as [s|s| |[] m e h]; try discriminate; reflexivity.
    + apply fold_max_inf_d. cbn [fst]. destruct A as [[A|A] _]; [|now rewrite A].
      destruct (fst mm) as [s|s| |[] m e h]; try discriminate; reflexivity.
  - apply IH; auto. now apply step_proper_d.
Qed.
Lemma infinite_span_d l s : In (B754_infinity s) l -> dsub (fst (float_range_d l)) (snd (float_range_d l)) = B754_infinity false.
Proof.
  intros I. assert (P0 : proper_d (d_MIN, d_MAX)) by (split; left; reflexivity).
  pose proof (fold_inf_d l s I _ P0) as H. pose proof (fold_proper_d l _ P0) as [A B]. cbv zeta in H. fold (float_range_d l) in *.
  destruct s; rewrite H.
  - destruct A as [A|A]; [|rewrite A; reflexivity]. destruct (fst (float_range_d l)); try discriminate; reflexivity.
  - destruct B as [B|B]; [|rewrite B; reflexivity]. destruct (snd (float_range_d l)); try discriminate; reflexivity.
Qed.
Lemma infinite_width_d lm l s q : log2_64_infinite lm -> In (B754_infinity s) l -> finite64 q -> 0 < val64 q -> float_width_d lm l q = 255%nat.
Proof.
  intros L I F P. unfold float_width_d. rewrite (infinite_span_d l s I).
  replace (ddiv (B754_infinity false) q) with (B754_infinity (prec:=53) (emax:=1024) false).
  { unfold log2_64_infinite in L. rewrite L. reflexivity. }
  destruct q as [z|z| |[] m e h]; try discriminate; cbn in P; [lra| |reflexivity].
  exfalso. assert (F2R (Float radix2 (Z.neg m) e) < 0) by (apply F2R_lt_0; reflexivity). lra.
Qed.

(** An infinite value cannot be stored with any precision: with overflow checks the save
    panics, and the file that a build without them writes is refused by every build. *)
Theorem C90_infinite_double : forall lm p l m name s fs q z,
  log2_64_infinite lm -> In (m, name) l -> In s (d_custom_data m) -> x_data s = XFloat fs q ->
  finite64 q -> 0 < val64 q -> In (B754_infinity z) fs ->
  (Forall (fun mn => any_mesh_d (fst mn)) l -> saved_d lm true p l = Panic) /\
  (settings_ok_d p -> release_list_d lm l -> forall out, saved_d lm false p l = Ok out ->
   forall sc oc', exists w, (64 <= w)%N /\ read_tmf_d sc oc' out = Err (EInvalidPrecision w)).
Proof.
  intros lm p l m name s fs q z LI I Is D F P Iz. pose proof (infinite_width_d lm fs z q LI Iz F P) as W.
  split.
  - intros H. apply (float_panics_d lm p l m name s fs q); auto. now apply any_meshes_d.
  - intros HP HL out S sc oc'. destruct (release_writable_d _ _ HL) as [A B].
    apply (saved_fair_d lm sc oc' p l out HP A B S). apply Exists_exists. exists (m, name). split; [exact I|]. cbn [fst].
    destruct HL as [_ HL]. rewrite Forall_forall in HL. destruct (HL _ I) as (ST & [_ M] & _). cbn [fst] in ST, M.
    rewrite Forall_forall in M. specialize (M s Is). rewrite D in M.
    apply (float_unloadable_d lm sc oc' p m s fs q); auto.
    destruct ST. rewrite Forall_forall in *. auto.
Qed.
Print Assumptions C90_infinite_double.


(** ** The hypotheses can be met *)
Definition floats_mesh_d (fs : list f64) (q : f64) : dmesh :=
  with_custom_data_d d_empty [mk_dcseg [102]%N 1 (XFloat fs q)].
Lemma floats_storable_d fs q : (len fs <= 2 ^ 25)%N -> storable_d (floats_mesh_d fs q).
Proof.
  intros H. constructor; cbn [floats_mesh_d with_custom_data_d d_empty d_normals d_normal_triangles d_vertices d_vertex_triangles d_uvs d_uv_triangles d_tangents d_tangent_triangles d_custom_data];
    first [apply small_none | apply indices_none | idtac].
  apply Forall_cons; [|apply Forall_nil]. unfold custom_ok_d; cbn [x_name x_name_len x_data].
  split; [repeat (apply Forall_cons; [reflexivity|]); apply Forall_nil|]. split; [reflexivity|]. split; [lia|]. lia.
Qed.
Lemma floats_ok_d lm fs q : (len fs <= 2 ^ 25)%N -> list_ok_d lm [(floats_mesh_d fs q, [])].
Proof.
  intros H. split; [reflexivity|]. apply Forall_cons; [|apply Forall_nil]. cbn [fst snd].
  split; [now apply floats_storable_d|split; [apply name_ok_ascii; reflexivity|reflexivity]].
Qed.
Definition gappy_d : list f64 := [B754_nan; dlit 1 3; d0; B754_nan; d1].
Example C90_nan_case_double : log2_64_ok grid_d /\ precision_ok_d sixteenth_d /\
  list_ok_d grid_d [(floats_mesh_d gappy_d (dlit 1 1024), [])] /\
  (exists out, saved_d grid_d true sixteenth_d [(floats_mesh_d gappy_d (dlit 1 1024), [])] = Ok out) /\
  ranges_d 1 0 1 (numbers_d gappy_d) /\ finite64 (dlit 1 1024) /\ 0 < val64 (dlit 1 1024) /\
  / 2 ^ 60 * val64 (dlit 1 1024) <= 1 - 0 <= 2 ^ 60 * val64 (dlit 1 1024).
Proof.
  destruct thousandth_R as [T1 T2]. destruct third_R as [H1 H2].
  split; [apply grid_d_ok|]. split; [split; cbn; lia|]. split; [apply floats_ok_d; discriminate|].
  split; [eexists; vm_compute; reflexivity|]. rewrite T2. split; [|split; [exact T1|simpl pow; lra]].
  replace (numbers_d gappy_d) with [dlit 1 3; d0; d1] by reflexivity.
  unfold ranges_d, least, greatest. cbn [map]. rewrite val64_0, val64_1. split; [repeat constructor; exact H1|]. split.
  - repeat apply Forall_cons; try apply Forall_nil; rewrite ?val64_0, ?val64_1, ?Rabs_R0, ?Rabs_R1, ?Rabs_pos_eq; lra.
  - split; (split; [cbn [In]; auto|]); intros y I; cbn [In] in I; destruct I as [<-|[<-|[<-|[]]]]; lra.
Qed.
Example C90_only_nan_case_double : list_ok_d grid_d [(floats_mesh_d [B754_nan; B754_nan] (dlit 1 1024), [])] /\
  exists out, saved_d grid_d true sixteenth_d [(floats_mesh_d [B754_nan; B754_nan] (dlit 1 1024), [])] = Ok out.
Proof. split; [apply floats_ok_d; discriminate|eexists; vm_compute; reflexivity]. Qed.
Definition endless_d : dmesh := floats_mesh_d [d1; B754_infinity true] (dlit 1 1024).
Example C90_infinite_case_double : log2_64_infinite full_d /\ settings_ok_d sixteenth_d /\ any_mesh_d endless_d /\ release_list_d full_d [(endless_d, [])] /\
  finite64 (dlit 1 1024) /\ 0 < val64 (dlit 1 1024) /\ exists out, saved_d full_d false sixteenth_d [(endless_d, [])] = Ok out.
Proof.
  destruct thousandth_R as [T1 T2]. rewrite T2.
  split; [reflexivity|]. split; [unfold settings_ok_d, sixteenth_d; cbn; lia|].
  split. { intros l [I|[I|[I|[I|[]]]]]; discriminate I. }
  split.
  { split; [reflexivity|]. apply Forall_cons; [|apply Forall_nil]. cbn [fst snd].
    split; [apply floats_storable_d; discriminate|]. split; [split; [intros v E; discriminate E|]|].
    - apply Forall_cons; [|apply Forall_nil]. cbn. discriminate.
    - split; [apply Forall_cons; [exact Logic.I|apply Forall_nil]|]. split; [apply name_ok_ascii; reflexivity|reflexivity]. }
  split; [exact T1|]. split; [lra|]. eexists. vm_compute. reflexivity.
Qed.
