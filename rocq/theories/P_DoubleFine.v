(** Property C81 in double precision: files of builds without overflow checks whose data
    needs more bits than the format has. *)
From Coq Require Import List NArith ZArith Arith Lia Bool Reals Lra.
From Flocq Require Import Core IEEE754.BinarySingleNaN.
From Verif Require Import Base UnalignedRW ReadExt ByteLemmas BitIOSpec UnalignedRW_proofs BitLemmas BitSpec Floats Floats_proofs FloatReal_proofs Utilis Vertices CustomData Mesh Tmf File FileSpec SaveSpec
  ValueSpec VertexSpec Demo P_Save Save_proofs Save2_proofs Codec_proofs Image_proofs Quant_proofs Log2_proofs VertexReal_proofs Panic_proofs File_proofs Merge_proofs NormalReal_proofs Agree_proofs
  Double DoubleSpec Double2_proofs DoubleSave DoubleSaveSpec DoubleValueSpec DoublePanicSpec DoubleMesh DoubleEdit DMerge_proofs DCodec_proofs DSave_proofs DAgree_proofs DSplit_proofs
  DQuant_proofs DVertex_proofs DCustom_proofs DPanic_proofs P_Double P_DoubleSave P_DoubleValue P_DoubleChecked DFineSpec DFine_proofs DFine2_proofs DFine3_proofs.
Import ListNotations.
Open Scope res_scope.
Local Open Scope R_scope.

Definition colors_ok_d (lm : libm64) (s : dcseg) : Prop :=
  match x_data s with XColor _ q => (color_width_d lm q <= 30)%nat | _ => True end.
(** What a list of meshes must be like. *)
Definition release_list_d (lm : libm64) (l : list (dmesh * list N)) : Prop :=
  (len l < 2 ^ 32)%N /\
  Forall (fun mn => storable_d (fst mn) /\ modest_d (fst mn) /\ Forall (colors_ok_d lm) (d_custom_data (fst mn)) /\
                    name_ok (snd mn) /\ (segment_count_d lm false (fst mn) < 65536)%N) l.
Definition settings_ok_d (p : dprec_info) : Prop :=
  (d_normal_precision p <= 30)%nat /\ (d_uv_prec p <= 30)%nat /\ (d_tangent_prec p <= 30)%nat.

Lemma release_writable_d lm l : release_list_d lm l -> (len l < 2 ^ 32)%N /\ Forall (writable_d lm) l.
Proof.
  intros [A B]. split; [exact A|]. eapply Forall_impl; [|exact B]. intros mn (H1 & H2 & H3 & H4 & H5).
  split; [exact H1|]. split; [exact H2|]. split; [|split; assumption]. destruct H2 as [_ H2].
  rewrite Forall_forall in *. intros s I. specialize (H2 s I). specialize (H3 s I). unfold modest_custom_d, colors_ok_d in *.
  destruct (x_data s); auto.
Qed.

(** What a build without overflow checks has saved is loaded by every build, with the same
    meshes, names, index arrays and array lengths, or is refused by it with the one error
    that names a width of 64 bits or more. It never panics and never loads part of it. *)
Theorem C81_release_outcome_double : forall lm sc oc' p l out,
  settings_ok_d p -> release_list_d lm l -> saved_d lm false p l = Ok out ->
  (exists l', read_tmf_d sc oc' out = Ok l' /\
     Forall2 (fun a b => snd a = snd b /\ same_shape_rev_d (fst a) (fst b)) l l') \/
  (exists w, (64 <= w)%N /\ read_tmf_d sc oc' out = Err (EInvalidPrecision w)).
Proof.
  intros lm sc oc' p l out HP HL S. destruct (release_writable_d _ _ HL) as [A B].
  apply (saved_fair_d lm sc oc' p l out HP A B S).
Qed.
Print Assumptions C81_release_outcome_double.

(** A triangle with two corners in one place: with overflow checks the save panics, and
    without them it writes a file that no build can load. *)
Theorem C81_degenerate_double : forall lm p l m name,
  log2_64_infinite lm -> finite64 (d_vertex_precision p) -> 0 < val64 (d_vertex_precision p) ->
  In (m, name) l -> degenerate_d m ->
  (Forall (fun mn => any_mesh_d (fst mn)) l -> saved_d lm true p l = Panic) /\
  (settings_ok_d p -> release_list_d lm l -> forall out, saved_d lm false p l = Ok out ->
   forall sc oc', exists w, (64 <= w)%N /\ read_tmf_d sc oc' out = Err (EInvalidPrecision w)).
Proof.
  intros lm p l m name LI FP PP I D.
  assert (exists v, d_vertices m = Some v /\ v <> []) as (v & V & NV).
  { destruct D as (v & t & a & b & c & pa & pb & pc & V & T & _ & A & _). exists v. split; [exact V|].
    intros ->. unfold corner_d in A. destruct (N.to_nat a); discriminate A. }
  assert (W : forall edge, calc_shortest_edge_d (d_vertex_triangles m) (d_vertices m) = Ok edge -> wide_d lm (d_vertex_precision p) edge).
  { intros edge E. rewrite (degenerate_edge_d m edge D E). now apply wide_degenerate_d. }
  split.
  - intros H. apply (wide_panics_d lm p l m name v); auto. now apply any_meshes_d.
  - intros HP HL out S sc oc'. destruct (release_writable_d _ _ HL) as [A B].
    apply (saved_fair_d lm sc oc' p l out HP A B S). apply Exists_exists. exists (m, name). split; [exact I|]. cbn [fst].
    destruct HL as [_ HL]. rewrite Forall_forall in HL. destruct (HL _ I) as (_ & [M _] & _).
    apply (wide_unloadable_d lm sc oc' p m v); auto.
Qed.
Print Assumptions C81_degenerate_double.

(** The same for every mesh with vertices if the requested precision of vertices is zero. *)
Theorem C81_zero_precision_double : forall lm p l m name v,
  log2_64_infinite lm -> d_vertex_precision p = d0 ->
  In (m, name) l -> d_vertices m = Some v -> v <> [] ->
  (Forall (fun mn => any_mesh_d (fst mn)) l -> saved_d lm true p l = Panic) /\
  (settings_ok_d p -> release_list_d lm l -> forall out, saved_d lm false p l = Ok out ->
   forall sc oc', exists w, (64 <= w)%N /\ read_tmf_d sc oc' out = Err (EInvalidPrecision w)).
Proof.
  intros lm p l m name v LI P0 I V NV.
  assert (W : forall edge, calc_shortest_edge_d (d_vertex_triangles m) (d_vertices m) = Ok edge -> wide_d lm (d_vertex_precision p) edge).
  { intros edge E. rewrite P0. eapply wide_zero_d; eauto. }
  split.
  - intros H. apply (wide_panics_d lm p l m name v); auto. now apply any_meshes_d.
  - intros HP HL out S sc oc'. destruct (release_writable_d _ _ HL) as [A B].
    apply (saved_fair_d lm sc oc' p l out HP A B S). apply Exists_exists. exists (m, name). split; [exact I|]. cbn [fst].
    destruct HL as [_ HL]. rewrite Forall_forall in HL. destruct (HL _ I) as (_ & [M _] & _).
    apply (wide_unloadable_d lm sc oc' p m v); auto.
Qed.
Print Assumptions C81_zero_precision_double.

(** And for custom floats with the precision zero that are not all equal. *)
Theorem C81_zero_float_precision_double : forall lm p l m name s fs a b,
  log2_64_infinite lm -> In (m, name) l -> In s (d_custom_data m) -> x_data s = XFloat fs d0 ->
  Forall finite64 fs -> In a fs -> In b fs -> val64 a < val64 b ->
  (Forall (fun mn => any_mesh_d (fst mn)) l -> saved_d lm true p l = Panic) /\
  (settings_ok_d p -> release_list_d lm l -> forall out, saved_d lm false p l = Ok out ->
   forall sc oc', exists w, (64 <= w)%N /\ read_tmf_d sc oc' out = Err (EInvalidPrecision w)).
Proof.
  intros lm p l m name s fs a b LI I Is D F Ia Ib L. pose proof (zero_float_width_d lm fs a b LI F Ia Ib L) as W.
  split.
  - intros H. apply (float_panics_d lm p l m name s fs d0); auto. now apply any_meshes_d.
  - intros HP HL out S sc oc'. destruct (release_writable_d _ _ HL) as [A B].
    apply (saved_fair_d lm sc oc' p l out HP A B S). apply Exists_exists. exists (m, name). split; [exact I|]. cbn [fst].
    destruct HL as [_ HL]. rewrite Forall_forall in HL. destruct (HL _ I) as (ST & [_ M] & _). cbn [fst] in ST, M.
    rewrite Forall_forall in M. specialize (M s Is). rewrite D in M.
    apply (float_unloadable_d lm sc oc' p m s fs d0); auto.
    destruct ST. rewrite Forall_forall in *. auto.
Qed.
Print Assumptions C81_zero_float_precision_double.

(** Colours with the precision zero: with overflow checks the save panics. Without them it
    writes a file on which a build with checks panics, and which a build without loads with
    every colour black and transparent. *)
Theorem C81_zero_color_precision_double : forall lm p s cs name,
  log2_64_infinite lm -> custom_ok_d s -> x_data s = XColor cs d0 -> (len cs <= 2 ^ 24)%N -> name_ok name ->
  let l := [(with_custom_data_d d_empty [s], name)] in
  saved_d lm true p l = Panic /\
  exists out, saved_d lm false p l = Ok out /\
    (forall sc, read_tmf_d sc true out = Panic) /\
    (forall sc, exists s' q, read_tmf_d sc false out = Ok [(with_custom_data_d d_empty [s'], name)] /\
       x_name s' = x_name s /\ x_data s' = XColor (map (fun _ => (d0, d0, d0, d0)) cs) q).
Proof.
  intros lm p s cs name LI C D L HN l.
  assert (AM : any_mesh_d (fst (with_custom_data_d d_empty [s], name))) by (intros ? [I|[I|[I|[I|[]]]]]; discriminate I).
  split.
  - apply saved_panic_d.
    + constructor; [|constructor]. now apply any_mesh_holdable_d.
    + intros out S. apply saved_inv_d in S as (outs & -> & F). inversion F as [|? o ? os T F']; subst. cbn [fst snd] in T.
      apply mesh_inv_d in T as (edge & segs & es & _ & E2 & E3 & _).
      pose proof (custom_kept_d lm true (with_custom_data_d d_empty [s]) s segs (or_introl eq_refl) E2) as IN.
      clear -E3 IN D LI. induction E3 as [|x e segs es X _ IH]; [destruct IN|]. destruct IN as [-> | IN]; auto.
      pose proof (zero_color_width_d lm LI) as W. unfold color_width_d in W.
      unfold encode_d, cseg_encode_d in X. rewrite D in X. cbn [cdata_write_d] in X. cbv zeta in X. rewrite W in X.
      destruct (_ <? _)%N in X; discriminate X.
  - destruct (C84_release_exact lm p l) as [_ [_ SV]].
    { constructor; [|constructor]. cbn [fst]. split; [exact AM|]. constructor; [|constructor]. destruct C as (_ & C & _). cbv beta. rewrite C. lia. }
    destruct SV as [out S].
    { constructor; [|constructor]. cbn [fst]. intros [X|(v & t & X & _)]; discriminate X. }
    exists out. split; [exact S|]. destruct (black_file_d lm p s cs name out LI C D L HN S) as [R1 R2]. split; [exact R1|].
    intros sc. destruct (R2 sc) as [q R]. eexists. exists q. split; [exact R|]. split; reflexivity.
Qed.
Print Assumptions C81_zero_color_precision_double.

(** Verification does not tell: a mesh it accepts, which is saved without overflow checks
    in a file that no build can load. *)
Definition sliver_d : dmesh :=
  mk_dmesh None None (Some [dv3 0 0 0; dv3 0 0 0; dv3 1 0 0]) (Some [0; 1; 2]%N) None None None None [].
Lemma sliver_degenerate_d : degenerate_d sliver_d.
Proof.
  exists [dv3 0 0 0; dv3 0 0 0; dv3 1 0 0], [0; 1; 2]%N, 0%N, 1%N, 2%N, (dv3 0 0 0), (dv3 0 0 0), (dv3 1 0 0).
  repeat split; try reflexivity; [left; reflexivity|]. left. repeat split; reflexivity.
Qed.
Lemma sliver_ok_d lm : release_list_d lm [(sliver_d, [])].
Proof.
  split; [reflexivity|]. apply Forall_cons; [|apply Forall_nil]. cbn [fst snd]. split.
  { constructor; cbn; first [apply small_none | apply indices_none | apply small_some; vm_compute; reflexivity | apply indices_some; vm_compute; reflexivity | constructor]. }
  split; [|split; [apply Forall_nil|split]].
  - split; [|apply Forall_nil]. intros v E. injection E as <-. vm_compute. discriminate.
  - split; [apply utf8_nil|reflexivity].
  - eapply N.le_lt_trans; [apply segment_count_le_d|vm_compute; reflexivity]. apply any_mesh_holdable_d.
    intros l [I|[I|[I|[I|[]]]]]; inversion I; subst. split; [|reflexivity]. repeat (apply Forall_cons; [reflexivity|]). apply Forall_nil.
Qed.
Theorem C81_verified_refuted_double : exists m, verify_tmf_mesh_d m = Ok tt /\
  forall lm p name, log2_64_infinite lm -> settings_ok_d p -> finite64 (d_vertex_precision p) -> 0 < val64 (d_vertex_precision p) -> name = [] ->
  saved_d lm true p [(m, name)] = Panic /\
  exists out, saved_d lm false p [(m, name)] = Ok out /\
    forall sc oc', exists w, (64 <= w)%N /\ read_tmf_d sc oc' out = Err (EInvalidPrecision w).
Proof.
  exists sliver_d. split; [vm_compute; reflexivity|]. intros lm p name LI HP FP PP ->.
  assert (AM : any_mesh_d sliver_d).
  { intros l [I|[I|[I|[I|[]]]]]; inversion I; subst. split; [|reflexivity]. repeat (apply Forall_cons; [reflexivity|]). apply Forall_nil. }
  destruct (C81_degenerate_double lm p [(sliver_d, [])] sliver_d [] LI FP PP (or_introl eq_refl) sliver_degenerate_d) as [D1 D2].
  split; [apply D1; constructor; [exact AM|constructor]|].
  destruct (C84_release_exact lm p [(sliver_d, [])]) as [_ [_ SV]].
  { constructor; [|constructor]. split; [exact AM|apply Forall_nil]. }
  destruct SV as [out S].
  { constructor; [|constructor]. cbn [fst]. intros [X|(v & t & V & T & _ & X)]; [discriminate X|]. injection V as <-. injection T as <-. apply X. split.
    - apply Forall_cons; [repeat split|apply Forall_nil].
    - apply Exists_cons_hd. exists (dv3 0 0 0), (dv3 0 0 0), (dv3 1 0 0). repeat split; try reflexivity. left. vm_compute. reflexivity. }
  exists out. split; [exact S|]. exact (D2 HP (sliver_ok_d lm) out S).
Qed.
Print Assumptions C81_verified_refuted_double.

(** Floats that need 33 to 61 bits: a build without overflow checks saves them and every
    build loads them, but all of them as the least one, up to 2^-29 of their size. *)
Theorem C81_collapse_double : forall lm p s fs q name B lo hi,
  log2_64_ok lm -> custom_ok_d s -> x_data s = XFloat fs q -> (len fs <= 2 ^ 25)%N -> name_ok name ->
  ranges_d B lo hi fs -> B <= 2 ^ 60 -> finite64 q -> 0 < val64 q -> 2 ^ 33 * val64 q <= hi - lo <= 2 ^ 59 * val64 q ->
  let l := [(with_custom_data_d d_empty [s], name)] in
  exists out, saved_d lm false p l = Ok out /\
    forall sc oc', exists s' fs' q', read_tmf_d sc oc' out = Ok [(with_custom_data_d d_empty [s'], name)] /\
      x_name s' = x_name s /\ x_data s' = XFloat fs' q' /\
      Forall2 (fun x y => finite64 y /\ lo <= val64 y <= lo + / 2 ^ 29 * B + / 2 ^ 99) fs fs'.
Proof.
  intros lm p s fs q name B lo hi LG C D L HN HR HB Fq Pq Hs l.
  assert (AM : any_mesh_d (fst (with_custom_data_d d_empty [s], name))) by (intros ? [I|[I|[I|[I|[]]]]]; discriminate I).
  destruct (C84_release_exact lm p l) as [_ [_ SV]].
  { constructor; [|constructor]. cbn [fst]. split; [exact AM|]. constructor; [|constructor]. destruct C as (_ & C & _). cbv beta. rewrite C. lia. }
  destruct SV as [out S].
  { constructor; [|constructor]. cbn [fst]. intros [X|(v & t & X & _)]; discriminate X. }
  exists out. split; [exact S|].
  destruct (ranges_is_d _ _ _ _ HR) as (A1 & A2 & E1 & E2 & B1 & B2 & LH & FR).
  assert (P33 : 0 < 2 ^ 33 * val64 q) by (apply Rmult_lt_0_compat; [apply pow_lt; lra|lra]).
  destruct (float_width_wide_R_d lm fs B lo hi q LG HR HB Fq Pq) as (W1 & WL & WU).
  { split.
    - eapply Rle_trans; [|apply Hs]. apply Rmult_le_compat_r; [lra|]. apply Rle_trans with 1; [rewrite <- Rinv_1; apply Rinv_le_contravar; [lra|apply pow_R1_Rle; lra]|apply pow_R1_Rle; lra].
    - eapply Rle_trans; [apply Hs|]. apply Rmult_le_compat_r; [lra|]. apply pow2_le. lia. }
  cbv zeta in W1, WL, WU. set (w := float_width_d lm fs q) in *.
  assert (W61 : (w <= 61)%nat).
  { destruct (le_lt_dec w 61) as [|X]; auto. exfalso. specialize (WU ltac:(lia)).
    assert (2 ^ 62 <= 2 ^ w) by (apply pow2_le; lia).
    assert (2 ^ 62 * val64 q <= 2 ^ w * val64 q) by (apply Rmult_le_compat_r; lra). replace (2 ^ 62) with (8 * 2 ^ 59) in * by (simpl pow; lra).
    assert (0 < 2 ^ 59 * val64 q) by (apply Rmult_lt_0_compat; [apply pow_lt|]; lra). lra. }
  specialize (WL ltac:(lia)).
  assert (WB : (33 <= w <= 61)%nat).
  { split; [|exact W61]. destruct (le_lt_dec 33 w) as [|X]; auto. exfalso.
    assert (2 ^ w <= 2 ^ 32) by (apply pow2_le; lia).
    assert (2 ^ w * val64 q <= 2 ^ 32 * val64 q) by (apply Rmult_le_compat_r; lra). replace (2 ^ 33) with (2 * 2 ^ 32) in * by (simpl pow; lra).
    assert (0 < 2 ^ 32 * val64 q) by lra. lra. }
  destruct (one_custom_file_d _ _ _ _ _ _ C HN S) as (b & EB & R).
  pose proof (name_header_d s C) as (N1 & N2 & N3 & N4 & N5 & N6). pose proof C as (C1 & C2 & C3 & _).
  unfold cseg_encode_d in EB. rewrite N1 in EB. cbn [app] in EB. rewrite N2, D in EB. rewrite D in R. cbn [dcdata_kind] in R.
  destruct (mask_release_d (E:=ioerr) w) as [mul Mm].
  destruct (float_kept_d lm fs q mul _ b L N3 EB Mm ltac:(fold w; lia)) as (pl & q' & EB1 & RR). fold w in EB1, RR.
  destruct (float_written_d lm fs q _ b N3 EB) as (pl2 & EB2 & BO & PL). fold w in EB2.
  rewrite EB1 in EB2. apply app_inv_head, app_inv_head in EB2. subst pl2. rewrite EB1 in R.
  intros sc oc'. eexists _, _, q'. split; [|split; [|split]].
  - rewrite R.
    + unfold cseg_read_d. cbn [app]. rewrite N5. cbn [io map_err bind]. rewrite N6. cbn [io map_err bind]. rewrite RR. cbn [bind]. rewrite N4. reflexivity.
    + unfold len in *. rewrite !app_length. unfold float_header_d, le_d. rewrite !app_length, !le_bytes_length. cbn [length]. lia.
    + rewrite !bytes_ok_app. split; [exact N3|]. split; [|exact BO]. unfold float_header_d. rewrite !bytes_ok_app. repeat split; try apply le_d_ok; try apply le_bytes_ok.
      constructor; [unfold byte_ok; lia|constructor].
  - reflexivity.
  - reflexivity.
  - destruct HR as (FF & FB & HR1 & HR2). rewrite Forall_forall in FR, FF. apply F2_map. intros x I. unfold float_image_d. fold w.
    destruct (decode_wide_d w (snd (float_range_d fs)) (fst (float_range_d fs)) (low w (float_code_d fs mul x)) B WB) as [Y1 Y2]; rewrite ?E1, ?E2; auto.
    + apply (wide_code_d (E:=ioerr) w mul _ _ x B WB Mm A2 A1 (FF x I)); rewrite ?E1, ?E2; auto. lra.
    + cbv zeta in Y1, Y2. rewrite E2 in Y2. split; [exact Y1|exact Y2].
Qed.
Print Assumptions C81_collapse_double.

(** ** The hypotheses can be met *)
Definition full_d : libm64 :=
  mk_libm64 (fun x => match x with B754_infinity false => B754_infinity false | _ => l_log2 ieee_d x end)
    (l_asin ieee_d) (l_sin_cos ieee_d).
Definition zero_floats_d : dcseg := mk_dcseg [102]%N 1 (XFloat [d0; d1] d0).
Definition far_floats_d : dcseg := mk_dcseg [102]%N 1 (XFloat [f64_of_Z 0; f64_of_Z 1; f64_of_Z 2] (ddiv d1 (f64_of_Z (2 ^ 40)))).
Definition zero_colors_d : dcseg := mk_dcseg [99]%N 1 (XColor [(d1, d0, d1, d1)] d0).
Example C81_case_double : log2_64_infinite full_d /\ log2_64_ok full_d /\
  degenerate_d sliver_d /\ release_list_d full_d [(sliver_d, [])] /\ any_mesh_d sliver_d /\ settings_ok_d sixteenth_d /\
  finite64 (d_vertex_precision sixteenth_d) /\ 0 < val64 (d_vertex_precision sixteenth_d) /\
  custom_ok_d zero_floats_d /\ val64 d0 < val64 d1 /\ custom_ok_d zero_colors_d /\
  custom_ok_d far_floats_d /\ ranges_d 2 0 2 [f64_of_Z 0; f64_of_Z 1; f64_of_Z 2] /\
  (let q := ddiv d1 (f64_of_Z (2 ^ 40)) in finite64 q /\ 0 < val64 q /\ 2 ^ 33 * val64 q <= 2 - 0 <= 2 ^ 59 * val64 q).
Proof.
  split; [reflexivity|]. split.
  { intros x F P. unfold full_d. cbn [l_log2]. pose proof (ieee_log2_ok_d x F P) as H. destruct x; try exact H. discriminate F. }
  split; [apply sliver_degenerate_d|]. split; [apply sliver_ok_d|].
  split. { intros l [I|[I|[I|[I|[]]]]]; inversion I; subst. split; [|reflexivity]. repeat (apply Forall_cons; [reflexivity|]). apply Forall_nil. }
  split. { unfold settings_ok_d, sixteenth_d. cbn. lia. }
  destruct sixteenth_d_R as [S1 S2]. split; [exact S1|]. split; [cbn [d_vertex_precision sixteenth_d]; rewrite S2; lra|].
  split; [unfold custom_ok_d, zero_floats_d; cbn; repeat split; try lia; constructor; [lia|constructor]|].
  split; [rewrite val64_0, val64_1; lra|].
  split; [unfold custom_ok_d, zero_colors_d; cbn; repeat split; try lia; constructor; [lia|constructor]|].
  assert (Z0 : finite64 (f64_of_Z 0) /\ val64 (f64_of_Z 0) = 0) by (split; [reflexivity|reflexivity]).
  assert (Z1 : finite64 (f64_of_Z 1) /\ val64 (f64_of_Z 1) = 1) by (destruct (f64_of_Z_exact 1); [lia|split; assumption]).
  assert (Z2 : finite64 (f64_of_Z 2) /\ val64 (f64_of_Z 2) = 2) by (destruct (f64_of_Z_exact 2); [lia|split; assumption]).
  split; [|split].
  - unfold custom_ok_d, far_floats_d. cbn. repeat split; try lia. constructor; [lia|constructor].
  - destruct Z0 as [F0 V0], Z1 as [F1 V1], Z2 as [F2 V2].
    split; [repeat (apply Forall_cons; [assumption|]); apply Forall_nil|].
    split; [repeat (apply Forall_cons; [rewrite ?V0, ?V1, ?V2, Rabs_pos_eq; lra|]); apply Forall_nil|].
    cbn [map]. rewrite V0, V1, V2. unfold least, greatest. cbn [In].
    split; (split; [tauto|]); intros x [<-|[<-|[<-|[]]]]; lra.
  - cbv zeta. set (q := ddiv d1 (f64_of_Z (2 ^ 40))).
    let v := eval vm_compute in (B2SF q) in destruct (R64_SF q v) as [A B]; [vm_compute; reflexivity|].
    split; [exact B|]. change val64 with R64. rewrite A. unfold SF2R, F2R.
    simpl pow. cbn. lra.
Qed.
