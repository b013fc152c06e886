(** Property C81: files of builds without overflow checks whose data needs more bits
    than the format has. *)
From Coq Require Import List NArith ZArith Arith Lia Bool Reals Lra.
From Flocq Require Import Core IEEE754.BinarySingleNaN.
From Verif Require Import Base UnalignedRW ReadExt ByteLemmas BitIOSpec UnalignedRW_proofs BitLemmas BitSpec Floats Floats_proofs FloatReal_proofs Utilis Vertices CustomData Mesh Tmf File FileSpec SaveSpec
  ValueSpec VertexSpec FineSpec Demo Save_proofs Save2_proofs Codec_proofs Image_proofs Quant_proofs Log2_proofs VertexReal_proofs
  CustomReal_proofs Fine_proofs Fine2_proofs Fine3_proofs P_Save P_Uv P_Normals P_Vertices P_Custom P_Checked Panic_proofs File_proofs Merge_proofs NormalReal_proofs Agree_proofs.
Import ListNotations.
Open Scope res_scope.
Local Open Scope R_scope.

Definition colors_ok (lm : libm) (s : cseg) : Prop :=
  match c_data s with CColor _ q => (color_width lm q <= 30)%nat | _ => True end.
(** What a list of meshes must be like. *)
Definition release_list (lm : libm) (l : list (mesh * list N)) : Prop :=
  (len l < 2 ^ 32)%N /\
  Forall (fun mn => storable (fst mn) /\ modest (fst mn) /\ Forall (colors_ok lm) (custom_data (fst mn)) /\
                    name_ok (snd mn) /\ (segment_count lm false (fst mn) < 65536)%N) l.
Definition settings_ok (p : prec_info) : Prop :=
  (normal_precision p <= 30)%nat /\ (uv_prec p <= 30)%nat /\ (tangent_prec p <= 30)%nat.

Lemma release_writable lm l : release_list lm l -> (len l < 2 ^ 32)%N /\ Forall (writable lm) l.
Proof.
  intros [A B]. split; [exact A|]. eapply Forall_impl; [|exact B]. intros mn (H1 & H2 & H3 & H4 & H5).
  split; [exact H1|]. split; [exact H2|]. split; [|split; assumption]. destruct H2 as [_ H2].
  rewrite Forall_forall in *. intros s I. specialize (H2 s I). specialize (H3 s I). unfold modest_custom, colors_ok in *.
  destruct (c_data s); auto.
Qed.

(** What a build without overflow checks has saved is loaded by every build, with the same
    meshes, names, index arrays and array lengths, or is refused by it with the one error
    that names a width of 64 bits or more. It never panics and never loads part of it. *)
Theorem C81_release_outcome : forall lm lm' oc' p l out,
  settings_ok p -> release_list lm l -> saved lm false p l = Ok out ->
  (exists l', read_tmf lm' oc' out = Ok l' /\
     Forall2 (fun a b => snd a = snd b /\ same_shape_rev (fst a) (fst b)) l l') \/
  (exists w, (64 <= w)%N /\ read_tmf lm' oc' out = Err (EInvalidPrecision w)).
Proof.
  intros lm lm' oc' p l out HP HL S. destruct (release_writable _ _ HL) as [A B].
  apply (saved_fair lm lm' oc' p l out HP A B S).
Qed.
Print Assumptions C81_release_outcome.

(** A triangle with two corners in one place: with overflow checks the save panics, and
    without them it writes a file that no build can load. *)
Theorem C81_degenerate : forall lm p l m name,
  log2_infinite lm -> finite (vertex_precision p) -> 0 < val (vertex_precision p) ->
  In (m, name) l -> degenerate m ->
  (Forall (fun mn => any_mesh (fst mn)) l -> saved lm true p l = Panic) /\
  (settings_ok p -> release_list lm l -> forall out, saved lm false p l = Ok out ->
   forall lm' oc', exists w, (64 <= w)%N /\ read_tmf lm' oc' out = Err (EInvalidPrecision w)).
Proof.
  intros lm p l m name LI FP PP I D.
  assert (exists v, vertices m = Some v /\ v <> []) as (v & V & NV).
  { destruct D as (v & t & a & b & c & pa & pb & pc & V & T & _ & A & _). exists v. split; [exact V|].
    intros ->. unfold corner in A. destruct (N.to_nat a); discriminate A. }
  assert (W : forall edge, calc_shortest_edge (vertex_triangles m) (vertices m) = Ok edge -> wide lm (vertex_precision p) edge).
  { intros edge E. rewrite (degenerate_edge m edge D E). now apply wide_degenerate. }
  split.
  - intros H. apply (wide_panics lm p l m name v); auto. now apply any_meshes.
  - intros HP HL out S lm' oc'. destruct (release_writable _ _ HL) as [A B].
    apply (saved_fair lm lm' oc' p l out HP A B S). apply Exists_exists. exists (m, name). split; [exact I|]. cbn [fst].
    destruct HL as [_ HL]. rewrite Forall_forall in HL. destruct (HL _ I) as (_ & [M _] & _).
    apply (wide_unloadable lm lm' oc' p m v); auto.
Qed.
Print Assumptions C81_degenerate.

(** The same for every mesh with vertices if the requested precision of vertices is zero. *)
Theorem C81_zero_precision : forall lm p l m name v,
  log2_infinite lm -> vertex_precision p = f0 ->
  In (m, name) l -> vertices m = Some v -> v <> [] ->
  (Forall (fun mn => any_mesh (fst mn)) l -> saved lm true p l = Panic) /\
  (settings_ok p -> release_list lm l -> forall out, saved lm false p l = Ok out ->
   forall lm' oc', exists w, (64 <= w)%N /\ read_tmf lm' oc' out = Err (EInvalidPrecision w)).
Proof.
  intros lm p l m name v LI P0 I V NV.
  assert (W : forall edge, calc_shortest_edge (vertex_triangles m) (vertices m) = Ok edge -> wide lm (vertex_precision p) edge).
  { intros edge E. rewrite P0. eapply wide_zero; eauto. }
  split.
  - intros H. apply (wide_panics lm p l m name v); auto. now apply any_meshes.
  - intros HP HL out S lm' oc'. destruct (release_writable _ _ HL) as [A B].
    apply (saved_fair lm lm' oc' p l out HP A B S). apply Exists_exists. exists (m, name). split; [exact I|]. cbn [fst].
    destruct HL as [_ HL]. rewrite Forall_forall in HL. destruct (HL _ I) as (_ & [M _] & _).
    apply (wide_unloadable lm lm' oc' p m v); auto.
Qed.
Print Assumptions C81_zero_precision.

(** And for custom floats with the precision zero that are not all equal. *)
Theorem C81_zero_float_precision : forall lm p l m name s fs a b,
  log2_infinite lm -> In (m, name) l -> In s (custom_data m) -> as_float (c_data s) = Some (fs, f0) ->
  Forall finite fs -> In a fs -> In b fs -> val a < val b ->
  (Forall (fun mn => any_mesh (fst mn)) l -> saved lm true p l = Panic) /\
  (settings_ok p -> release_list lm l -> forall out, saved lm false p l = Ok out ->
   forall lm' oc', exists w, (64 <= w)%N /\ read_tmf lm' oc' out = Err (EInvalidPrecision w)).
Proof.
  intros lm p l m name s fs a b LI I Is D F Ia Ib L. pose proof (zero_float_width lm fs a b LI F Ia Ib L) as W.
  destruct (c_data s) as [| |fs' q|] eqn:ED; try discriminate D. injection D as -> ->.
  split.
  - intros H. apply (float_panics lm p l m name s fs f0); auto. now apply any_meshes.
  - intros HP HL out S lm' oc'. destruct (release_writable _ _ HL) as [A B].
    apply (saved_fair lm lm' oc' p l out HP A B S). apply Exists_exists. exists (m, name). split; [exact I|]. cbn [fst].
    destruct HL as [_ HL]. rewrite Forall_forall in HL. destruct (HL _ I) as (ST & [_ M] & _). cbn [fst] in ST, M.
    rewrite Forall_forall in M. specialize (M s Is). rewrite ED in M.
    apply (float_unloadable lm lm' oc' p m s fs f0); auto.
    destruct ST. rewrite Forall_forall in *. auto.
Qed.
Print Assumptions C81_zero_float_precision.

(** Colours with the precision zero: with overflow checks the save panics. Without them it
    writes a file on which a build with checks panics, and which a build without loads with
    every colour black and transparent. *)
Theorem C81_zero_color_precision : forall lm p s cs name,
  log2_infinite lm -> custom_ok s -> as_color_rgba (c_data s) = Some (cs, f0) -> (len cs <= 2 ^ 24)%N -> name_ok name ->
  let l := [(with_custom_data empty [s], name)] in
  saved lm true p l = Panic /\
  exists out, saved lm false p l = Ok out /\
    (forall lm', read_tmf lm' true out = Panic) /\
    (forall lm', exists s' q, read_tmf lm' false out = Ok [(with_custom_data empty [s'], name)] /\
       c_name s' = c_name s /\ as_color_rgba (c_data s') = Some (map (fun _ => (f0, f0, f0, f0)) cs, q)).
Proof.
  intros lm p s cs name LI C D L HN l.
  destruct (c_data s) as [| | |cs' q] eqn:ED; try discriminate D. injection D as -> ->.
  assert (AM : any_mesh (fst (with_custom_data empty [s], name))) by (intros ? [I|[I|[I|[I|[]]]]]; discriminate I).
  split.
  - apply saved_panic.
    + constructor; [|constructor]. now apply any_mesh_holdable.
    + intros out S. apply saved_inv in S as (outs & -> & F). inversion F as [|? o ? os T F']; subst. cbn [fst snd] in T.
      apply mesh_inv in T as (edge & segs & es & _ & E2 & E3 & _).
      pose proof (custom_kept lm true (with_custom_data empty [s]) s segs (or_introl eq_refl) E2) as IN.
      clear -E3 IN ED LI. induction E3 as [|x e segs es X _ IH]; [destruct IN|]. destruct IN as [-> | IN]; auto.
      pose proof (zero_color_width lm LI) as W. unfold color_width in W.
      unfold encode, cseg_encode in X. rewrite ED in X. cbn [cdata_write] in X. cbv zeta in X. rewrite W in X.
      destruct (_ <? _)%N in X; discriminate X.
  - destruct (C53_release_exact lm p l) as [_ [_ SV]].
    { constructor; [|constructor]. cbn [fst]. split; [exact AM|]. constructor; [|constructor]. destruct C as (_ & C & _). cbv beta. rewrite C. lia. }
    destruct SV as [out S].
    { constructor; [|constructor]. cbn [fst]. intros [X|(v & t & X & _)]; discriminate X. }
    exists out. split; [exact S|]. destruct (black_file lm p s cs name out LI C ED L HN S) as [R1 R2]. split; [exact R1|].
    intros lm'. destruct (R2 lm') as [q R]. eexists. exists q. split; [exact R|]. split; reflexivity.
Qed.
Print Assumptions C81_zero_color_precision.

(** Verification does not tell: a mesh it accepts, which is saved without overflow checks
    in a file that no build can load. *)
Definition sliver : mesh :=
  with_vertex_triangles (point_mesh [v3 0 0 0; v3 0 0 0; v3 1 0 0]) (Some [0; 1; 2]%N).
Lemma sliver_degenerate : degenerate sliver.
Proof.
  exists [v3 0 0 0; v3 0 0 0; v3 1 0 0], [0; 1; 2]%N, 0%N, 1%N, 2%N, (v3 0 0 0), (v3 0 0 0), (v3 1 0 0).
  repeat split; try reflexivity; [left; reflexivity|]. left. repeat split; reflexivity.
Qed.
Lemma sliver_ok lm : release_list lm [(sliver, [])].
Proof.
  split; [reflexivity|]. apply Forall_cons; [|apply Forall_nil]. cbn [fst snd]. split; [apply three_storable|].
  split; [|split; [apply Forall_nil|split]].
  - split; [|apply Forall_nil]. intros v E. injection E as <-. vm_compute. discriminate.
  - split; [apply utf8_nil|reflexivity].
  - eapply N.le_lt_trans; [apply segment_count_le|vm_compute; reflexivity]. apply any_mesh_holdable.
    intros l [I|[I|[I|[I|[]]]]]; inversion I; subst. split; [|reflexivity]. repeat (apply Forall_cons; [reflexivity|]). apply Forall_nil.
Qed.
Theorem C81_verified_refuted : exists m, verify_tmf_mesh m = Ok tt /\
  forall lm p name, log2_infinite lm -> settings_ok p -> finite (vertex_precision p) -> 0 < val (vertex_precision p) -> name = [] ->
  saved lm true p [(m, name)] = Panic /\
  exists out, saved lm false p [(m, name)] = Ok out /\
    forall lm' oc', exists w, (64 <= w)%N /\ read_tmf lm' oc' out = Err (EInvalidPrecision w).
Proof.
  exists sliver. split; [vm_compute; reflexivity|]. intros lm p name LI HP FP PP ->.
  assert (AM : any_mesh sliver).
  { intros l [I|[I|[I|[I|[]]]]]; inversion I; subst. split; [|reflexivity]. repeat (apply Forall_cons; [reflexivity|]). apply Forall_nil. }
  destruct (C81_degenerate lm p [(sliver, [])] sliver [] LI FP PP (or_introl eq_refl) sliver_degenerate) as [D1 D2].
  split; [apply D1; constructor; [exact AM|constructor]|].
  destruct (C53_release_exact lm p [(sliver, [])]) as [_ [_ SV]].
  { constructor; [|constructor]. split; [exact AM|apply Forall_nil]. }
  destruct SV as [out S].
  { constructor; [|constructor]. cbn [fst]. intros [X|(v & t & V & T & _ & X)]; [discriminate X|]. injection V as <-. injection T as <-. apply X. split.
    - apply Forall_cons; [repeat split|apply Forall_nil].
    - apply Exists_cons_hd. exists (v3 0 0 0), (v3 0 0 0), (v3 1 0 0). repeat split; try reflexivity. left. vm_compute. reflexivity. }
  exists out. split; [exact S|]. exact (D2 HP (sliver_ok lm) out S).
Qed.
Print Assumptions C81_verified_refuted.

(** Floats that need 33 to 61 bits: a build without overflow checks saves them and every
    build loads them, but all of them as the least one, up to rounding. *)
Theorem C81_collapse : forall lm p s fs q name B lo hi,
  log2_ok lm -> custom_ok s -> as_float (c_data s) = Some (fs, q) -> (len fs <= 2 ^ 25)%N -> name_ok name ->
  ranges B lo hi fs -> B <= 2 ^ 60 -> finite q -> 0 < val q -> 2 ^ 33 * val q <= hi - lo <= 2 ^ 59 * val q ->
  let l := [(with_custom_data empty [s], name)] in
  exists out, saved lm false p l = Ok out /\
    forall lm' oc', exists s' fs' q', read_tmf lm' oc' out = Ok [(with_custom_data empty [s'], name)] /\
      c_name s' = c_name s /\ as_float (c_data s') = Some (fs', q') /\
      Forall2 (fun x y => finite y /\ lo <= val y <= lo + / 2 ^ 22 * B + / 2 ^ 99) fs fs'.
Proof.
  intros lm p s fs q name B lo hi LG C D L HN HR HB Fq Pq Hs l.
  destruct (c_data s) as [| |fs' q0|] eqn:ED; try discriminate D. injection D as -> ->.
  assert (AM : any_mesh (fst (with_custom_data empty [s], name))) by (intros ? [I|[I|[I|[I|[]]]]]; discriminate I).
  destruct (C53_release_exact lm p l) as [_ [_ SV]].
  { constructor; [|constructor]. cbn [fst]. split; [exact AM|]. constructor; [|constructor]. destruct C as (_ & C & _). cbv beta. rewrite C. lia. }
  destruct SV as [out S].
  { constructor; [|constructor]. cbn [fst]. intros [X|(v & t & X & _)]; discriminate X. }
  exists out. split; [exact S|].
  destruct (ranges_is _ _ _ _ HR) as (A1 & A2 & E1 & E2 & B1 & B2 & LH & FR).
  assert (P33 : 0 < 2 ^ 33 * val q) by (apply Rmult_lt_0_compat; [apply pow_lt; lra|lra]).
  destruct (float_width_R lm fs B lo hi q LG HR HB Fq Pq) as (W1 & WL & WU).
  { split.
    - eapply Rle_trans; [|apply Hs]. apply Rmult_le_compat_r; [lra|]. apply Rle_trans with 1; [apply (inv_le (2 ^ 60)); apply pow_R1_Rle; lra|apply pow_R1_Rle; lra].
    - eapply Rle_trans; [apply Hs|]. apply Rmult_le_compat_r; [lra|]. apply pow2_le. lia. }
  cbv zeta in W1, WL, WU. set (w := float_width lm fs q) in *.
  assert (WB : (33 <= w <= 61)%nat).
  { split.
    - destruct (le_lt_dec 33 w) as [|X]; auto. exfalso.
      assert (2 ^ w <= 2 ^ 32) by (apply pow2_le; lia).
      assert (2 ^ w * val q <= 2 ^ 32 * val q) by (apply Rmult_le_compat_r; lra). replace (2 ^ 33) with (2 * 2 ^ 32) in * by (simpl pow; lra).
      assert (0 < 2 ^ 32 * val q) by lra. lra.
    - destruct (le_lt_dec w 61) as [|X]; auto. exfalso. specialize (WU ltac:(lia)).
      assert (2 ^ 62 <= 2 ^ w) by (apply pow2_le; lia).
      assert (2 ^ 62 * val q <= 2 ^ w * val q) by (apply Rmult_le_compat_r; lra). replace (2 ^ 62) with (8 * 2 ^ 59) in * by (simpl pow; lra).
      assert (0 < 2 ^ 59 * val q) by (apply Rmult_lt_0_compat; [apply pow_lt|]; lra). lra. }
  destruct (one_custom_file _ _ _ _ _ _ C HN S) as (b & EB & R).
  pose proof (name_header s C) as (N1 & N2 & N3 & N4 & N5 & N6). pose proof C as (C1 & C2 & C3 & _).
  unfold cseg_encode in EB. rewrite N1 in EB. cbn [app] in EB. rewrite N2, ED in EB. rewrite ED in R. cbn [cdata_kind] in R.
  destruct (mask_release (E:=ioerr) w) as [mul Mm].
  destruct (save_float_spec lm false fs q mul _ N3 ltac:(fold w; lia) Mm) as (pl & S1 & Pk). fold w in S1, Pk.
  destruct (float_written lm fs q _ b N3 EB) as (pl2 & EB2 & BO & PL). fold w in EB2.
  rewrite EB in S1. apply Ok_inj in S1. rewrite S1 in EB2. apply app_inv_head, app_inv_head in EB2. subst pl2. rewrite S1 in R.
  destruct Pk as (P1 & P2 & [pad P3]).
  destruct (read_float_ok fs w (float_code fs mul) pl) with (pad := repeat false pad) as (q' & RR & _); auto; try lia.
  { unfold len in L. lia. }
  intros lm' oc'. eexists _, _, q'. split; [|split; [|split]].
  - rewrite R.
    + unfold cseg_read. cbn [app]. rewrite N5. cbn [io map_err bind]. rewrite N6. cbn [io map_err bind]. rewrite RR. cbn [bind]. rewrite N4. reflexivity.
    + unfold len in *. rewrite !app_length. unfold float_header, le_f64. rewrite !app_length, !le_bytes_length. cbn [length]. lia.
    + rewrite !bytes_ok_app. split; [exact N3|]. split; [|exact BO]. unfold float_header. rewrite !bytes_ok_app. repeat split; try apply le_f64_ok; try apply le_bytes_ok.
      constructor; [unfold byte_ok; lia|constructor].
  - reflexivity.
  - reflexivity.
  - destruct HR as (FF & FB & HR1 & HR2). rewrite Forall_forall in FR, FF. apply F2_map. intros x I.
    destruct (decode_wide w (snd (float_range fs)) (fst (float_range fs)) (low w (float_code fs mul x)) B WB) as [Y1 Y2]; rewrite ?E1, ?E2; auto.
    + apply (wide_code (E:=ioerr) w mul _ _ x B WB Mm A2 A1 (FF x I)); rewrite ?E1, ?E2; auto. lra.
    + cbv zeta in Y1, Y2. rewrite E2 in Y2. split; [exact Y1|exact Y2].
Qed.
Print Assumptions C81_collapse.

(** ** The hypotheses can be met *)
Definition full_libm : libm :=
  mk_libm (fun x => match x with B754_infinity false => B754_infinity false | _ => m_log2 exact_libm x end)
    (m_asin exact_libm) (m_sin_cos exact_libm).
Lemma full_log2_ok : log2_ok full_libm.
Proof.
  intros x F P. unfold full_libm. cbn [m_log2]. pose proof (exact_log2_ok x F P) as H. destruct x; try exact H. discriminate F.
Qed.
Definition far_floats : cseg := mk_cseg [102]%N 1 (CFloat [f32_of_Z 0; f32_of_Z 1; f32_of_Z 2] (fdiv f1 (f32_of_Z (2 ^ 40)))).
Example C81_case : log2_infinite full_libm /\ log2_ok full_libm /\
  degenerate sliver /\ release_list full_libm [(sliver, [])] /\ any_mesh sliver /\ settings_ok sixteenth /\
  finite (vertex_precision sixteenth) /\ 0 < val (vertex_precision sixteenth) /\
  custom_ok far_floats /\ ranges 2 0 2 [f32_of_Z 0; f32_of_Z 1; f32_of_Z 2] /\
  (let q := fdiv f1 (f32_of_Z (2 ^ 40)) in finite q /\ 0 < val q /\ 2 ^ 33 * val q <= 2 - 0 <= 2 ^ 59 * val q).
Proof.
  split; [reflexivity|]. split; [apply full_log2_ok|]. split; [apply sliver_degenerate|]. split; [apply sliver_ok|].
  split. { intros l [I|[I|[I|[I|[]]]]]; inversion I; subst. split; [|reflexivity]. repeat (apply Forall_cons; [reflexivity|]). apply Forall_nil. }
  split. { unfold settings_ok, sixteenth. cbn. lia. }
  destruct C40_case as (_ & _ & _ & _ & A1 & A2 & _). split; [exact A1|]. split; [apply A2|].
  assert (Z0 : finite (f32_of_Z 0) /\ val (f32_of_Z 0) = 0) by (split; [reflexivity|reflexivity]).
  assert (Z1 : finite (f32_of_Z 1) /\ val (f32_of_Z 1) = 1).
  { destruct (f32_of_Z_R 1) as [R F]; [rewrite Rabs_R1; pose proof big32_ge; assert (1 <= IZR (2 ^ 100)) by (apply IZR_le; lia); lra|].
    split; [exact F|]. change val with R32. rewrite R. apply rnd32_Z. lia. }
  assert (Z2 : finite (f32_of_Z 2) /\ val (f32_of_Z 2) = 2).
  { destruct (f32_of_Z_R 2) as [R F]; [rewrite Rabs_pos_eq by lra; pose proof big32_ge; assert (2 <= IZR (2 ^ 100)) by (apply IZR_le; lia); lra|].
    split; [exact F|]. change val with R32. rewrite R. apply rnd32_Z. lia. }
  split; [|split].
  - unfold custom_ok, far_floats. cbn. repeat split; try lia. constructor; [lia|constructor].
  - destruct Z0 as [F0 V0], Z1 as [F1 V1], Z2 as [F2 V2].
    split; [repeat (apply Forall_cons; [assumption|]); apply Forall_nil|].
    split; [repeat (apply Forall_cons; [rewrite ?V0, ?V1, ?V2, Rabs_pos_eq; lra|]); apply Forall_nil|].
    cbn [map]. rewrite V0, V1, V2. unfold least, greatest. cbn [In].
    split; (split; [tauto|]); intros x [<-|[<-|[<-|[]]]]; lra.
  - cbv zeta. set (q := fdiv f1 (f32_of_Z (2 ^ 40))).
    let v := eval vm_compute in (B2SF q) in destruct (R32_SF q v) as [A B]; [vm_compute; reflexivity|].
    split; [exact B|]. change val with R32. rewrite A. unfold SF2R, F2R.
    simpl pow. cbn. lra.
Qed.
