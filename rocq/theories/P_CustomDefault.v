(** Property C92: custom data made directly from a slice, without a precision or a largest index. *)
From Coq Require Import List NArith ZArith Arith Lia Bool Reals Lra.
From Flocq Require Import Core IEEE754.BinarySingleNaN.
From Verif Require Import Base UnalignedRW ReadExt Floats Floats_proofs FloatReal_proofs Utilis Triangles Vertices Triangles_proofs CustomData Mesh Tmf File FileSpec SaveSpec
  ValueSpec VertexSpec Demo Save_proofs Save2_proofs Codec_proofs Image_proofs Quant_proofs Log2_proofs NormalReal_proofs VertexReal_proofs
  CustomReal_proofs P_Save P_Uv P_Custom Double DoubleSpec DoubleSave DoubleSaveSpec DoubleValueSpec Double2_proofs DMerge_proofs DCodec_proofs DSave_proofs
  DQuant_proofs DVertex_proofs DPiece_proofs DCustom_proofs P_Double P_DoubleSave P_DoubleValue P_Vertices P_DoubleChecked CustomDefault.
Import ListNotations.
Open Scope res_scope.
Local Open Scope R_scope.

(** [m] is the largest of [l], or 0 if there is none. *)
Definition largest_of (m : N) (l : list N) : Prop :=
  match l with [] => m = 0%N | _ => In m l /\ Forall (fun x => (x <= m)%N) l end.
Lemma fold_max_in l : forall a, In (fold_left N.max l a) (a :: l).
Proof.
  induction l as [|b l IH]; intros a; cbn [fold_left]; [now left|]. destruct (IH (N.max a b)) as [E|I]; [|now right; right].
  rewrite <- E. destruct (N.max_spec a b) as [[_ ->]|[_ ->]]; [right; now left|now left].
Qed.
Lemma max_or_largest_of l : largest_of (max_or 0 l) l.
Proof.
  destruct l as [|a l]; [reflexivity|]. split; [apply fold_max_in|]. apply Forall_forall. intros x I. now apply max_or_ge.
Qed.

(** Up to 2^27 indices below 2^31 can be stored under any name of 1 to 255 bytes: nothing need be declared. *)
Theorem C92_indices_fit : forall xs name,
  (len xs <= 2 ^ 27)%N -> Forall (fun i => (i < 2 ^ 31)%N) xs ->
  Forall (fun b => (b < 256)%N) name -> (1 <= length name <= 255)%nat ->
  exists s, cseg_new (from_indices xs) name = Ok s /\ c_name s = name /\ custom_ok s /\
    exists m, as_index (c_data s) = Some (xs, m) /\ largest_of m xs.
Proof.
  intros xs name L F B H. unfold cseg_new. destruct (N.ltb_spec 255 (N.of_nat (length name))) as [X|_]; [lia|].
  destruct (Nat.eqb_spec (length name) 0) as [X|_]; [lia|]. eexists. split; [reflexivity|]. unfold new_raw. cbn [c_name c_data].
  rewrite Nat2N.id, firstn_app, firstn_all, Nat.sub_diag, firstn_O, app_nil_r.
  split; [reflexivity|]. split.
  - split; [exact B|]. split; [reflexivity|]. split; [cbn [c_name_len]; lia|]. cbn [c_data from_indices new_index]. split; [exact L|]. split.
    + apply Forall_forall. intros i I. split; [exact (proj1 (Forall_forall _ _) F i I)|now apply max_or_ge].
    + left. apply max_or_lt; [reflexivity|exact F].
  - eexists. split; [reflexivity|apply max_or_largest_of].
Qed.
Print Assumptions C92_indices_fit.

(** They load exactly, with their largest. *)
Theorem C92_indices : forall lm lm' oc' p l out,
  precision_ok p -> list_ok lm l -> saved lm true p l = Ok out ->
  exists l', read_tmf lm' oc' out = Ok l' /\
    Forall2 (on_custom (fun d d' => forall xs, d = from_indices xs -> exists m, as_index d' = Some (xs, m) /\ largest_of m xs)) l l'.
Proof.
  intros lm lm' oc' p l out HP HL S. apply (custom_loads _ lm lm' oc' p l out HP HL S).
  intros d d' DR xs ->. destruct d' as [xs' m'| | |]; try contradiction. destruct DR as [-> ->].
  eexists. split; [reflexivity|apply max_or_largest_of].
Qed.
Print Assumptions C92_indices.
Theorem C92_indices_double : forall lm sc oc' p l out,
  precision_ok_d p -> list_ok_d lm l -> saved_d lm true p l = Ok out ->
  exists l', read_tmf_d sc oc' out = Ok l' /\
    Forall2 (on_custom_d (fun d d' => forall xs, d = from_indices_d xs -> exists m, d' = XIndex xs m /\ largest_of m xs)) l l'.
Proof.
  intros lm sc oc' p l out HP HL S. apply (custom_loads_d _ lm sc oc' p l out HP HL S).
  intros d d' DR xs ->. destruct d' as [xs' m'| | |]; try contradiction. destruct DR as [-> ->].
  eexists. split; [reflexivity|apply max_or_largest_of].
Qed.
Print Assumptions C92_indices_double.

Lemma hundredth : finite (flit 1 100) /\ 0.00999 <= val (flit 1 100) <= 0.01001.
Proof.
  destruct (flit_R 1 100) as [A Fq]; [lia|lia|]. split; [exact Fq|].
  change val with R32. rewrite A. pose proof (rnd32_err (1 / 100)) as Er. rewrite (Rabs_pos_eq (1 / 100)) in Er by lra.
  pose proof tiny32_bound as [_ T]. change (2 ^ 100)%Z with 1267650600228229401496703205376%Z in T.
  apply Rabs_le_iff in Er. unfold u32 in Er. lra.
Qed.
Lemma hundredth_d : finite64 (dlit 1 100) /\ 0.00999 <= val64 (dlit 1 100) <= 0.01001.
Proof.
  destruct (dlit_R 1 100) as [A Fq]; [lia|lia|]. split; [exact Fq|].
  change val64 with R64. rewrite A. pose proof (rnd64_err (1 / 100)) as Er. rewrite (Rabs_pos_eq (1 / 100)) in Er by lra.
  pose proof tiny64_bound as [_ T]. apply Rabs_le_iff in Er. unfold u64 in Er. simpl pow in *. lra.
Qed.

Local Opaque flit dlit.
(** Floats load within 0.0201 and 2^-20 of the largest, if they span up to 83000; equal ones load exactly. *)
Theorem C92_floats : forall lm lm' oc' p l out,
  log2_ok lm -> precision_ok p -> list_ok lm l -> saved lm true p l = Ok out ->
  exists l', read_tmf lm' oc' out = Ok l' /\
    Forall2 (on_custom (fun d d' => forall fs, d = from_floats fs ->
      exists fs' q', as_float d' = Some (fs', q') /\ length fs' = length fs /\
      forall B lo hi, ranges B lo hi fs -> B <= 2 ^ 60 ->
        (/ 2 ^ 60 <= hi - lo <= 83000 -> Forall2 (fun x y => finite y /\ within (0.0201 + / 2 ^ 20 * B) x y) fs fs') /\
        (lo = hi -> Forall2 (fun x y => finite y /\ val y = val x) fs fs'))) l l'.
Proof.
  intros lm lm' oc' p l out LG HP HL S. destruct (C42_float_error_bound lm lm' oc' p l out LG HP HL S) as (l' & R & F).
  exists l'. split; [exact R|]. eapply F2_impl; [|exact F]. intros a b H. eapply F2_impl; [|exact H].
  intros s s' [H1 H2]. split; [exact H1|]. intros fs E. rewrite E in H2. destruct (H2 fs (flit 1 100) eq_refl) as (fs' & q' & E' & L & K).
  exists fs', q'. split; [exact E'|]. split; [exact L|]. intros B lo hi HR HB. destruct hundredth as [Fq Hq].
  destruct (K B lo hi HR HB Fq ltac:(lra)) as [K1 K2]. split; [|exact K2]. intros W.
  assert (T : 0 < / 2 ^ 60) by (apply Rinv_0_lt_compat, pow_lt; lra).
  assert (T9 : / 2 ^ 99 <= 0.00001) by (simpl pow; lra).
  assert (W' : / 2 ^ 60 * val (flit 1 100) <= hi - lo <= 2 ^ 23 * val (flit 1 100)).
  { split; [|simpl pow; lra]. assert (/ 2 ^ 60 * val (flit 1 100) <= / 2 ^ 60 * 1) by (apply Rmult_le_compat_l; lra). lra. }
  eapply F2_impl; [|exact (K1 W')]. intros x y (Y1 & _ & Y3). split; [exact Y1|]. unfold within in *. eapply Rle_trans; [exact Y3|]. lra.
Qed.
Print Assumptions C92_floats.
Theorem C92_floats_double : forall lm sc oc' p l out,
  log2_64_ok lm -> precision_ok_d p -> list_ok_d lm l -> saved_d lm true p l = Ok out ->
  exists l', read_tmf_d sc oc' out = Ok l' /\
    Forall2 (on_custom_d (fun d d' => forall fs, d = from_floats_d fs ->
      exists fs' q', d' = XFloat fs' q' /\ length fs' = length fs /\
      forall B lo hi, ranges_d B lo hi fs -> B <= 2 ^ 60 ->
        (/ 2 ^ 60 <= hi - lo <= 2 ^ 53 -> Forall2 (fun x y => finite64 y /\ within_d (0.0201 + / 2 ^ 48 * B) x y) fs fs') /\
        (lo = hi -> Forall2 (fun x y => finite64 y /\ val64 y = val64 x) fs fs'))) l l'.
Proof.
  intros lm sc oc' p l out LG HP HL S. destruct (C74_float_error_bound lm sc oc' p l out LG HP HL S) as (l' & R & F).
  exists l'. split; [exact R|]. eapply F2_impl; [|exact F]. intros a b H. eapply F2_impl; [|exact H].
  intros s s' [H1 H2]. split; [exact H1|]. intros fs E. rewrite E in H2. destruct (H2 fs (dlit 1 100) eq_refl) as (fs' & q' & E' & L & K).
  exists fs', q'. split; [exact E'|]. split; [exact L|]. intros B lo hi HR HB. destruct hundredth_d as [Fq Hq].
  destruct (K B lo hi HR HB Fq ltac:(lra)) as [K1 K2]. split; [|exact K2]. intros W.
  assert (T : 0 < / 2 ^ 60) by (apply Rinv_0_lt_compat, pow_lt; lra).
  assert (T9 : / 2 ^ 99 <= 0.00001) by (simpl pow; lra).
  assert (W' : / 2 ^ 60 * val64 (dlit 1 100) <= hi - lo <= 2 ^ 60 * val64 (dlit 1 100)).
  { split; [|simpl pow in *; lra]. assert (/ 2 ^ 60 * val64 (dlit 1 100) <= / 2 ^ 60 * 1) by (apply Rmult_le_compat_l; lra). lra. }
  eapply F2_impl; [|exact (K1 W')]. intros x y (Y1 & _ & Y3). split; [exact Y1|]. unfold within_d in *. eapply Rle_trans; [exact Y3|]. lra.
Qed.
Print Assumptions C92_floats_double.
(** Colours load within 0.008 (C43_default_precision is the same without the feature), and a channel of 1 stays 1. *)
Theorem C92_colors_double : forall lm sc oc' p l out,
  log2_64_ok lm -> precision_ok_d p -> list_ok_d lm l -> saved_d lm true p l = Ok out ->
  exists l', read_tmf_d sc oc' out = Ok l' /\
    Forall2 (on_custom_d (fun d d' => forall cs, d = from_colors_d cs ->
      exists cs' q', d' = XColor cs' q' /\
        Forall2 (channels_d (fun x y => in_unit_d x -> in_unit_d y /\ within_d 0.008 x y /\ (val64 x = 1 -> val64 y = 1))) cs cs')) l l'.
Proof.
  intros lm sc oc' p l out LG HP HL S. apply (custom_loads_d _ lm sc oc' p l out HP HL S).
  intros d d' DR cs ->. destruct d' as [| | |cs' q']; try contradiction. destruct DR as (_ & mul & M & ->).
  eexists. exists q'. split; [reflexivity|]. destruct hundredth_d as [Fq Hq].
  assert (P60 : / 2 ^ 60 <= 0.00999) by (simpl pow; lra). assert (P10 : / 2 ^ 10 = / 1024) by (simpl pow; lra).
  pose proof (mask_d30 _ _ M) as W30. destruct (color_width_R_d lm _ LG Fq ltac:(lra) W30) as (W1 & WL & WU). cbv zeta in *.
  set (w := color_width_d lm (dlit 1 100)) in *. set (q := val64 (dlit 1 100)) in *.
  assert (W7 : w = 7%nat).
  { assert (7 <= w)%nat.
    { destruct (le_lt_dec 7 w) as [|L]; auto. exfalso. assert (2 ^ w <= 2 ^ 6) by (apply pow2_le; lia).
      assert (2 ^ w * q <= 2 ^ 6 * q) by (apply Rmult_le_compat_r; lra). simpl pow in *. lra. }
    assert (w <= 7)%nat; [|lia].
    destruct (le_lt_dec w 7) as [|L]; auto. exfalso. assert (2 ^ 8 <= 2 ^ w) by (apply pow2_le; lia).
    assert (2 ^ 8 * q <= 2 ^ w * q) by (apply Rmult_le_compat_r; lra). simpl pow in *. lra. }
  rewrite W7 in *.
  assert (G : forall x, let y := color_value_d 7 (low 7 (color_code_d mul x)) in in_unit_d x -> in_unit_d y /\ within_d 0.008 x y /\ (val64 x = 1 -> val64 y = 1)).
  { intros x y [Fx Hx]. destruct (color_channel_d 7 mul x ltac:(lia) M Fx Hx) as (Y1 & Y2 & Y3). cbv zeta in *. fold y in Y1, Y2, Y3.
    split; [split; [exact Y1|exact Y2]|]. split.
    - unfold within_d. change val64 with R64 in *. eapply Rle_trans; [exact Y3|]. rewrite steps_pow. unfold u64. simpl pow. lra.
    - intros V. exact (proj2 (one_kept 7 mul x ltac:(lia) M Fx V)). }
  apply F2_map. intros v _. unfold channels_d, map4_d. cbn [fst snd]. split; [|split; [|split]]; apply G.
Qed.
Print Assumptions C92_colors_double.

Local Transparent flit dlit.

(** ** The hypotheses are met: a mesh with one segment of each kind made from a slice *)
Definition slices : mesh := with_custom_data empty
  [mk_cseg letter 1 (from_indices [5; 0; 7]%N); mk_cseg letter 1 (from_floats [f0; leg]); mk_cseg letter 1 (from_colors [(f0, f1, f0, f1)])].
Definition slices_d : dmesh := mk_dmesh None None None None None None None None
  [mk_dcseg letter 1 (from_indices_d [5; 0; 7]%N); mk_dcseg letter 1 (from_floats_d [d0; leg_d]); mk_dcseg letter 1 (from_colors_d [(d0, d1, d0, d1)])].
Lemma color_bits lm : log2_ok lm -> (color_width lm (flit 1 100) <= 30)%nat.
Proof.
  intros LG. destruct hundredth as [Fq Hq]. assert (P60 : / 2 ^ 60 <= 0.00999) by (simpl pow; lra). assert (P10 : / 2 ^ 10 = / 1024) by (simpl pow; lra).
  destruct (color_width_R lm _ LG Fq ltac:(lra)) as (W1 & WL & WU). cbv zeta in *. set (w := color_width lm (flit 1 100)) in *.
  destruct (le_lt_dec w 30) as [|L]; auto. exfalso. assert (2 ^ 31 <= 2 ^ w) by (apply pow2_le; lia).
  assert (2 ^ 31 * val (flit 1 100) <= 2 ^ w * val (flit 1 100)) by (apply Rmult_le_compat_r; lra). simpl pow in *. lra.
Qed.
Lemma color_bits_d lm : log2_64_ok lm -> (color_width_d lm (dlit 1 100) <= 30)%nat.
Proof.
  intros LG. unfold color_width_d.
  assert (X : fin (ddiv d1 (dmin (dlit 1 100) d1)) /\ R64 (ddiv d1 (dmin (dlit 1 100) d1)) = 100).
  { let v := eval vm_compute in (B2SF (ddiv d1 (dmin (dlit 1 100) d1))) in destruct (R64_SF (ddiv d1 (dmin (dlit 1 100) d1)) v) as [A B]; [vm_compute; reflexivity|].
    split; [exact B|]. rewrite A. unfold SF2R, F2R. cbn. lra. }
  destruct X as [F V]. destruct (width_covers_wide_d lm _ LG F ltac:(rewrite V; lra)) as [_ W]. cbv zeta in W. rewrite V in W.
  set (w := u8_of_f64 _) in *. destruct (le_lt_dec w 30) as [|L]; auto. exfalso. specialize (W ltac:(lia)). rewrite pow_IZR2 in W.
  assert (2 ^ 31 <= 2 ^ w) by (apply pow2_le; lia). simpl pow in *. lra.
Qed.
Example C92_case : log2_ok grid_libm /\ precision_ok demo_prec /\ list_ok grid_libm [(slices, [])] /\
  (exists out, saved grid_libm true demo_prec [(slices, [])] = Ok out) /\
  ranges 1 0 (val leg) [f0; leg] /\ / 2 ^ 60 <= val leg - 0 <= 83000 /\ in_unit f0.
Proof.
  split; [apply grid_log2_ok|]. split; [apply demo_prec_ok|]. split; [|split; [|split; [|split]]].
  - split; [reflexivity|]. apply Forall_cons; [|apply Forall_nil]. cbn [fst snd]. split; [|split; [apply name_ok_ascii; reflexivity|reflexivity]].
    constructor; unfold slices; cbn [with_custom_data empty normals normal_triangles vertices vertex_triangles uvs uv_triangles tangents tangent_triangles custom_data]; first [apply small_none | apply indices_none | idtac].
    repeat apply Forall_cons; try apply Forall_nil; unfold custom_ok; cbn [c_name c_name_len c_data];
      (split; [repeat (apply Forall_cons; [reflexivity|]); apply Forall_nil|]; split; [reflexivity|]; split; [lia|]).
    2, 3: vm_compute; discriminate.
    cbn [from_indices new_index]. split; [vm_compute; discriminate|]. split; [|left; reflexivity]. repeat (apply Forall_cons; [split; [reflexivity|discriminate]|]). apply Forall_nil.
  - destruct demo_prec_ok as [P1 P2]. apply C53_without_vertices_saved; auto; [apply Nat.leb_le; vm_compute; reflexivity|].
    apply Forall_cons; [|apply Forall_nil]. cbn [fst]. split; [reflexivity|]. split.
    { intros l I. cbn [slices slices_d with_custom_data empty vertex_triangles normal_triangles uv_triangles tangent_triangles d_vertex_triangles d_normal_triangles d_uv_triangles d_tangent_triangles In] in I. repeat (destruct I as [I|I]; [discriminate I|]). contradiction. }
    cbn [slices custom_data with_custom_data]. repeat apply Forall_cons; try apply Forall_nil; unfold custom_widths_ok; cbn [c_name c_name_len c_data];
      (split; [repeat (apply Forall_cons; [reflexivity|]); apply Forall_nil|]; split; [reflexivity|]; split; [discriminate|]).
    + split; [repeat (apply Forall_cons; [reflexivity|]); apply Forall_nil|reflexivity].
    + apply Nat.leb_le. vm_compute. reflexivity.
    + apply color_bits, grid_log2_ok.
  - destruct leg_R as [L1 L2]. assert (F0 : finite f0) by reflexivity. unfold ranges, least, greatest. cbn [map]. rewrite val_0.
    split; [repeat constructor; auto|]. split; [repeat apply Forall_cons; try apply Forall_nil; rewrite ?val_0, ?Rabs_R0, ?Rabs_pos_eq; lra|].
    split; (split; [cbn [In]; auto|]); intros y I; cbn [In] in I; destruct I as [<-|[<-|[]]]; lra.
  - destruct leg_R as [L1 L2]. simpl pow. lra.
  - split; [reflexivity|]. rewrite val_0. lra.
Qed.
Example C92_case_double : log2_64_ok grid_d /\ precision_ok_d demo_prec_d /\ list_ok_d grid_d [(slices_d, [])] /\
  (exists out, saved_d grid_d true demo_prec_d [(slices_d, [])] = Ok out) /\
  ranges_d 1 0 (val64 leg_d) [d0; leg_d] /\ / 2 ^ 60 <= val64 leg_d - 0 <= 2 ^ 53 /\ in_unit_d d0.
Proof.
  split; [apply grid_d_ok|]. split; [split; cbn; lia|]. split; [|split; [|split; [|split]]].
  - split; [reflexivity|]. apply Forall_cons; [|apply Forall_nil]. cbn [fst snd]. split; [|split; [apply name_ok_ascii; reflexivity|reflexivity]].
    constructor; unfold slices_d; cbn [d_normals d_normal_triangles d_vertices d_vertex_triangles d_uvs d_uv_triangles d_tangents d_tangent_triangles d_custom_data]; first [apply small_none | apply indices_none | idtac].
    repeat apply Forall_cons; try apply Forall_nil; unfold custom_ok_d; cbn [x_name x_name_len x_data];
      (split; [repeat (apply Forall_cons; [reflexivity|]); apply Forall_nil|]; split; [reflexivity|]; split; [lia|]).
    2, 3: vm_compute; discriminate.
    cbn [from_indices_d]. split; [vm_compute; discriminate|]. split; [|left; reflexivity]. repeat (apply Forall_cons; [split; [reflexivity|discriminate]|]). apply Forall_nil.
  - apply C84_without_vertices_saved; [apply Nat.leb_le; vm_compute; reflexivity..|].
    apply Forall_cons; [|apply Forall_nil]. cbn [fst]. split; [reflexivity|]. split.
    { intros l I. cbn [slices slices_d with_custom_data empty vertex_triangles normal_triangles uv_triangles tangent_triangles d_vertex_triangles d_normal_triangles d_uv_triangles d_tangent_triangles In] in I. repeat (destruct I as [I|I]; [discriminate I|]). contradiction. }
    cbn [slices_d d_custom_data]. repeat apply Forall_cons; try apply Forall_nil; unfold custom_widths_ok_d; cbn [x_name x_name_len x_data];
      (split; [repeat (apply Forall_cons; [reflexivity|]); apply Forall_nil|]; split; [reflexivity|]; split; [discriminate|]).
    + split; [repeat (apply Forall_cons; [reflexivity|]); apply Forall_nil|reflexivity].
    + apply Nat.leb_le. vm_compute. reflexivity.
    + apply color_bits_d, grid_d_ok.
  - destruct leg_d_R as [L1 L2]. unfold ranges_d, least, greatest. cbn [map]. rewrite val64_0.
    split; [repeat constructor; exact L1|]. split; [repeat apply Forall_cons; try apply Forall_nil; rewrite ?val64_0, ?Rabs_R0, ?Rabs_pos_eq; lra|].
    split; (split; [cbn [In]; auto|]); intros y I; cbn [In] in I; destruct I as [<-|[<-|[]]]; lra.
  - destruct leg_d_R as [L1 L2]. simpl pow. lra.
  - split; [reflexivity|]. rewrite val64_0. lra.
Qed.
