(** Lemmas for C81 in double precision: what a build without overflow checks writes when a value
    needs more than 30 bits, and what becomes of it. *)
From Coq Require Import List NArith ZArith Arith Lia Bool ZifyN ZifyNat ZifyBool.
From Flocq Require Import IEEE754.BinarySingleNaN.
From Verif Require Import Base BitSpec BitLemmas UnalignedRW BitIOSpec UnalignedRW_proofs ReadExt ByteLemmas Triangles TriSpec
  Triangles_proofs Floats Floats_proofs CustomData Mesh Tmf File Parse_proofs Codec_proofs FileSpec File_proofs
  Load_proofs SaveSpec Merge_proofs Save_proofs Agree_proofs Panic_proofs Image_proofs Fine_proofs
  Double DoubleSave DoubleSaveSpec DoubleSpec DoublePanicSpec DMerge_proofs DCodec_proofs DSave_proofs DAgree_proofs DSplit_proofs DPanic_proofs DFineSpec.
Import ListNotations.
Open Scope res_scope.

(** ** One segment *)
(** The same kind of segment, with the same indices and as many elements. *)
Definition shape_rels : drels :=
  mk_drels (fun a b => length a = length b) (fun _ _ => True) (fun _ _ => True) (fun _ _ => True) same_custom_d.
Definition xsame (a b : xseg) : Prop := xrel shape_rels a b.
Lemma F2_true {A B} (R : A -> B -> Prop) a b : Forall2 R a b -> Forall2 (fun _ _ => True) a b.
Proof. induction 1; constructor; auto. Qed.
Lemma image_same lm sc p edge a b : xrel (image_rels_d lm sc p edge) a b -> xsame a b.
Proof.
  unfold xsame. destruct a, b; cbn [xrel image_rels_d shape_rels dv dn du dt ds]; auto; try (apply F2_true).
  - intros (q & mx & my & mz & _ & _ & _ & _ & ->). symmetry. apply map_length.
  - intros (H1 & H2 & H3). split; [auto|]. split; [auto|].
    destruct (x_data s), (x_data s0); cbn [data_rel_d same_data_d] in *; try tauto.
    + now destruct H3.
    + now destruct H3.
    + destruct H3 as (_ & mul & _ & ->). symmetry. apply map_length.
    + destruct H3 as (_ & mul & _ & ->). symmetry. apply map_length.
Qed.
Lemma rels_shape m m' : dmesh_rel shape_rels (with_custom_data_d m (rev (d_custom_data m))) m' -> same_shape_rev_d m m'.
Proof.
  intros [B1 B2 B3 B4 A1 A2 A3 A4 A5]. destruct m as [n nt v vt u ut t tt cd]. cbn in *. constructor; cbn; auto.
  - eapply pieces_len; [|exact A1]. auto.
  - eapply orel_len. exact A2.
  - eapply orel_len. exact A3.
  - eapply orel_len. exact A4.
Qed.

(** [fair_d sc oc e d]: the encoded segment is well formed, and it decodes to the like of
    [d] or is refused for a width of 64 bits or more. *)
Definition fair_d (sc : f64 -> f64 * f64) (oc : bool) (e : eseg) (d : xseg) : Prop :=
  (len (e_data e) <= 2 ^ 31)%N /\ bytes_ok (e_data e) /\ e_comp e = CNone /\
  ((exists d', decode_d sc oc new_ctx e = Ok d' /\ xsame d d') \/
   (exists w, (64 <= w)%N /\ decode_d sc oc new_ctx e = Err (EInvalidPrecision w))).
Lemma good_fair_d lm sc oc p edge e d : good_d sc oc (image_rels_d lm sc p edge) e d -> fair_d sc oc e d.
Proof.
  intros (A & B & C & d' & D & X). split; [exact A|]. split; [exact B|]. split; [exact C|]. left. exists d'. split; [exact D|].
  eapply image_same. exact X.
Qed.
Lemma u8_lt_d x : u8_of_f64 x < 256.
Proof.
  unfold u8_of_f64. assert (sat_cast_d 255 x <= 255)%N; [|lia].
  unfold sat_cast_d. destruct x; try lia. destruct s; lia.
Qed.
Lemma axis_precision_lt_d lm e s p : axis_precision_d lm e s p < 256.
Proof. unfold axis_precision_d. match goal with |- context [u8_of_f64 ?x] => pose proof (u8_lt_d x) end. lia. Qed.

Lemma mask_release_d {E} p : exists m, mask_f64 (E:=E) false p = Ok m.
Proof.
  unfold mask_f64, mask_i32. destruct (p <? 32)%nat; cbn [bind]; destruct (_ <=? _)%Z; cbn [bind]; eauto.
Qed.
Lemma vertices_release_d lm vs prec edge b : save_tmf_vertices_d lm false vs prec edge [] = Ok b ->
  exists p mx my mz, vertex_params_d lm vs prec edge = Some p /\
    mask_f64 (E:=ioerr) false (dp_px p) = Ok mx /\ mask_f64 (E:=ioerr) false (dp_py p) = Ok my /\
    mask_f64 (E:=ioerr) false (dp_pz p) = Ok mz.
Proof.
  intros S. unfold save_tmf_vertices_d in S. unfold vertex_params_d.
  destruct (bounding_box_d (E:=ioerr) vs) as [bb| |]; try discriminate. 
  eexists. cbn [dp_px dp_py dp_pz].
  destruct (mask_release_d (E:=ioerr) (axis_precision_d lm edge (dmax (dsub (dmax_x bb) (dmin_x bb)) min_extent_d) prec)) as [mx Mx].
  destruct (mask_release_d (E:=ioerr) (axis_precision_d lm edge (dmax (dsub (dmax_y bb) (dmin_y bb)) min_extent_d) prec)) as [my My].
  exists mx, my, my. split; [reflexivity|]. auto.
Qed.
Lemma vertices_written_d lm vs prec edge b p : vertex_params_d lm vs prec edge = Some p -> save_tmf_vertices_d lm false vs prec edge [] = Ok b ->
  exists pl, b = vertex_header_d (N.of_nat (length vs)) p ++ pl /\ bytes_ok pl /\ 8 * length pl <= 255 * (3 * length vs) + 8.
Proof.
  intros V S. unfold save_tmf_vertices_d in S. unfold vertex_params_d in V.
  destruct (bounding_box_d (E:=ioerr) vs) as [bb| |]; try discriminate. injection V as <-. cbn [bind] in S. cbv zeta in S.
  match type of S with context [mask_f64 false ?a] => destruct (mask_release_d (E:=ioerr) a) as [mx Mx]; rewrite Mx in S end.
  cbn [bind] in S.
  match type of S with context [mask_f64 false ?a] => destruct (mask_release_d (E:=ioerr) a) as [my My]; rewrite My in S end.
  cbn [bind] in S. 
  match type of S with context [write_fields false (writer_new ?a) ?f] => set (S0 := a) in *; set (fs := f) in *;
    destruct (write_fields false (writer_new S0) fs) as [w| |] eqn:W; try discriminate S end.
  cbn [bind] in S. apply Ok_inj in S. subst b.
  destruct (finish_len false S0 fs w 255) as (pl & F & B & L); auto.
  - unfold S0. cbn [app]. rewrite !bytes_ok_app. repeat (split; [repeat (split || apply le_bytes_ok || apply le_d_ok || auto)|]).
    repeat (apply Forall_cons; [unfold byte_ok; match goal with |- context [axis_precision_d ?a ?b ?c ?d] => pose proof (axis_precision_lt_d a b c d); lia end|]). apply Forall_nil.
  - apply flat_Forall. intros v. repeat (apply Forall_cons; [cbn [fst];
      match goal with |- context [axis_precision_d ?a ?b ?c ?d] => pose proof (axis_precision_lt_d a b c d); lia end|]). apply Forall_nil.
  - exists pl. split; [|split; [exact B|]].
    + rewrite F. unfold S0, vertex_header_d. cbn [dp_px dp_py dp_pz dp_box app]. now rewrite <- !app_assoc.
    + unfold fs in L. rewrite (flat_len _ 3) in L by reflexivity. exact L.
Qed.
Lemma params_lt_d lm vs prec edge p : vertex_params_d lm vs prec edge = Some p -> dp_px p < 256 /\ dp_py p < 256 /\ dp_pz p < 256.
Proof.
  unfold vertex_params_d. destruct (bounding_box_d (E:=ioerr) vs); try discriminate. intros [= <-]. cbn [dp_px dp_py dp_pz].
  repeat split; apply axis_precision_lt_d.
Qed.
(** The widths decide whether a vertex array loads. *)
Lemma vertices_refused_d lm vs prec edge b p : vertex_params_d lm vs prec edge = Some p -> save_tmf_vertices_d lm false vs prec edge [] = Ok b ->
  (len vs <= 2 ^ 24)%N -> (64 <= dp_px p \/ 64 <= dp_py p \/ 64 <= dp_pz p) ->
  exists w, (64 <= w)%N /\ read_tmf_vertices_d b = Err (EInvalidPrecision w).
Proof.
  intros V S L H. destruct (params_lt_d _ _ _ _ _ V) as (H1 & H2 & H3).
  destruct (vertices_written_d _ _ _ _ _ _ V S) as (pl & -> & _ & _). unfold len in L.
  unfold vertex_header_d. rewrite <- !app_assoc. unfold read_tmf_vertices_d.
  rewrite read_u64_w by (apply len64; lia). cbn [io map_err bind].
  do 6 (rewrite read_f64_d; cbn [io map_err bind]). cbn [app].
  destruct (le_lt_dec 64 (dp_px p)) as [X|X]; [exists (N.of_nat (dp_px p)); split; [lia|]; rewrite read_prec_wide by lia; reflexivity|].
  rewrite read_prec_w by lia. cbn [bind].
  destruct (le_lt_dec 64 (dp_py p)) as [Y|Y]; [exists (N.of_nat (dp_py p)); split; [lia|]; rewrite read_prec_wide by lia; reflexivity|].
  rewrite read_prec_w by lia. cbn [bind].
  destruct (le_lt_dec 64 (dp_pz p)) as [Z|Z]; [exists (N.of_nat (dp_pz p)); split; [lia|]; rewrite read_prec_wide by lia; reflexivity|].
  lia.
Qed.
Lemma vertex_header_ok_d n p : dp_px p < 256 -> dp_py p < 256 -> dp_pz p < 256 -> bytes_ok (vertex_header_d n p).
Proof.
  intros. unfold vertex_header_d. rewrite !bytes_ok_app. repeat (split; [first [apply le_bytes_ok|apply le_d_ok]|]).
  repeat (apply Forall_cons; [unfold byte_ok; lia|]). apply Forall_nil.
Qed.
(** Up to 63 bits an axis the array is read back. *)
Lemma vertices_kept_d lm vs prec edge b q mx my mz :
  (len vs <= 2 ^ 24)%N -> save_tmf_vertices_d lm false vs prec edge [] = Ok b -> vertex_params_d lm vs prec edge = Some q ->
  mask_f64 (E:=ioerr) false (dp_px q) = Ok mx -> mask_f64 (E:=ioerr) false (dp_py q) = Ok my -> mask_f64 (E:=ioerr) false (dp_pz q) = Ok mz ->
  dp_px q < 64 -> dp_py q < 64 -> dp_pz q < 64 ->
  read_tmf_vertices_d b = Ok (map (vertex_image_d q mx my mz) vs).
Proof.
  unfold len. intros H S V Mx My Mz Hx Hy Hz. unfold save_tmf_vertices_d in S. unfold vertex_params_d in V.
  destruct (bounding_box_d (E:=ioerr) vs) as [bb| |]; try discriminate S. injection V as <-. cbn [bind] in S. cbv zeta in S.
  cbn [dp_px dp_py dp_pz] in *. 
  set (sx := dmax (dsub (dmax_x bb) (dmin_x bb)) min_extent_d) in *.
  set (sy := dmax (dsub (dmax_y bb) (dmin_y bb)) min_extent_d) in *.
  set (sz := dmax (dsub (dmax_z bb) (dmin_z bb)) min_extent_d) in *.
  set (px := axis_precision_d lm edge sx prec) in *. set (py := axis_precision_d lm edge sy prec) in *.
  rewrite My in Mz. apply Ok_inj in Mz. subst mz.
  rewrite Mx in S. cbn [bind] in S. rewrite My in S. cbn [bind] in S.
  cbn [app] in S.
  match type of S with context [writer_new ?k] => set (S0 := k) in S end.
  set (q := mk_dparams bb sx sy sz px py py) in *.
  destruct (fields_written false S0 (flat_map (vertex_fields_d q mx my my) vs)) as (w & pl & E & F & P).
  { unfold S0. rewrite !bytes_ok_app. repeat split; try apply le_bytes_ok; try apply le_d_ok.
    repeat (apply Forall_cons; [unfold byte_ok; lia|]). apply Forall_nil. }
  { apply flat_Forall. intros a. repeat (apply Forall_cons; [cbn [fst snd q dp_px dp_py dp_pz]; split; [lia|apply u64_d_lt]|]). apply Forall_nil. }
  replace (write_fields false _ _) with (@Ok ioerr _ w) in S by (symmetry; exact E). cbn [bind] in S.
  rewrite F in S. apply Ok_inj in S. subst b.
  pose proof (packs_ok _ _ P) as Hpl.
  unfold S0. rewrite <- !app_assoc. unfold read_tmf_vertices_d.
  rewrite read_u64_w by (apply len64; lia). cbn [io map_err bind].
  do 6 (rewrite read_f64_d; cbn [io map_err bind]). cbn [app].
  do 3 (rewrite read_prec_w by lia; cbn [bind]). rewrite len_seg by lia. rewrite Nat2N.id.
  destruct (packs_bits _ _ [] P) as [pad Hpad]. rewrite app_nil_r in Hpad.
  apply (read_many_ok _ (vertex_fields_d q mx my my) (vertex_image_d q mx my my)) with (rest := pad) (acc := []);
    [|apply rok_new; exact Hpl|rewrite rbits_new; exact Hpad].
  intros v r rest Hr Hb. unfold vertex_fields_d in Hb. rewrite !field_bits_cons in Hb. cbn [fst snd q dp_px dp_py dp_pz] in Hb.
  rewrite <- !app_assoc in Hb. cbn [field_bits flat_map app] in Hb.
  destruct (read_one r px _ _ Hr ltac:(lia) Hb) as (r1 & E1 & O1 & B1). rewrite E1. cbn [io map_err bind].
  destruct (read_one r1 py _ _ O1 ltac:(lia) B1) as (r2 & E2 & O2 & B2). rewrite E2. cbn [io map_err bind].
  destruct (read_one r2 py _ _ O2 ltac:(lia) B2) as (r3 & E3 & O3 & B3). rewrite E3. cbn [io map_err bind].
  exists r3. auto.
Qed.
Lemma fair_vertices_d lm sc oc' vs prec edge b :
  (len vs <= 2 ^ 24)%N -> save_tmf_vertices_d lm false vs prec edge [] = Ok b ->
  fair_d sc oc' (mk_eseg SVertex CNone b) (XVertex vs).
Proof.
  intros L S. destruct (vertices_release_d _ _ _ _ _ S) as (p & mx & my & mz & V & Mx & My & Mz).
  destruct (params_lt_d _ _ _ _ _ V) as (H1 & H2 & H3).
  destruct (vertices_written_d _ _ _ _ _ _ V S) as (pl & EB & B & PL).
  assert (HL : length (vertex_header_d (N.of_nat (length vs)) p) = 59).
  { unfold vertex_header_d, le_d. rewrite !app_length, !le_bytes_length. reflexivity. }
  split; [|split; [|split; [reflexivity|]]].
  - cbn [e_data]. rewrite EB. unfold len in *. rewrite app_length. lia.
  - cbn [e_data]. rewrite EB. apply bytes_ok_app. split; [now apply vertex_header_ok_d|exact B].
  - destruct (le_lt_dec 64 (dp_px p)) as [X|X]; [|destruct (le_lt_dec 64 (dp_py p)) as [Y|Y]; [|destruct (le_lt_dec 64 (dp_pz p)) as [Z|Z]]].
    1-3: right; destruct (vertices_refused_d _ _ _ _ _ _ V S L) as (w & W & R); [lia|]; exists w; split; [exact W|];
      unfold decode_d; cbn [e_type e_data]; now rewrite R.
    left.
    eexists. split; [unfold decode_d; cbn [e_type e_data]; rewrite (vertices_kept_d lm vs prec edge b p mx my mz) by auto; reflexivity|].
    unfold xsame. cbn [xrel shape_rels dv]. now rewrite map_length.
Qed.

Definition float_header_d (l : list f64) (w : nat) : list N :=
  le_bytes 8 (N.of_nat (length l)) ++ le_d (snd (float_range_d l)) ++ le_d (fst (float_range_d l)) ++ [N.of_nat w].
Lemma float_width_lt_d lm l p : float_width_d lm l p < 256.
Proof. unfold float_width_d. match goal with |- context [u8_of_f64 ?x] => pose proof (u8_lt_d x) end. lia. Qed.
Lemma float_written_d lm l p hd b : bytes_ok hd -> cdata_write_d lm false (XFloat l p) hd = Ok b ->
  exists pl, b = hd ++ float_header_d l (float_width_d lm l p) ++ pl /\ bytes_ok pl /\ 8 * length pl <= 255 * length l + 8.
Proof.
  intros Hs S. pose proof (float_width_lt_d lm l p) as WL. unfold cdata_write_d in S. unfold float_header_d, float_width_d in *.
  destruct (float_range_d l) as [mx mn]. cbn [fst snd] in *. cbv zeta in S.
  match type of S with context [mask_f64 false ?a] => destruct (mask_release_d (E:=ioerr) a) as [mul M]; rewrite M in S end. cbn [bind] in S.
  match type of S with context [write_fields false (writer_new ?a) ?f] => set (S0 := a) in *; set (fs := f) in *;
    destruct (write_fields false (writer_new S0) fs) as [w| |] eqn:W; try discriminate S end.
  cbn [bind] in S. apply Ok_inj in S. subst b.
  destruct (finish_len false S0 fs w 255) as (pl & F & B & L); auto.
  - unfold S0. rewrite !bytes_ok_app. split; auto.
    split; [apply le_bytes_ok|]. split; [apply le_d_ok|]. split; [apply le_d_ok|]. apply small_byte. lia.
  - unfold fs. rewrite Forall_map. apply Forall_forall. intros x _. cbn [fst snd]. lia.
  - exists pl. split; [|split; [exact B|]].
    + rewrite F. unfold S0. now rewrite <- !app_assoc.
    + unfold fs in L. now rewrite map_length in L.
Qed.
Lemma read_float_wide_d l w pl : (len l <= 2 ^ 25)%N -> 64 <= w < 256 ->
  read_custom_float_d (float_header_d l w ++ pl) = Err (EInvalidPrecision (N.of_nat w)).
Proof.
  unfold len. intros L W. unfold read_custom_float_d, float_header_d. rewrite <- !app_assoc.
  rewrite read_u64_w by (apply len64; lia). cbn [io map_err bind]. rewrite len_seg by lia.
  do 2 (rewrite read_f64_d; cbn [io map_err bind]). cbn [app]. rewrite read_prec_wide by lia. reflexivity.
Qed.

(** Up to 63 bits the floats are read back. *)
Lemma float_kept_d lm l p mul hd b : (len l <= 2 ^ 25)%N -> bytes_ok hd -> cdata_write_d lm false (XFloat l p) hd = Ok b ->
  mask_f64 (E:=ioerr) false (float_width_d lm l p) = Ok mul -> float_width_d lm l p < 64 ->
  exists pl q, b = hd ++ float_header_d l (float_width_d lm l p) ++ pl /\
    read_custom_float_d (float_header_d l (float_width_d lm l p) ++ pl) = Ok (XFloat (map (float_image_d lm l p mul) l) q).
Proof.
  unfold len. intros H Hh S M Hw. unfold cdata_write_d in S.
  unfold float_image_d, float_value_d, float_code_d, float_header_d, float_width_d in *.
  destruct (float_range_d l) as [mx mn]. cbn [fst snd] in *. cbv zeta in *.
  match type of Hw with (?a < 64) => set (w := a) in * end.
  rewrite M in S. cbn [bind] in S.
  set (hd2 := le_bytes 8 (N.of_nat (length l)) ++ le_d mn ++ le_d mx ++ [N.of_nat w]) in *.
  set (ff := fun x => [(w, u64_of_f64 (dmul (ddiv (dsub x mn) (dsub mx mn)) mul))]).
  destruct (fields_written false (hd ++ hd2) (flat_map ff l)) as (wr & pl & E & F & P).
  { unfold hd2. rewrite !bytes_ok_app. repeat split; auto; try apply le_bytes_ok; try apply le_d_ok. apply small_byte. lia. }
  { apply flat_Forall. intros a. apply Forall_cons; [cbn [fst snd]; split; [lia|apply u64_d_lt]|apply Forall_nil]. }
  assert (FM : flat_map ff l = map (fun x => (w, u64_of_f64 (dmul (ddiv (dsub x mn) (dsub mx mn)) mul))) l).
  { clear. induction l as [|x l IH]; [reflexivity|]. cbn [flat_map map ff app]. now rewrite IH. }
  rewrite FM in E. rewrite E in S. cbn [bind] in S. rewrite F in S. apply Ok_inj in S. subst b. clear FM E F wr.
  pose proof (packs_ok _ _ P) as Hpl. destruct (packs_bits _ _ [] P) as [pad Hpad]. rewrite app_nil_r in Hpad.
  exists pl. eexists. split; [now rewrite <- app_assoc|].
  unfold read_custom_float_d, hd2. rewrite <- !app_assoc. rewrite read_u64_w by (apply len64; lia). cbn [io map_err bind].
  rewrite len_seg by lia. do 2 (rewrite read_f64_d; cbn [io map_err bind]). cbn [app]. rewrite read_prec_w by lia. cbn [bind].
  rewrite Nat2N.id.
  erewrite (read_many_ok _ ff (fun x => dadd (dmul (ddiv (f64_of_N (low w (u64_of_f64 (dmul (ddiv (dsub x mn) (dsub mx mn)) mul)))) (f64_of_N (mask_u64 w))) (dsub mx mn)) mn)) with (rest := pad);
    [cbn [bind app]; reflexivity| |apply rok_new; exact Hpl|rewrite rbits_new; exact Hpad].
  intros x r rest Hr Hb. unfold ff in Hb. rewrite !field_bits_cons in Hb. cbn [fst snd] in Hb.
  rewrite <- !app_assoc in Hb. cbn [field_bits flat_map app] in Hb.
  destruct (read_one r w _ _ Hr ltac:(lia) Hb) as (r1 & E1 & O1 & B1). rewrite E1. cbn [io map_err bind].
  exists r1. auto.
Qed.

Definition modest_custom_d (lm : libm64) (s : dcseg) : Prop :=
  match x_data s with
  | XFloat l _ => (len l <= 2 ^ 25)%N
  | XColor _ q => color_width_d lm q <= 30
  | _ => True
  end.
Lemma fair_custom_d lm sc oc' s b :
  custom_ok_d s -> modest_custom_d lm s -> cseg_encode_d lm false s [] = Ok b ->
  fair_d sc oc' (mk_eseg (SCustom (dcdata_kind (x_data s))) CNone b) (XCustom s).
Proof.
  intros C M S. set (p0 := mk_dprec d0 0 0 0).
  destruct (cseg_encode_d lm true s []) as [b'|e|] eqn:T.
  { assert (b' = b) as ->.
    { pose proof (ag_encode_d lm p0 d0 (XCustom s)) as A. unfold encode_d in A. rewrite S, T in A. cbn [bind] in A.
      destruct A as [A|A]; [discriminate|]. now injection A. }
    apply (good_fair_d lm sc oc' p0 d0). apply (good_custom_d lm); [reflexivity|exact C|exact T]. }
  { exfalso. pose proof (noerr_encode_d lm true p0 d0 (XCustom s)) as A. unfold encode_d in A. rewrite T in A. cbn [bind] in A. eapply A; reflexivity. }
  pose proof (name_header_d s C) as (N1 & N2 & N3 & N4 & N5 & N6). pose proof C as (C1 & C2 & C3 & C4).
  destruct (x_data s) as [l m|l m|l q|l q] eqn:CD; cbn [dcdata_kind]; unfold modest_custom_d in M; rewrite CD in M.
  - exfalso. destruct (encode_fits_d lm p0 d0 (XCustom s)) as [e E]; try (cbn; lia).
    + split; [exact C1|]. split; [exact C2|]. split; [exact C3|]. rewrite CD. destruct C4 as (_ & A & B). split; [|lia].
      eapply Forall_impl; [|exact A]. cbv beta. lia.
    + unfold encode_d in E. rewrite T in E. discriminate E.
  - exfalso. destruct (encode_fits_d lm p0 d0 (XCustom s)) as [e E]; try (cbn; lia).
    + split; [exact C1|]. split; [exact C2|]. split; [exact C3|]. rewrite CD. destruct C4 as (_ & A & B). split; [|lia].
      eapply Forall_impl; [|exact A]. cbv beta. lia.
    + unfold encode_d in E. rewrite T in E. discriminate E.
  - pose proof (float_width_lt_d lm l q) as WL.
    unfold cseg_encode_d in S. rewrite N1 in S. cbn [app] in S. rewrite N2, CD in S.
    destruct (float_written_d lm l q _ b N3 S) as (pl & EB & B & PL). unfold len in *.
    assert (HD : bytes_ok (float_header_d l (float_width_d lm l q))).
    { unfold float_header_d. rewrite !bytes_ok_app. repeat split; auto; try apply le_d_ok; try apply le_bytes_ok.
      constructor; [unfold byte_ok; lia|constructor]. }
    split; [|split; [|split; [reflexivity|]]].
    + cbn [e_data]. rewrite EB. unfold len, float_header_d, le_d. rewrite !app_length, !le_bytes_length. cbn [length]. lia.
    + cbn [e_data]. rewrite EB. rewrite !bytes_ok_app. auto.
    + destruct (le_lt_dec 64 (float_width_d lm l q)) as [W|W].
      * right. exists (N.of_nat (float_width_d lm l q)). split; [lia|]. unfold decode_d. cbn [e_type e_data]. unfold cseg_read_d. rewrite EB. cbn [app].
        rewrite N5. cbn [io map_err bind]. rewrite N6. cbn [io map_err bind]. rewrite read_float_wide_d by (unfold len; lia). reflexivity.
      * left. destruct (mask_release_d (E:=ioerr) (float_width_d lm l q)) as [mul Mm].
        destruct (float_kept_d lm l q mul _ b ltac:(unfold len; lia) N3 S Mm W) as (pl' & r & EB' & R).
        eexists. split.
        { unfold decode_d. cbn [e_type e_data]. unfold cseg_read_d. rewrite EB'. cbn [app]. rewrite N5. cbn [io map_err bind]. rewrite N6. cbn [io map_err bind].
          rewrite R. cbn [bind]. rewrite N4. reflexivity. }
        unfold xsame. cbn [xrel shape_rels ds]. split; [reflexivity|]. split; [reflexivity|]. cbn [x_data]. rewrite CD. cbn [same_data_d]. now rewrite map_length.
  - exfalso. destruct (encode_fits_d lm p0 d0 (XCustom s)) as [e E]; try (cbn; lia).
    + split; [exact C1|]. split; [exact C2|]. split; [exact C3|]. rewrite CD. exact M.
    + unfold encode_d in E. rewrite T in E. discriminate E.
Qed.

Definition dmodest_d (lm : libm64) (d : xseg) : Prop :=
  match d with
  | XVertex l => (len l <= 2 ^ 24)%N
  | XCustom s => modest_custom_d lm s
  | XShared k _ => (0 < k < 8)%N
  | _ => True
  end.
Lemma dmodest_sub_d lm : sub_ok_d (dmodest_d lm).
Proof.
  unfold sub_ok_d. cbn [dmodest_d]. split; [|tauto]. intros a b H. unfold len in *. rewrite app_length in H. lia.
Qed.
Lemma dmodest_merged_d lm m : (forall v, d_vertices m = Some v -> (len v <= 2 ^ 24)%N) -> Forall (modest_custom_d lm) (d_custom_data m) ->
  Forall (dmodest_d lm) (merge_segments_d (tmf_segs_d m)).
Proof.
  intros V C.
  assert (F : Forall (fun d => dmodest_d lm d /\ is_something_d d = true) (merge_segments_d (tmf_segs_d m))).
  { apply merge_loop_keeps_d; try (cbn [dmodest_d]; auto; fail).
    apply Forall_rev. unfold tmf_segs_d. rewrite !Forall_app.
    assert (O : forall A (f : A -> xseg) (o : option A), (forall x, o = Some x -> dmodest_d lm (f x)) -> Forall (dmodest_d lm) (opt_seg_d f o)).
    { intros A f [x|] HH; constructor; auto. }
    do 8 (split; [apply O; intros x HX; cbn [dmodest_d]; first [exact I|exact (V _ HX)]|]).
    rewrite Forall_map. exact C. }
  eapply Forall_impl; [|exact F]. cbv beta; tauto.
Qed.

Definition prec_usable_d (p : dprec_info) : Prop := d_normal_precision p <= 30 /\ d_uv_prec p <= 30 /\ d_tangent_prec p <= 30.
Lemma encode_fair_d lm sc oc' p edge d e :
  prec_usable_d p -> dok_d d -> dmodest_d lm d -> is_something_d d = true -> encode_d lm false p edge d = Ok e -> fair_d sc oc' e d.
Proof.
  intros (Hn & Hu & Ht) D M Sm E.
  assert (U : forall l, idx_ok l -> u32s l /\ (len l < 2 ^ 57)%N).
  { intros l [Y X]. split; [eapply Forall_impl; [|exact X]; cbv beta; lia|]. unfold len in *. lia. }
  assert (Plain : dfits_d lm d -> fair_d sc oc' e d).
  { intros F. destruct (encode_fits_d lm p edge d Hn Hu Ht F) as [e' E'].
    destruct (ag_encode_d lm p edge d) as [A|A]; [congruence|]. rewrite E in A. 
    apply (good_fair_d lm sc oc' p edge). eapply (encode_good_d lm sc oc' p edge); eauto. split; auto. }
  destruct d as [|l|l|l|l|l|l|l|l|k l|s]; try discriminate Sm; cbn [dok_d dmodest_d] in *.
  - unfold encode_d in E. destruct (save_tmf_vertices_d lm false l (d_vertex_precision p) edge []) as [b| |] eqn:S; try discriminate. injection E as <-.
    eapply fair_vertices_d; eauto.
  - apply Plain. exact I.
  - apply Plain. exact I.
  - apply Plain. exact I.
  - apply Plain, U, D.
  - apply Plain, U, D.
  - apply Plain, U, D.
  - apply Plain, U, D.
  - apply Plain. cbn [dfits_d dval_d]. pose proof (U _ (proj2 D)). intuition lia.
  - unfold encode_d in E. destruct (cseg_encode_d lm false s []) as [b| |] eqn:S; try discriminate. injection E as <-.
    eapply fair_custom_d; eauto.
Qed.

(** ** Meshes and files *)
Definition refused_d (sc : f64 -> f64 * f64) (oc : bool) (e : eseg) : Prop :=
  exists w, (64 <= w)%N /\ decode_d sc oc new_ctx e = Err (EInvalidPrecision w).

Lemma mesh_fair_d lm sc oc' p m name out :
  prec_usable_d p -> storable_d m -> modest_d m -> Forall (modest_custom_d lm) (d_custom_data m) ->
  name_ok name -> (segment_count_d lm false m < 65536)%N ->
  traced (write_mesh_d lm false p m name) out (Ok tt) ->
  exists raw, out = mesh_bytes seg_bytes raw /\ mesh_ok raw /\ fst raw = name /\
    ((exists m', load_raw_d sc oc' new_ctx raw = Ok (m', name) /\ same_shape_rev_d m m') \/
     (exists w, (64 <= w)%N /\ load_raw_d sc oc' new_ctx raw = Err (EInvalidPrecision w))) /\
    (forall edge, calc_shortest_edge_d (d_vertex_triangles m) (d_vertices m) = Ok edge ->
      forall segs, optimize_all_d lm false (merge_segments_d (tmf_segs_d m)) = Ok segs ->
      Exists (fun s => forall e, encode_d lm false p edge s = Ok e -> refused_d sc oc' e) segs ->
      exists w, (64 <= w)%N /\ load_raw_d sc oc' new_ctx raw = Err (EInvalidPrecision w)).
Proof.
  intros HP HS [HM1 _] HM2 HN HC T. apply mesh_inv_d in T as (edge & segs & es & E1 & E2 & E3 & ->).
  unfold segment_count_d in HC. rewrite E2 in HC.
  destruct (dok_merged_d m HS) as [D1 D2].
  pose proof (optimize_all_all_d dok_d lm false _ _ dok_sub_d D1 E2) as D3.
  assert (D4 : Forall (fun d => is_something_d d = true) segs).
  { eapply (optimize_all_all_d (fun d => is_something_d d = true)); eauto.
    unfold sub_ok_d. cbn. tauto. }
  pose proof (optimize_all_all_d (dmodest_d lm) lm false _ _ (dmodest_sub_d lm) (dmodest_merged_d lm m HM1 HM2) E2) as D5.
  assert (FF : Forall2 (fun s e => encode_d lm false p edge s = Ok e /\ fair_d sc oc' e s) segs es).
  { clear -E3 D3 D4 D5 HP. induction E3 as [|s e segs es H _ IH]; [constructor|].
    apply Forall_cons_iff in D3 as [Da D3]. apply Forall_cons_iff in D4 as [Db D4]. apply Forall_cons_iff in D5 as [Dc D5].
    constructor; auto. split; auto. eapply encode_fair_d; eauto. }
  assert (F : Forall (fun e => (len (e_data e) <= 2 ^ 31)%N /\ bytes_ok (e_data e) /\ e_comp e = CNone) es).
  { clear -FF. induction FF as [|s e segs es (_ & A & B & C & _) _ IH]; constructor; auto. }
  set (rs := map (decode_d sc oc' new_ctx) es).
  assert (R : (exists ds, Forall2 xsame segs ds /\ rs = map Ok ds) \/
              (exists w, (64 <= w)%N /\ collect rs = Err (EInvalidPrecision w))).
  { unfold rs. clear -FF. induction FF as [|s e segs es (_ & _ & _ & _ & A) _ IH]; [left; exists []; split; [constructor|reflexivity]|].
    cbn [map collect]. destruct A as [(d & A & B)|(w & W & A)].
    - rewrite A. cbn [bind]. destruct IH as [(ds & F & ->)|(w & W & ->)].
      + left. exists (d :: ds). split; [now constructor|reflexivity].
      + right. exists w. split; [exact W|reflexivity].
    - right. exists w. split; [exact W|]. rewrite A. reflexivity. }
  assert (NP : existsb is_panic rs = false).
  { unfold rs. clear -FF. induction FF as [|s e segs es (_ & _ & _ & _ & A) _ IH]; [reflexivity|].
    cbn [map existsb]. rewrite IH. destruct A as [(d & A & B)|(w & W & A)]; rewrite A; reflexivity. }
  assert (X : Exists (fun s => forall e, encode_d lm false p edge s = Ok e -> refused_d sc oc' e) segs -> forall ds, rs <> map Ok ds).
  { unfold rs. clear -FF. induction FF as [|s e segs es (E & _) _ IH]; intros X ds; [inversion X|].
    destruct ds as [|d ds]; [discriminate|]. cbn [map]. intros Q. apply Exists_cons in X as [X|X].
    - destruct (X e E) as (w & _ & W). rewrite W in Q. discriminate Q.
    - apply (IH X ds). now apply (f_equal (@tl _)) in Q. }
  assert (Le : length es = length segs) by (symmetry; exact (F2_length _ _ _ E3)).
  exists (name, map raw_of es).
  assert (EM : map eseg_of (map raw_of es) = es).
  { clear. induction es as [|e es IH]; [reflexivity|]. cbn [map]. now rewrite eseg_of_raw, IH. }
  split; [|split; [|split; [reflexivity|split]]].
  - unfold mesh_bytes. cbn [fst snd]. rewrite !lend_le. unfold len. rewrite map_length, Le.
    do 3 f_equal. rewrite !map_map. f_equal.
    clear -F. induction F as [|e es (H & _) _ IH]; [reflexivity|]. cbn [map]. f_equal; auto.
    now apply segment_layout.
  - split; [exact HN|]. cbn [snd]. split.
    + unfold len in *. rewrite map_length, Le. auto.
    + rewrite Forall_map. eapply Forall_impl; [|exact F]. intros e (H1 & H2 & H3).
      unfold frameable, raw_of. cbn [r_kind r_comp r_payload]. split; [apply section_code_ok|].
      split; [apply compression_code_ok|auto].
  - unfold load_raw_d. cbn [fst snd]. rewrite EM. fold rs. destruct R as [(ds & G1 & G2)|(w & W & G)].
    + left. exists (build_d ds d_empty). rewrite (join_ok _ ds) by exact G2. split; [reflexivity|].
      apply rels_shape. rewrite <- build_merged_d, <- (build_optimize_all_d lm false _ _ _ E2).
      apply build_rel_d; auto. constructor; cbn; auto.
    + right. exists w. split; [exact W|]. unfold join_collect. rewrite NP, G. reflexivity.
  - intros edge' E1' segs' E2' X'. rewrite E1 in E1'. apply Ok_inj in E1'. subst edge'. rewrite E2 in E2'. apply Ok_inj in E2'. subst segs'.
    unfold load_raw_d. cbn [fst snd]. rewrite EM. fold rs. destruct R as [(ds & G1 & G2)|(w & W & G)].
    + exfalso. exact (X X' ds G2).
    + exists w. split; [exact W|]. unfold join_collect. rewrite NP, G. reflexivity.
Qed.

Definition writable_d (lm : libm64) (mn : dmesh * list N) : Prop :=
  storable_d (fst mn) /\ modest_d (fst mn) /\ Forall (modest_custom_d lm) (d_custom_data (fst mn)) /\
  name_ok (snd mn) /\ (segment_count_d lm false (fst mn) < 65536)%N.
Definition unloadable_d (lm : libm64) (sc : f64 -> f64 * f64) (oc' : bool) (p : dprec_info) (m : dmesh) : Prop :=
  forall edge, calc_shortest_edge_d (d_vertex_triangles m) (d_vertices m) = Ok edge ->
  forall segs, optimize_all_d lm false (merge_segments_d (tmf_segs_d m)) = Ok segs ->
  Exists (fun s => forall e, encode_d lm false p edge s = Ok e -> refused_d sc oc' e) segs.
Lemma saved_fair_d lm sc oc' p l out :
  prec_usable_d p -> (len l < 2 ^ 32)%N -> Forall (writable_d lm) l ->
  saved_d lm false p l = Ok out ->
  ((exists l', read_tmf_d sc oc' out = Ok l' /\
     Forall2 (fun a b => snd a = snd b /\ same_shape_rev_d (fst a) (fst b)) l l') \/
   (exists w, (64 <= w)%N /\ read_tmf_d sc oc' out = Err (EInvalidPrecision w))) /\
  (Exists (fun mn => unloadable_d lm sc oc' p (fst mn)) l ->
   exists w, (64 <= w)%N /\ read_tmf_d sc oc' out = Err (EInvalidPrecision w)).
Proof.
  intros HP HL HF S. apply saved_inv_d in S as (outs & -> & F).
  assert (G : exists raws, concat outs = concat (map (mesh_bytes seg_bytes) raws) /\ Forall mesh_ok raws /\
    length raws = length l /\
    ((exists l', map (load_raw_d sc oc' new_ctx) raws = map Ok l' /\
       Forall2 (fun a b => snd a = snd b /\ same_shape_rev_d (fst a) (fst b)) l l') \/
     (exists w, (64 <= w)%N /\ collect (map (load_raw_d sc oc' new_ctx) raws) = Err (EInvalidPrecision w))) /\
    (Exists (fun mn => unloadable_d lm sc oc' p (fst mn)) l ->
     exists w, (64 <= w)%N /\ collect (map (load_raw_d sc oc' new_ctx) raws) = Err (EInvalidPrecision w))).
  { clear HL. induction F as [|[m name] o l outs H _ IH].
    - exists []. repeat split; try constructor. + exists []. split; [reflexivity|constructor]. + intros X. inversion X.
    - apply Forall_cons_iff in HF as [(A & B & C & D & E) HF]. destruct (IH HF) as (raws & E1 & E2 & E3 & E4 & E5).
      destruct (mesh_fair_d lm sc oc' p m name o) as (raw & R1 & R2 & R3 & R4 & R5); auto.
      exists (raw :: raws). cbn [concat map length collect]. rewrite R1, E1, E3.
      split; [reflexivity|]. split; [now constructor|]. split; [reflexivity|]. split.
      + destruct R4 as [(m' & R4 & SH)|(w & W & R4)]; rewrite R4; cbn [bind].
        * destruct E4 as [(l' & -> & F2)|(w & W & ->)].
          -- left. exists ((m', name) :: l'). split; [reflexivity|]. constructor; auto.
          -- right. exists w. split; [exact W|reflexivity].
        * right. exists w. split; [exact W|reflexivity].
      + intros X. apply Exists_cons in X as [X|X].
        * cbn [fst] in X. apply mesh_inv_d in H as (edge & segs & es & H1 & H2 & _).
          destruct (R5 edge H1 segs H2 (X edge H1 segs H2)) as (w & W & Q). rewrite Q. exists w. split; [exact W|reflexivity].
        * destruct (E5 X) as (w & W & Q). destruct R4 as [(m' & R4 & SH)|(w' & W' & R4)]; rewrite R4; cbn [bind].
          -- rewrite Q. exists w. split; [exact W|reflexivity].
          -- exists w'. split; [exact W'|reflexivity]. }
  destruct G as (raws & E1 & E2 & E3 & E4 & E5).
  assert (FO : file_ok raws). { split; auto. unfold len in *. lia. }
  assert (EB : header_bytes 0 2 0 2 ++ lend 4 (len l) ++ concat outs = file_bytes raws).
  { unfold file_bytes. rewrite E1. unfold len. now rewrite E3. }
  rewrite EB.
  assert (RD : read_tmf_d sc oc' (file_bytes raws) = collect (map (load_raw_d sc oc' new_ctx) raws)).
  { now apply read_tmf_new_d. }
  rewrite RD. split.
  - destruct E4 as [(l' & M & F2)|E4]; [left|right; exact E4]. exists l'. split; [now apply collect_ok|exact F2].
  - exact E5.
Qed.
