(** Lemmas for C81: what a release build writes when a value needs more than 30 bits,
    and what becomes of it. *)
From Coq Require Import List NArith ZArith Arith Lia Bool ZifyN ZifyNat ZifyBool.
From Flocq Require Import IEEE754.BinarySingleNaN.
From Verif Require Import Base BitSpec BitLemmas UnalignedRW BitIOSpec UnalignedRW_proofs ReadExt ByteLemmas Triangles TriSpec
  Triangles_proofs OptTris OptTris_proofs Floats Floats_proofs Utilis Unify Vertices Uv Normals CustomData Mesh
  OptVertices OptVertices_proofs Tmf File Parse_proofs Codec_proofs FileSpec File_proofs
  NoPanic_proofs Load_proofs SaveSpec Merge_proofs Save_proofs Save2_proofs Agree_proofs Panic_proofs
  ValueSpec FineSpec.
Import ListNotations.
Open Scope res_scope.

(** ** The length of what is written, for every width *)
Definition wfine (w : writer) : Prop := w_written w < 8 /\ (w_next w < 256)%N /\ bytes_ok (w_out w).
Lemma lor_byte a b : (a < 256)%N -> (b < 256)%N -> (N.lor a b < 256)%N.
Proof.
  intros A B. change 256%N with (2 ^ 8)%N in *. destruct (N.eq_dec (N.lor a b) 0) as [->|Z]; [reflexivity|].
  apply N.log2_lt_pow2; [lia|]. rewrite N.log2_lor.
  destruct (N.eq_dec a 0) as [->|]; destruct (N.eq_dec b 0) as [->|]; cbn [N.max N.log2] in *;
    try (apply N.max_lub_lt; try reflexivity; apply N.log2_lt_pow2; lia).
Qed.
Lemma write_loop_len fuel : forall w n d w', wfine w -> write_loop fuel w n d = Ok w' ->
  wfine w' /\ exists ext, w_out w' = w_out w ++ ext /\ 8 * length ext + w_written w' = w_written w + n.
Proof.
  induction fuel as [|fuel IH]; intros w n d w' W; cbn [write_loop]; destruct (n =? 0) eqn:Z;
    try discriminate; try (intros [= <-]; split; [exact W|]; exists []; rewrite app_nil_r; cbn [length]; split; [reflexivity|lia]).
  cbv zeta. set (c := Nat.min n (8 - w_written w)).
  set (nx := N.lor _ _).
  assert (NX : (nx < 256)%N).
  { apply lor_byte; [apply W|]. apply N.mod_lt. discriminate. }
  destruct W as (W1 & W2 & W3).
  destruct (8 <=? w_written w + c) eqn:C; intros E; apply IH in E.
  - destruct E as [E1 (ext & E2 & E3)]. cbn [w_out w_written] in *. split; [exact E1|]. exists (nx :: ext).
    rewrite E2, <- app_assoc. split; [reflexivity|]. cbn [length]. lia.
  - split; [cbn; lia|]. split; [reflexivity|]. cbn [w_out]. apply bytes_ok_app. split; [exact W3|]. constructor; [exact NX|constructor].
  - destruct E as [E1 (ext & E2 & E3)]. cbn [w_out w_written] in *. split; [exact E1|]. exists ext. split; [exact E2|]. lia.
  - split; [cbn; lia|]. split; [exact NX|exact W3].
Qed.
Lemma write_fields_len oc fs : forall w w' W, wfine w -> Forall (fun f => fst f <= W) fs -> write_fields oc w fs = Ok w' ->
  wfine w' /\ exists ext, w_out w' = w_out w ++ ext /\ 8 * length ext + w_written w' <= w_written w + W * length fs.
Proof.
  induction fs as [|[n v] fs IH]; intros w w' W F A; cbn [write_fields].
  - intros [= <-]. split; [exact F|]. exists []. rewrite app_nil_r. cbn [length]. split; [reflexivity|lia].
  - apply Forall_cons_iff in A as [A1 A2]. cbn [fst] in A1. unfold write_unaligned.
    destruct (n =? 0) eqn:Z; cbn [bind].
    { intros E. destruct (IH _ _ W F A2 E) as [B (ext & C & D)]. split; [exact B|]. exists ext. split; [exact C|]. cbn [length]. lia. }
    destruct (sub8 oc 64 n) as [k| |]; try discriminate. cbn [bind].
    destruct (shl64 oc v k) as [x| |]; try discriminate. cbn [bind].
    destruct (write_loop n w n x) as [w1| |] eqn:L; try discriminate. cbn [bind]. intros E.
    destruct (write_loop_len _ _ _ _ _ F L) as [F1 (e1 & X1 & Y1)].
    destruct (IH _ _ W F1 A2 E) as [F2 (e2 & X2 & Y2)]. split; [exact F2|]. exists (e1 ++ e2).
    rewrite X2, X1, app_assoc. split; [reflexivity|]. rewrite app_length. cbn [length]. lia.
Qed.
Lemma finish_len oc S0 fs w W : bytes_ok S0 -> Forall (fun f => fst f <= W) fs -> write_fields oc (writer_new S0) fs = Ok w ->
  exists pl, writer_finish w = S0 ++ pl /\ bytes_ok pl /\ 8 * length pl <= W * length fs + 8.
Proof.
  intros B A E.
  assert (I0 : wfine (writer_new S0)) by (split; [cbn; lia|]; split; [reflexivity|exact B]).
  destruct (write_fields_len oc fs _ _ W I0 A E) as [(F1 & F2 & F3) (ext & X & Y)].
  cbn [w_out w_written writer_new] in *. unfold writer_finish. rewrite X in *. apply bytes_ok_app in F3 as [_ F3].
  destruct (0 <? w_written w).
  - exists (ext ++ [w_next w]). rewrite <- app_assoc. split; [reflexivity|]. split.
    + apply bytes_ok_app. split; [exact F3|]. constructor; [exact F2|constructor].
    + rewrite app_length. cbn [length]. lia.
  - exists ext. split; [reflexivity|]. split; [exact F3|]. lia.
Qed.

(** ** One segment *)

(** [fair lm oc e d]: the encoded segment is well formed, and it decodes to the like of
    [d] or is refused for a width of 64 bits or more. *)
Definition fair (lm : libm) (oc : bool) (e : eseg) (d : dseg) : Prop :=
  (len (e_data e) <= 2 ^ 31)%N /\ bytes_ok (e_data e) /\ e_comp e = CNone /\
  ((exists d', decode lm oc new_ctx e = Ok d' /\ dsame d d') \/
   (exists w, (64 <= w)%N /\ decode lm oc new_ctx e = Err (EInvalidPrecision w))).
Lemma good_fair lm oc e d : good lm oc e d -> fair lm oc e d.
Proof. intros (A & B & C & D). repeat split; auto. Qed.

Lemma mask_release {E} p : exists m, mask_f32 (E:=E) false p = Ok m.
Proof.
  unfold mask_f32, mask_i32. destruct (p <? 32)%nat; cbn [bind]; destruct (_ <=? _)%Z; cbn [bind]; eauto.
Qed.
Lemma vertices_release lm vs prec edge b : save_tmf_vertices lm false vs prec edge [] = Ok b ->
  exists p mx my mz, vertex_params lm vs prec edge = Some p /\
    mask_f32 (E:=ioerr) false (vp_px p) = Ok mx /\ mask_f32 (E:=ioerr) false (vp_py p) = Ok my /\
    mask_f32 (E:=ioerr) false (vp_pz p) = Ok mz.
Proof.
  intros S. unfold save_tmf_vertices in S. unfold vertex_params.
  destruct (bounding_box (E:=ioerr) vs) as [bb| |]; try discriminate. 
  eexists. cbn [vp_px vp_py vp_pz].
  destruct (mask_release (E:=ioerr) (axis_precision lm edge (fmax (fsub (max_x bb) (min_x bb)) min_extent) prec)) as [mx Mx].
  destruct (mask_release (E:=ioerr) (axis_precision lm edge (fmax (fsub (max_y bb) (min_y bb)) min_extent) prec)) as [my My].
  exists mx, my, my. split; [reflexivity|]. auto.
Qed.
Lemma vertices_written lm vs prec edge b p : vertex_params lm vs prec edge = Some p -> save_tmf_vertices lm false vs prec edge [] = Ok b ->
  exists pl, b = vertex_header (N.of_nat (length vs)) p ++ pl /\ bytes_ok pl /\ 8 * length pl <= 255 * (3 * length vs) + 8.
Proof.
  intros V S. unfold save_tmf_vertices in S. unfold vertex_params in V.
  destruct (bounding_box (E:=ioerr) vs) as [bb| |]; try discriminate. injection V as <-. cbn [bind] in S. cbv zeta in S.
  match type of S with context [mask_f32 false ?a] => destruct (mask_release (E:=ioerr) a) as [mx Mx]; rewrite Mx in S end.
  cbn [bind] in S.
  match type of S with context [mask_f32 false ?a] => destruct (mask_release (E:=ioerr) a) as [my My]; rewrite My in S end.
  cbn [bind] in S. 
  match type of S with context [write_fields false (writer_new ?a) ?f] => set (S0 := a) in *; set (fs := f) in *;
    destruct (write_fields false (writer_new S0) fs) as [w| |] eqn:W; try discriminate S end.
  cbn [bind] in S. apply Ok_inj in S. subst b.
  destruct (finish_len false S0 fs w 255) as (pl & F & B & L); auto.
  - unfold S0. cbn [app]. rewrite !bytes_ok_app. repeat (split; [repeat (split || apply le_bytes_ok || apply le_f64_ok || auto)|]).
    repeat (apply Forall_cons; [unfold byte_ok; match goal with |- context [axis_precision ?a ?b ?c ?d] => pose proof (axis_precision_lt a b c d); lia end|]). apply Forall_nil.
  - apply flat_Forall. intros v. repeat (apply Forall_cons; [cbn [fst];
      match goal with |- context [axis_precision ?a ?b ?c ?d] => pose proof (axis_precision_lt a b c d); lia end|]). apply Forall_nil.
  - exists pl. split; [|split; [exact B|]].
    + rewrite F. unfold S0, vertex_header. cbn [vp_px vp_py vp_pz vp_box app]. now rewrite <- !app_assoc.
    + unfold fs in L. rewrite (flat_len _ 3) in L by reflexivity. exact L.
Qed.
Lemma read_prec_wide p s : 64 <= p < 256 -> read_prec (N.of_nat p :: s) = Err (EInvalidPrecision (N.of_nat p)).
Proof. intros H. unfold read_prec. rewrite read_u8_cons by lia. cbn [io map_err bind]. replace (64 <=? N.of_nat p)%N with true by lia. reflexivity. Qed.

Lemma params_lt lm vs prec edge p : vertex_params lm vs prec edge = Some p -> vp_px p < 256 /\ vp_py p < 256 /\ vp_pz p < 256.
Proof.
  unfold vertex_params. destruct (bounding_box (E:=ioerr) vs); try discriminate. intros [= <-]. cbn [vp_px vp_py vp_pz].
  repeat split; apply axis_precision_lt.
Qed.
(** The widths decide whether a vertex array loads. *)
Lemma vertices_refused lm vs prec edge b p : vertex_params lm vs prec edge = Some p -> save_tmf_vertices lm false vs prec edge [] = Ok b ->
  (len vs <= 2 ^ 24)%N -> (64 <= vp_px p \/ 64 <= vp_py p \/ 64 <= vp_pz p) ->
  exists w, (64 <= w)%N /\ read_tmf_vertices b = Err (EInvalidPrecision w).
Proof.
  intros V S L H. destruct (params_lt _ _ _ _ _ V) as (H1 & H2 & H3).
  destruct (vertices_written _ _ _ _ _ _ V S) as (pl & -> & _ & _). unfold len in L.
  unfold vertex_header. rewrite <- !app_assoc. unfold read_tmf_vertices.
  rewrite read_u64_w by (apply len64; lia). cbn [io map_err bind].
  do 6 (rewrite read_f64_as_f32_w; cbn [bind]). cbn [app].
  destruct (le_lt_dec 64 (vp_px p)) as [X|X]; [exists (N.of_nat (vp_px p)); split; [lia|]; rewrite read_prec_wide by lia; reflexivity|].
  rewrite read_prec_w by lia. cbn [bind].
  destruct (le_lt_dec 64 (vp_py p)) as [Y|Y]; [exists (N.of_nat (vp_py p)); split; [lia|]; rewrite read_prec_wide by lia; reflexivity|].
  rewrite read_prec_w by lia. cbn [bind].
  destruct (le_lt_dec 64 (vp_pz p)) as [Z|Z]; [exists (N.of_nat (vp_pz p)); split; [lia|]; rewrite read_prec_wide by lia; reflexivity|].
  lia.
Qed.
Lemma fair_vertices lm lm' oc' vs prec edge b :
  (len vs <= 2 ^ 24)%N -> save_tmf_vertices lm false vs prec edge [] = Ok b ->
  fair lm' oc' (mk_eseg SVertex CNone b) (DVertex vs).
Proof.
  intros L S. destruct (vertices_release _ _ _ _ _ S) as (p & mx & my & mz & V & Mx & My & Mz).
  destruct (params_lt _ _ _ _ _ V) as (H1 & H2 & H3).
  destruct (vertices_written _ _ _ _ _ _ V S) as (pl & EB & B & PL).
  assert (HL : length (vertex_header (N.of_nat (length vs)) p) = 59).
  { unfold vertex_header, le_f64. rewrite !app_length, !le_bytes_length. reflexivity. }
  split; [|split; [|split; [reflexivity|]]].
  - cbn [e_data]. rewrite EB. unfold len in *. rewrite app_length. lia.
  - cbn [e_data]. rewrite EB. apply bytes_ok_app. split; [now apply vertex_header_ok|exact B].
  - destruct (le_lt_dec 64 (vp_px p)) as [X|X]; [|destruct (le_lt_dec 64 (vp_py p)) as [Y|Y]; [|destruct (le_lt_dec 64 (vp_pz p)) as [Z|Z]]].
    1-3: right; destruct (vertices_refused _ _ _ _ _ _ V S L) as (w & W & R); [lia|]; exists w; split; [exact W|];
      unfold decode; cbn [e_type e_data]; now rewrite R.
    left. destruct (vertices_roundtrip lm false vs prec edge p mx my mz []) as (b' & S' & _ & R); auto; try (unfold len in L; lia); [constructor|].
    rewrite S in S'. apply Ok_inj in S'. subst b'. rewrite app_nil_r in R.
    eexists. split; [unfold decode; cbn [e_type e_data]; rewrite R; reflexivity|]. cbn [dsame]. now rewrite map_length.
Qed.

Lemma float_width_lt lm l p : float_width lm l p < 256.
Proof. unfold float_width. match goal with |- context [u8_of_f32 ?x] => pose proof (u8_lt x) end. lia. Qed.
Lemma float_written lm l p hd b : bytes_ok hd -> cdata_write lm false (CFloat l p) hd = Ok b ->
  exists pl, b = hd ++ float_header l (float_width lm l p) ++ pl /\ bytes_ok pl /\ 8 * length pl <= 255 * length l + 8.
Proof.
  intros Hs S. pose proof (float_width_lt lm l p) as WL. unfold cdata_write in S. unfold float_header, float_width in *.
  destruct (float_range l) as [mx mn]. cbn [fst snd] in *. cbv zeta in S.
  match type of S with context [mask_f32 false ?a] => destruct (mask_release (E:=ioerr) a) as [mul M]; rewrite M in S end. cbn [bind] in S.
  match type of S with context [write_fields false (writer_new ?a) ?f] => set (S0 := a) in *; set (fs := f) in *;
    destruct (write_fields false (writer_new S0) fs) as [w| |] eqn:W; try discriminate S end.
  cbn [bind] in S. apply Ok_inj in S. subst b.
  destruct (finish_len false S0 fs w 255) as (pl & F & B & L); auto.
  - unfold S0. rewrite !bytes_ok_app. split; auto.
    split; [apply le_bytes_ok|]. split; [apply le_f64_ok|]. split; [apply le_f64_ok|]. apply small_byte. lia.
  - unfold fs. rewrite Forall_map. apply Forall_forall. intros x _. cbn [fst snd]. lia.
  - exists pl. split; [|split; [exact B|]].
    + rewrite F. unfold S0. now rewrite <- !app_assoc.
    + unfold fs in L. now rewrite map_length in L.
Qed.
Lemma read_float_wide l w pl : (len l <= 2 ^ 25)%N -> 64 <= w < 256 ->
  read_custom_float (float_header l w ++ pl) = Err (EInvalidPrecision (N.of_nat w)).
Proof.
  unfold len. intros L W. unfold read_custom_float, float_header. rewrite <- !app_assoc.
  rewrite read_u64_w by (apply len64; lia). cbn [io map_err bind]. rewrite len_seg by lia.
  do 2 (rewrite read_f64_w; cbn [io map_err bind]). cbn [app]. rewrite read_prec_wide by lia. reflexivity.
Qed.

Definition modest_custom (lm : libm) (s : cseg) : Prop :=
  match c_data s with
  | CFloat l _ => (len l <= 2 ^ 25)%N
  | CColor _ q => color_width lm q <= 30
  | _ => True
  end.
Lemma fair_custom lm lm' oc' s b :
  custom_ok s -> modest_custom lm s -> cseg_encode lm false s [] = Ok b ->
  fair lm' oc' (mk_eseg (SCustom (cdata_kind (c_data s))) CNone b) (DCustom s).
Proof.
  intros C M S.
  destruct (cseg_encode lm true s []) as [b'|e|] eqn:T.
  { assert (b' = b) as ->.
    { pose proof (ag_encode lm (mk_prec f0 0 0 0) f0 (DCustom s)) as A. unfold encode in A. rewrite S, T in A. cbn [bind] in A.
      destruct A as [A|A]; [discriminate|]. now injection A. }
    apply good_fair. eapply good_custom; eauto. }
  { exfalso. pose proof (noerr_encode lm true (mk_prec f0 0 0 0) f0 (DCustom s)) as A. unfold encode in A. rewrite T in A. cbn [bind] in A. eapply A; reflexivity. }
  pose proof (name_header s C) as (N1 & N2 & N3 & N4 & N5 & N6). pose proof C as (C1 & C2 & C3 & C4).
  unfold cseg_encode in S, T. rewrite N1 in S, T. cbn [app] in S, T. rewrite N2 in S, T. unfold modest_custom in M.
  destruct (c_data s) as [l m|l m|l q|l q] eqn:CD; cbn [cdata_kind].
  - exfalso. cbn [cdata_write] in T.
    assert (U : u32s l). { eapply Forall_impl; [|exact (proj1 (proj2 C4))]. cbv beta. lia. }
    assert (Mx : (m < 2 ^ 64)%N) by (destruct C4 as (_ & _ & ?); lia).
    destruct (save_triangles_spec true l m _ N3 U Mx) as (p & S1 & _). congruence.
  - exfalso. cbn [cdata_write] in T.
    assert (U : u32s l). { eapply Forall_impl; [|exact (proj1 (proj2 C4))]. cbv beta. lia. }
    assert (Mx : (m < 2 ^ 64)%N) by (destruct C4 as (_ & _ & ?); lia).
    destruct (save_triangles_spec true l m _ N3 U Mx) as (p & S1 & _). congruence.
  - pose proof (float_width_lt lm l q) as WL.
    destruct (float_written lm l q _ b N3 S) as (pl & EB & B & PL). unfold len in *.
    assert (HD : bytes_ok (float_header l (float_width lm l q))).
    { unfold float_header. rewrite !bytes_ok_app. repeat split; auto; try apply le_f64_ok; try apply le_bytes_ok.
      constructor; [unfold byte_ok; lia|constructor]. }
    split; [|split; [|split; [reflexivity|]]].
    + cbn [e_data]. rewrite EB. unfold len, float_header, le_f64. rewrite !app_length, !le_bytes_length. cbn [length]. lia.
    + cbn [e_data]. rewrite EB. rewrite !bytes_ok_app. auto.
    + destruct (le_lt_dec 64 (float_width lm l q)) as [W|W].
      * right. exists (N.of_nat (float_width lm l q)). split; [lia|]. unfold decode. cbn [e_type e_data]. unfold cseg_read. rewrite EB. cbn [app].
        rewrite N5. cbn [io map_err bind]. rewrite N6. cbn [io map_err bind]. rewrite read_float_wide by (unfold len; lia). reflexivity.
      * left. destruct (mask_release (E:=ioerr) (float_width lm l q)) as [mul Mm].
        destruct (save_float_spec lm false l q mul _ N3 ltac:(lia) Mm) as (pl' & S1 & Pk).
        rewrite S in S1. apply Ok_inj in S1. rewrite S1 in *. destruct Pk as (P1 & P2 & [pad P3]).
        destruct (read_float_ok l (float_width lm l q) (float_code l mul) pl') with (pad := repeat false pad) as (r & R & QE); auto; try lia.
        eexists. split; [|cbn [dsame]].
        { unfold decode. cbn [e_type e_data]. unfold cseg_read. cbn [app]. rewrite N5. cbn [io map_err bind]. rewrite N6. cbn [io map_err bind].
          rewrite R. cbn [bind]. rewrite N4. reflexivity. }
        split; [reflexivity|]. split; [reflexivity|]. cbn [c_data]. rewrite CD. cbn [same_data]. now rewrite map_length.
  - exfalso. cbn [cdata_write] in T. cbv zeta in T. fold (color_width lm q) in T. destruct (mask_ok (E:=ioerr) true _ M) as [mul Mm].
    destruct (save_color_spec lm true l q mul _ N3 ltac:(lia) Mm) as (pl & S1 & _).
    change (cdata_write lm true (CColor l q) (c_name_len s :: c_name s) = Panic) in T. congruence.
Qed.

Definition dmodest (lm : libm) (d : dseg) : Prop :=
  match d with
  | DVertex l => (len l <= 2 ^ 24)%N
  | DCustom s => modest_custom lm s
  | DShared k _ => (0 < k < 8)%N
  | _ => True
  end.
Lemma dmodest_sub lm : sub_ok (dmodest lm).
Proof.
  unfold sub_ok. cbn [dmodest]. split; [|tauto]. intros a b H. unfold len in *. rewrite app_length in H. lia.
Qed.
Lemma dmodest_merged lm m : (forall v, vertices m = Some v -> (len v <= 2 ^ 24)%N) -> Forall (modest_custom lm) (custom_data m) ->
  Forall (dmodest lm) (merge_segments (tmf_segs m)).
Proof.
  intros V C.
  assert (F : Forall (fun d => dmodest lm d /\ is_something d = true) (merge_segments (tmf_segs m))).
  { apply merge_loop_keeps; try (cbn [dmodest]; auto; fail).
    apply Forall_rev. unfold tmf_segs. rewrite !Forall_app.
    assert (O : forall A (f : A -> dseg) (o : option A), (forall x, o = Some x -> dmodest lm (f x)) -> Forall (dmodest lm) (opt_seg f o)).
    { intros A f [x|] HH; constructor; auto. }
    do 8 (split; [apply O; intros x HX; cbn [dmodest]; first [exact I|exact (V _ HX)]|]).
    rewrite Forall_map. exact C. }
  eapply Forall_impl; [|exact F]. cbv beta; tauto.
Qed.

Definition prec_usable (p : prec_info) : Prop := normal_precision p <= 30 /\ uv_prec p <= 30 /\ tangent_prec p <= 30.
Lemma encode_fair lm lm' oc' p edge d e :
  prec_usable p -> dok d -> dmodest lm d -> is_something d = true -> encode lm false p edge d = Ok e -> fair lm' oc' e d.
Proof.
  intros (Hn & Hu & Ht) D M Sm E.
  assert (U : forall l, idx_ok l -> u32s l /\ (len l < 2 ^ 57)%N).
  { intros l [Y X]. split; [eapply Forall_impl; [|exact X]; cbv beta; lia|]. unfold len in *. lia. }
  assert (Plain : dfits lm d -> fair lm' oc' e d).
  { intros F. destruct (encode_fits lm p edge d Hn Hu Ht F) as [e' E'].
    destruct (ag_encode lm p edge d) as [A|A]; [congruence|]. rewrite E in A. 
    apply good_fair. eapply (encode_good lm lm' oc' p edge); eauto. split; auto. }
  destruct d as [|l|l|l|l|l|l|l|l|k l|s]; try discriminate Sm; cbn [dok dmodest] in *.
  - unfold encode in E. destruct (save_tmf_vertices lm false l (vertex_precision p) edge []) as [b| |] eqn:S; try discriminate. injection E as <-.
    eapply fair_vertices; eauto.
  - apply Plain. exact I.
  - apply Plain. exact I.
  - apply Plain. exact I.
  - apply Plain, U, D.
  - apply Plain, U, D.
  - apply Plain, U, D.
  - apply Plain, U, D.
  - apply Plain. cbn [dfits dval]. pose proof (U _ (proj2 D)). intuition lia.
  - unfold encode in E. destruct (cseg_encode lm false s []) as [b| |] eqn:S; try discriminate. injection E as <-.
    eapply fair_custom; eauto.
Qed.

(** ** Meshes and files *)
Definition refused (lm : libm) (oc : bool) (e : eseg) : Prop :=
  exists w, (64 <= w)%N /\ decode lm oc new_ctx e = Err (EInvalidPrecision w).

Lemma mesh_fair lm lm' oc' p m name out :
  prec_usable p -> storable m -> modest m -> Forall (modest_custom lm) (custom_data m) ->
  name_ok name -> (segment_count lm false m < 65536)%N ->
  traced (write_mesh lm false p m name) out (Ok tt) ->
  exists raw, out = mesh_bytes seg_bytes raw /\ mesh_ok raw /\ fst raw = name /\
    ((exists m', load_raw lm' oc' new_ctx raw = Ok (m', name) /\ same_shape_rev m m') \/
     (exists w, (64 <= w)%N /\ load_raw lm' oc' new_ctx raw = Err (EInvalidPrecision w))) /\
    (forall edge, calc_shortest_edge (vertex_triangles m) (vertices m) = Ok edge ->
      forall segs, optimize_all lm false (merge_segments (tmf_segs m)) = Ok segs ->
      Exists (fun s => forall e, encode lm false p edge s = Ok e -> refused lm' oc' e) segs ->
      exists w, (64 <= w)%N /\ load_raw lm' oc' new_ctx raw = Err (EInvalidPrecision w)).
Proof.
  intros HP HS [HM1 _] HM2 HN HC T. apply mesh_inv in T as (edge & segs & es & E1 & E2 & E3 & ->).
  unfold segment_count, segment_list in HC. rewrite E2 in HC.
  destruct (dok_merged m HS) as [D1 D2].
  pose proof (optimize_all_all dok lm false _ _ dok_sub D1 E2) as D3.
  assert (D4 : Forall (fun d => is_something d = true) segs).
  { eapply (optimize_all_all (fun d => is_something d = true)); eauto.
    unfold sub_ok. cbn. tauto. }
  pose proof (optimize_all_all (dmodest lm) lm false _ _ (dmodest_sub lm) (dmodest_merged lm m HM1 HM2) E2) as D5.
  assert (FF : Forall2 (fun s e => encode lm false p edge s = Ok e /\ fair lm' oc' e s) segs es).
  { clear -E3 D3 D4 D5 HP. induction E3 as [|s e segs es H _ IH]; [constructor|].
    apply Forall_cons_iff in D3 as [Da D3]. apply Forall_cons_iff in D4 as [Db D4]. apply Forall_cons_iff in D5 as [Dc D5].
    constructor; auto. split; auto. eapply encode_fair; eauto. }
  assert (F : Forall (fun e => (len (e_data e) <= 2 ^ 31)%N /\ bytes_ok (e_data e) /\ e_comp e = CNone) es).
  { clear -FF. induction FF as [|s e segs es (_ & A & B & C & _) _ IH]; constructor; auto. }
  set (rs := map (decode lm' oc' new_ctx) es).
  assert (R : (exists ds, Forall2 dsame segs ds /\ rs = map Ok ds) \/
              (exists w, (64 <= w)%N /\ collect rs = Err (EInvalidPrecision w))).
  { unfold rs. clear -FF. induction FF as [|s e segs es (_ & _ & _ & _ & A) _ IH]; [left; exists []; split; [constructor|reflexivity]|].
    cbn [map collect]. destruct A as [(d & A & B)|(w & W & A)].
    - rewrite A. cbn [bind]. destruct IH as [(ds & F & ->)|(w & W & ->)].
      + left. exists (d :: ds). split; [now constructor|reflexivity].
      + right. exists w. split; [exact W|reflexivity].
    - right. exists w. split; [exact W|]. rewrite A. reflexivity. }
  assert (NP : existsb is_panic rs = false).
  { unfold rs. clear -FF. induction FF as [|s e segs es (_ & _ & _ & _ & A) _ IH]; [reflexivity|].
    cbn [map existsb]. rewrite IH. destruct A as [(d & A & B)|(w & W & A)]; rewrite A; reflexivity. }
  assert (X : Exists (fun s => forall e, encode lm false p edge s = Ok e -> refused lm' oc' e) segs -> forall ds, rs <> map Ok ds).
  { unfold rs. clear -FF. induction FF as [|s e segs es (E & _) _ IH]; intros X ds; [inversion X|].
    destruct ds as [|d ds]; [discriminate|]. cbn [map]. intros Q. apply Exists_cons in X as [X|X].
    - destruct (X e E) as (w & _ & W). rewrite W in Q. discriminate Q.
    - apply (IH X ds). now apply (f_equal (@tl _)) in Q. }
  assert (Le : length es = length segs) by (symmetry; exact (F2_length _ _ _ E3)).
  exists (name, map raw_of es).
  assert (EM : map eseg_of (map raw_of es) = es).
  { clear. induction es as [|e es IH]; [reflexivity|]. cbn [map]. now rewrite eseg_of_raw, IH. }
  split; [|split; [|split; [reflexivity|split]]].
  - unfold mesh_bytes. cbn [fst snd]. rewrite !lend_le. unfold len. rewrite map_length, Le.
    do 3 f_equal. rewrite !map_map. f_equal.
    clear -F. induction F as [|e es (H & _) _ IH]; [reflexivity|]. cbn [map]. f_equal; auto.
    now apply segment_layout.
  - split; [exact HN|]. cbn [snd]. split.
    + unfold len in *. rewrite map_length, Le. auto.
    + rewrite Forall_map. eapply Forall_impl; [|exact F]. intros e (H1 & H2 & H3).
      unfold frameable, raw_of. cbn [r_kind r_comp r_payload]. split; [apply section_code_ok|].
      split; [apply compression_code_ok|auto].
  - unfold load_raw. cbn [fst snd]. rewrite EM. fold rs. destruct R as [(ds & G1 & G2)|(w & W & G)].
    + left. exists (build ds empty). rewrite (join_ok _ ds) by exact G2. split; [reflexivity|].
      assert (SS : same_shape (build segs empty) (build ds empty)).
      { apply build_same; auto. split; [constructor; cbn; auto|constructor]. }
      rewrite (build_optimize_all lm false _ _ _ E2), build_merged in SS.
      destruct SS as [[? ? ? ? ? ? ? ?] SC]. destruct m. split; [constructor; auto|exact SC].
    + right. exists w. split; [exact W|]. unfold join_collect. rewrite NP, G. reflexivity.
  - intros edge' E1' segs' E2' X'. rewrite E1 in E1'. apply Ok_inj in E1'. subst edge'. rewrite E2 in E2'. apply Ok_inj in E2'. subst segs'.
    unfold load_raw. cbn [fst snd]. rewrite EM. fold rs. destruct R as [(ds & G1 & G2)|(w & W & G)].
    + exfalso. exact (X X' ds G2).
    + exists w. split; [exact W|]. unfold join_collect. rewrite NP, G. reflexivity.
Qed.

Definition writable (lm : libm) (mn : mesh * list N) : Prop :=
  storable (fst mn) /\ modest (fst mn) /\ Forall (modest_custom lm) (custom_data (fst mn)) /\
  name_ok (snd mn) /\ (segment_count lm false (fst mn) < 65536)%N.
Definition unloadable (lm lm' : libm) (oc' : bool) (p : prec_info) (m : mesh) : Prop :=
  forall edge, calc_shortest_edge (vertex_triangles m) (vertices m) = Ok edge ->
  forall segs, optimize_all lm false (merge_segments (tmf_segs m)) = Ok segs ->
  Exists (fun s => forall e, encode lm false p edge s = Ok e -> refused lm' oc' e) segs.
Lemma saved_fair lm lm' oc' p l out :
  prec_usable p -> (len l < 2 ^ 32)%N -> Forall (writable lm) l ->
  saved lm false p l = Ok out ->
  ((exists l', read_tmf lm' oc' out = Ok l' /\
     Forall2 (fun a b => snd a = snd b /\ same_shape_rev (fst a) (fst b)) l l') \/
   (exists w, (64 <= w)%N /\ read_tmf lm' oc' out = Err (EInvalidPrecision w))) /\
  (Exists (fun mn => unloadable lm lm' oc' p (fst mn)) l ->
   exists w, (64 <= w)%N /\ read_tmf lm' oc' out = Err (EInvalidPrecision w)).
Proof.
  intros HP HL HF S. apply saved_inv in S as (outs & -> & F).
  assert (G : exists raws, concat outs = concat (map (mesh_bytes seg_bytes) raws) /\ Forall mesh_ok raws /\
    length raws = length l /\
    ((exists l', map (load_raw lm' oc' new_ctx) raws = map Ok l' /\
       Forall2 (fun a b => snd a = snd b /\ same_shape_rev (fst a) (fst b)) l l') \/
     (exists w, (64 <= w)%N /\ collect (map (load_raw lm' oc' new_ctx) raws) = Err (EInvalidPrecision w))) /\
    (Exists (fun mn => unloadable lm lm' oc' p (fst mn)) l ->
     exists w, (64 <= w)%N /\ collect (map (load_raw lm' oc' new_ctx) raws) = Err (EInvalidPrecision w))).
  { clear HL. induction F as [|[m name] o l outs H _ IH].
    - exists []. repeat split; try constructor. + exists []. split; [reflexivity|constructor]. + intros X. inversion X.
    - apply Forall_cons_iff in HF as [(A & B & C & D & E) HF]. destruct (IH HF) as (raws & E1 & E2 & E3 & E4 & E5).
      destruct (mesh_fair lm lm' oc' p m name o) as (raw & R1 & R2 & R3 & R4 & R5); auto.
      exists (raw :: raws). cbn [concat map length collect]. rewrite R1, E1, E3.
      split; [reflexivity|]. split; [now constructor|]. split; [reflexivity|]. split.
      + destruct R4 as [(m' & R4 & SH)|(w & W & R4)]; rewrite R4; cbn [bind].
        * destruct E4 as [(l' & -> & F2)|(w & W & ->)].
          -- left. exists ((m', name) :: l'). split; [reflexivity|]. constructor; auto.
          -- right. exists w. split; [exact W|reflexivity].
        * right. exists w. split; [exact W|reflexivity].
      + intros X. apply Exists_cons in X as [X|X].
        * cbn [fst] in X. apply mesh_inv in H as (edge & segs & es & H1 & H2 & _).
          destruct (R5 edge H1 segs H2 (X edge H1 segs H2)) as (w & W & Q). rewrite Q. exists w. split; [exact W|reflexivity].
        * destruct (E5 X) as (w & W & Q). destruct R4 as [(m' & R4 & SH)|(w' & W' & R4)]; rewrite R4; cbn [bind].
          -- rewrite Q. exists w. split; [exact W|reflexivity].
          -- exists w'. split; [exact W'|reflexivity]. }
  destruct G as (raws & E1 & E2 & E3 & E4 & E5).
  assert (FO : file_ok raws). { split; auto. unfold len in *. lia. }
  assert (EB : header_bytes 0 2 0 2 ++ lend 4 (len l) ++ concat outs = file_bytes raws).
  { unfold file_bytes. rewrite E1. unfold len. now rewrite E3. }
  rewrite EB.
  assert (RD : read_tmf lm' oc' (file_bytes raws) = collect (map (load_raw lm' oc' new_ctx) raws)).
  { unfold read_tmf. rewrite <- (app_nil_r (file_bytes raws)), import_new by auto.
    destruct (collect _); reflexivity. }
  rewrite RD. split.
  - destruct E4 as [(l' & M & F2)|E4]; [left|right; exact E4]. exists l'. split; [now apply collect_ok|exact F2].
  - exact E5.
Qed.
