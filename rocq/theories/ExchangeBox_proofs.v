(** The boxes stored with the vertices of a saved file are no larger than its vertices. *)
From Coq Require Import List NArith ZArith Arith Lia Bool Reals Lra ZifyN ZifyNat ZifyBool.
From Flocq Require Import Core IEEE754.BinarySingleNaN.
From Verif Require Import Base BitSpec BitLemmas UnalignedRW BitIOSpec UnalignedRW_proofs ReadExt ByteLemmas Floats Floats_proofs FloatReal_proofs Utilis Vertices CustomData Mesh Tmf File FileSpec LayoutSpec Codec_proofs Parse_proofs
  File_proofs Load_proofs SaveSpec Merge_proofs Save_proofs Image_proofs Layout2_proofs ValueSpec VertexSpec Quant_proofs VertexReal_proofs Double DoubleSpec DoubleSave DoubleSaveSpec DoubleValueSpec
  Double2_proofs DMerge_proofs DCodec_proofs DSave_proofs DPublished_proofs DQuant_proofs DVertex_proofs DPiece_proofs Exchange_proofs.
Import ListNotations.
Open Scope res_scope.

Definition boxes_within (B : R) (payload : list N) : Prop :=
  forall axis lo hi, axis <= 2 -> DoubleSpec.box_of payload axis lo hi ->
    finite64 lo /\ finite64 hi /\ (Rabs (val64 lo) <= B)%R /\ (Rabs (val64 hi) <= B)%R.
Definition raw_within (B : R) (raw : raw_mesh) : Prop :=
  forall s, In s (snd raw) -> r_kind s = 1%N -> boxes_within B (r_payload s).

Lemma box_at payload pre x y post axis lo hi :
  DoubleSpec.box_of payload axis lo hi -> payload = pre ++ le_d x ++ le_d y ++ post -> length pre = 8 + 16 * axis -> lo = x /\ hi = y.
Proof.
  intros (n & a & l & h & b & E & La & Hl & Hh & -> & ->) E' Lp. rewrite E in E'.
  replace (lend 8 n ++ a ++ lend 8 l ++ lend 8 h ++ b) with ((lend 8 n ++ a) ++ lend 8 l ++ lend 8 h ++ b) in E' by now rewrite <- app_assoc.
  apply app_inj_len in E' as [_ E']; [|rewrite app_length, lend_le, le_bytes_length; lia].
  apply (f_equal read_f64) in E'. rewrite read_f64_bits_d, read_f64_d in E' by exact Hl. apply Ok_inj in E'. apply pair_equal_spec in E' as [E1 E2].
  apply (f_equal read_f64) in E2. rewrite read_f64_bits_d, read_f64_d in E2 by exact Hh. apply Ok_inj in E2. apply pair_equal_spec in E2 as [E2 _]. auto.
Qed.
Lemma header_boxes B payload n x0 x1 y0 y1 z0 z1 post :
  payload = le_bytes 8 n ++ le_d x0 ++ le_d x1 ++ le_d y0 ++ le_d y1 ++ le_d z0 ++ le_d z1 ++ post ->
  (finite64 x0 /\ finite64 x1 /\ finite64 y0 /\ finite64 y1 /\ finite64 z0 /\ finite64 z1) ->
  Forall (fun x => Rabs (val64 x) <= B)%R [x0; x1; y0; y1; z0; z1] ->
  boxes_within B payload.
Proof.
  intros E (F1 & F2 & F3 & F4 & F5 & F6) BB axis lo hi A X. repeat (apply Forall_cons_iff in BB as [? BB]). destruct axis as [|[|[|]]]; [| | |lia].
  - destruct (box_at _ _ _ _ _ _ _ _ X E) as [-> ->]; [now rewrite le_bytes_length|auto].
  - destruct (box_at payload (le_bytes 8 n ++ le_d x0 ++ le_d x1) y0 y1 (le_d z0 ++ le_d z1 ++ post) 1 lo hi X) as [-> ->]; [rewrite <- !app_assoc; exact E| |auto].
    now rewrite !app_length, le_bytes_length, !le_d_length.
  - destruct (box_at payload (le_bytes 8 n ++ le_d x0 ++ le_d x1 ++ le_d y0 ++ le_d y1) z0 z1 post 2 lo hi X) as [-> ->]; [rewrite <- !app_assoc; exact E| |auto].
    now rewrite !app_length, le_bytes_length, !le_d_length.
Qed.

(** ** With the feature *)
Lemma vertices_boxed_d lm vs prec edge b B : Forall (bounded_d B) vs ->
  save_tmf_vertices_d lm true vs prec edge [] = Ok b -> boxes_within B b.
Proof.
  intros F S. destruct (vertices_d_spec _ _ _ _ _ S) as (q & mx & my & mz & pl & V & _ & _ & _ & -> & _).
  unfold vertex_params_d in V. destruct (bounding_box_d (E:=ioerr) vs) as [bb| |] eqn:EB; try discriminate.
  injection V as <-. unfold vertex_header_d. cbn [dp_box dp_px dp_py dp_pz] in *.
  assert (FF : Forall finite3_d vs) by (eapply Forall_impl; [|exact F]; now intros v [? _]).
  pose proof (box_is_d vs bb FF EB) as BX. pose proof (box_bounded_d B vs _ _ _ _ _ _ F BX) as BB. pose proof (box_finite_d _ _ _ _ _ _ _ BX) as FB.
  eapply header_boxes; [rewrite <- !app_assoc; reflexivity|exact FB|exact BB].
Qed.
Definition vin_d (B : R) (d : xseg) : Prop := match d with XVertex l => Forall (bounded_d B) l | XShared k _ => (0 < k < 8)%N | _ => True end.
Lemma encode_boxed_d lm p edge d e B : vin_d B d -> encode_d lm true p edge d = Ok e -> section_code (e_type e) = 1%N -> boxes_within B (e_data e).
Proof.
  intros V E K. unfold encode_d in E.
  destruct d as [|l|l|l|l|l|l|l|l|k l|s]; cbn [vin_d] in V;
    try (match type of E with (bind (bind ?x _) _ = _) => destruct x as [b| |] eqn:X; try discriminate E end);
    cbn [bind] in E; apply Ok_inj in E; subst e; cbn [e_type e_data section_code] in K |- *; try discriminate K.
  all: try (destruct (x_data s); discriminate K). eapply vertices_boxed_d; eauto.
Qed.
Lemma merged_in_d B m : Forall (bounded_d B) (match d_vertices m with Some v => v | None => [] end) -> Forall (vin_d B) (merge_segments_d (tmf_segs_d m)).
Proof.
  intros H. assert (F : Forall (fun d => vin_d B d /\ is_something_d d = true) (merge_segments_d (tmf_segs_d m))).
  { apply merge_loop_keeps_d; cbn [vin_d]; auto.
    apply Forall_rev. unfold tmf_segs_d. rewrite !Forall_app.
    assert (O : forall A (f : A -> xseg) (o : option A), (forall x, o = Some x -> vin_d B (f x)) -> Forall (vin_d B) (opt_seg_d f o)).
    { intros A f [x|] HH; constructor; auto. }
    do 8 (split; [apply O; intros x HX; cbn [vin_d]; first [exact I|rewrite HX in H; exact H]|]).
    rewrite Forall_map. apply Forall_forall. intros; exact I. }
  eapply Forall_impl; [|exact F]. cbv beta. tauto.
Qed.
Lemma vin_sub_d B : sub_ok_d (vin_d B).
Proof. unfold sub_ok_d. cbn [vin_d]. repeat split; auto; intros; try tauto; apply Forall_app in H; tauto. Qed.

Lemma saved_boxed_d lm p l out : prec_fine_d p -> (len l < 2 ^ 32)%N ->
  Forall (fun mn => storable_d (fst mn) /\ name_ok (snd mn) /\ (segment_count_d lm true (fst mn) < 65536)%N) l ->
  saved_d lm true p l = Ok out ->
  exists raws, holds out raws /\
    Forall2 (fun mn raw => forall B, Forall (bounded_d B) (match d_vertices (fst mn) with Some v => v | None => [] end) -> raw_within B raw) l raws.
Proof.
  intros HP HL HF S. apply saved_inv_d in S as (outs & E & F).
  assert (G : exists raws, length raws = length outs /\ Forall2 (fun mn raw => forall B, Forall (bounded_d B) (match d_vertices (fst mn) with Some v => v | None => [] end) -> raw_within B raw) l raws /\
    Forall2 (fun raw o => name_ok (fst raw) /\ exists es, o = mesh_out es (fst raw) /\ (len es < 65536)%N /\ Forall plain_seg es /\ raw = (fst raw, map raw_of es)) raws outs).
  { clear HL E. induction F as [|[m name] o l outs T _ IH]; [exists []; repeat split; constructor|].
    apply Forall_cons_iff in HF as [(A & B & C) HF]. destruct (IH HF) as (raws & I1 & I2 & I3). cbn [fst snd] in *.
    apply mesh_inv_d in T as (edge & segs & es & E1 & E2 & E3 & ->). unfold segment_count_d in C. rewrite E2 in C.
    destruct (dok_merged_d m A) as [D1 D2].
    pose proof (optimize_all_all_d dok_d lm true _ _ dok_sub_d D1 E2) as D3.
    assert (D4 : Forall (fun d => is_something_d d = true) segs).
    { eapply (optimize_all_all_d (fun d => is_something_d d = true)); eauto. unfold sub_ok_d. cbn. tauto. }
    assert (Le : length es = length segs) by (symmetry; exact (F2_length _ _ _ E3)).
    exists ((name, map raw_of es) :: raws). split; [cbn [length]; lia|]. split; constructor; auto; cbn [fst snd].
    - intros B0 HB s Is Ks. cbn [snd] in Is. apply in_map_iff in Is as (e & <- & Ie).
      pose proof (optimize_all_all_d (vin_d B0) lm true _ _ (vin_sub_d B0) (merged_in_d B0 m HB) E2) as D5.
      clear -E3 D5 Ie Ks. induction E3 as [|s e' segs es H _ IH]; [contradiction|]. apply Forall_cons_iff in D5 as [Da D5].
      destruct Ie as [->|Ie]; [|auto]. unfold raw_of in *. cbn [r_kind r_payload] in *. eapply encode_boxed_d; eauto.
    - split; [exact B|]. exists es. unfold mesh_out, len in *. rewrite Le. split; [reflexivity|]. split; [exact C|]. split; [|reflexivity].
      clear -E3 D3 D4 HP. induction E3 as [|s e segs es H _ IH]; constructor;
        apply Forall_cons_iff in D3 as [Da D3]; apply Forall_cons_iff in D4 as [Db D4]; auto. eapply plain_encode_d; eauto. }
  destruct G as (raws & G1 & G2 & G3).
  assert (LN : length l = length outs) by exact (F2_length _ _ _ F).
  exists raws. split; [|exact G2]. rewrite E.
  assert (K : exists raws', concat outs = concat (map (mesh_bytes seg_bytes) raws) /\ raws' = raws /\ Forall mesh_ok raws).
  { exists raws. clear -G3. induction G3 as [|raw o raws outs (HN & es & -> & L & P & ER) _ IH]; [repeat split; constructor|].
    destruct IH as (I1 & _ & I3). cbn [concat map]. rewrite I1. rewrite out_is_mesh by auto. rewrite <- ER. split; [reflexivity|]. split; [reflexivity|].
    constructor; auto. rewrite ER. now apply mesh_fits. }
  destruct K as (_ & K1 & _ & K3). exists 0%N, 2%N, 0%N, 2%N, []. rewrite app_nil_r, K1. unfold len in *. rewrite G1, <- LN. split; [reflexivity|].
  split; [repeat constructor; lia|]. split; [lia|]. exact K3.
Qed.

(** ** Without the feature *)
Lemma le_f64_d x : le_f64 x = le_d (f64_of_f32 x). Proof. reflexivity. Qed.
Lemma vertices_boxed lm vs prec edge b B : Forall (bounded B) vs ->
  save_tmf_vertices lm true vs prec edge [] = Ok b -> boxes_within B b.
Proof.
  intros F S.
  assert (exists p mx my mz, vertex_params lm vs prec edge = Some p /\
    mask_f32 (E:=ioerr) true (vp_px p) = Ok mx /\ mask_f32 (E:=ioerr) true (vp_py p) = Ok my /\
    mask_f32 (E:=ioerr) true (vp_pz p) = Ok mz) as (p & mx & my & mz & V & Mx & My & Mz).
  { unfold save_tmf_vertices in S. unfold vertex_params.
    destruct (bounding_box (E:=ioerr) vs) as [bb| |]; try discriminate. cbn [bind] in S. cbv zeta in S.
    eexists. match type of S with context [mask_f32 true ?a] => destruct (mask_f32 (E:=ioerr) true a) as [mx| |] eqn:Mx end; try discriminate.
    cbn [bind] in S. match type of S with context [mask_f32 true ?a] => destruct (mask_f32 (E:=ioerr) true a) as [my| |] eqn:My end; try discriminate.
    exists mx, my, my. split; [reflexivity|]. cbn [vp_px vp_py vp_pz]. auto. }
  pose proof (mask_30 _ _ Mx). pose proof (mask_30 _ _ My). pose proof (mask_30 _ _ Mz).
  destruct (save_vertices_spec lm true vs prec edge [] p mx my mz) as (pl & S' & _); auto; try lia; [constructor|].
  rewrite S in S'. apply Ok_inj in S'. subst b. cbn [app].
  unfold vertex_params in V. destruct (bounding_box (E:=ioerr) vs) as [bb| |] eqn:EB; try discriminate.
  injection V as <-. unfold vertex_header. cbn [vp_box vp_px vp_py vp_pz] in *. rewrite !le_f64_d.
  assert (FF : Forall finite3 vs) by (eapply Forall_impl; [|exact F]; now intros v [? _]).
  pose proof (box_is vs bb FF EB) as BX. pose proof (box_bounded B vs _ _ _ _ _ _ F BX) as BB. destruct (box_finite _ _ _ _ _ _ _ BX) as (X1 & X2 & X3 & X4 & X5 & X6).
  assert (W : forall x, finite x -> finite64 (f64_of_f32 x) /\ val64 (f64_of_f32 x) = val x) by (intros x Fx; destruct (f64_of_f32_correct x Fx) as (A1 & A2 & _); split; [exact A2|exact A1]).
  eapply header_boxes; [rewrite <- !app_assoc; reflexivity| |].
  - repeat split; apply W; assumption.
  - repeat (apply Forall_cons_iff in BB as [? BB]). repeat (apply Forall_cons; [first [rewrite (proj2 (W _ X1)); assumption|rewrite (proj2 (W _ X2)); assumption|rewrite (proj2 (W _ X3)); assumption|rewrite (proj2 (W _ X4)); assumption|rewrite (proj2 (W _ X5)); assumption|rewrite (proj2 (W _ X6)); assumption]|]). apply Forall_nil.
Qed.
Definition vin (B : R) (d : dseg) : Prop := match d with DVertex l => Forall (bounded B) l | DShared k _ => (0 < k < 8)%N | _ => True end.
Lemma encode_boxed lm p edge d e B : vin B d -> encode lm true p edge d = Ok e -> section_code (e_type e) = 1%N -> boxes_within B (e_data e).
Proof.
  intros V E K. unfold encode in E.
  destruct d as [|l|l|l|l|l|l|l|l|k l|s]; cbn [vin] in V;
    try (match type of E with (bind (bind ?x _) _ = _) => destruct x as [b| |] eqn:X; try discriminate E end);
    cbn [bind] in E; apply Ok_inj in E; subst e; cbn [e_type e_data section_code] in K |- *; try discriminate K.
  all: try (destruct (c_data s); discriminate K). eapply vertices_boxed; eauto.
Qed.
Lemma merged_in B m : Forall (bounded B) (match vertices m with Some v => v | None => [] end) -> Forall (vin B) (merge_segments (tmf_segs m)).
Proof.
  intros H. assert (F : Forall (fun d => vin B d /\ is_something d = true) (merge_segments (tmf_segs m))).
  { apply merge_loop_keeps; cbn [vin]; auto.
    apply Forall_rev. unfold tmf_segs. rewrite !Forall_app.
    assert (O : forall A (f : A -> dseg) (o : option A), (forall x, o = Some x -> vin B (f x)) -> Forall (vin B) (opt_seg f o)).
    { intros A f [x|] HH; constructor; auto. }
    do 8 (split; [apply O; intros x HX; cbn [vin]; first [exact I|rewrite HX in H; exact H]|]).
    rewrite Forall_map. apply Forall_forall. intros; exact I. }
  eapply Forall_impl; [|exact F]. cbv beta. tauto.
Qed.
Lemma vin_sub B : sub_ok (vin B).
Proof. unfold sub_ok. cbn [vin]. repeat split; auto; intros; try tauto; apply Forall_app in H; tauto. Qed.

Lemma saved_boxed lm p l out : prec_fine p -> (len l < 2 ^ 32)%N ->
  Forall (fun mn => SaveSpec.storable (fst mn) /\ name_ok (snd mn) /\ (segment_count lm true (fst mn) < 65536)%N) l ->
  saved lm true p l = Ok out ->
  exists raws, holds out raws /\
    Forall2 (fun mn raw => forall B, Forall (bounded B) (match vertices (fst mn) with Some v => v | None => [] end) -> raw_within B raw) l raws.
Proof.
  intros HP HL HF S. apply saved_inv in S as (outs & E & F).
  assert (G : exists raws, length raws = length outs /\ Forall2 (fun mn raw => forall B, Forall (bounded B) (match vertices (fst mn) with Some v => v | None => [] end) -> raw_within B raw) l raws /\
    Forall2 (fun raw o => name_ok (fst raw) /\ exists es, o = mesh_out es (fst raw) /\ (len es < 65536)%N /\ Forall plain_seg es /\ raw = (fst raw, map raw_of es)) raws outs).
  { clear HL E. induction F as [|[m name] o l outs T _ IH]; [exists []; repeat split; constructor|].
    apply Forall_cons_iff in HF as [(A & B & C) HF]. destruct (IH HF) as (raws & I1 & I2 & I3). cbn [fst snd] in *.
    apply mesh_inv in T as (edge & segs & es & E1 & E2 & E3 & ->). unfold segment_count, segment_list in C. rewrite E2 in C.
    destruct (dok_merged m A) as [D1 D2].
    pose proof (optimize_all_all dok lm true _ _ dok_sub D1 E2) as D3.
    assert (D4 : Forall (fun d => is_something d = true) segs).
    { eapply (optimize_all_all (fun d => is_something d = true)); eauto. unfold sub_ok. cbn. tauto. }
    assert (Le : length es = length segs) by (symmetry; exact (F2_length _ _ _ E3)).
    exists ((name, map raw_of es) :: raws). split; [cbn [length]; lia|]. split; constructor; auto; cbn [fst snd].
    - intros B0 HB s Is Ks. cbn [snd] in Is. apply in_map_iff in Is as (e & <- & Ie).
      pose proof (optimize_all_all (vin B0) lm true _ _ (vin_sub B0) (merged_in B0 m HB) E2) as D5.
      clear -E3 D5 Ie Ks. induction E3 as [|s e' segs es H _ IH]; [contradiction|]. apply Forall_cons_iff in D5 as [Da D5].
      destruct Ie as [->|Ie]; [|auto]. unfold raw_of in *. cbn [r_kind r_payload] in *. eapply encode_boxed; eauto.
    - split; [exact B|]. exists es. unfold mesh_out, len in *. rewrite Le. split; [reflexivity|]. split; [exact C|]. split; [|reflexivity].
      clear -E3 D3 D4 HP. induction E3 as [|s e segs es H _ IH]; constructor;
        apply Forall_cons_iff in D3 as [Da D3]; apply Forall_cons_iff in D4 as [Db D4]; auto. eapply plain_encode; eauto. }
  destruct G as (raws & G1 & G2 & G3).
  assert (LN : length l = length outs) by exact (F2_length _ _ _ F).
  exists raws. split; [|exact G2]. rewrite E.
  assert (K : exists raws', concat outs = concat (map (mesh_bytes seg_bytes) raws) /\ raws' = raws /\ Forall mesh_ok raws).
  { exists raws. clear -G3. induction G3 as [|raw o raws outs (HN & es & -> & L & P & ER) _ IH]; [repeat split; constructor|].
    destruct IH as (I1 & _ & I3). cbn [concat map]. rewrite I1. rewrite out_is_mesh by auto. rewrite <- ER. split; [reflexivity|]. split; [reflexivity|].
    constructor; auto. rewrite ER. now apply mesh_fits. }
  destruct K as (_ & K1 & _ & K3). exists 0%N, 2%N, 0%N, 2%N, []. rewrite app_nil_r, K1. unfold len in *. rewrite G1, <- LN. split; [reflexivity|].
  split; [repeat constructor; lia|]. split; [lia|]. exact K3.
Qed.
