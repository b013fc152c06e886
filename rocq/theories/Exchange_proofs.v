(** Files written with and without [double_precision] and read by the other build: no file that
    was saved claims an absurd number of colours, so the exception of C66 does not arise. *)
From Coq Require Import List NArith ZArith Arith Lia Bool ZifyN ZifyNat ZifyBool.
From Verif Require Import Base BitSpec UnalignedRW BitIOSpec UnalignedRW_proofs ReadExt ByteLemmas Triangles TriSpec
  Triangles_proofs Floats Floats_proofs CustomData Mesh Tmf File FileSpec LayoutSpec Codec_proofs Parse_proofs File_proofs Load_proofs
  SaveSpec Merge_proofs Save_proofs Image_proofs Layout2_proofs Double DoubleSpec DoubleSave DoubleSaveSpec DMerge_proofs DCodec_proofs DSave_proofs.
Import ListNotations.
Open Scope res_scope.

(** A colour segment that does not claim to have more than 2^27 colours. *)
Definition calm (e : eseg) : Prop :=
  e_type e = SCustom KColor -> exists name n rest, e_data e = len name :: name ++ lend 8 n ++ rest /\ (n <= 2 ^ 27)%N.
Definition plain_seg (e : eseg) : Prop :=
  (len (e_data e) <= 2 ^ 31)%N /\ bytes_ok (e_data e) /\ e_comp e = CNone /\ calm e.
Definition mesh_out (es : list eseg) (name : list N) : list N :=
  le_bytes 2 (len name) ++ name ++ le_bytes 2 (len es) ++ concat (map (fun s => concat (eseg_chunks s)) es).

Lemma calm_not_huge name es : Forall plain_seg es -> ~ huge_colours (name, map raw_of es).
Proof.
  intros F (s & nm & n & rest & I & K & E & L). cbn [snd] in I. apply in_map_iff in I as (e & <- & I).
  rewrite Forall_forall in F. destruct (F e I) as (_ & _ & _ & C). unfold raw_of in K, E. cbn [r_kind r_payload] in *.
  assert (T : e_type e = SCustom KColor).
  { destruct (e_type e) as [| | | | | | | | |[]|]; try discriminate K. reflexivity. }
  destruct (C T) as (nm' & n' & rest' & E' & L'). rewrite E in E'.
  assert (A : len nm = len nm') by (apply (f_equal (hd 0%N)) in E'; exact E').
  assert (B : nm ++ lend 8 n ++ rest = nm' ++ lend 8 n' ++ rest') by (apply (f_equal (@tl N)) in E'; exact E').
  apply app_same in B as [-> B]; [|unfold len in A; lia].
  apply lend_app_inj in B as [B _]; [lia| |]; change (256 ^ N.of_nat 8)%N with (2 ^ 64)%N; lia.
Qed.

Lemma out_is_mesh name es : Forall plain_seg es -> mesh_out es name = mesh_bytes seg_bytes (name, map raw_of es).
Proof.
  intros F. unfold mesh_out, mesh_bytes. cbn [fst snd]. rewrite !lend_le. unfold len. rewrite map_length.
  do 3 f_equal. rewrite !map_map. f_equal.
  induction F as [|e es (H & _) _ IH]; [reflexivity|]. cbn [map]. f_equal; auto. now apply segment_layout.
Qed.
Lemma mesh_fits name es : name_ok name -> (len es < 65536)%N -> Forall plain_seg es -> mesh_ok (name, map raw_of es).
Proof.
  intros HN L F. split; [exact HN|]. cbn [snd]. split; [unfold len in *; rewrite map_length; lia|].
  rewrite Forall_map. eapply Forall_impl; [|exact F]. intros e (H1 & H2 & H3 & _).
  unfold frameable, raw_of. cbn [r_kind r_comp r_payload]. split; [apply section_code_ok|].
  split; [apply compression_code_ok|auto].
Qed.
Lemma name_bytes name : name_ok name -> bytes_ok name.
Proof.
  intros [H _]. induction H; repeat apply Forall_cons; auto; try (apply Forall_nil); unfold byte_ok; lia.
Qed.
Lemma mesh_bytes_ok name es : name_ok name -> Forall plain_seg es -> bytes_ok (mesh_out es name).
Proof.
  intros HN F. unfold mesh_out. rewrite !bytes_ok_app. repeat split; try apply le_bytes_ok; [now apply name_bytes|].
  induction F as [|e es (H1 & H2 & H3 & _) _ IH]; [constructor|]. cbn [map concat]. apply bytes_ok_app. split; auto.
  unfold eseg_chunks. cbn [concat app]. rewrite H3, app_nil_r. constructor.
  - unfold byte_ok. apply N.mod_lt. lia.
  - rewrite bytes_ok_app. split; [apply le_bytes_ok|]. constructor; [cbn; unfold byte_ok; lia|auto].
Qed.

(** A file made of such meshes. *)
Definition plain_mesh (name o : list N) : Prop :=
  name_ok name /\ exists es, o = mesh_out es name /\ (len es < 65536)%N /\ Forall plain_seg es.
Lemma plain_file names outs src : (len names < 2 ^ 32)%N -> Forall2 plain_mesh names outs ->
  src = header_bytes 0 2 0 2 ++ lend 4 (len names) ++ concat outs ->
  bytes_ok src /\ forall cut rest, src = cut ++ rest -> ~ huge_file cut.
Proof.
  intros L F ->.
  assert (G : exists raws, concat outs = concat (map (mesh_bytes seg_bytes) raws) /\ length raws = length names /\
    Forall mesh_ok raws /\ Forall (fun r => ~ huge_colours r) raws /\ bytes_ok (concat outs)).
  { clear L. induction F as [|name o names outs (HN & es & -> & L & P) _ IH].
    - exists []. repeat split; constructor.
    - destruct IH as (raws & E1 & E2 & E3 & E4 & E5). exists ((name, map raw_of es) :: raws). cbn [concat map length].
      rewrite E1 in *. rewrite out_is_mesh at 1 by auto. split; auto. split; [lia|].
      split; [constructor; auto; now apply mesh_fits|]. split; [constructor; auto; now apply calm_not_huge|].
      rewrite bytes_ok_app. split; auto. now apply mesh_bytes_ok. }
  destruct G as (raws & E1 & E2 & E3 & E4 & E5). split.
  - rewrite !bytes_ok_app. repeat split; auto; [|rewrite lend_le; apply le_bytes_ok].
    repeat constructor; unfold byte_ok; cbn; lia.
  - intros cut rest E (n & ms & raw & (a & b & c & d & r & Ec & W) & Ln & I & H).
    assert (S1 : starts_with (header_bytes 0 2 0 2 ++ lend 4 (len names) ++ concat outs) n ms).
    { exists a, b, c, d, (r ++ rest). rewrite E, Ec, <- !app_assoc. split; [reflexivity|exact W]. }
    assert (S2 : starts_with (header_bytes 0 2 0 2 ++ lend 4 (len names) ++ concat outs) (len names) raws).
    { exists 0%N, 2%N, 0%N, 2%N, []. rewrite app_nil_r, E1. split; [reflexivity|].
      split; [repeat constructor; lia|]. split; [lia|]. exact E3. }
    assert (IR : In raw raws).
    { destruct (Nat.le_ge_cases (length ms) (length raws)) as [G|G].
      - destruct (starts_inj _ _ _ _ _ S1 S2 G) as (_ & more & ->). apply in_app_iff. auto.
      - destruct (starts_inj _ _ _ _ _ S2 S1 G) as (<- & more & ->). unfold len in Ln. rewrite app_length in Ln.
        destruct more; [now rewrite app_nil_r in I|cbn [length] in Ln; lia]. }
    rewrite Forall_forall in E4. exact (E4 raw IR H).
Qed.

(** Saves without the feature. *)
Lemma calm_custom lm p edge s e : custom_ok s -> encode lm true p edge (DCustom s) = Ok e -> calm e.
Proof.
  intros C E T. unfold encode in E. destruct (cseg_encode lm true s []) as [b| |] eqn:S; try discriminate E.
  cbn [bind] in E. apply Ok_inj in E. subst e. cbn [e_type e_data] in *. injection T as T.
  pose proof (name_header s C) as (N1 & N2 & N3 & N4 & N5 & N6). pose proof C as (C1 & C2 & C3 & C4).
  unfold cseg_encode in S. rewrite N1 in S. cbn [app] in S. rewrite N2 in S.
  destruct (c_data s) as [l m|l m|l q|l q]; try discriminate T. cbn [cdata_write] in S. cbv zeta in S.
  destruct (mask_f32 (E:=ioerr) true (u8_of_f32 (fceil (m_log2 lm (fdiv f1 (fmin q f1)))))) as [mul| |] eqn:M; try discriminate S.
  pose proof (mask_30 _ _ M) as W. destruct (save_color_spec lm true l q mul _ N3 ltac:(unfold color_width; lia) M) as (pl & S1 & _).
  cbn [cdata_write] in S1. cbv zeta in S1. rewrite M in S1. rewrite S in S1. apply Ok_inj in S1. subst b.
  exists (c_name s), (len l). unfold color_header. eexists. split; [|exact C4].
  rewrite lend_le. cbn [app]. rewrite C2, <- !app_assoc. unfold len. reflexivity.
Qed.
Lemma plain_encode lm p edge d e : prec_fine p -> dok d -> is_something d = true -> encode lm true p edge d = Ok e -> plain_seg e.
Proof.
  intros HP D Sm E. destruct (encode_good lm lm true p edge d e HP D Sm E) as (A & B & C & _). split; auto. split; auto. split; auto.
  destruct d as [|l|l|l|l|l|l|l|l|k l|s]; try (eapply calm_custom; eauto; fail);
    intros T; unfold encode in E; exfalso;
    match type of E with (bind ?x _ = _) => destruct x as [[t b]| |] eqn:X; try discriminate E end;
    cbn [bind] in E; apply Ok_inj in E; subst e; cbn [e_type] in T; subst t;
    try discriminate X;
    match type of X with (bind ?y _ = _) => destruct y; discriminate X end.
Qed.
Lemma saved_plain lm p l out : prec_fine p -> (len l < 2 ^ 32)%N ->
  Forall (fun mn => storable (fst mn) /\ name_ok (snd mn) /\ (segment_count lm true (fst mn) < 65536)%N) l ->
  saved lm true p l = Ok out ->
  bytes_ok out /\ forall cut rest, out = cut ++ rest -> ~ huge_file cut.
Proof.
  intros HP HL HF S. apply saved_inv in S as (outs & E & F).
  eapply (plain_file (map snd l) outs); [unfold len in *; rewrite map_length; exact HL| |unfold len in *; rewrite map_length; exact E].
  clear HL E. induction F as [|[m name] o l outs T _ IH]; cbn [map]; [constructor|].
  apply Forall_cons_iff in HF as [(A & B & C) HF]. constructor; auto. cbn [fst snd] in *. split; auto.
  apply mesh_inv in T as (edge & segs & es & E1 & E2 & E3 & ->). unfold segment_count, segment_list in C. rewrite E2 in C.
  destruct (dok_merged m A) as [D1 D2].
  pose proof (optimize_all_all dok lm true _ _ dok_sub D1 E2) as D3.
  assert (D4 : Forall (fun d => is_something d = true) segs).
  { eapply (optimize_all_all (fun d => is_something d = true)); eauto. unfold sub_ok. cbn. tauto. }
  assert (Le : length es = length segs) by (symmetry; exact (F2_length _ _ _ E3)).
  exists es. unfold mesh_out, len in *. rewrite Le. split; [reflexivity|]. split; [exact C|].
  clear -E3 D3 D4 HP. induction E3 as [|s e segs es H _ IH]; constructor.
  - apply Forall_cons_iff in D3 as [Da D3]. apply Forall_cons_iff in D4 as [Db D4]. eapply plain_encode; eauto.
  - apply Forall_cons_iff in D3 as [Da D3]. apply Forall_cons_iff in D4 as [Db D4]. auto.
Qed.

(** Saves with the feature. *)
Lemma calm_custom_d lm p edge s e : custom_ok_d s -> encode_d lm true p edge (XCustom s) = Ok e -> calm e.
Proof.
  intros C E T. unfold encode_d in E. destruct (cseg_encode_d lm true s []) as [b| |] eqn:S; try discriminate E.
  cbn [bind] in E. apply Ok_inj in E. subst e. cbn [e_type e_data] in *. injection T as T.
  pose proof (name_header_d s C) as (N1 & N2 & N3 & N4 & N5 & N6). pose proof C as (C1 & C2 & C3 & C4).
  unfold cseg_encode_d in S. rewrite N1 in S. cbn [app] in S. rewrite N2 in S.
  destruct (x_data s) as [l m|l m|l q|l q]; try discriminate T. cbn [cdata_write_d] in S. cbv zeta in S.
  fold (color_width_d lm q) in S. set (w := color_width_d lm q) in *.
  destruct (mask_f64 (E:=ioerr) true w) as [mul| |] eqn:M; try discriminate S. cbn [bind] in S.
  pose proof (mask_d30 _ _ M) as Hw.
  set (hd := x_name_len s :: x_name s) in *.
  set (hd2 := le_bytes 8 (N.of_nat (length l)) ++ [N.of_nat w]) in S.
  set (ff := fun v => map (fun x => (w, u64_of_f64 (dmul x mul))) (dc4 v)) in S.
  destruct (fields_written true (hd ++ hd2) (flat_map ff l)) as (wr & pl & E & F & P).
  { unfold hd2. rewrite !bytes_ok_app. repeat split; auto; try apply le_bytes_ok. apply small_byte. lia. }
  { apply flat_Forall. intros a. unfold ff, dc4. cbn [map]. repeat (apply Forall_cons; [cbn [fst snd]; split; [lia|apply u64_d_lt]|]). apply Forall_nil. }
  rewrite E in S. cbn [bind] in S. rewrite F in S. apply Ok_inj in S. subst b. clear E F wr.
  exists (x_name s), (len l). eexists. split; [|exact C4].
  unfold hd, hd2. rewrite lend_le. cbn [app]. rewrite C2, <- !app_assoc. unfold len. reflexivity.
Qed.
Lemma plain_encode_d lm p edge d e : prec_fine_d p -> dok_d d -> is_something_d d = true -> encode_d lm true p edge d = Ok e -> plain_seg e.
Proof.
  intros HP D Sm E. destruct (encode_good_d lm (fun x => (x, x)) true p edge d e HP D Sm E) as (A & B & C & _).
  split; auto. split; auto. split; auto.
  destruct d as [|l|l|l|l|l|l|l|l|k l|s]; try (eapply calm_custom_d; eauto; fail);
    intros T; unfold encode_d in E; exfalso;
    match type of E with (bind ?x _ = _) => destruct x as [[t b]| |] eqn:X; try discriminate E end;
    cbn [bind] in E; apply Ok_inj in E; subst e; cbn [e_type] in T; subst t;
    try discriminate X;
    match type of X with (bind ?y _ = _) => destruct y; discriminate X end.
Qed.
Lemma saved_plain_d lm p l out : prec_fine_d p -> (len l < 2 ^ 32)%N ->
  Forall (fun mn => storable_d (fst mn) /\ name_ok (snd mn) /\ (segment_count_d lm true (fst mn) < 65536)%N) l ->
  saved_d lm true p l = Ok out ->
  bytes_ok out /\ forall cut rest, out = cut ++ rest -> ~ huge_file cut.
Proof.
  intros HP HL HF S. apply saved_inv_d in S as (outs & E & F).
  eapply (plain_file (map snd l) outs); [unfold len in *; rewrite map_length; exact HL| |unfold len in *; rewrite map_length; exact E].
  clear HL E. induction F as [|[m name] o l outs T _ IH]; cbn [map]; [constructor|].
  apply Forall_cons_iff in HF as [(A & B & C) HF]. constructor; auto. cbn [fst snd] in *. split; auto.
  apply mesh_inv_d in T as (edge & segs & es & E1 & E2 & E3 & ->). unfold segment_count_d in C. rewrite E2 in C.
  destruct (dok_merged_d m A) as [D1 D2].
  pose proof (optimize_all_all_d dok_d lm true _ _ dok_sub_d D1 E2) as D3.
  assert (D4 : Forall (fun d => is_something_d d = true) segs).
  { eapply (optimize_all_all_d (fun d => is_something_d d = true)); eauto. unfold sub_ok_d. cbn. tauto. }
  assert (Le : length es = length segs) by (symmetry; exact (F2_length _ _ _ E3)).
  exists es. unfold mesh_out, len in *. rewrite Le. split; [reflexivity|]. split; [exact C|].
  clear -E3 D3 D4 HP. induction E3 as [|s e segs es H _ IH]; constructor.
  - apply Forall_cons_iff in D3 as [Da D3]. apply Forall_cons_iff in D4 as [Db D4]. eapply plain_encode_d; eauto.
  - apply Forall_cons_iff in D3 as [Da D3]. apply Forall_cons_iff in D4 as [Db D4]. auto.
Qed.
