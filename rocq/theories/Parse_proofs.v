(** Stream parsers: what they use up is a definite prefix of the input. *)
From Coq Require Import List NArith Arith Bool Lia.
From Verif Require Import Base UnalignedRW ReadExt ByteLemmas Triangles Unify Tmf File.
Import ListNotations.
Open Scope res_scope.

(** [P] is a parser whose only way to notice the end of the input is the error [eof]. *)
Definition streams {E A} (eof : E) (P : list N -> res E (A * list N)) : Prop :=
  forall src a rest, P src = Ok (a, rest) ->
    exists used, src = used ++ rest /\
      (forall rest', P (used ++ rest') = Ok (a, rest')) /\
      (forall p q, used = p ++ q -> q <> [] -> P p = Err eof).

Lemma streams_ext {E A} (eof : E) (P Q : list N -> res E (A * list N)) :
  (forall s, P s = Q s) -> streams eof P -> streams eof Q.
Proof.
  intros H HP src a rest HQ. rewrite <- H in HQ. destruct (HP _ _ _ HQ) as (u & E1 & E2 & E3).
  exists u. split; auto. split; intros; rewrite <- H; eauto.
Qed.

Lemma streams_ret {E A} (eof : E) (a : A) : streams eof (fun s => Ok (a, s)).
Proof.
  intros src b rest [= <- <-]. exists []. split; auto. split; auto.
  intros p q H Hq. destruct p, q; try discriminate; congruence.
Qed.

Lemma streams_err {E A} (eof e : E) : streams (A:=A) eof (fun _ => Err e).
Proof. intros src a rest; discriminate. Qed.

Lemma streams_panic {E A} (eof : E) : streams (A:=A) eof (fun _ => Panic).
Proof. intros src a rest; discriminate. Qed.

Lemma app_split {A} (u1 u2 p q : list A) :
  u1 ++ u2 = p ++ q -> q <> [] ->
  (exists q1, u1 = p ++ q1 /\ q1 <> []) \/ (exists p2, p = u1 ++ p2 /\ u2 = p2 ++ q).
Proof.
  revert p. induction u1 as [|x u1 IH]; intros p H Hq.
  - right. exists p. auto.
  - destruct p as [|y p].
    + left. exists (x :: u1). split; auto. discriminate.
    + cbn in H. injection H as -> H. destruct (IH _ H Hq) as [(q1 & -> & ?)|(p2 & -> & ->)].
      * left. exists q1. auto.
      * right. exists p2. auto.
Qed.

Lemma streams_bind {E A B} (eof : E) (P : list N -> res E (A * list N))
  (Q : A -> list N -> res E (B * list N)) :
  streams eof P -> (forall a, streams eof (Q a)) ->
  streams eof (fun s => let* (a, s') := P s in Q a s').
Proof.
  intros HP HQ src b rest H. destruct (P src) as [[a mid]| |] eqn:E1; try discriminate.
  cbn in H. destruct (HP _ _ _ E1) as (u1 & -> & A1 & B1).
  destruct (HQ _ _ _ _ H) as (u2 & -> & A2 & B2).
  exists (u1 ++ u2). split; [now rewrite app_assoc|]. split.
  - intros rest'. rewrite <- app_assoc, A1. cbn. apply A2.
  - intros p q Hs Hq. destruct (app_split _ _ _ _ Hs Hq) as [(q1 & -> & Hq1)|(p2 & -> & ->)].
    + now rewrite (B1 p q1).
    + rewrite A1. cbn. eapply B2; eauto.
Qed.

(** A computation that does not read. *)
Lemma streams_pure {E A B} (eof : E) (r : res E A) (Q : A -> list N -> res E (B * list N)) :
  (forall a, streams eof (Q a)) -> streams eof (fun s => let* a := r in Q a s).
Proof.
  intros HQ. destruct r; cbn; auto using streams_err, streams_panic.
Qed.

Lemma streams_if {E A} (eof : E) (b : bool) (P Q : list N -> res E (A * list N)) :
  streams eof P -> streams eof Q -> streams eof (fun s => if b then P s else Q s).
Proof. now destruct b. Qed.

Lemma streams_io {A} (P : list N -> res ioerr (A * list N)) :
  streams UnexpectedEof P -> streams (EIO UnexpectedEof) (fun s => io (P s)).
Proof.
  intros HP src a rest H. destruct (P src) as [[a' r]| |] eqn:E; try discriminate.
  cbn in H. injection H as -> ->. destruct (HP _ _ _ E) as (u & -> & A1 & B1).
  exists u. split; auto. split; intros; [now rewrite A1|]. erewrite B1; eauto.
Qed.

Lemma streams_read_exact n : streams UnexpectedEof (read_exact n).
Proof.
  intros src a rest H. apply read_exact_inv in H as [-> H].
  exists a. split; auto. split; [intros; now apply read_exact_app|].
  intros p q -> Hq. apply read_exact_short. rewrite app_length in H.
  destruct q; [congruence|]. cbn in H. lia.
Qed.

Lemma streams_read_le n : streams UnexpectedEof (read_le n).
Proof.
  unfold read_le. apply (streams_bind UnexpectedEof (read_exact n) (fun a s => Ok (of_le_bytes a, s))).
  - apply streams_read_exact.
  - intros. apply streams_ret.
Qed.

Lemma streams_read_string : streams UnexpectedEof read_string.
Proof.
  unfold read_string. apply (streams_bind UnexpectedEof read_u16 (fun n src =>
    let* (bytes, src) := read_exact n src in
    if utf8_valid bytes then Ok (bytes, src) else Err InvalidUtf8)); [apply streams_read_le|].
  intros n. apply (streams_bind UnexpectedEof (read_exact n) (fun bytes src =>
    if utf8_valid bytes then Ok (bytes, src) else Err InvalidUtf8)); [apply streams_read_exact|].
  intros b. apply streams_if; [apply streams_ret|apply streams_err].
Qed.

Ltac sp_step :=
  first [ apply streams_ret | apply streams_err | apply streams_panic
        | apply streams_io; first [apply streams_read_exact | apply streams_read_le | apply streams_read_string] ].

Notation EOF := (EIO UnexpectedEof).

Lemma streams_header : streams EOF read_tmf_header.
Proof.
  unfold read_tmf_header.
  apply (streams_bind EOF (fun s => io (read_exact 3 s)) (fun m src =>
    if negb (list_eqb m magic) then Err ENotTMFFile else
    let* (major, src) := io (read_u16 src) in
    let* (minor, src) := io (read_u16 src) in
    let* (min_major, src) := io (read_u16 src) in
    let* (min_minor, src) := io (read_u16 src) in
    if ((TMF_MAJOR <? min_major) || ((min_major =? TMF_MAJOR) && (TMF_MINOR <? min_minor)))%N
    then Err ENewerVersionRequired
    else Ok (mk_header major minor min_major min_minor, src))); [sp_step|].
  intros m. apply streams_if; [sp_step|].
  apply (streams_bind EOF (fun s => io (read_u16 s)) (fun major src =>
    let* (minor, src) := io (read_u16 src) in
    let* (min_major, src) := io (read_u16 src) in
    let* (min_minor, src) := io (read_u16 src) in
    if ((TMF_MAJOR <? min_major) || ((min_major =? TMF_MAJOR) && (TMF_MINOR <? min_minor)))%N
    then Err ENewerVersionRequired
    else Ok (mk_header major minor min_major min_minor, src))); [sp_step|]. intros major.
  apply (streams_bind EOF (fun s => io (read_u16 s)) (fun minor src =>
    let* (min_major, src) := io (read_u16 src) in
    let* (min_minor, src) := io (read_u16 src) in
    if ((TMF_MAJOR <? min_major) || ((min_major =? TMF_MAJOR) && (TMF_MINOR <? min_minor)))%N
    then Err ENewerVersionRequired
    else Ok (mk_header major minor min_major min_minor, src))); [sp_step|]. intros minor.
  apply (streams_bind EOF (fun s => io (read_u16 s)) (fun min_major src =>
    let* (min_minor, src) := io (read_u16 src) in
    if ((TMF_MAJOR <? min_major) || ((min_major =? TMF_MAJOR) && (TMF_MINOR <? min_minor)))%N
    then Err ENewerVersionRequired
    else Ok (mk_header major minor min_major min_minor, src))); [sp_step|]. intros min_major.
  apply (streams_bind EOF (fun s => io (read_u16 s)) (fun min_minor src =>
    if ((TMF_MAJOR <? min_major) || ((min_major =? TMF_MAJOR) && (TMF_MINOR <? min_minor)))%N
    then Err ENewerVersionRequired
    else Ok (mk_header major minor min_major min_minor, src))); [sp_step|]. intros min_minor.
  apply streams_if; sp_step.
Qed.

Lemma streams_seg_type w : streams UnexpectedEof (seg_type_read w).
Proof.
  destruct w; unfold seg_type_read.
  - apply (streams_bind UnexpectedEof read_u16 (fun b s => Ok (section_from_u16 b, s)));
      [apply streams_read_le|intros; apply streams_ret].
  - apply (streams_bind UnexpectedEof read_u8 (fun b s => Ok (section_from_u8 b, s)));
      [apply streams_read_le|intros; apply streams_ret].
Qed.
Lemma streams_seg_len w : streams UnexpectedEof (seg_len_read w).
Proof. destruct w; apply streams_read_le. Qed.

Lemma streams_eseg ctx : streams EOF (eseg_read ctx).
Proof.
  unfold eseg_read.
  apply (streams_bind EOF (fun s => io (seg_type_read (segment_type_width ctx) s)) (fun seg_type src =>
    let* (data_length, src) := io (seg_len_read (segment_length_width ctx) src) in
    if (MAX_SEG_SIZE <? data_length)%N then Err ESegmentTooLong
    else
      let* (b, src) := io (read_u8 src) in
      let* comp := compression_from_u8 b in
      let* (data, src) := io (read_exact data_length src) in
      Ok (mk_eseg seg_type comp data, src))); [apply streams_io, streams_seg_type|]. intros ty.
  apply (streams_bind EOF (fun s => io (seg_len_read (segment_length_width ctx) s)) (fun data_length src =>
    if (MAX_SEG_SIZE <? data_length)%N then Err ESegmentTooLong
    else
      let* (b, src) := io (read_u8 src) in
      let* comp := compression_from_u8 b in
      let* (data, src) := io (read_exact data_length src) in
      Ok (mk_eseg ty comp data, src))); [apply streams_io, streams_seg_len|]. intros len.
  apply streams_if; [sp_step|].
  apply (streams_bind EOF (fun s => io (read_u8 s)) (fun b src =>
      let* comp := compression_from_u8 b in
      let* (data, src) := io (read_exact len src) in
      Ok (mk_eseg ty comp data, src))); [sp_step|]. intros b.
  apply (streams_pure EOF (compression_from_u8 b) (fun comp src =>
      let* (data, src) := io (read_exact len src) in
      Ok (mk_eseg ty comp data, src))). intros comp.
  apply (streams_bind EOF (fun s => io (read_exact len s)) (fun data src =>
      Ok (mk_eseg ty comp data, src))); [sp_step|]. intros; sp_step.
Qed.

Lemma streams_segments ctx n : streams EOF (read_segments ctx n).
Proof.
  induction n as [|n IH]; cbn [read_segments]; [apply streams_ret|].
  apply (streams_bind EOF (eseg_read ctx) (fun s src =>
    let* (l, src) := read_segments ctx n src in Ok (s :: l, src))); [apply streams_eseg|]. intros s.
  apply (streams_bind EOF (read_segments ctx n) (fun l src => Ok (s :: l, src))); auto.
  intros; sp_step.
Qed.

Lemma streams_import_mesh lm oc ctx : streams EOF (import_mesh lm oc ctx).
Proof.
  unfold import_mesh.
  apply (streams_bind EOF (fun s => io (read_string s)) (fun name src =>
    let* (segment_count, src) := io (read_u16 src) in
    let* (encoded, src) := read_segments ctx (N.to_nat segment_count) src in
    let* decoded := join_collect (map (decode lm oc ctx) encoded) in
    Ok ((fold_left apply decoded Mesh.empty, name), src))); [sp_step|]. intros name.
  apply (streams_bind EOF (fun s => io (read_u16 s)) (fun segment_count src =>
    let* (encoded, src) := read_segments ctx (N.to_nat segment_count) src in
    let* decoded := join_collect (map (decode lm oc ctx) encoded) in
    Ok ((fold_left apply decoded Mesh.empty, name), src))); [sp_step|]. intros n.
  apply (streams_bind EOF (read_segments ctx (N.to_nat n)) (fun encoded src =>
    let* decoded := join_collect (map (decode lm oc ctx) encoded) in
    Ok ((fold_left apply decoded Mesh.empty, name), src))); [apply streams_segments|]. intros e.
  apply (streams_pure EOF (join_collect (map (decode lm oc ctx) e)) (fun decoded src =>
    Ok ((fold_left apply decoded Mesh.empty, name), src))). intros; sp_step.
Qed.

Lemma streams_import_meshes lm oc ctx n : streams EOF (import_meshes lm oc ctx n).
Proof.
  induction n as [|n IH]; cbn [import_meshes]; [apply streams_ret|].
  apply (streams_bind EOF (import_mesh lm oc ctx) (fun m src =>
    let* (l, src) := import_meshes lm oc ctx n src in Ok (m :: l, src))); [apply streams_import_mesh|].
  intros m.
  apply (streams_bind EOF (import_meshes lm oc ctx n) (fun l src => Ok (m :: l, src))); auto.
  intros; sp_step.
Qed.

Lemma streams_import lm oc : streams EOF (import lm oc).
Proof.
  unfold import.
  apply (streams_bind EOF read_tmf_header (fun h src =>
    let* (mesh_count, src) := io (read_u32 src) in
    import_meshes lm oc (init_header h) (N.to_nat mesh_count) src)); [apply streams_header|]. intros h.
  apply (streams_bind EOF (fun s => io (read_u32 s)) (fun mesh_count src =>
    import_meshes lm oc (init_header h) (N.to_nat mesh_count) src)); [sp_step|]. intros n.
  apply streams_import_meshes.
Qed.
