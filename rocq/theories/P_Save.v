(** Properties C16, C19-C22, C52-C56: writing files and reading them back. *)
From Coq Require Import List NArith ZArith Arith Lia Bool ZifyN ZifyNat ZifyBool.
From Flocq Require Import IEEE754.BinarySingleNaN.
From Verif Require Import Base BitSpec UnalignedRW UnalignedRW_proofs ReadExt ByteLemmas Triangles
  TriSpec Triangles_proofs OptTris Floats Utilis Unify Vertices Normals CustomData Mesh Tmf File FileSpec Parse_proofs File_proofs
  NoPanic_proofs Load_proofs Codec_proofs Demo SaveSpec Merge_proofs Save_proofs Agree_proofs OptVertices_proofs
  Save2_proofs Panic_proofs Save3_proofs Save4_proofs.
Import ListNotations.
Open Scope res_scope.

(** In all theorems [lm], [lm'] are the platforms' mathematical functions and [oc],
    [oc'] tell whether overflow checks are on, for the saving and for the loading
    program. [saved lm oc p l] is the outcome of saving the list [l] of meshes and
    names with the precisions [p] into a sink that never fails. C56 carries the
    theorems about [saved lm true] over to programs without overflow checks.

    Hypotheses of the round trip theorems. Normals and tangents are stored with at
    most 30 bits ... *)
Definition precision_ok (p : prec_info) : Prop := normal_precision p <= 30 /\ tangent_prec p <= 30.
(** ... there are fewer than 2^32 meshes, each within the limits of the format
    ([storable] in SaveSpec), with a name that is UTF-8 of at most 65535 bytes, and
    stored in fewer than 65536 segments. *)
Definition list_ok (lm : libm) (l : list (mesh * list N)) : Prop :=
  (len l < 2 ^ 32)%N /\
  Forall (fun mn => storable (fst mn) /\ name_ok (snd mn) /\ (segment_count lm true (fst mn) < 65536)%N) l.

(** A mesh to try things with. *)
Definition v3 (a b c : Z) : vec3 := (f32_of_Z a, f32_of_Z b, f32_of_Z c).
Definition cube_vertices : list vec3 := [v3 0 0 0; v3 1 0 0; v3 0 1 0; v3 0 0 1].
Definition cube_triangles : list N := [0; 1; 2; 0; 2; 3]%N.
Definition tags : cseg := mk_cseg [97; 98]%N 2 (CIndex [5; 0; 7]%N 7).
Definition weights : cseg := mk_cseg [119]%N 1 (CFloat [f0; f1] (flit 1 100)).
Definition demo_mesh : mesh :=
  mk_mesh (Some [v3 0 0 1; v3 1 0 0]) (Some [0; 1; 1; 0; 0; 1]%N) (Some cube_vertices) (Some cube_triangles)
          (Some [(f0, f1); (f1, f0)]) None None None [tags; weights].
Definition demo_prec : prec_info := mk_prec (flit 1 10) 7 14 8.
Definition demo_list : list (mesh * list N) := [(demo_mesh, demo_name); (empty, [])].

Lemma name_ok_ascii name : forallb (fun b => (b <=? 127)%N) name = true -> (len name < 65536)%N -> name_ok name.
Proof.
  intros H L. split; auto. clear L. induction name as [|a name IH]; [constructor|].
  cbn [forallb] in H. apply andb_prop in H as [H1 H2]. constructor; auto. lia.
Qed.
Lemma small_none {A} : @small A None. Proof. intros l E. discriminate E. Qed.
Lemma small_some {A} (l : list A) : (len l <=? 2 ^ 27)%N = true -> small (Some l).
Proof. intros H l' E. injection E as <-. now apply N.leb_le. Qed.
Lemma indices_none : indices_ok None. Proof. intros l E. discriminate E. Qed.
Lemma indices_some l : (len l <=? 2 ^ 27)%N && forallb (fun i => (i <? 2 ^ 31)%N) l = true -> indices_ok (Some l).
Proof.
  intros H l' E. injection E as <-. apply andb_prop in H as [H1 H2]. split; [now apply N.leb_le|].
  apply Forall_forall. intros x X. rewrite forallb_forall in H2. apply N.ltb_lt. auto.
Qed.
Ltac storable_tac := constructor; cbn;
  first [apply small_none | apply indices_none | apply small_some; vm_compute; reflexivity
        | apply indices_some; vm_compute; reflexivity | idtac]; try apply Forall_nil.
Lemma demo_ok : precision_ok demo_prec /\ list_ok demo demo_list.
Proof.
  split; [split; cbn; lia|]. split; [reflexivity|].
  assert (storable empty) by storable_tac.
  assert (storable demo_mesh).
  { storable_tac.
    apply Forall_cons; [|apply Forall_cons; [|apply Forall_nil]]; unfold custom_ok; cbn [c_name c_name_len c_data tags weights].
    - split; [repeat (apply Forall_cons; [reflexivity|]); apply Forall_nil|]. split; [reflexivity|]. split; [lia|].
      split; [vm_compute; discriminate|]. split; [|left; reflexivity].
      repeat (apply Forall_cons; [split; lia|]); apply Forall_nil.
    - split; [repeat (apply Forall_cons; [reflexivity|]); apply Forall_nil|]. split; [reflexivity|]. split; [lia|].
      vm_compute. discriminate. }
  apply Forall_cons; [|apply Forall_cons; [|apply Forall_nil]]; cbn [fst snd].
  - split; [assumption|]. split; [apply name_ok_ascii; reflexivity|vm_compute; reflexivity].
  - split; [assumption|]. split; [apply name_ok_ascii; reflexivity|vm_compute; reflexivity].
Qed.

(** C19. Number, order and names of the meshes survive. *)
Theorem C19_names_survive : forall lm lm' oc' p l out,
  precision_ok p -> list_ok lm l -> saved lm true p l = Ok out ->
  exists l', read_tmf lm' oc' out = Ok l' /\ map snd l' = map snd l.
Proof.
  intros lm lm' oc' p l out HP HL S. destruct (loads lm lm' oc' p l out HP HL S) as (l' & R & F).
  exists l'. split; auto. clear -F. induction F as [|a b l l' [H _] _ IH]; [reflexivity|]. cbn [map]. congruence.
Qed.
Print Assumptions C19_names_survive.
(** Whatever bytes are loaded, no name is longer than 65535 bytes and there are
    fewer than 2^32 meshes: longer names and longer lists never survive. *)
Theorem C19_limits : forall lm oc src l,
  bytes_ok src -> read_tmf lm oc src = Ok l ->
  Forall (fun mn => (len (snd mn) < 65536)%N) l /\ (len l < 2 ^ 32)%N.
Proof.
  intros lm oc src l B R. destruct (read_tmf_loaded lm oc src l B R) as [F L]. split; auto.
  eapply Forall_impl; [|exact F]. intros mn (H & _). exact H.
Qed.
Print Assumptions C19_limits.

(** C20. Index arrays are exact; vertices, normals, UVs and tangents are present
    when they were and as many as they were ([same_arrays] in SaveSpec). *)
Theorem C20_arrays_survive : forall lm lm' oc' p l out,
  precision_ok p -> list_ok lm l -> saved lm true p l = Ok out ->
  exists l', read_tmf lm' oc' out = Ok l' /\ Forall2 (fun a b => same_arrays (fst a) (fst b)) l l'.
Proof.
  intros lm lm' oc' p l out HP HL S. destruct (loads lm lm' oc' p l out HP HL S) as (l' & R & F).
  exists l'. split; auto. clear -F. induction F as [|a b l l' [_ [H _]] _ IH]; constructor; auto.
Qed.
Print Assumptions C20_arrays_survive.

Example C20_case : exists out l', saved demo true demo_prec demo_list = Ok out /\
  read_tmf demo false out = Ok l' /\ map (fun mn => vertex_triangles (fst mn)) l' = [Some cube_triangles; None] /\
  map snd l' = [demo_name; []] /\ Forall2 (fun a b => same_arrays (fst a) (fst b)) demo_list l'.
Proof.
  assert (exists out, saved demo true demo_prec demo_list = Ok out) as [out S].
  { eexists. vm_compute. reflexivity. }
  destruct demo_ok as [D1 D2]. destruct (C20_arrays_survive _ demo false _ _ _ D1 D2 S) as (l' & R & F).
  exists out, l'. split; auto. split; auto. split; [|split; auto].
  - inversion F as [|a b ? ? [E1] F2]; subst. inversion F2 as [|c d ? ? [E2] F3]; subst. inversion F3; subst.
    cbn [map fst vertex_triangles demo_mesh empty] in *. congruence.
  - destruct (C19_names_survive _ demo false _ _ _ D1 D2 S) as (l2 & R2 & E2).
    rewrite R in R2. apply Ok_inj in R2. subst l2. exact E2.
Qed.

(** The limits are needed. With an index of 2^31 all indices are lost (see C08) ... *)
Theorem C20_large_index_refuted : exists m out l',
  vertex_triangles m = Some [0; 1; 2147483648]%N /\ saved demo true demo_prec [(m, [])] = Ok out /\
  read_tmf demo true out = Ok l' /\ map (fun mn => vertex_triangles (fst mn)) l' = [Some [0; 0; 0]%N].
Proof.
  exists (with_vertex_triangles empty (Some [0; 1; 2147483648]%N)).
  eexists. eexists. split; [reflexivity|]. split; [vm_compute; reflexivity|]. split; vm_compute; reflexivity.
Qed.
Print Assumptions C20_large_index_refuted.
(** ... and with normals of 64 bits an empty normal array is written as a file that
    does not load. *)
Theorem C20_normal_precision_refuted : exists out,
  let m := with_normals empty (Some []) in
  storable m /\ saved demo true (mk_prec (flit 1 10) 64 14 8) [(m, [])] = Ok out /\
  exists e, read_tmf demo true out = Err e.
Proof.
  eexists. cbv zeta. split; [|split; [vm_compute; reflexivity|eexists; vm_compute; reflexivity]].
  storable_tac.
Qed.
Print Assumptions C20_normal_precision_refuted.

(** C21. Custom data: names, kinds, index and integer arrays exactly, lengths of the
    others; in the opposite order ([same_shape_rev]). *)
Theorem C21_custom_data_survives : forall lm lm' oc' p l out,
  precision_ok p -> list_ok lm l -> saved lm true p l = Ok out ->
  exists l', read_tmf lm' oc' out = Ok l' /\
    Forall2 (fun a b => Forall2 same_custom (rev (custom_data (fst a))) (custom_data (fst b))) l l'.
Proof.
  intros lm lm' oc' p l out HP HL S. destruct (loads lm lm' oc' p l out HP HL S) as (l' & R & F).
  exists l'. split; auto. clear -F. induction F as [|a b l l' [_ [_ H]] _ IH]; constructor; auto.
Qed.
Print Assumptions C21_custom_data_survives.

(** Looking a name up. Before the save the first segment with the name is found ... *)
Definition segments_named (name : list N) (m : mesh) : list cseg :=
  filter (fun s => if list_eq_dec N.eq_dec (c_name s) name then true else false) (custom_data m).
Theorem C21_lookup_before : forall m name,
  storable m -> (len name <= 255)%N ->
  @lookup_custom_data False m name = Ok (option_map c_data (hd_error (segments_named name m))).
Proof. exact lookup_before. Qed.
Print Assumptions C21_lookup_before.
(** ... after it, the last one. *)
Theorem C21_lookup_after : forall lm lm' oc' p l out l',
  precision_ok p -> list_ok lm l -> saved lm true p l = Ok out -> read_tmf lm' oc' out = Ok l' ->
  Forall2 (fun a b => forall name, (len name <= 255)%N ->
    match hd_error (rev (segments_named name (fst a))) with
    | None => @lookup_custom_data False (fst b) name = Ok None
    | Some s => exists d, @lookup_custom_data False (fst b) name = Ok (Some d) /\ same_data (c_data s) d
    end) l l'.
Proof. exact lookup_after. Qed.
Print Assumptions C21_lookup_after.
(** So with unique names a lookup finds the data that was saved under the name, and
    with two segments of one name it does not. *)
Theorem C21_same_name_refuted : exists m out m',
  storable m /\ saved demo true demo_prec [(m, [])] = Ok out /\ read_tmf demo true out = Ok [(m', [])] /\
  @lookup_custom_data False m [97]%N = Ok (Some (CIndex [1]%N 1)) /\
  @lookup_custom_data False m' [97]%N = Ok (Some (CIndex [2]%N 2)).
Proof.
  exists (with_custom_data empty [mk_cseg [97]%N 1 (CIndex [1]%N 1); mk_cseg [97]%N 1 (CIndex [2]%N 2)]).
  eexists. eexists. split; [|split; [vm_compute; reflexivity|split; [vm_compute; reflexivity|split; vm_compute; reflexivity]]].
  storable_tac.
  apply Forall_cons; [|apply Forall_cons; [|apply Forall_nil]]; unfold custom_ok; cbn [c_name c_name_len c_data];
    (split; [repeat (apply Forall_cons; [reflexivity|]); apply Forall_nil|]; split; [reflexivity|]; split; [lia|];
     split; [vm_compute; discriminate|]; split; [|left; reflexivity];
     repeat (apply Forall_cons; [split; lia|]); apply Forall_nil).
Qed.
Print Assumptions C21_same_name_refuted.

(** C22. The segments a mesh is stored as ([merge_segments (tmf_segs m)]), applied to
    an empty mesh, give the mesh back up to the order of custom data, as do the
    segments before sharing. *)
Theorem C22_sharing_invisible : forall m,
  fold_left apply (merge_segments (tmf_segs m)) empty = with_custom_data m (rev (custom_data m)) /\
  fold_left apply (tmf_segs m) empty = m.
Proof. intros m. split; [exact (build_merged m)|exact (build_unmerged m)]. Qed.
Print Assumptions C22_sharing_invisible.
(** Splitting the segments for better compression is invisible too. *)
Theorem C22_splitting_invisible : forall lm oc segs segs' m,
  optimize_all lm oc segs = Ok segs' -> fold_left apply segs' m = fold_left apply segs m.
Proof. intros lm oc segs segs' m H. exact (build_optimize_all lm oc segs segs' m H). Qed.
Print Assumptions C22_splitting_invisible.
(** Three equal index arrays are stored once. *)
Theorem C22_stored_once : forall m l,
  vertex_triangles m = Some l -> normal_triangles m = Some l -> uv_triangles m = Some l ->
  filter (fun d => match d with DTriVertex _ | DTriNormal _ | DTriUV _ | DShared _ _ => true | _ => false end)
         (merge_segments (tmf_segs m)) = [DShared 7 l].
Proof. exact stored_once. Qed.
Print Assumptions C22_stored_once.
Example C22_case :
  let m := mk_mesh None (Some [1]%N) None (Some [1]%N) None (Some [2]%N) None None [tags; weights] in
  merge_segments (tmf_segs m) = [DCustom weights; DCustom tags; DTriUV [2]%N; DShared 3 [1]%N].
Proof. reflexivity. Qed.

(** C16. Crashes. A sink that accepts [k] bytes and then fails: the save returns its
    error and the sink holds the first [k] bytes of the complete file ... *)
Theorem C16_crash : forall lm oc p l out k,
  saved lm oc p l = Ok out -> k < length out ->
  write_tmf lm oc p l (mk_sink [] (Some (N.of_nat k)))
  = (mk_sink (firstn k out) (Some 0%N), Err (XIo WriteFailed)).
Proof. exact crash. Qed.
Print Assumptions C16_crash.
(** ... which never load: *)
Theorem C16_prefix_refused : forall lm lm' oc' p l out k,
  precision_ok p -> list_ok lm l -> saved lm true p l = Ok out -> k < length out ->
  read_tmf lm' oc' (firstn k out) = Err (EIO UnexpectedEof).
Proof. exact prefix_refused. Qed.
Print Assumptions C16_prefix_refused.
(** A sink with enough room gets the complete file and the save succeeds. *)
Theorem C16_complete : forall lm oc p l out k,
  saved lm oc p l = Ok out -> (len out <= k)%N ->
  write_tmf lm oc p l (mk_sink [] (Some k)) = (mk_sink out (Some (k - len out)%N), Ok tt).
Proof. exact no_crash. Qed.
Print Assumptions C16_complete.
(** Also when the save itself fails or panics, a failing sink holds a prefix of
    what a sink that does not fail would hold. *)
Theorem C16_always_prefix : forall lm oc p l k s r,
  write_tmf lm oc p l (mk_sink [] (Some k)) = (s, r) ->
  exists rest, k_data (fst (write_tmf lm oc p l (mk_sink [] None))) = k_data s ++ rest.
Proof. exact crash_prefix. Qed.
Print Assumptions C16_always_prefix.
Example C16_case : exists out, saved demo true demo_prec demo_list = Ok out /\ 200 < length out /\
  read_tmf demo true (firstn 100 out) = Err (EIO UnexpectedEof).
Proof.
  assert (exists out, saved demo true demo_prec demo_list = Ok out /\ 200 < length out) as (out & S & L).
  { eexists. split; [vm_compute; reflexivity|]. cbn [length]. lia. }
  exists out. split; auto. split; auto. destruct demo_ok as [D1 D2]. eapply C16_prefix_refused; eauto. lia.
Qed.

(** C52. The size of a file: 15 bytes, for each mesh 4 bytes and its name, for each
    segment 6 bytes and its payload ([raw_size] in SaveSpec); no padding. *)
Theorem C52_file_size : forall lm p l out,
  precision_ok p -> list_ok lm l -> saved lm true p l = Ok out ->
  exists raws, out = file_bytes raws /\ Forall2 (fun mn raw => fst raw = snd mn) l raws /\
    len out = raw_size raws.
Proof.
  intros lm p l out HP [H1 H2] S. destruct (saved_loads lm lm true p l out HP H1 H2 S) as (raws & _ & E & _ & F & _).
  exists raws. split; auto. split; auto. rewrite E. apply file_length.
Qed.
Print Assumptions C52_file_size.
Example C52_case : exists out, saved demo true demo_prec [(with_vertex_triangles empty (Some [0; 1; 2]%N), demo_name)] = Ok out /\
  len out = (15 + 4 + 4 + 23 + 1)%N.
Proof. eexists. split; [vm_compute; reflexivity|]. reflexivity. Qed.

(** C53. What can go wrong in a save to a sink that does not fail. Every mesh a
    program can hold is meant here: indices are 32 bit numbers and arrays have less
    than 2^57 of them. A save never returns an error ... *)
Definition any_mesh (m : mesh) : Prop :=
  forall l, In (Some l) [vertex_triangles m; normal_triangles m; uv_triangles m; tangent_triangles m] ->
    Forall (fun i => (i < 2 ^ 32)%N) l /\ (len l < 2 ^ 57)%N.
Lemma any_mesh_holdable m : any_mesh m -> holdable m.
Proof.
  intros H. repeat split; intros; apply (fun I => H _ I); rewrite <- H0; cbn; tauto.
Qed.
Lemma any_meshes l : Forall (fun mn => any_mesh (fst mn)) l -> Forall (fun mn : mesh * list N => holdable (fst mn)) l.
Proof. apply Forall_impl. intros. now apply any_mesh_holdable. Qed.
Theorem C53_no_error : forall lm oc p l e,
  Forall (fun mn => any_mesh (fst mn)) l -> saved lm oc p l <> Err e.
Proof. intros. apply saved_noerr. now apply any_meshes. Qed.
Print Assumptions C53_no_error.
(** ... but panics, in every mode and with every precision, if some mesh has an
    empty vertex array, or vertices and vertex indices with a corner that does not
    exist or without an edge of finite length (notions from SaveSpec). *)
Theorem C53_panics : forall lm oc p l m name,
  Forall (fun mn => any_mesh (fst mn)) l -> In (m, name) l ->
  (vertices m = Some [] \/
   exists v t, vertices m = Some v /\ vertex_triangles m = Some t /\ t <> [] /\
     ~ (corners_exist v t /\ finite_edge distance v t)) ->
  saved lm oc p l = Panic.
Proof. intros lm oc p l m name H. apply bad_vertices_panic. now apply any_meshes. Qed.
Print Assumptions C53_panics.
(** In particular fewer than three indices always panic. *)
Theorem C53_short_index_array_panics : forall lm oc p l m name v t,
  Forall (fun mn => any_mesh (fst mn)) l -> In (m, name) l ->
  vertices m = Some v -> vertex_triangles m = Some t -> 0 < length t < 3 -> saved lm oc p l = Panic.
Proof.
  intros lm oc p l m name v t H I V T L. eapply C53_panics; eauto. right. exists v, t. split; auto. split; auto.
  destruct t as [|a [|b [|c t]]]; cbn [length] in L; try lia; (split; [discriminate|]); intros [_ F]; inversion F.
Qed.
Print Assumptions C53_short_index_array_panics.
(** Meshes without vertices are always saved, with precisions of up to 30 bits. *)
Definition custom_widths_ok (lm : libm) (s : cseg) : Prop :=
  Forall (fun b => (b < 256)%N) (c_name s) /\ c_name_len s = len (c_name s) /\ (c_name_len s <= 255)%N /\
  match c_data s with
  | CIndex l m | CInteger l m => Forall (fun i => (i < 2 ^ 32)%N) l /\ (m < 2 ^ 64)%N
  | CFloat l p => float_width lm l p <= 30
  | CColor l p => color_width lm p <= 30
  end.
Theorem C53_without_vertices_saved : forall lm p l,
  normal_precision p <= 30 -> uv_prec p <= 30 -> tangent_prec p <= 30 ->
  Forall (fun mn => vertices (fst mn) = None /\ any_mesh (fst mn) /\
                    Forall (custom_widths_ok lm) (custom_data (fst mn))) l ->
  exists out, saved lm true p l = Ok out.
Proof.
  intros lm p l H1 H2 H3 H. apply plain_saves; auto. eapply Forall_impl; [|exact H]. intros mn (A & B & C).
  split; auto. split; auto. now apply any_mesh_holdable.
Qed.
Print Assumptions C53_without_vertices_saved.
(** Without overflow checks these are all: with every precision and every list of
    meshes the save either succeeds or one mesh has one of the two defects. A name of
    custom data is an array and the length of its used part. *)
Theorem C53_release_exact : forall lm p l,
  Forall (fun mn => any_mesh (fst mn) /\ Forall (fun s => (c_name_len s <= len (c_name s))%N) (custom_data (fst mn))) l ->
  let bad m := vertices m = Some [] \/
    exists v t, vertices m = Some v /\ vertex_triangles m = Some t /\ t <> [] /\
      ~ (corners_exist v t /\ finite_edge distance v t) in
  (saved lm false p l = Panic <-> Exists (fun mn => bad (fst mn)) l) /\
  ((exists out, saved lm false p l = Ok out) <-> Forall (fun mn => ~ bad (fst mn)) l).
Proof.
  intros lm p l H bad.
  assert (A : Forall (fun mn => any_mesh (fst mn)) l) by (eapply Forall_impl; [|exact H]; cbv beta; tauto).
  assert (P : Exists (fun mn => bad (fst mn)) l -> saved lm false p l = Panic).
  { intros X. apply Exists_exists in X as ([m name] & I & X). eapply C53_panics; eauto. }
  assert (O : Forall (fun mn => ~ bad (fst mn)) l -> exists out, saved lm false p l = Ok out).
  { intros X. apply release_saves. rewrite Forall_forall in *. intros mn I. destruct (H mn I). split; [now apply any_mesh_holdable|].
    split; [assumption|exact (X mn I)]. }
  assert (D : Exists (fun mn => bad (fst mn)) l \/ Forall (fun mn => ~ bad (fst mn)) l).
  { clear. induction l as [|mn l [IH|IH]]; [right; constructor|left; now right|].
    destruct (bad_vertices_dec (fst mn)) as [B|B]; [left; now left|right; constructor; auto]. }
  split; split; auto.
  - intros E. destruct D as [D|D]; auto. destruct (O D) as [out X]. congruence.
  - intros [out E]. destruct D as [D|D]; auto. rewrite (P D) in E. discriminate.
Qed.
Print Assumptions C53_release_exact.
(** Verification does not find the panics. *)
Theorem C53_verified_mesh_panics : exists m,
  any_mesh m /\ verify_tmf_mesh m = Ok tt /\ forall lm oc p name, saved lm oc p [(m, name)] = Panic.
Proof.
  set (m := mk_mesh None None (Some cube_vertices) (Some [0; 1; 4]%N) None None None None []).
  assert (A : any_mesh m).
  { intros l [I|[I|[I|[I|[]]]]]; inversion I; subst. split; [|reflexivity].
    repeat (apply Forall_cons; [reflexivity|]). apply Forall_nil. }
  exists m. split; [exact A|]. split; [vm_compute; reflexivity|]. intros lm oc p name.
  eapply C53_panics; [|left; reflexivity|].
  - apply Forall_cons; [exact A|apply Forall_nil].
  - right. exists cube_vertices, [0; 1; 4]%N. split; [reflexivity|]. split; [reflexivity|]. split; [discriminate|].
    intros [C _]. unfold corners_exist in C. cbn [triples] in C. apply Forall_cons_iff in C as [(_ & _ & H) _].
    vm_compute in H. discriminate.
Qed.
Print Assumptions C53_verified_mesh_panics.
Example C53_case : any_mesh demo_mesh /\ (exists out, saved demo true demo_prec [(demo_mesh, [])] = Ok out) /\
  (exists out, saved demo true demo_prec [(with_vertices demo_mesh None, [])] = Ok out).
Proof.
  split; [|split; eexists; vm_compute; reflexivity].
  intros l [I|[I|[I|[I|[]]]]]; inversion I; subst; (split; [|reflexivity]);
    repeat (apply Forall_cons; [reflexivity|]); apply Forall_nil.
Qed.

(** C54. Number of segments. At most 8 more than vertices, indices and custom data
    together, so a mesh with less than 65528 of them is safe ... *)
Theorem C54_few_segments : forall lm oc m,
  any_mesh m ->
  (segment_count lm oc m <=
     count (vertices m) + count (vertex_triangles m) + count (normal_triangles m) +
     count (uv_triangles m) + count (tangent_triangles m) + len (custom_data m) + 8)%N.
Proof. intros lm oc m H. apply segment_count_le. now apply any_mesh_holdable. Qed.
Print Assumptions C54_few_segments.
(** ... and with 65536 segments or more the file loads without an error, as a mesh
    with fewer elements ([size] in SaveSpec). *)
Theorem C54_count_wraps : forall lm lm' oc' p m name out,
  precision_ok p -> storable m -> name_ok name -> (65536 <= segment_count lm true m)%N ->
  saved lm true p [(m, name)] = Ok out ->
  exists m', read_tmf lm' oc' out = Ok [(m', name)] /\ size m' < size m.
Proof. exact wrapped. Qed.
Print Assumptions C54_count_wraps.
(** 65536 custom data segments are such a case: all hypotheses can be met. *)
Definition many (n : nat) : mesh := with_custom_data empty (repeat tags n).
Theorem C54_case : forall lm lm' oc' name, name_ok name ->
  exists out m', saved lm true demo_prec [(many (N.to_nat 65536), name)] = Ok out /\
    read_tmf lm' oc' out = Ok [(m', name)] /\ size m' < size (many (N.to_nat 65536)).
Proof.
  intros lm lm' oc' name HN. remember (N.to_nat 65536) as n eqn:Hn.
  assert (C : custom_ok tags /\ custom_widths_ok lm tags).
  { unfold custom_ok, custom_widths_ok; cbn [c_name c_name_len c_data tags].
    split; (split; [repeat (apply Forall_cons; [reflexivity|]); apply Forall_nil|]; split; [reflexivity|]; split; [lia|]).
    - split; [vm_compute; discriminate|]. split; [|left; reflexivity].
      repeat (apply Forall_cons; [split; lia|]); apply Forall_nil.
    - split; [|reflexivity]. repeat (apply Forall_cons; [reflexivity|]); apply Forall_nil. }
  assert (A : forall P : cseg -> Prop, P tags -> Forall P (repeat tags n)).
  { intros P H. clear Hn. induction n; constructor; auto. }
  assert (AM : any_mesh (many n)) by (intros l [I|[I|[I|[I|[]]]]]; discriminate I).
  destruct (C53_without_vertices_saved lm demo_prec [(many n, name)]) as [out S]; [cbn; lia..| |].
  { apply Forall_cons; [|apply Forall_nil]. split; [reflexivity|]. split; [exact AM|]. cbn [many fst custom_data with_custom_data].
    apply A, C. }
  destruct (C54_count_wraps lm lm' oc' demo_prec (many n) name out) as (m' & R & L); auto.
  - split; cbn; lia.
  - constructor; try (intros ? E; discriminate E). cbn [many custom_data with_custom_data]. apply A, C.
  - unfold segment_count, segment_list.
    assert (E : merge_segments (tmf_segs (many n)) = map DCustom (repeat tags n)).
    { rewrite merge_segments_split. cbn [many custom_data with_custom_data arrays vertices normals uvs tangents
        vertex_triangles normal_triangles uv_triangles tangent_triangles empty opt_seg app].
      change (merge_segments []) with (@nil dseg). rewrite app_nil_r. f_equal.
      clear. induction n as [|n IH]; [reflexivity|]. cbn [repeat rev]. rewrite IH. symmetry. apply repeat_cons. }
    rewrite E.
    assert (O : forall k, optimize_all lm true (map DCustom (repeat tags k)) = Ok (map DCustom (repeat tags k))).
    { induction k as [|k IH]; [reflexivity|]. cbn [repeat map optimize_all optimize map_err bind]. now rewrite IH. }
    rewrite O. unfold len. rewrite map_length, repeat_length. lia.
  - eauto.
Qed.
Print Assumptions C54_case.

(** C55. Any number of save/load cycles, possibly on different machines and with
    different precisions. *)
Inductive save_load_cycles : nat -> list (mesh * list N) -> list (mesh * list N) -> Prop :=
| no_cycle l : save_load_cycles 0 l l
| one_more n lm lm' oc' p l out l1 l2 :
    precision_ok p -> Forall (fun mn => (segment_count lm true (fst mn) < 65536)%N) l ->
    saved lm true p l = Ok out -> read_tmf lm' oc' out = Ok l1 -> save_load_cycles n l1 l2 ->
    save_load_cycles (S n) l l2.
Theorem C55_cycles : forall n l l2,
  save_load_cycles n l l2 -> (len l < 2 ^ 32)%N ->
  Forall (fun mn => storable (fst mn) /\ name_ok (snd mn)) l ->
  Forall2 (fun a b => snd a = snd b /\ same_arrays (fst a) (fst b) /\
    Forall2 same_custom (if Nat.odd n then rev (custom_data (fst a)) else custom_data (fst a)) (custom_data (fst b))) l l2.
Proof.
  intros n l l2 H L F.
  assert (C : cycles n l l2) by (clear -H; induction H; econstructor; eauto).
  pose proof (cycles_keep n l l2 C L F) as K. clear -K.
  induction K as [|a b l l2 [N S] _ IH]; constructor; auto. split; auto.
  destruct (Nat.odd n); exact S.
Qed.
Print Assumptions C55_cycles.
Definition try_cycle (k : list (mesh * list N) -> bool) (l : list (mesh * list N)) : bool :=
  forallb (fun mn => (segment_count demo true (fst mn) <? 65536)%N) l &&
  match saved demo true demo_prec l with
  | Ok out => match read_tmf demo true out with Ok l1 => k l1 | _ => false end
  | _ => false
  end.
Lemma try_cycle_ok k n l : (forall l1, k l1 = true -> exists l2, save_load_cycles n l1 l2) ->
  try_cycle k l = true -> exists l2, save_load_cycles (S n) l l2.
Proof.
  intros H T. apply andb_prop in T as [T1 T2].
  destruct (saved demo true demo_prec l) as [out| |] eqn:S; try discriminate.
  destruct (read_tmf demo true out) as [l1| |] eqn:R; try discriminate.
  destruct (H l1 T2) as [l2 C]. exists l2. eapply one_more; eauto; [exact (proj1 demo_ok)|].
  apply Forall_forall. intros x X. rewrite forallb_forall in T1. apply N.ltb_lt. auto.
Qed.
Example C55_case : exists l2, save_load_cycles 2 demo_list l2.
Proof.
  eapply try_cycle_ok; [|instantiate (1 := try_cycle (fun _ => true)); vm_compute; reflexivity].
  intros l1. apply try_cycle_ok. intros l2 _. exists l2. constructor.
Qed.

(** C56. Overflow checks only turn results into panics: a program with checks and one
    without save the same bytes and load the same meshes, or fail the same way,
    unless the one with checks panics. *)
Theorem C56_save : forall lm p l,
  saved lm true p l = Panic \/ saved lm true p l = saved lm false p l.
Proof. exact saved_agree. Qed.
Print Assumptions C56_save.
Theorem C56_load : forall lm src,
  read_tmf lm true src = Panic \/ read_tmf lm true src = read_tmf lm false src.
Proof. exact loaded_agree. Qed.
Print Assumptions C56_load.
