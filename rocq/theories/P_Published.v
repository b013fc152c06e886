(** C86 : files laid out as TMF_SPEC.md publishes the format. *)
From Coq Require Import ZArith NArith Arith List Bool Reals Lra Lia.
From Flocq Require Import Core IEEE754.BinarySingleNaN.
From Verif Require Import Base ReadExt Floats Normals Vertices Triangles Triangles_proofs Codec_proofs ByteLemmas BitSpec FileSpec TriSpec ValueSpec DoubleSpec
  UnalignedRW UnalignedRW_proofs Mesh Tmf File File_proofs Layout3_proofs Load_proofs PublishedSpec Published_proofs Double DPublished_proofs.
Import ListNotations.

(** Every file the document describes loads, in every build and whatever follows it:
    the meshes in order under their names, the index arrays exactly and every
    coordinate as the published formula gives it, up to f32 rounding; segments that
    are to be ignored leave no trace. *)
Theorem C86_published_files_load : forall lm oc B ms file rest,
  (B <= 2 ^ 125)%R -> pfile_ok B ms -> published ms file ->
  exists l, read_tmf lm oc (file ++ rest) = Ok l /\
    Forall2 (fun m x => snd x = fst m /\ mesh_is B (snd m) (fst x)) ms l.
Proof. exact read_published. Qed.

(** With the feature double_precision, up to f64 rounding. *)
Theorem C86_published_files_load_double : forall sc oc B ms file rest,
  (B <= 2 ^ 1000)%R -> pfile_ok B ms -> published ms file ->
  exists l, read_tmf_d sc oc (file ++ rest) = Ok l /\
    Forall2 (fun m x => snd x = fst m /\ mesh_is_d B (snd m) (fst x)) ms l.
Proof. exact read_published_d. Qed.

(** The width left out: of an index array stored with 32 bits per index the indices
    are lost, without an error. *)
Theorem C86_width_32_refuted : forall lm oc name l file rest,
  name_ok name -> Forall (fun i => (i < 2 ^ 32)%N) l -> (len l <= 2 ^ 31)%N ->
  published [(name, [PIndices 2 32 l])] file ->
  exists m, read_tmf lm oc (file ++ rest) = Ok [(m, name)] /\
    vertex_triangles m = Some (repeat 0%N (2 * (length l / 2)) ++ firstn (length l mod 2) l).
Proof.
  intros lm oc name l file rest HN HL LL (major & minor & mm & raws & H1 & H2 & H3 & F & ->).
  assert (exists s, raws = [(name, [s])] /\ pframe (PIndices 2 32 l) s) as (s & -> & K & C & P & LP).
  { inversion F as [|? r ? rr [E1 F1] F2]; subst. inversion F2; subst. inversion F1 as [|? s ? ss F4 F3]; subst.
    inversion F3; subst. destruct r as [rn rs]. cbn [fst snd] in *. subst. eauto. }
  clear F. cbn [pkind] in K.
  destruct P as (uba & EP & HU).
  unfold read_tmf. rewrite import_old; auto.
  2:{ split; [reflexivity|]. constructor; [|constructor]. split; [exact HN|]. split; [reflexivity|].
      constructor; [|constructor]. unfold frameable. rewrite K, C. split; [reflexivity|]. split; [left; reflexivity|exact LP]. }
  assert (R : read_default_triangles oc old_ctx (r_payload s) = Ok (repeat 0%N (2 * (length l / 2)) ++ firstn (length l mod 2) l)).
  { rewrite EP, read_default_spec. cbn [app]. change (N.of_nat 32) with 32%N. rewrite read_u8_cons by lia. cbn [io map_err bind].
    assert (LL' : (N.of_nat (length l) <= 2 ^ 31)%N) by (exact LL).
    unfold FileSpec.len. rewrite lend_le, read_u64_w by now apply len64.
    cbn [io map_err bind]. change (read_triangle_min old_ctx uba) with (@Ok ioerr _ (0%N, uba)). cbn [io map_err bind].
    rewrite len_seg by auto. change (32 =? 0)%N with false. cbv iota. change (N.to_nat 32) with 32. unfold tri_body.
    rewrite read_tri_pairs_32 by reflexivity. cbn [bind app].
    replace (N.to_nat (N.of_nat (length l) / 2)) with (length l / 2) by lia.
    destruct (N.eqb_spec (N.of_nat (length l) mod 2) 0) as [E|E].
    - replace (length l mod 2) with 0 by lia. cbn [firstn]. now rewrite app_nil_r.
    - replace (length l mod 2) with 1 by lia. destruct l as [|i t]; [contradiction (E eq_refl)|].
      destruct (packs_bits _ _ [] HU) as [pad Hpad]. rewrite app_nil_r in Hpad. cbn [map] in Hpad. rewrite field_bits_cons, <- app_assoc in Hpad.
      destruct (read_one (reader_new (slice uba)) 32 i _ (rok_new (slice uba) (packs_ok _ _ HU)) ltac:(lia) ltac:(rewrite rbits_new; exact Hpad)) as (r' & E1 & _).
      rewrite E1. cbn [io map_err bind firstn]. inversion HL; subst. unfold low. change (2 ^ N.of_nat 32)%N with (2 ^ 32)%N. rewrite N.mod_small by assumption.
      unfold add_min, add64. rewrite N.add_0_r.
      replace (i <? two64)%N with true by (symmetry; apply N.ltb_lt; change two64 with (2 ^ 64)%N; eapply N.lt_trans; [eassumption|reflexivity]).
      cbn [bind]. change two32 with (2 ^ 32)%N. now rewrite N.mod_small by assumption. }
  cbn [map]. unfold load_raw. cbn [snd fst map]. unfold eseg_of. rewrite K, C.
  change (decode lm oc old_ctx _) with (let* l := read_default_triangles oc old_ctx (r_payload s) in Ok (DTriVertex l)).
  rewrite R. cbn. eexists. split; [reflexivity|]. reflexivity.
Qed.

(** The one segment the document allows to be omitted may not be: a file with an
    omitted normal triangle segment does not load. *)
Theorem C86_omitted_refuted : forall lm oc major minor min_minor ms m s rest,
  (major < 65536)%N -> (minor < 65536)%N -> (min_minor < 2)%N -> file_ok ms ->
  In m ms -> In s (snd m) -> r_kind s = 4%N -> r_comp s = 1%N ->
  forall l, read_tmf lm oc (old_file_bytes major minor min_minor ms ++ rest) <> Ok l.
Proof.
  intros lm oc major minor mm ms m s rest H1 H2 H3 FO IM IS K C l E.
  unfold read_tmf in E. rewrite import_old in E by auto.
  destruct (collect (map (load_raw lm oc old_ctx) ms)) as [l'| |] eqn:E1; try discriminate. clear E.
  apply collect_Ok in E1.
  assert (exists x, load_raw lm oc old_ctx m = Ok x) as [x E].
  { clear -E1 IM. revert l' E1. induction ms as [|a t IH]; [destruct IM|]. intros l' E1. inversion E1; subst.
    destruct IM as [->|IM]; eauto. }
  unfold load_raw in E.
  destruct (join_collect (map (decode lm oc old_ctx) (map eseg_of (snd m)))) as [d| |] eqn:E2; try discriminate.
  apply join_Ok in E2. clear -E2 IS K C. revert d E2. induction (snd m) as [|a t IH]; [destruct IS|]. intros d E2. inversion E2; subst.
  destruct IS as [->|IS]; [|eauto]. unfold eseg_of in *. rewrite K, C in *. discriminate.
Qed.

(** ** Cases *)

(** A mesh named "A" with two points of 1, 4 and 3 bits in the box
    [0,1] x [-2,2] x [0.5,0.5], one triangle of two-bit indices split over two
    segments, a segment of UV indices of width 0 and an ignored segment. *)
Definition bits_half : N := 0x3FE0000000000000. Definition bits_one : N := 0x3FF0000000000000.
Definition bits_two : N := 0x4000000000000000. Definition bits_minus_two : N := 0xC000000000000000.
Definition example_segs : list pseg :=
  [ PPoints 0 bits_one bits_minus_two bits_two bits_half bits_half 1 4 3 [(0, 15, 7); (1, 5, 0)]%N;
    PIndices 2 2 [2; 0]%N; POther 0 [9; 9]%N; PIndices 2 2 [1]%N; PIndices 6 0 [0; 0; 0]%N ].
Definition example_raws : list raw_seg :=
  [ mk_raw 1 0 (lend 8 2 ++ lend 8 0 ++ lend 8 bits_one ++ lend 8 bits_minus_two ++ lend 8 bits_two
        ++ lend 8 bits_half ++ lend 8 bits_half ++ [1; 4; 3] ++ [127; 168])%N;
    mk_raw 2 0 ([2] ++ lend 8 2 ++ [128])%N; mk_raw 0 0 [9; 9]%N;
    mk_raw 2 0 ([2] ++ lend 8 1 ++ [64])%N; mk_raw 6 0 ([0] ++ lend 8 3)%N ].
Definition example_file : list N := old_file_bytes 0 1 1 [([65]%N, example_raws)].

Lemma packs_now bytes l pad : Forall (fun b => (b < 256)%N) bytes -> length bytes = bytes_for_bits (length l) ->
  bits_of_bytes bytes = l ++ repeat false pad -> packs bytes l.
Proof. intros A B C. split; [exact A|]. split; [exact B|]. exists pad. exact C. Qed.
Example C86_case : published [([65]%N, example_segs)] example_file /\ pfile_ok 2 [([65]%N, example_segs)] /\ (2 <= 2 ^ 125)%R /\ (2 <= 2 ^ 1000)%R /\
  gather (indices_of 2) example_segs = Some [2; 0; 1]%N /\
  gather points example_segs = Some [(coordinate 0 bits_one 1 0, coordinate bits_minus_two bits_two 4 15, coordinate bits_half bits_half 3 7);
                                     (coordinate 0 bits_one 1 1, coordinate bits_minus_two bits_two 4 5, coordinate bits_half bits_half 3 0)] /\
  coordinate bits_minus_two bits_two 4 15 = 2%R.
Proof.
  split; [|split; [|split; [|split; [|split; [reflexivity|split; [reflexivity|]]]]]].
  - exists 0%N, 1%N, 1%N, [([65]%N, example_raws)]. split; [reflexivity|]. split; [reflexivity|]. split; [reflexivity|]. split; [|reflexivity].
    constructor; [|constructor]. split; [reflexivity|]. cbn [snd]. unfold example_segs, example_raws.
    repeat (apply Forall2_cons; [split; [reflexivity|split; [reflexivity|split; [|discriminate]]]|]); [| | | | |apply Forall2_nil]; cbn [ppayload r_payload].
    + exists [127; 168]%N. split; [reflexivity|]. apply (packs_now _ _ 0); [repeat constructor|reflexivity|reflexivity].
    + exists [128]%N. split; [reflexivity|]. apply (packs_now _ _ 4); [repeat constructor|reflexivity|reflexivity].
    + reflexivity.
    + exists [64]%N. split; [reflexivity|]. apply (packs_now _ _ 6); [repeat constructor|reflexivity|reflexivity].
    + exists []. split; [reflexivity|]. apply (packs_now _ _ 0); [constructor|reflexivity|reflexivity].
  - split; [reflexivity|]. constructor; [|constructor]. split; [split; [repeat (constructor; try lia)|reflexivity]|]. split; [reflexivity|].
    assert (Z : forall n x, (n < 2 ^ 64)%N -> f64_of_bits n = x -> is_finite x = true -> (Rabs (B2R x) <= 2)%R -> bound_ok 2 n).
    { intros n x A <- Bf C. split; [exact A|]. split; [exact Bf|exact C]. }
    assert (b0 : bound_ok 2 0) by (eapply Z; [reflexivity|vm_compute; reflexivity|reflexivity|cbn; rewrite Rabs_R0; lra]).
    assert (b1 : bound_ok 2 bits_one).
    { eapply Z; [reflexivity|vm_compute; reflexivity|reflexivity|]. cbn -[IZR]. apply Rabs_le. unfold Defs.F2R. cbn. lra. }
    assert (b2 : bound_ok 2 bits_two).
    { eapply Z; [reflexivity|vm_compute; reflexivity|reflexivity|]. cbn -[IZR]. apply Rabs_le. unfold Defs.F2R. cbn. lra. }
    assert (b3 : bound_ok 2 bits_minus_two).
    { eapply Z; [reflexivity|vm_compute; reflexivity|reflexivity|]. cbn -[IZR]. apply Rabs_le. unfold Defs.F2R. cbn. lra. }
    assert (b4 : bound_ok 2 bits_half).
    { eapply Z; [reflexivity|vm_compute; reflexivity|reflexivity|]. cbn -[IZR]. apply Rabs_le. unfold Defs.F2R. cbn. lra. }
    unfold example_segs. cbn [snd].
    repeat (apply Forall_cons); [| | | | |apply Forall_nil]; cbn [pseg_ok].
    + split; [repeat (apply Forall_cons; [assumption|]); constructor|]. split; [repeat (apply Forall_cons; [lia|]); constructor|].
      split; [repeat (apply Forall_cons; [repeat split|]); constructor|discriminate].
    + split; [left; reflexivity|]. split; [lia|]. split; [lia|]. split; [repeat (apply Forall_cons; [repeat split|]); constructor|discriminate].
    + left. reflexivity.
    + split; [left; reflexivity|]. split; [lia|]. split; [lia|]. split; [repeat (apply Forall_cons; [repeat split|]); constructor|discriminate].
    + split; [right; right; left; reflexivity|]. split; [lia|]. split; [lia|]. split; [repeat (apply Forall_cons; [repeat split|]); constructor|discriminate].
  - apply Rle_trans with (2 ^ 1)%R; [lra|]. apply Rle_pow; [lra|lia].
  - apply Rle_trans with (2 ^ 1)%R; [lra|]. apply Rle_pow; [lra|lia].
  - assert (A : number bits_two = 2%R).
    { unfold number. replace (f64_of_bits bits_two) with (ltac:(let x := eval vm_compute in (f64_of_bits bits_two) in exact x)) by (vm_compute; reflexivity).
      unfold val64. cbn -[IZR]. unfold Defs.F2R. cbn. lra. }
    assert (A' : number bits_minus_two = (-2)%R).
    { unfold number. replace (f64_of_bits bits_minus_two) with (ltac:(let x := eval vm_compute in (f64_of_bits bits_minus_two) in exact x)) by (vm_compute; reflexivity).
      unfold val64. cbn -[IZR]. unfold Defs.F2R. cbn. lra. }
    unfold coordinate. rewrite A, A'. simpl. lra.
Qed.

(** Three indices of 32 bits, of which the loader makes 0, 0 and the first. *)
Definition wide_file : list N :=
  old_file_bytes 0 1 1 [([65]%N, [mk_raw 2 0 ([32] ++ lend 8 3 ++ [0; 0; 0; 5; 0; 0; 0; 6; 0; 0; 0; 7])%N])].
Example C86_width_32_case : published [([65]%N, [PIndices 2 32 [5; 6; 7]%N])] wide_file /\
  forall lm oc, exists m, read_tmf lm oc wide_file = Ok [(m, [65]%N)] /\ vertex_triangles m = Some [0; 0; 5]%N.
Proof.
  assert (P : published [([65]%N, [PIndices 2 32 [5; 6; 7]%N])] wide_file).
  { exists 0%N, 1%N, 1%N, [([65]%N, [mk_raw 2 0 ([32] ++ lend 8 3 ++ [0; 0; 0; 5; 0; 0; 0; 6; 0; 0; 0; 7])%N])].
    split; [reflexivity|]. split; [reflexivity|]. split; [reflexivity|]. split; [|reflexivity].
    constructor; [|constructor]. split; [reflexivity|]. constructor; [|constructor].
    split; [reflexivity|]. split; [reflexivity|]. split; [|discriminate].
    exists [0; 0; 0; 5; 0; 0; 0; 6; 0; 0; 0; 7]%N. split; [reflexivity|].
    apply (packs_now _ _ 0); [repeat constructor|reflexivity|reflexivity]. }
  split; [exact P|]. intros lm oc.
  destruct (C86_width_32_refuted lm oc [65]%N [5; 6; 7]%N wide_file []) as (m & E & V); auto.
  - split; [repeat (constructor; try lia)|reflexivity].
  - repeat constructor.
  - discriminate.
  - exists m. rewrite app_nil_r in E. split; [exact E|exact V].
Qed.

(** A file as the document's section 3.2 allows it. *)
Example C86_omitted_case : let s := mk_raw 4 1 [] in
  file_ok [([65]%N, [s])] /\ In s (snd ([65]%N, [s])) /\ r_kind s = 4%N /\ r_comp s = 1%N.
Proof.
  cbv zeta. split; [|split; [left; reflexivity|split; reflexivity]]. split; [reflexivity|].
  constructor; [|constructor]. split; [split; [repeat (constructor; try lia)|reflexivity]|]. split; [reflexivity|].
  constructor; [|constructor]. split; [reflexivity|]. split; [right; left; reflexivity|discriminate].
Qed.

Print Assumptions C86_published_files_load.
Print Assumptions C86_published_files_load_double.
Print Assumptions C86_width_32_refuted.
Print Assumptions C86_omitted_refuted.
