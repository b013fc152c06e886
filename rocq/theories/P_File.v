(** Properties C11-C15, C17, C18, C23, C24: reading files. *)
From Coq Require Import List NArith ZArith Arith Lia Bool ZifyN ZifyNat ZifyBool.
From Verif Require Import Base BitSpec UnalignedRW UnalignedRW_proofs ReadExt ByteLemmas Triangles
  TriSpec Floats Unify CustomData Mesh Tmf File FileSpec Parse_proofs File_proofs NoPanic_proofs
  Load_proofs Async Async_proofs Demo.
Import ListNotations.
Open Scope res_scope.

(** C11. Any number of segments written one after another are read back with the
    same kinds, compression tags and payloads, leaving the stream at the byte
    after them. [seg_bytes] (FileSpec) is the layout on disk. *)
Theorem C11_segments_roundtrip : forall segs rest,
  Forall (fun s => (N.of_nat (length (e_data s)) <= 2 ^ 31)%N) segs ->
  read_segments new_ctx (length segs) (concat (map (fun s => concat (eseg_chunks s)) segs) ++ rest)
  = Ok (segs, rest).
Proof. exact segments_roundtrip. Qed.
Print Assumptions C11_segments_roundtrip.

Theorem C11_segment_layout : forall s,
  (N.of_nat (length (e_data s)) <= 2 ^ 31)%N ->
  concat (eseg_chunks s)
  = seg_bytes (mk_raw (section_code (e_type s)) (compression_code (e_comp s)) (e_data s)).
Proof. exact segment_layout. Qed.
Print Assumptions C11_segment_layout.

(** A longer declared length is refused whatever follows it (and however little). *)
Theorem C11_too_long_refused : forall kind n rest,
  (kind < 256)%N -> (2 ^ 31 < n < 2 ^ 32)%N ->
  eseg_read new_ctx ([kind] ++ lend 4 n ++ rest) = Err ESegmentTooLong.
Proof. exact too_long_new. Qed.
Print Assumptions C11_too_long_refused.
Theorem C11_too_long_refused_old : forall kind n rest,
  (kind < 65536)%N -> (2 ^ 31 < n < 2 ^ 64)%N ->
  eseg_read old_ctx (lend 2 kind ++ lend 8 n ++ rest) = Err ESegmentTooLong.
Proof. exact too_long_old. Qed.
Print Assumptions C11_too_long_refused_old.

(** An unknown compression tag is refused. *)
Theorem C11_unknown_compression_refused : forall kind c n rest,
  (kind < 256)%N -> (c < 256)%N -> (n <= 2 ^ 31)%N -> ~ In c comp_codes ->
  eseg_read new_ctx ([kind] ++ lend 4 n ++ [c] ++ rest) = Err (ECompressionTypeUnknown c).
Proof. exact unknown_compression. Qed.
Print Assumptions C11_unknown_compression_refused.

Example C11_case :
  let segs := [mk_eseg SNormal CNone [1; 2]%N; mk_eseg (SCustom KColor) CSequence []] in
  read_segments new_ctx 2 (concat (map (fun s => concat (eseg_chunks s)) segs) ++ [9; 9]%N) = Ok (segs, [9; 9]%N).
Proof. vm_compute. reflexivity. Qed.

(** C12. Removing all segments with an unassigned kind from all meshes of a file
    changes nothing, neither a result nor an error. *)
Definition without_unknown (m : raw_mesh) : raw_mesh := (fst m, filter known (snd m)).
Theorem C12_unknown_kinds_ignored : forall lm oc ms,
  file_ok ms ->
  read_tmf lm oc (file_bytes ms) = read_tmf lm oc (file_bytes (map without_unknown ms)).
Proof. exact unknown_ignored. Qed.
Print Assumptions C12_unknown_kinds_ignored.
(** ... so inserting them anywhere changes nothing. *)
Theorem C12_insertion : forall lm oc before after name l1 l2 extra,
  file_ok (before ++ (name, l1 ++ extra ++ l2) :: after) ->
  forallb (fun s => negb (known s)) extra = true ->
  read_tmf lm oc (file_bytes (before ++ (name, l1 ++ extra ++ l2) :: after)) =
  read_tmf lm oc (file_bytes (before ++ (name, l1 ++ l2) :: after)).
Proof. exact unknown_inserted. Qed.
Print Assumptions C12_insertion.

Lemma demo_raw_ok : file_ok [demo_raw].
Proof.
  split; [reflexivity|]. apply Forall_cons; [|apply Forall_nil]. split.
  - split; [apply utf8_valid_sound; vm_compute; reflexivity|reflexivity].
  - split; [reflexivity|]. cbn [demo_raw snd].
    repeat (apply Forall_cons; [split; [reflexivity|split; [left; reflexivity|vm_compute; discriminate]]|]).
    apply Forall_nil.
Qed.
Example C12_case : without_unknown demo_raw <> demo_raw /\
  exists m, read_tmf demo true (file_bytes [demo_raw]) = Ok [(m, demo_name)] /\
            vertex_triangles m = Some [1; 2; 3]%N /\ normal_triangles m = Some [1; 2; 3]%N.
Proof. split; [discriminate|]. eexists. split; [vm_compute; reflexivity|]. split; reflexivity. Qed.

(** C13. The header decides acceptance. *)
Theorem C13_not_tmf_iff : forall lm oc src,
  bytes_ok src ->
  (read_tmf lm oc src = Err ENotTMFFile <->
   exists a rest, src = a ++ rest /\ length a = 3 /\ a <> [84; 77; 70]%N).
Proof. exact not_tmf_iff. Qed.
Print Assumptions C13_not_tmf_iff.

(** "Lexicographically greater than 0.2". *)
Definition newer (major minor : N) : Prop := (0 < major \/ (major = 0 /\ 2 < minor))%N.
Theorem C13_newer_iff : forall lm oc src,
  bytes_ok src ->
  (read_tmf lm oc src = Err ENewerVersionRequired <->
   exists a b c d rest, (a < 65536 /\ b < 65536 /\ c < 65536 /\ d < 65536)%N /\
     src = header_bytes a b c d ++ rest /\ newer c d).
Proof. exact newer_iff. Qed.
Print Assumptions C13_newer_iff.

(** Too short for a header: an I/O error. *)
Theorem C13_short : forall lm oc src,
  (length src < 3 \/ (firstn 3 src = [84; 77; 70]%N /\ length src < 11)) ->
  read_tmf lm oc src = Err (EIO UnexpectedEof).
Proof. exact short_header. Qed.
Print Assumptions C13_short.

(** Otherwise the loader goes on to the meshes: only the framing depends on the
    header, and only on the minimal minor version. *)
Theorem C13_accepted : forall lm oc a b d rest,
  (a < 65536)%N -> (b < 65536)%N -> (d <= 2)%N ->
  read_tmf lm oc (header_bytes a b 0 d ++ rest) =
  read_tmf lm oc (header_bytes 0 d 0 (if d =? 2 then 2 else 0)%N ++ rest).
Proof. exact accepted. Qed.
Print Assumptions C13_accepted.

Example C13_cases :
  read_tmf demo true [84; 77; 71]%N = Err ENotTMFFile /\
  read_tmf demo true (header_bytes 0 3 0 3 ++ [1; 2; 3]%N) = Err ENewerVersionRequired /\
  read_tmf demo true (header_bytes 7 3 0 2 ++ [0; 0; 0; 0]%N) = Ok [] /\
  newer 0 3 /\ ~ newer 0 2.
Proof.
  split; [vm_compute; reflexivity|]. split; [vm_compute; reflexivity|]. split; [vm_compute; reflexivity|].
  unfold newer. split; lia.
Qed.

(** C14. A file in the previous framing loads as the current file with the same
    content ([same_raw_mesh] in FileSpec: same names, kinds, compression tags and
    payloads, index arrays having an offset field 0 in the current file). *)
Theorem C14_old_files : forall lm oc major minor min_minor old new,
  (major < 65536)%N -> (minor < 65536)%N -> (min_minor < 2)%N ->
  file_ok old -> file_ok new -> Forall2 same_raw_mesh old new ->
  read_tmf lm oc (old_file_bytes major minor min_minor old) = read_tmf lm oc (file_bytes new).
Proof. exact old_files. Qed.
Print Assumptions C14_old_files.

Example C14_case :
  let old := [(demo_name, [mk_raw 2 0 ([2]%N ++ lend 8 3 ++ [0x18]%N); odd_seg])] in
  let new := [(demo_name, [mk_raw 2 0 ([2]%N ++ lend 8 3 ++ lend 8 0 ++ [0x18]%N); odd_seg])] in
  Forall2 same_raw_mesh old new /\
  (exists m, read_tmf demo true (old_file_bytes 0 1 0 old) = Ok [m] /\
             vertex_triangles (fst m) = Some [0; 1; 2]%N).
Proof.
  split.
  - constructor; [|constructor]. split; [reflexivity|]. constructor.
    + split; [reflexivity|]. split; [reflexivity|]. exists 2%N, (lend 8 3), [0x18]%N. repeat split.
    + constructor; [|constructor]. split; [reflexivity|]. split; [reflexivity|]. reflexivity.
  - eexists. split; vm_compute; reflexivity.
Qed.

(** C15. A byte string that loads uses a definite prefix of it: any strictly
    shorter prefix gives an end-of-file error, anything may follow. *)
Theorem C15_truncation : forall lm oc src ms,
  read_tmf lm oc src = Ok ms ->
  exists used rest, src = used ++ rest /\
    (forall more, read_tmf lm oc (used ++ more) = Ok ms) /\
    (forall p q, used = p ++ q -> q <> [] -> read_tmf lm oc p = Err (EIO UnexpectedEof)).
Proof. exact truncation. Qed.
Print Assumptions C15_truncation.

Example C15_case : exists ms, read_tmf demo false (file_bytes [demo_raw] ++ [1; 2; 3]%N) = Ok ms /\
  read_tmf demo false (firstn 40 (file_bytes [demo_raw])) = Err (EIO UnexpectedEof).
Proof. eexists. split; vm_compute; reflexivity. Qed.

(** C17. A load that panics was given a file that contains a segment with one of
    the payloads of [panic_payload] (FileSpec). *)
Theorem C17_panics_only : forall lm oc src,
  bytes_ok src -> read_tmf lm oc src = Panic ->
  exists s pre post, frameable s /\ panic_payload oc (r_kind s) (r_payload s) /\
    (src = pre ++ seg_bytes s ++ post \/ src = pre ++ old_seg_bytes s ++ post).
Proof. exact panics_only. Qed.
Print Assumptions C17_panics_only.

(** Each of the cases is reachable. *)
Theorem C17_colour_count_panics : forall lm oc name count w bits,
  name_ok name -> (2 ^ 59 <= count < 2 ^ 64)%N -> (w < 256)%N -> (len bits < 2 ^ 30)%N ->
  read_tmf lm oc (file_bytes [(name, [mk_raw 23 0 ([0]%N ++ lend 8 count ++ [w] ++ bits)])]) = Panic.
Proof. exact colour_count_panics. Qed.
Print Assumptions C17_colour_count_panics.
Theorem C17_colour_width_panics : forall lm name count w bits,
  name_ok name -> (count < 2 ^ 59)%N -> (64 <= w < 256)%N -> (len bits < 2 ^ 30)%N ->
  read_tmf lm true (file_bytes [(name, [mk_raw 23 0 ([0]%N ++ lend 8 count ++ [w] ++ bits)])]) = Panic.
Proof. exact colour_width_panics. Qed.
Print Assumptions C17_colour_width_panics.
Example C17_offset_panics :
  read_tmf demo true (file_bytes [(demo_name,
    [mk_raw 2 0 ([1]%N ++ lend 8 1 ++ lend 8 (2 ^ 64 - 1) ++ [0x80]%N)])]) = Panic /\
  (exists m, read_tmf demo false (file_bytes [(demo_name,
    [mk_raw 2 0 ([1]%N ++ lend 8 1 ++ lend 8 (2 ^ 64 - 1) ++ [0x80]%N)])]) = Ok m).
Proof. split; [vm_compute; reflexivity|]. eexists. vm_compute. reflexivity. Qed.

(** C18. A segment that declares more than 2^31 elements never loads: the load
    fails with an error (or panics on account of another segment). *)
Theorem C18_declared_size_refused : forall lm oc s n,
  declares (r_kind s) (r_payload s) n -> (2 ^ 31 < n < 2 ^ 64)%N ->
  forall ctx, exists e, decode lm oc ctx (eseg_of s) = Err e.
Proof. exact declared_refused. Qed.
Print Assumptions C18_declared_size_refused.
Theorem C18_file_refused : forall lm oc ms m s n rest,
  file_ok ms -> In m ms -> In s (snd m) -> declares (r_kind s) (r_payload s) n -> (2 ^ 31 < n < 2 ^ 64)%N ->
  forall r, import lm oc (file_bytes ms ++ rest) <> Ok r.
Proof. exact declared_file_refused. Qed.
Print Assumptions C18_file_refused.
(** The exception: a colour array of width 0 takes any count below 2^59 from eleven bytes. *)
Theorem C18_colour_refuted : forall lm oc ctx count,
  (count < 2 ^ 59)%N ->
  exists s l prec, decode lm oc ctx (eseg_of (mk_raw 23 0 ([1; 99]%N ++ lend 8 count ++ [0]%N)))
    = Ok (DCustom s) /\ c_data s = CColor l prec /\ N.of_nat (length l) = count.
Proof. exact colour_unbounded. Qed.
Print Assumptions C18_colour_refuted.

Example C18_case : exists e, decode demo true new_ctx
  (eseg_of (mk_raw 3 0 (lend 8 (2 ^ 31 + 1) ++ [8]%N))) = Err e.
Proof. eexists. vm_compute. reflexivity. Qed.

(** C23. The single-mesh loader. *)
Theorem C23_one : forall lm oc src, bytes_ok src ->
  (forall m, read_tmf_one lm oc src = Ok m <-> read_tmf lm oc src = Ok [m]) /\
  (read_tmf_one lm oc src = Err ENoMeshes <-> read_tmf lm oc src = Ok []) /\
  (read_tmf_one lm oc src = Err ETooManyMeshes <->
     exists a b l, read_tmf lm oc src = Ok (a :: b :: l)) /\
  (forall e, read_tmf lm oc src = Err e -> read_tmf_one lm oc src = Err e) /\
  (read_tmf lm oc src = Panic <-> read_tmf_one lm oc src = Panic).
Proof. exact one_mesh. Qed.
Print Assumptions C23_one.

Example C23_case :
  (exists m, read_tmf_one demo true (file_bytes [demo_raw]) = Ok m) /\
  read_tmf_one demo true (file_bytes []) = Err ENoMeshes /\
  read_tmf_one demo true (file_bytes [demo_raw; demo_raw]) = Err ETooManyMeshes.
Proof.
  split; [eexists; vm_compute; reflexivity|]. split; vm_compute; reflexivity.
Qed.

(** C24. [aimport] (Async.v) relates a file to the outcomes of loading it under any
    order of completions of the decoding tasks. There is exactly one outcome, the
    one of decoding the segments one after another. *)
Theorem C24_completion_order : forall lm oc src r,
  aimport lm oc src r <-> r = import lm oc src.
Proof. exact completion_order. Qed.
Print Assumptions C24_completion_order.
(** Runs are finite and none gets stuck. *)
Theorem C24_runs_finish : forall lm oc ctx s,
  (exists t r, asteps lm oc ctx s t /\ afinal ctx t r) /\
  (forall t, astep lm oc ctx s t -> work t < work s) /\
  ((forall t, ~ astep lm oc ctx s t) -> exists r, afinal ctx s r).
Proof. exact runs_finish. Qed.
Print Assumptions C24_runs_finish.

(** Two different completion orders of the same two segments. *)
Example C24_case : forall e1 e2 s1 s2 s3,
  eseg_read new_ctx s1 = Ok (e1, s2) -> eseg_read new_ctx s2 = Ok (e2, s3) ->
  let d := decode demo true new_ctx in
  asteps demo true new_ctx (mk_astate 2 s1 []) (mk_astate 0 s3 [(e1, Some (d e1)); (e2, None)]) /\
  asteps demo true new_ctx (mk_astate 2 s1 []) (mk_astate 0 s3 [(e1, None); (e2, Some (d e2))]).
Proof.
  intros e1 e2 s1 s2 s3 H1 H2 d. split.
  - eapply as_step; [apply a_read; exact H1|].
    eapply as_step; [apply (a_complete _ _ _ 1 s2 [(e1, None)] 0 e1); reflexivity|].
    eapply as_step; [apply a_read; exact H2|]. apply as_refl.
  - eapply as_step; [apply a_read; exact H1|]. eapply as_step; [apply a_read; exact H2|].
    eapply as_step; [apply (a_complete _ _ _ 0 s3 [(e1, None); (e2, None)] 1 e2); reflexivity|].
    apply as_refl.
Qed.
