(** Properties C01-C06: the bit stream reader and writer. *)
From Coq Require Import List NArith Arith.
From Verif Require Import Base BitSpec UnalignedRW BitIOSpec UnalignedRW_proofs.
Import ListNotations.

(** C01. Whatever fields are written to a sink that already holds [sink], the sink
    ends up holding [sink] followed by the fields' bits, packed and zero padded
    ([packs]), for both overflow modes and without panicking. *)
Theorem C01_writer_layout : forall oc sink fs,
  bytes_ok sink ->
  Forall (fun f => fst f <= 64 /\ (snd f < 2 ^ 64)%N) fs ->
  exists w bytes,
    write_fields oc (writer_new sink) fs = Ok w /\
    writer_finish w = sink ++ bytes /\ packs bytes (field_bits fs).
Proof. exact writer_packs_sink. Qed.
Print Assumptions C01_writer_layout.

(** ... and [packs] leaves no freedom. *)
Theorem C01_packing_unique : forall a b l, packs a l -> packs b l -> a = b.
Proof. exact packs_unique. Qed.
Print Assumptions C01_packing_unique.

Example C01_case :
  match write_fields true (writer_new [7%N]) [(3, 5%N); (0, 9%N); (7, 300%N); (64, 1%N)] with
  | Ok w => writer_finish w = [7; 171; 0; 0; 0; 0; 0; 0; 0; 0; 64]%N
  | _ => False
  end.
Proof. vm_compute. reflexivity. Qed.

(** C02. Any sequence of single reads returns the fields of the bit stream, or an
    unexpected-end error as soon as the stream is too short, whatever the
    schedule of short reads is. *)
Theorem C02_reader_fields : forall data sched ws,
  bytes_ok data -> Forall (fun w => w < 64) ws ->
  values (read_fields (reader_new (mk_source data sched)) ws)
  = match take_fields (bits_of_bytes data) ws with
    | Some vs => Ok vs
    | None => Err UnexpectedEof
    end.
Proof. exact read_fields_take. Qed.
Print Assumptions C02_reader_fields.

(** C02, for histories mixing all kinds of read calls (single bit reads included). *)
Theorem C02_reader_histories : forall oc data sched ops,
  bytes_ok data -> Forall rop_ok ops ->
  run_rops oc (reader_new (mk_source data sched)) ops
  = of_option (take_fields (bits_of_bytes data) (flat_map rop_widths ops)).
Proof. intros. rewrite run_rops_spec; auto. now apply rok_new. Qed.
Print Assumptions C02_reader_histories.

Example C02_case :
  values (read_fields (reader_new (mk_source [165; 128; 64; 1]%N [1; 2; 9])) [3; 7; 20])
    = Ok [5; 22; 4096]%N /\
  run_rops true (reader_new (mk_source [165; 128; 64; 1]%N [1; 2; 9]))
           [RBit; RTwo 5; RPair 2 2; RThree 3] = Ok [1; 9; 12; 0; 0; 1; 0; 0]%N /\
  values (read_fields (reader_new (mk_source [165; 128]%N [1; 2; 9])) [3; 14]) = Err UnexpectedEof.
Proof. repeat split; vm_compute; reflexivity. Qed.

(** C03. Write, read back. *)
Theorem C03_fields_roundtrip : forall oc fs trailing sched,
  Forall (fun f => fst f < 64 /\ (snd f < 2 ^ N.of_nat (fst f))%N) fs ->
  bytes_ok trailing ->
  exists w, write_fields oc (writer_new []) fs = Ok w /\
    values (read_fields (reader_new (mk_source (writer_finish w ++ trailing) sched)) (map fst fs))
    = Ok (map snd fs).
Proof. exact fields_roundtrip. Qed.
Print Assumptions C03_fields_roundtrip.

Example C03_case :
  Forall (fun f => fst f < 64 /\ (snd f < 2 ^ N.of_nat (fst f))%N)
         [(3, 5%N); (0, 0%N); (63, 9223372036854775807%N)].
Proof.
  repeat (apply Forall_cons; [split; [apply Nat.ltb_lt; reflexivity | reflexivity]|]). apply Forall_nil.
Qed.

(** C04. A paired read can be replaced by two single reads anywhere in a history. *)
Theorem C04_read2_is_two_reads : forall oc data sched pre post w,
  bytes_ok data -> Forall rop_ok pre -> Forall rop_ok post ->
  w < 64 -> w <> 32 ->
  run_rops oc (reader_new (mk_source data sched)) (pre ++ RTwo w :: post)
  = run_rops oc (reader_new (mk_source data sched)) (pre ++ [ROne w; ROne w] ++ post).
Proof. intros. apply (rop_replace oc data sched pre post (RTwo w) [w; w]); cbn; auto. Qed.
Print Assumptions C04_read2_is_two_reads.

(** C04 at width 32: nothing is read. *)
Theorem C04_read2_width32_reads_nothing : forall oc r,
  read2_unaligned oc r 32 = Ok ((0%N, 0%N), r).
Proof. exact read2_32. Qed.
Print Assumptions C04_read2_width32_reads_nothing.

Theorem C04_read2_width32_refuted : exists data, forall oc,
  bytes_ok data /\
  run_rops oc (reader_new (slice data)) [RTwo 32] = Ok [0; 0]%N /\
  run_rops oc (reader_new (slice data)) [ROne 32; ROne 32] = Ok [1; 2]%N.
Proof.
  exists [0; 0; 0; 1; 0; 0; 0; 2]%N. intros oc.
  split; [repeat (apply Forall_cons; [reflexivity|]); apply Forall_nil|]. split; destruct oc; vm_compute; reflexivity.
Qed.
Print Assumptions C04_read2_width32_refuted.

Example C04_case :
  run_rops true (reader_new (mk_source [1; 2; 3; 4; 5; 6; 7; 8; 9]%N [3])) [RBit; RTwo 31; RTwo 4]
  = run_rops true (reader_new (mk_source [1; 2; 3; 4; 5; 6; 7; 8; 9]%N [3]))
             [RBit; ROne 31; ROne 31; ROne 4; ROne 4].
Proof. vm_compute. reflexivity. Qed.

(** C05. A triple read can be replaced by three single reads. *)
Theorem C05_read3_is_three_reads : forall oc data sched pre post w,
  bytes_ok data -> Forall rop_ok pre -> Forall rop_ok post ->
  0 < w < 64 -> w <> 32 ->
  run_rops oc (reader_new (mk_source data sched)) (pre ++ RThree w :: post)
  = run_rops oc (reader_new (mk_source data sched)) (pre ++ [ROne w; ROne w; ROne w] ++ post).
Proof. intros. apply (rop_replace oc data sched pre post (RThree w) [w; w; w]); cbn; auto. Qed.
Print Assumptions C05_read3_is_three_reads.

Theorem C05_read3_width0_panics : forall r, read3_unaligned true r 0 = Panic.
Proof. reflexivity. Qed.
Print Assumptions C05_read3_width0_panics.

Theorem C05_read3_width32_refuted : exists data, forall oc,
  bytes_ok data /\
  run_rops oc (reader_new (slice data)) [RThree 32] = Ok [0; 0; 1]%N /\
  run_rops oc (reader_new (slice data)) [ROne 32; ROne 32; ROne 32] = Ok [1; 2; 3]%N.
Proof.
  exists [0; 0; 0; 1; 0; 0; 0; 2; 0; 0; 0; 3]%N. intros oc.
  split; [repeat (apply Forall_cons; [reflexivity|]); apply Forall_nil|]. split; destruct oc; vm_compute; reflexivity.
Qed.
Print Assumptions C05_read3_width32_refuted.

(** C06. The mixed-width read with equal widths. *)
Theorem C06_pair_equal_widths : forall oc data sched pre post w,
  bytes_ok data -> Forall rop_ok pre -> Forall rop_ok post ->
  0 < w -> w + w < 64 ->
  run_rops oc (reader_new (mk_source data sched)) (pre ++ RPair w w :: post)
  = run_rops oc (reader_new (mk_source data sched)) (pre ++ [ROne w; ROne w] ++ post).
Proof. intros. apply (rop_replace oc data sched pre post (RPair w w) [w; w]); cbn; auto. Qed.
Print Assumptions C06_pair_equal_widths.

(** C06. With different widths both values are wrong. *)
Theorem C06_pair_mixed_widths_refuted : exists data, forall oc,
  bytes_ok data /\
  run_rops oc (reader_new (slice data)) [RPair 4 8] = Ok [171; 12]%N /\
  run_rops oc (reader_new (slice data)) [ROne 4; ROne 8] = Ok [10; 188]%N.
Proof.
  exists [171; 205]%N. intros oc.
  split; [repeat (apply Forall_cons; [reflexivity|]); apply Forall_nil|]. split; destruct oc; vm_compute; reflexivity.
Qed.
Print Assumptions C06_pair_mixed_widths_refuted.
