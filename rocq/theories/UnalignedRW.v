(** Model of src/unaligned_rw.rs (default features: storage is a 64-bit usize).
    Widths and bit counters (u8 in Rust) are [nat], stored words are [N]. *)
From Coq Require Import List NArith Arith Bool.
From Verif Require Import Base.
Import ListNotations.
Open Scope res_scope.

(** Errors of std::io::Error that the crate produces or forwards.
    Simplification: other errors of a source are not modelled here but in Stream.v. *)
Inductive ioerr : Type :=
| UnexpectedEof
| InvalidUtf8
| WriteFailed.

(** A byte source implementing [std::io::Read]: the bytes still to come, and a
    schedule that says how many bytes each of the next [read] calls delivers.
    An entry is clamped to 1..=buffer length; an exhausted schedule delivers as
    much as possible (which is what [&[u8]] does). *)
Record source := mk_source { s_data : list N; s_sched : list nat }.

Definition slice (l : list N) : source := mk_source l [].

(** [Read::read] into a buffer of [n] bytes. *)
Definition source_read (s : source) (n : nat) : list N * source :=
  let k := match s_sched s with
           | [] => n
           | k :: _ => Nat.max 1 (Nat.min k n)
           end in
  (firstn k (s_data s), mk_source (skipn k (s_data s)) (tl (s_sched s))).

(* src/unaligned_rw.rs L8-15 : struct UnalignedReader *)
Record reader := mk_reader { r_src : source; r_cur : N; r_bits_read : nat }.

(* src/unaligned_rw.rs L131-140 : UnalignedReader::new *)
Definition reader_new (s : source) : reader := mk_reader s 0 64.

(* src/unaligned_rw.rs L17-36 : UnalignedReader::read_to_internal_storage
   (the branch for a storage of one byte is dead on a 64-bit target). *)
Definition read_to_internal_storage (r : reader) : res ioerr reader :=
  let '(tmp, s') := source_read (r_src r) 8 in
  let bits_read := length tmp * 8 in
  if bits_read =? 0 then Err UnexpectedEof
  else Ok (mk_reader s' (of_be_bytes (tmp ++ repeat 0%N (8 - length tmp))) (64 - bits_read)).

(* src/unaligned_rw.rs L38-52 : UnalignedReader::read_bit *)
Definition read_bit (r : reader) : res ioerr (bool * reader) :=
  let* r1 := if 64 <=? r_bits_read r
             then (let* r' := read_to_internal_storage r in
                   if 64 - r_bits_read r' <? 1 then Err UnexpectedEof else Ok r')
             else Ok r in
  let res := N.land (r_cur r1) (2 ^ 63) in
  Ok (negb (res =? 0)%N,
      mk_reader (r_src r1) (N.shiftl (r_cur r1) 1 mod two64)%N (r_bits_read r1 + 1)).

(* src/unaligned_rw.rs L106-127 : the while loop of read_unaligned.
   [fuel] bounds the number of iterations (each consumes at least one bit);
   running out of fuel is modelled as [Panic] and proved unreachable. *)
Fixpoint read_loop (fuel : nat) (r : reader) (total_read : nat) (acc : N)
  : res ioerr (N * reader) :=
  if total_read =? 0 then Ok (acc, r)
  else match fuel with
       | O => Panic
       | S fuel' =>
         let* r1 := if 64 <=? r_bits_read r then read_to_internal_storage r else Ok r in
         let read_ammount := Nat.min total_read (64 - r_bits_read r1) in
         let acc1 := (N.shiftl acc (N.of_nat read_ammount) mod two64)%N in
         let read_offset := 64 - read_ammount in
         let acc2 := N.lor acc1 (N.shiftr (r_cur r1) (N.of_nat read_offset)) in
         let cur' := if read_ammount <? 64
                     then (N.shiftl (r_cur r1) (N.of_nat read_ammount) mod two64)%N
                     else r_cur r1 in
         read_loop fuel' (mk_reader (r_src r1) cur' (r_bits_read r1 + read_ammount))
                   (total_read - read_ammount) acc2
       end.

(* src/unaligned_rw.rs L98-129 : UnalignedReader::read_unaligned *)
Definition read_unaligned (r : reader) (mode : nat) : res ioerr (N * reader) :=
  if (mode =? 0) || (64 <=? mode) then Ok (0%N, r)
  else read_loop mode r mode 0.

(* src/unaligned_rw.rs L53-67 : UnalignedReader::read2_unaligned *)
Definition read2_unaligned (oc : bool) (r : reader) (mode : nat)
  : res ioerr ((N * N) * reader) :=
  if mode =? 0 then Ok ((0%N, 0%N), r)
  else if 32 <? mode then
    let* (a, r1) := read_unaligned r mode in
    let* (b, r2) := read_unaligned r1 mode in
    Ok ((a, b), r2)
  else
    let* (data, r1) := read_unaligned r (mode * 2) in
    let* v1 := shr64 oc data mode in
    let* t := shl64 oc data (64 - mode) in
    let* v2 := shr64 oc t (64 - mode) in
    Ok ((v1, v2), r1).

(* src/unaligned_rw.rs L68-82 : UnalignedReader::read_pair_unaligned *)
Definition read_pair_unaligned (oc : bool) (r : reader) (mode1 mode2 : nat)
  : res ioerr ((N * N) * reader) :=
  let* sum := add8 oc mode1 mode2 in
  if 64 <? sum then
    let* (a, r1) := read_unaligned r mode1 in
    let* (b, r2) := read_unaligned r1 mode2 in
    Ok ((a, b), r2)
  else
    let* (data, r1) := read_unaligned r sum in
    let* v1 := shr64 oc data mode1 in
    let* k := sub8 oc 64 mode1 in
    let* t := shl64 oc data k in
    let* v2 := shr64 oc t k in
    Ok ((v1, v2), r1).

(* src/unaligned_rw.rs L83-96 : UnalignedReader::read3_unaligned *)
Definition read3_unaligned (oc : bool) (r : reader) (mode : nat)
  : res ioerr ((N * N * N) * reader) :=
  if 21 <? mode then
    let* (p, r1) := read2_unaligned oc r mode in
    let* (c, r2) := read_unaligned r1 mode in
    Ok ((fst p, snd p, c), r2)
  else
    let* (data, r1) := read_unaligned r (mode * 3) in
    let* v1 := shr64 oc data (mode * 2) in
    let* t := shl64 oc data (64 - mode * 2) in
    let* r23 := shr64 oc t (64 - mode * 2) in
    let* v2 := shr64 oc r23 mode in
    let* t3 := shl64 oc r23 (64 - mode) in
    let* v3 := shr64 oc t3 (64 - mode) in
    Ok ((v1, v2, v3), r1).

(* src/unaligned_rw.rs L142-149 : struct UnalignedWriter.
   [w_out] is what has been passed to the inner writer so far. The BufWriter in
   between only delays bytes; it is drained by flush/drop, so it is not modelled. *)
Record writer := mk_writer { w_out : list N; w_next : N; w_written : nat }.

(* src/unaligned_rw.rs L163-172 : UnalignedWriter::new *)
Definition writer_new (sink : list N) : writer := mk_writer sink 0 0.

(* src/unaligned_rw.rs L187-214 : the while loop of write_unaligned *)
Fixpoint write_loop (fuel : nat) (w : writer) (total_write : nat) (data : N)
  : res ioerr writer :=
  if total_write =? 0 then Ok w
  else match fuel with
       | O => Panic
       | S fuel' =>
         let curr_write := Nat.min total_write (8 - w_written w) in
         let b := (N.shiftr data (N.of_nat (64 - curr_write)) mod 256)%N in
         let data' := (N.shiftl data (N.of_nat curr_write) mod two64)%N in
         let bit_offset := 8 - w_written w - curr_write in
         let curr_bits := (N.shiftl b (N.of_nat bit_offset) mod 256)%N in
         let next := N.lor (w_next w) curr_bits in
         let written := w_written w + curr_write in
         let w' := if 8 <=? written then mk_writer (w_out w ++ [next]) 0 0
                   else mk_writer (w_out w) next written in
         write_loop fuel' w' (total_write - curr_write) data'
       end.

(* src/unaligned_rw.rs L179-216 : UnalignedWriter::write_unaligned *)
Definition write_unaligned (oc : bool) (w : writer) (mode : nat) (data : N)
  : res ioerr writer :=
  if mode =? 0 then Ok w
  else
    let* k := sub8 oc 64 mode in
    let* data1 := shl64 oc data k in
    write_loop mode w mode data1.

(* src/unaligned_rw.rs L174-177 : UnalignedWriter::write_bit *)
Definition write_bit (oc : bool) (w : writer) (b : bool) : res ioerr writer :=
  write_unaligned oc w 1 (if b then 1%N else 0%N).

(* src/unaligned_rw.rs L150-161 : Drop for UnalignedWriter. Result: the final
   content of the sink. *)
Definition writer_finish (w : writer) : list N :=
  if 0 <? w_written w then w_out w ++ [w_next w] else w_out w.

(** Client loops: write a list of fields, read a list of widths. *)
Fixpoint write_fields (oc : bool) (w : writer) (fs : list (nat * N)) : res ioerr writer :=
  match fs with
  | [] => Ok w
  | (n, v) :: t => let* w' := write_unaligned oc w n v in write_fields oc w' t
  end.

Fixpoint read_fields (r : reader) (ws : list nat) : res ioerr (list N * reader) :=
  match ws with
  | [] => Ok ([], r)
  | n :: t =>
    let* (v, r1) := read_unaligned r n in
    let* (vs, r2) := read_fields r1 t in
    Ok (v :: vs, r2)
  end.

(** An arbitrary client of the reader: a history of calls. *)
Inductive rop : Type :=
| RBit
| ROne (mode : nat)
| RTwo (mode : nat)
| RThree (mode : nat)
| RPair (mode1 mode2 : nat).

(** One call; the values it returned, in order. *)
Definition run_rop (oc : bool) (r : reader) (op : rop) : res ioerr (list N * reader) :=
  match op with
  | RBit => let* (b, r') := read_bit r in Ok ([if b then 1%N else 0%N], r')
  | ROne m => let* (v, r') := read_unaligned r m in Ok ([v], r')
  | RTwo m => let* (p, r') := read2_unaligned oc r m in Ok ([fst p; snd p], r')
  | RThree m => let* (p, r') := read3_unaligned oc r m in
                Ok ([fst (fst p); snd (fst p); snd p], r')
  | RPair m1 m2 => let* (p, r') := read_pair_unaligned oc r m1 m2 in Ok ([fst p; snd p], r')
  end.

(** A history of calls; all the values returned. Stops at the first error. *)
Fixpoint run_rops (oc : bool) (r : reader) (ops : list rop) : res ioerr (list N) :=
  match ops with
  | [] => Ok []
  | op :: t =>
    let* (vs, r1) := run_rop oc r op in
    let* ws := run_rops oc r1 t in
    Ok (vs ++ ws)
  end.
