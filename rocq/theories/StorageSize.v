(** Model of the reader of src/unaligned_rw.rs for any size of the storage word
    (UnalignedStorage, a usize: 4 bytes on a 32-bit target, 2 on a 16-bit one). [sb] is
    the size in bytes; with [sb = 8] these are the definitions of UnalignedRW.v. *)
From Coq Require Import List NArith Arith Bool.
From Verif Require Import Base UnalignedRW.
Import ListNotations.
Open Scope res_scope.

(** [UNALIGNED_STORAGE_BITS] (src/unaligned_rw.rs L7) and [2 ^ UNALIGNED_STORAGE_BITS]. *)
Definition sbits (sb : nat) : nat := sb * 8.
Definition smod (sb : nat) : N := (2 ^ N.of_nat (sbits sb))%N.

(* src/unaligned_rw.rs L131-140 : UnalignedReader::new *)
Definition reader_new_sz (sb : nat) (s : source) : reader := mk_reader s 0 (sbits sb).
(* src/unaligned_rw.rs L17-36 : read_to_internal_storage. With one byte, read_exact
   repeats the read until it has the byte; a read of one byte delivers it at once. *)
Definition read_to_internal_storage_sz (sb : nat) (r : reader) : res ioerr reader :=
  let '(tmp, s') := source_read (r_src r) sb in
  let bits_read := length tmp * 8 in
  if sb =? 1 then
    match tmp with
    | [] => Err UnexpectedEof
    | b :: _ => Ok (mk_reader s' b 0)
    end
  else if bits_read =? 0 then Err UnexpectedEof
  else Ok (mk_reader s' (of_be_bytes (tmp ++ repeat 0%N (sb - length tmp))) (sbits sb - bits_read)).
(* src/unaligned_rw.rs L38-52 : read_bit *)
Definition read_bit_sz (sb : nat) (r : reader) : res ioerr (bool * reader) :=
  let* r1 := if sbits sb <=? r_bits_read r
             then (let* r' := read_to_internal_storage_sz sb r in
                   if sbits sb - r_bits_read r' <? 1 then Err UnexpectedEof else Ok r')
             else Ok r in
  let res := N.land (r_cur r1) (2 ^ N.of_nat (sbits sb - 1)) in
  Ok (negb (res =? 0)%N,
      mk_reader (r_src r1) (N.shiftl (r_cur r1) 1 mod smod sb)%N (r_bits_read r1 + 1)).
(* src/unaligned_rw.rs L106-127 : the while loop of read_unaligned *)
Fixpoint read_loop_sz (sb fuel : nat) (r : reader) (total_read : nat) (acc : N)
  : res ioerr (N * reader) :=
  if total_read =? 0 then Ok (acc, r)
  else match fuel with
       | O => Panic
       | S fuel' =>
         let* r1 := if sbits sb <=? r_bits_read r then read_to_internal_storage_sz sb r else Ok r in
         let read_ammount := Nat.min total_read (sbits sb - r_bits_read r1) in
         let acc1 := (N.shiftl acc (N.of_nat read_ammount) mod two64)%N in
         let read_offset := sbits sb - read_ammount in
         let acc2 := N.lor acc1 (N.shiftr (r_cur r1) (N.of_nat read_offset)) in
         let cur' := if read_ammount <? sbits sb
                     then (N.shiftl (r_cur r1) (N.of_nat read_ammount) mod smod sb)%N
                     else r_cur r1 in
         read_loop_sz sb fuel' (mk_reader (r_src r1) cur' (r_bits_read r1 + read_ammount))
                   (total_read - read_ammount) acc2
       end.
(* src/unaligned_rw.rs L98-129 : read_unaligned *)
Definition read_unaligned_sz (sb : nat) (r : reader) (mode : nat) : res ioerr (N * reader) :=
  if (mode =? 0) || (64 <=? mode) then Ok (0%N, r)
  else read_loop_sz sb mode r mode 0.
(* src/unaligned_rw.rs L53-67 : read2_unaligned *)
Definition read2_unaligned_sz (sb : nat) (oc : bool) (r : reader) (mode : nat)
  : res ioerr ((N * N) * reader) :=
  if mode =? 0 then Ok ((0%N, 0%N), r)
  else if 32 <? mode then
    let* (a, r1) := read_unaligned_sz sb r mode in
    let* (b, r2) := read_unaligned_sz sb r1 mode in
    Ok ((a, b), r2)
  else
    let* (data, r1) := read_unaligned_sz sb r (mode * 2) in
    let* v1 := shr64 oc data mode in
    let* t := shl64 oc data (64 - mode) in
    let* v2 := shr64 oc t (64 - mode) in
    Ok ((v1, v2), r1).
(* src/unaligned_rw.rs L68-82 : read_pair_unaligned *)
Definition read_pair_unaligned_sz (sb : nat) (oc : bool) (r : reader) (mode1 mode2 : nat)
  : res ioerr ((N * N) * reader) :=
  let* sum := add8 oc mode1 mode2 in
  if 64 <? sum then
    let* (a, r1) := read_unaligned_sz sb r mode1 in
    let* (b, r2) := read_unaligned_sz sb r1 mode2 in
    Ok ((a, b), r2)
  else
    let* (data, r1) := read_unaligned_sz sb r sum in
    let* v1 := shr64 oc data mode1 in
    let* k := sub8 oc 64 mode1 in
    let* t := shl64 oc data k in
    let* v2 := shr64 oc t k in
    Ok ((v1, v2), r1).
(* src/unaligned_rw.rs L83-96 : read3_unaligned *)
Definition read3_unaligned_sz (sb : nat) (oc : bool) (r : reader) (mode : nat)
  : res ioerr ((N * N * N) * reader) :=
  if 21 <? mode then
    let* (p, r1) := read2_unaligned_sz sb oc r mode in
    let* (c, r2) := read_unaligned_sz sb r1 mode in
    Ok ((fst p, snd p, c), r2)
  else
    let* (data, r1) := read_unaligned_sz sb r (mode * 3) in
    let* v1 := shr64 oc data (mode * 2) in
    let* t := shl64 oc data (64 - mode * 2) in
    let* r23 := shr64 oc t (64 - mode * 2) in
    let* v2 := shr64 oc r23 mode in
    let* t3 := shl64 oc r23 (64 - mode) in
    let* v3 := shr64 oc t3 (64 - mode) in
    Ok ((v1, v2, v3), r1).

(** One call and a history of calls, as in UnalignedRW.v. *)
Definition run_rop_sz (sb : nat) (oc : bool) (r : reader) (op : rop) : res ioerr (list N * reader) :=
  match op with
  | RBit => let* (b, r') := read_bit_sz sb r in Ok ([if b then 1%N else 0%N], r')
  | ROne m => let* (v, r') := read_unaligned_sz sb r m in Ok ([v], r')
  | RTwo m => let* (p, r') := read2_unaligned_sz sb oc r m in Ok ([fst p; snd p], r')
  | RThree m => let* (p, r') := read3_unaligned_sz sb oc r m in
                Ok ([fst (fst p); snd (fst p); snd p], r')
  | RPair m1 m2 => let* (p, r') := read_pair_unaligned_sz sb oc r m1 m2 in Ok ([fst p; snd p], r')
  end.
Fixpoint run_rops_sz (sb : nat) (oc : bool) (r : reader) (ops : list rop) : res ioerr (list N) :=
  match ops with
  | [] => Ok []
  | op :: t =>
    let* (vs, r1) := run_rop_sz sb oc r op in
    let* ws := run_rops_sz sb oc r1 t in
    Ok (vs ++ ws)
  end.
