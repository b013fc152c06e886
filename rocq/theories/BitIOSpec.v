(** What a history of bit-reader calls should mean: each call reads a fixed list
    of fields off the stream. Uses only the call datatype of the model. *)
From Coq Require Import List NArith.
From Verif Require Import Base BitSpec UnalignedRW.
Import ListNotations.

(** The field widths a call is meant to read. *)
Definition rop_widths (op : rop) : list nat :=
  match op with
  | RBit => [1]
  | ROne w => [w]
  | RTwo w => [w; w]
  | RThree w => [w; w; w]
  | RPair w1 w2 => [w1; w2]
  end.

(** The calls on which the reader is correct. *)
Definition rop_ok (op : rop) : Prop :=
  match op with
  | RBit => True
  | ROne w => w < 64
  | RTwo w => w < 64 /\ w <> 32
  | RThree w => 0 < w < 64 /\ w <> 32
  | RPair w1 w2 => 0 < w1 /\ w1 = w2 /\ w1 + w2 < 64
  end.

(** Running out of bits is reported as an unexpected end of file. *)
Definition of_option {A} (o : option A) : res ioerr A :=
  match o with Some a => Ok a | None => Err UnexpectedEof end.

(** Keep only the values of a read, not the reader. *)
Definition values {A B} (m : res ioerr (A * B)) : res ioerr A :=
  match m with Ok p => Ok (fst p) | Err e => Err e | Panic => Panic end.
