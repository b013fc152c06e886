(** Specification vocabulary for bit streams, independent of the model.
    A bit stream is a [list bool], first bit of the stream first. *)
From Coq Require Import List NArith.
Import ListNotations.

(** The low [n] bits of [v], most significant first. *)
Fixpoint bits (n : nat) (v : N) : list bool :=
  match n with
  | O => []
  | S k => N.testbit v (N.of_nat k) :: bits k v
  end.

(** The number written by a bit string, most significant bit first. *)
Definition of_bits (l : list bool) : N :=
  fold_left (fun acc b => (2 * acc + N.b2n b)%N) l 0%N.

(** The bit stream carried by a byte string. *)
Definition bits_of_bytes (l : list N) : list bool := flat_map (bits 8) l.

(** Number of bytes needed for [n] bits. *)
Definition bytes_for_bits (n : nat) : nat := Nat.div (n + 7) 8.

(** A byte string carries the bit string [l] zero padded: same bits, then
    fewer than eight zeros. *)
Definition packs (bytes : list N) (l : list bool) : Prop :=
  Forall (fun b => (b < 256)%N) bytes /\
  length bytes = bytes_for_bits (length l) /\
  exists pad, bits_of_bytes bytes = l ++ repeat false pad.

(** The bits contributed by a list of (width, value) fields. *)
Definition field_bits (fs : list (nat * N)) : list bool :=
  flat_map (fun f => bits (fst f) (snd f)) fs.

(** Reading fields of the given widths off a bit stream: the values, or [None]
    when the stream is too short. *)
Fixpoint take_fields (l : list bool) (ws : list nat) : option (list N) :=
  match ws with
  | [] => Some []
  | w :: t =>
    if Nat.leb w (length l)
    then option_map (cons (of_bits (firstn w l))) (take_fields (skipn w l) t)
    else None
  end.
