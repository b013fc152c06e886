(** Common vocabulary of the model: outcomes, machine integers, byte strings.
    Nothing in this file is specific to the tmf crate. *)
From Coq Require Import List NArith ZArith Arith Lia Bool.
Import ListNotations.

(** Outcome of a Rust function: [Ok v] / [Err e] are the two constructors of
    [Result]; [Panic] is an unwinding panic. *)
Inductive res (E A : Type) : Type :=
| Ok (a : A)
| Err (e : E)
| Panic.
Arguments Ok {E A} _.
Arguments Err {E A} _.
Arguments Panic {E A}.

Definition bind {E A B} (m : res E A) (f : A -> res E B) : res E B :=
  match m with
  | Ok a => f a
  | Err e => Err e
  | Panic => Panic
  end.

(** [map_err]: conversion applied by the [?] operator through [From]. *)
Definition map_err {E F A} (g : E -> F) (m : res E A) : res F A :=
  match m with
  | Ok a => Ok a
  | Err e => Err (g e)
  | Panic => Panic
  end.

Declare Scope res_scope.
Delimit Scope res_scope with res.
Notation "'let*' p ':=' m 'in' k" :=
  (bind m (fun p => k))
  (at level 200, p pattern, m at level 100, k at level 200, right associativity) : res_scope.
Open Scope res_scope.

(** A byte string is a list of [N]; [bytes_ok] says that each is a byte. *)
Definition byte_ok (b : N) : Prop := (b < 256)%N.
Definition bytes_ok (l : list N) : Prop := Forall byte_ok l.

Definition two64 : N := 2 ^ 64.
Definition two32 : N := 2 ^ 32.

(** Rust [<<] on u64 by a u8 amount: with overflow checks ([oc = true]) an
    amount of 64 or more panics, otherwise the amount is taken modulo 64. *)
Definition shl64 {E} (oc : bool) (x : N) (k : nat) : res E N :=
  if k <? 64 then Ok (N.shiftl x (N.of_nat k) mod two64)%N
  else if oc then Panic
  else Ok (N.shiftl x (N.of_nat (k mod 64)) mod two64)%N.

(** Rust [>>] on u64 by a u8 amount. *)
Definition shr64 {E} (oc : bool) (x : N) (k : nat) : res E N :=
  if k <? 64 then Ok (N.shiftr x (N.of_nat k))
  else if oc then Panic
  else Ok (N.shiftr x (N.of_nat (k mod 64))).

(** Rust [+], [-] on u8 values kept as [nat]. *)
Definition add8 {E} (oc : bool) (a b : nat) : res E nat :=
  if a + b <? 256 then Ok (a + b) else if oc then Panic else Ok ((a + b) mod 256).
Definition sub8 {E} (oc : bool) (a b : nat) : res E nat :=
  if b <=? a then Ok (a - b) else if oc then Panic else Ok ((a + 256 - b) mod 256).

(** Rust [+] on u64. *)
Definition add64 {E} (oc : bool) (a b : N) : res E N :=
  if (a + b <? two64)%N then Ok (a + b)%N
  else if oc then Panic else Ok ((a + b) mod two64)%N.

(** Rust [-] and [*] on u64 / usize. *)
Definition sub64 {E} (oc : bool) (a b : N) : res E N :=
  if (b <=? a)%N then Ok (a - b)%N
  else if oc then Panic else Ok ((a + two64 - b) mod two64)%N.
Definition mul64 {E} (oc : bool) (a b : N) : res E N :=
  if (a * b <? two64)%N then Ok (a * b)%N
  else if oc then Panic else Ok ((a * b) mod two64)%N.

(** [as isize] from usize, and Rust [-] on isize. *)
Definition to_isize (a : N) : Z :=
  if (a <? 2 ^ 63)%N then Z.of_N a else (Z.of_N a - 2 ^ 64)%Z.
Definition isize_min : Z := (- 2 ^ 63)%Z.
Definition sub_isize {E} (oc : bool) (a b : Z) : res E Z :=
  if ((isize_min <=? a - b) && (a - b <? 2 ^ 63))%Z then Ok (a - b)%Z
  else if oc then Panic else Ok ((a - b + 2 ^ 63) mod 2 ^ 64 - 2 ^ 63)%Z.

(** Little-endian encoding of an unsigned integer on [n] bytes ([to_le_bytes]),
    truncating like an [as] cast to the n-byte type. *)
Fixpoint le_bytes (n : nat) (v : N) : list N :=
  match n with
  | O => []
  | S k => (v mod 256)%N :: le_bytes k (v / 256)%N
  end.
(** [from_le_bytes]. *)
Fixpoint of_le_bytes (l : list N) : N :=
  match l with
  | [] => 0%N
  | b :: t => (b + 256 * of_le_bytes t)%N
  end.
(** [from_be_bytes]. *)
Definition of_be_bytes (l : list N) : N :=
  fold_left (fun acc b => (acc * 256 + b)%N) l 0%N.
