(** Vocabulary of the statements about index arrays. *)
From Coq Require Import List NArith Arith.
From Verif Require Import Base Triangles.
Import ListNotations.

(** The settings the loader uses for files of the current version and for files of
    versions before 0.2 (P_File.v proves that it does). *)
Definition new_ctx : import_ctx := mk_ctx LenU32 TypeU8 true.
Definition old_ctx : import_ctx := mk_ctx LenU64 TypeU16 false.

Definition u32s (l : list N) : Prop := Forall (fun i => (i < 2 ^ 32)%N) l.
Definition all_le (m : N) (l : list N) : Prop := Forall (fun i => (i <= m)%N) l.

(** Smallest element, 0 for the empty array. *)
Fixpoint smallest (l : list N) : N :=
  match l with
  | [] => 0%N
  | [x] => x
  | x :: t => N.min x (smallest t)
  end.

(** What an array turns into when its fields are 32 bits wide: pairs load as the
    smallest element twice, and an odd element at the end loads as the first. *)
Definition wide_loss (tris : list N) : list N :=
  repeat (smallest tris) (2 * (length tris / 2)) ++
  (if length tris mod 2 =? 0 then [] else firstn 1 tris).
