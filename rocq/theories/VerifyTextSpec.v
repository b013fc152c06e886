(** Specification of property C89: errors and meshes with 32 bit numbers. *)
From Coq Require Import List NArith.
From Verif Require Import Mesh.
Import ListNotations.

(** The numbers in an error are 32 bit numbers. *)
Fixpoint ranged (e : integrity) : Prop :=
  match e with
  | IndexOutsideVertexArray i n | IndexOutsideNormalArray i n | IndexOutsideUVArray i n => (i < 2 ^ 32)%N /\ (n < 2 ^ 32)%N
  | CompositeError l => fold_right (fun e p => ranged e /\ p) True l
  | _ => True
  end.
(** All indices are 32 bit numbers. *)
Definition u32_indices (o : option (list N)) : Prop := forall l, o = Some l -> Forall (fun i => (i < 2 ^ 32)%N) l.
