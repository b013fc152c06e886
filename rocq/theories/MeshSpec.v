(** What the operations on meshes in memory must do. Independent of the model. *)
From Coq Require Import List NArith ZArith Arith Bool.
From Verif Require Import FileSpec.
Import ListNotations.

(** [looks_up data indices buffer]: the buffer holds the indexed elements in order. *)
Definition looks_up {A} (data : list A) (indices : list N) (buffer : list A) : Prop :=
  Forall2 (fun i x => nth_error data (N.to_nat i) = Some x) indices buffer.
Definition in_range {A} (data : list A) (indices : list N) : Prop :=
  Forall (fun i => (i < len data)%N) indices.
(** Indices are 32 bit numbers. *)
Definition u32_all (l : list N) : Prop := Forall (fun i => (i < 2 ^ 32)%N) l.

(** [first_use n indices m]: reading from left to right, when the numbers below [n]
    are known, every number is known or the next one; in the end those below [m] are. *)
Inductive first_use : N -> list N -> N -> Prop :=
| fu_nil n : first_use n [] n
| fu_known n i t m : (i < n)%N -> first_use n t m -> first_use n (i :: t) m
| fu_next n t m : first_use (n + 1) t m -> first_use n (n :: t) m.

(** [compacted t d t' d']: [d'] holds the elements of [d] that are used by [t], each
    index once, and [t'] numbers them in the order of first use. *)
Definition compacted {A} (t : list N) (d : list A) (t' : list N) (d' : list A) : Prop :=
  exists used, NoDup used /\ (forall i, In i used <-> In i t) /\ looks_up d used d' /\
    first_use 0 t' (len d') /\
    Forall2 (fun i i' => nth_error used (N.to_nat i') = Some i) t t'.

(** What reordering does to one attribute: nothing if it has no data or no indices,
    otherwise it is compacted. *)
Definition nothing_to_do {A} (d : option (list A)) (t : option (list N)) : Prop :=
  d = None \/ t = None \/ d = Some [] \/ t = Some [].
Definition reordered {A} (d : option (list A)) (t : option (list N)) (d' : option (list A)) (t' : option (list N)) : Prop :=
  (nothing_to_do d t /\ d' = d /\ t' = t) \/
  (exists d0 t0 d1 t1, d = Some d0 /\ t = Some t0 /\ d' = Some d1 /\ t' = Some t1 /\ in_range d0 t0 /\ compacted t0 d0 t1 d1).
Definition reorderable {A} (d : option (list A)) (t : option (list N)) : Prop :=
  nothing_to_do d t \/ exists d0 t0, d = Some d0 /\ t = Some t0 /\ in_range d0 t0.
Definition u32_opt (t : option (list N)) : Prop := forall l, t = Some l -> u32_all l.

(** An attribute takes part in unification when it has data and an index array. *)
Definition usable {A} (d : option (list A)) (t : option (list N)) : Prop :=
  exists x l i, d = Some (x :: l) /\ t = Some i.
(** [fits n d t]: the index array, if there is data for it, has [n] in-range entries. *)
Definition fits {A} (n : nat) (d : option (list A)) (t : option (list N)) : Prop :=
  forall d0 i0, d = Some d0 -> t = Some i0 -> length i0 = n /\ in_range d0 i0.
(** What unification does to one attribute: nothing if it does not take part,
    otherwise it gets the shared index array and [n] elements. *)
Definition unified {A} (idx : list N) (n : N) (d : option (list A)) (t : option (list N))
  (d' : option (list A)) (t' : option (list N)) : Prop :=
  (~ usable d t /\ d' = d /\ t' = t) \/
  (usable d t /\ exists d0 t0 d1, d = Some d0 /\ t = Some t0 /\ d' = Some d1 /\ t' = Some idx /\
     in_range d0 t0 /\ length t0 = length idx /\ len d1 = n).
(** Positions [p] and [q] of the index array, if the attribute takes part, are equal. *)
Definition same_at {A} (d : option (list A)) (t : option (list N)) (p q : nat) : Prop :=
  usable d t -> forall i, t = Some i -> nth_error i p = nth_error i q.
(** Two attributes, if both take part, have the same index array. *)
Definition shared {A B} (a : option (list A)) (ta : option (list N)) (b : option (list B)) (tb : option (list N)) : Prop :=
  usable a ta -> usable b tb -> ta = tb.
(** At most 2^32 entries, so that elements can be numbered. *)
Definition short (t : option (list N)) : Prop := forall i, t = Some i -> (len i <= 2 ^ 32)%N.

(** ** Histories of calls *)
(** What a call does to one attribute. *)
Inductive event (A : Type) := Replace (l : list A) | Extend (l : list A).
Arguments Replace {A}. Arguments Extend {A}.
Definition payload {A} (e : event A) : list A := match e with Replace l => l | Extend l => l end.
Definition extends {A} (e : event A) : Prop := match e with Extend _ => True | Replace _ => False end.
(** [holds evs v]: after the events the attribute is [v]: absent if there was none,
    otherwise everything since the last replacement. *)
Definition holds {A} (evs : list (event A)) (v : option (list A)) : Prop :=
  (evs = [] /\ v = None) \/
  exists before e after, evs = before ++ e :: after /\ (before = [] \/ ~ extends e) /\ Forall extends after /\
    v = Some (payload e ++ concat (map payload after)).

(** ** Verification *)
(** Absent data has no indices; every index is at most the number of elements. *)
Definition indices_at_most {A} (d : option (list A)) (t : option (list N)) : Prop :=
  match t with
  | None => True
  | Some i => exists l, d = Some l /\ Forall (fun k => (k <= len l)%N) i
  end.
Definition u32_length {A} (d : option (list A)) : Prop := forall l, d = Some l -> (len l < 2 ^ 32)%N.
(** The first element of a list with a property. *)
Definition first_with {A} (P : A -> Prop) (l : list A) (x : A) : Prop :=
  exists before after, l = before ++ x :: after /\ P x /\ Forall (fun y => ~ P y) before.
(** What is wrong with an index array: its data is [missing], or its first entry
    beyond the number of elements is [outside]. *)
Definition index_problem {A E} (missing : E) (outside : N -> N -> E) (d : option (list A)) (t : option (list N)) (e : E) : Prop :=
  exists i, t = Some i /\
    ((d = None /\ e = missing) \/
     exists l k, d = Some l /\ first_with (fun k => (len l < k)%N) i k /\ e = outside k (len l)).
