(** Specification of the text of numbers: which texts denote which real number, which float is
    nearest to it, and which decimals are the shortest for a float. Independent of the printer
    and the parser. *)
From Coq Require Import List NArith ZArith Reals Bool.
From Flocq Require Import Core IEEE754.BinarySingleNaN.
From Verif Require Import ObjSpec.
Import ListNotations.
Local Open Scope R_scope.

(** [d * 10^j] *)
Definition ten : radix := Build_radix 10 eq_refl.
Definition dec (d : N) (j : Z) : R := IZR (Z.of_N d) * bpow ten j.

(** An optional sign. *)
Definition sign_text (s : list N) (neg : bool) : Prop :=
  (s = [] /\ neg = false) \/ (s = [43%N] /\ neg = false) \/ (s = [45%N] /\ neg = true).
(** An optional exponent: e or E, an optional sign, at least one digit. *)
Definition exponent_text (s : list N) (e : Z) : Prop :=
  (s = [] /\ e = 0%Z) \/
  exists c sg neg ds, (c = 101%N \/ c = 69%N) /\ sign_text sg neg /\ ds <> [] /\ Forall digit ds /\ s = c :: sg ++ ds /\
    e = (if neg then - Z.of_N (decimal ds) else Z.of_N (decimal ds))%Z.
(** The text of a number: a sign, digits [i], a point and digits [f] (there is a digit in one of
    them, and the point can be left out if [f] is empty), an exponent. Its absolute value is [v]. *)
Definition decimal_text (s : list N) (neg : bool) (v : R) : Prop :=
  exists sg i p f x e, s = sg ++ i ++ p ++ f ++ x /\ sign_text sg neg /\ Forall digit i /\ Forall digit f /\ i ++ f <> [] /\
    (p = [46%N] \/ (p = [] /\ f = [])) /\ exponent_text x e /\ v = dec (decimal (i ++ f)) (e - Z.of_nat (length f)).

(** Letters are the same in upper and lower case. *)
Definition same_letter (c l : N) : Prop := c = l \/ c = (l - 32)%N.
Definition is_word (s w : list N) : Prop := Forall2 same_letter s w.
Definition nan_word : list N := [110; 97; 110]%N.
Definition inf_word : list N := [105; 110; 102]%N.
Definition infinity_word : list N := [105; 110; 102; 105; 110; 105; 116; 121]%N.

Section Nearest.
Variables prec emax : Z.
(** Rounding to the nearest float, ties to even, as if there were no largest float. *)
Definition rounded (v : R) : R := round radix2 (FLT_exp (3 - emax - prec) prec) ZnearestE v.
(** [x] is the float with sign [neg] nearest to the absolute value [v]. *)
Definition nearest_to (neg : bool) (v : R) (x : binary_float prec emax) : Prop :=
  (rounded v < bpow radix2 emax /\ is_finite x = true /\ Bsign x = neg /\ B2R x = (if neg then - rounded v else rounded v)) \/
  (bpow radix2 emax <= rounded v /\ x = B754_infinity neg).
(** What a text stands for. *)
Definition stands_for_float (s : list N) (x : binary_float prec emax) : Prop :=
  (exists neg v, decimal_text s neg v /\ nearest_to neg v x) \/
  (exists sg neg w, s = sg ++ w /\ sign_text sg neg /\
    ((is_word w nan_word /\ x = B754_nan) \/ ((is_word w inf_word \/ is_word w infinity_word) /\ x = B754_infinity neg))).
(** [k * 10^j] is a shortest decimal for [v]: it rounds to [v], no multiple of a larger power of
    ten does, and no multiple of this power of ten that does is nearer to [v]. *)
Record shortest_for (v : R) (k : N) (j : Z) : Prop := {
  short_rounds : rounded (dec k j) = v;
  short_coarsest : forall k' j', (j < j')%Z -> rounded (dec k' j') <> v;
  short_nearest : forall k', rounded (dec k' j) = v -> Rabs (dec k j - v) <= Rabs (dec k' j - v) }.
End Nearest.
