(** How the standard library prints and parses floats, which src/obj.rs calls: [{}] in its
    L128, L138 and L147, and [parse] in its L43. Modelled here from the documentation of
    core::num::dec2flt and core::num::flt2dec, for both types that src/lib.rs can choose as
    FloatType (prec = 24, emax = 128 for f32 and prec = 53, emax = 1024 for f64). *)
From Coq Require Import List NArith ZArith Arith Bool.
From Flocq Require Import Core.Zaux Core.Digits Core.Defs Calc.Bracket Calc.Div IEEE754.BinarySingleNaN.
From Verif Require Import Base Floats Unify Obj.
Import ListNotations.

Section Text.
Variables prec emax : Z.

(** Decimal digits at the front: the number [acc] continued by them, how many, and the rest. *)
Fixpoint take_digits (l : list N) (acc : N) (k : nat) : N * nat * list N :=
  match l with
  | c :: t => if ((48 <=? c) && (c <=? 57))%N then take_digits t (acc * 10 + (c - 48))%N (S k) else (acc, k, l)
  | [] => (acc, k, [])
  end.
(** The digits of an exponent, which no longer count once it has reached 65536. *)
Fixpoint take_exponent (l : list N) (acc : N) : N * list N :=
  match l with
  | c :: t =>
    if ((48 <=? c) && (c <=? 57))%N then take_exponent t (if (acc <? 65536)%N then (acc * 10 + (c - 48))%N else acc)
    else (acc, l)
  | [] => (acc, [])
  end.
Definition take_sign (l : list N) : bool * list N :=
  match l with
  | c :: t => if (c =? 45)%N then (true, t) else if (c =? 43)%N then (false, t) else (false, l)
  | [] => (false, [])
  end.
(** What follows the e of an exponent, up to the end of the text. *)
Definition parse_exponent (l : list N) : option Z :=
  let (neg, l) := take_sign l in
  match l with
  | c :: _ =>
    if ((48 <=? c) && (c <=? 57))%N then
      match take_exponent l 0 with
      | (n, []) => Some (if neg then (- Z.of_N n)%Z else Z.of_N n)
      | _ => None
      end
    else None
  | [] => None
  end.
(** A number without its sign: its digits and the power of ten they are multiplied by. *)
Definition parse_number (l : list N) : option (N * Z) :=
  let '(i, a, l) := take_digits l 0 0 in
  let '(d, b, l) := match l with
                    | c :: t => if (c =? 46)%N then take_digits t i 0 else (i, 0, l)
                    | [] => (i, 0, [])
                    end in
  if a + b =? 0 then None
  else match l with
       | [] => Some (d, (- Z.of_nat b)%Z)
       | c :: t =>
         if ((c =? 101) || (c =? 69))%N then
           match parse_exponent t with Some e => Some (d, (e - Z.of_nat b)%Z) | None => None end
         else None
       end.
(** The words nan, inf and infinity, in upper or lower case. *)
Definition lower (c : N) : N := if ((65 <=? c) && (c <=? 90))%N then (c + 32)%N else c.
Definition word_nan : list N := [110; 97; 110]%N.
Definition word_inf : list N := [105; 110; 102]%N.
Definition word_infinity : list N := [105; 110; 102; 105; 110; 105; 116; 121]%N.
Definition parse_word (neg : bool) (l : list N) : option (binary_float prec emax) :=
  let w := map lower l in
  if list_eqb w word_nan then Some B754_nan
  else if list_eqb w word_inf || list_eqb w word_infinity then Some (B754_infinity neg)
  else None.

(** The float nearest to a quotient of positive numbers, with the given sign: ties to even, infinity if it is too large. The
    quotient is bracketed between two floats by Flocq's division and rounded by Flocq's rounding. *)
Definition of_SF (x : SpecFloat.spec_float) : binary_float prec emax :=
  match x with
  | SpecFloat.S754_zero s => B754_zero s
  | SpecFloat.S754_infinity s => B754_infinity s
  | SpecFloat.S754_nan => B754_nan
  | SpecFloat.S754_finite s m e =>
    match SpecFloat.bounded prec emax m e as b return SpecFloat.bounded prec emax m e = b -> binary_float prec emax with
    | true => fun H => B754_finite s m e H
    | false => fun _ => B754_nan
    end eq_refl
  end.
Definition nearest (neg : bool) (n d : Z) : binary_float prec emax :=
  let '(m, e, l) := Fdiv (SpecFloat.fexp prec emax) (Float radix2 n 0) (Float radix2 d 0) in
  of_SF (binary_round_aux prec emax mode_NE neg m e l).
(** The float nearest to [d * 10^j]. *)
Definition of_decimal (neg : bool) (d : N) (j : Z) : binary_float prec emax :=
  if (d =? 0)%N then B754_zero neg
  else if (0 <=? j)%Z then nearest neg (Z.of_N d * 10 ^ j) 1
  else nearest neg (Z.of_N d) (10 ^ (- j)).
(** FromStr for a float type. *)
Definition parse_float (l : list N) : option (binary_float prec emax) :=
  let (neg, t) := take_sign l in
  match t with
  | [] => None
  | _ =>
    match parse_number t with
    | Some (d, j) => Some (of_decimal neg d j)
    | None => parse_word neg t
    end
  end.

(** Display. The digits are those of the coarsest decimal grid on which a neighbour of [x] parses
    as [x], and the nearer neighbour of the two (the upper one if they are equally near). [x] is
    positive and equal to [n / d]; below the smallest exponent everything is on the grid. *)
Definition parses_as (x : binary_float prec emax) (k : N) (j : Z) : bool := Beqb (of_decimal false k j) x.
(** [floor (n / d / 10^j)], and whether the remainder is at least half of the grid. *)
Definition grid (n d j : Z) : N * bool :=
  let n' := if (0 <=? j)%Z then n else (n * 10 ^ (- j))%Z in
  let d' := if (0 <=? j)%Z then (d * 10 ^ j)%Z else d in
  (Z.to_N (n' / d'), (d' <=? 2 * (n' mod d'))%Z).
Fixpoint shortest (fuel : nat) (x : binary_float prec emax) (n d j : Z) : N * Z :=
  let (k, up) := grid n d j in
  match fuel with
  | O => (k, j)
  | S fuel =>
    let a := parses_as x k j in
    let b := parses_as x (k + 1)%N j in
    if a && b then (if up then (k + 1)%N else k, j)
    else if a then (k, j)
    else if b then ((k + 1)%N, j)
    else shortest fuel x n d (j - 1)
  end.
(** A grid that is coarser than any number of [k] bits. *)
Definition coarse (k : Z) : Z := if (0 <=? k)%Z then (k / 3 + 1)%Z else (k / 4 + 1)%Z.
Definition digits_of (m : positive) (e : Z) (x : binary_float prec emax) : N * Z :=
  let j := coarse (Zdigits radix2 (Zpos m) + e) in
  shortest (Z.to_nat (j - Z.min 0 e)) x (if (0 <=? e)%Z then (Zpos m * 2 ^ e)%Z else Zpos m)
    (if (0 <=? e)%Z then 1%Z else (2 ^ (- e))%Z) j.
(** The digits of [k * 10^j] without an exponent. *)
Definition show_decimal (k : N) (j : Z) : list N :=
  let ds := show_digits (S (N.size_nat k)) k [] in
  if (0 <=? j)%Z then ds ++ repeat 48%N (Z.to_nat j)
  else
    let f := Z.to_nat (- j) in
    if f <? length ds then firstn (length ds - f) ds ++ [46]%N ++ skipn (length ds - f) ds
    else [48; 46]%N ++ repeat 48%N (f - length ds) ++ ds.
Definition show_sign (s : bool) : list N := if s then [45]%N else [].
Definition show_float (x : binary_float prec emax) : list N :=
  match x with
  | B754_nan => [78; 97; 78]%N
  | B754_infinity s => show_sign s ++ word_inf
  | B754_zero s => show_sign s ++ [48]%N
  | B754_finite s m e H =>
    let (k, j) := digits_of m e (B754_finite false m e H) in show_sign s ++ show_decimal k j
  end.
End Text.

(** The text of f32. *)
Definition std_text : float_text := mk_float_text (show_float 24 128) (parse_float 24 128).
