(** Model of the splitting of index arrays: src/tmf_exporter.rs L215-280. *)
From Coq Require Import List NArith ZArith Arith Bool.
From Verif Require Import Base Triangles.
Import ListNotations.
Open Scope res_scope.

(** The recursion of opt_tris is on shorter and shorter slices; the model runs it
    with fuel and this error stands for having used it up (the Rust function has
    no error outcome). *)
Inductive no_fuel := OutOfFuel.

(* src/tmf_exporter.rs L215-216 : TMF_SEG_SIZE = 1 + 4 + 1 *)
Definition TMF_SEG_SIZE : N := 6.

(* src/tmf_exporter.rs L217-226 : calc_spilt_score *)
Definition calc_split_score {E} (oc : bool) (len : nat) (d0 d1 : N) : res E Z :=
  let* gain_bits := sub64 oc (N.of_nat (calc_prec d0)) (N.of_nat (calc_prec d1)) in
  let* g := mul64 oc gain_bits (N.of_nat len) in
  let gain := to_isize g in
  let loss := to_isize ((TMF_SEG_SIZE + 1 + 4) * 8) in
  sub_isize oc gain loss.

(* src/tmf_exporter.rs L232-239 : first scan. [pre_max] is max_index. *)
Fixpoint scan_max {E} (oc : bool) (tris : list N) (index : nat) (max_index total_max : N)
  (best : Z * nat) : res E (Z * nat) :=
  match tris with
  | [] => Ok best
  | tri :: t =>
    let max_index := N.max max_index tri in
    let* score := calc_split_score oc index total_max max_index in
    scan_max oc t (S index) max_index total_max
             (if (fst best <? score)%Z then (score, index) else best)
  end.

(* src/tmf_exporter.rs L257-264 : second scan *)
Fixpoint scan_min {E} (oc : bool) (tris : list N) (index : nat) (min_index total_min : N)
  (best : Z * nat) : res E (Z * nat) :=
  match tris with
  | [] => Ok best
  | tri :: t =>
    let min_index := N.min min_index tri in
    let* score := calc_split_score oc index min_index total_min in
    scan_min oc t (S index) min_index total_min
             (if (fst best <? score)%Z then (score, index) else best)
  end.

(* src/tmf_exporter.rs L227-280 : opt_tris. split_at panics past the end. *)
Definition split_at {E A} (l : list A) (i : nat) : res E (list A * list A) :=
  if i <=? length l then Ok (firstn i l, skipn i l) else Panic.

Fixpoint opt_tris_fuel (oc : bool) (fuel : nat) (tris : list N) : res no_fuel (list (list N)) :=
  match fuel with
  | O => Err OutOfFuel
  | S fuel' =>
    let* best := scan_max oc tris 0 0 (max_or 1 tris) (isize_min, 0) in
    if (0 <? fst best)%Z then
      let* (s1, s2) := split_at tris (snd best) in
      let* r_1 := opt_tris_fuel oc fuel' s1 in
      let* r_2 := opt_tris_fuel oc fuel' s2 in
      Ok (r_1 ++ r_2)
    else
      let* best := scan_min oc tris 0 (two32 - 1) (min_or 1 tris) (isize_min, 0) in
      if (0 <? fst best)%Z then
        let* (s1, s2) := split_at tris (snd best) in
        let* r_1 := opt_tris_fuel oc fuel' s1 in
        let* r_2 := opt_tris_fuel oc fuel' s2 in
        Ok (r_1 ++ r_2)
      else Ok [tris]
  end.

Definition opt_tris (oc : bool) (tris : list N) : res no_fuel (list (list N)) :=
  opt_tris_fuel oc (S (length tris)) tris.
