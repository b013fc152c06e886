(** Specification of how accurately a program built with [double_precision] stores numbers, over
    the real numbers: as ValueSpec.v and VertexSpec.v, for f64. Nothing here refers to the encoder
    or the decoder. *)
From Coq Require Import List NArith Reals Bool.
From Flocq Require Import Core IEEE754.BinarySingleNaN.
From Verif Require Import Floats ValueSpec VertexSpec Double DoubleSpec DoubleSave.
Import ListNotations.
Local Open Scope R_scope.

(** A number in [0,1]; two numbers at most [e] apart. *)
Definition in_unit_d (x : f64) : Prop := finite64 x /\ 0 <= val64 x <= 1.
Definition within_d (e : R) (x y : f64) : Prop := Rabs (val64 y - val64 x) <= e.

(** Accuracy of the platform's base two logarithm on f64. The bound is far above the error of
    any real library. *)
Definition log2_64_ok (lm : libm64) : Prop := forall x, finite64 x -> 0 < val64 x ->
  finite64 (l_log2 lm x) /\ Rabs (val64 (l_log2 lm x) - log2 (val64 x)) <= / 2 ^ 30 * (1 + Rabs (log2 (val64 x))).

Definition finite3_d (a : dvec3) : Prop := finite64 (fst (fst a)) /\ finite64 (snd (fst a)) /\ finite64 (snd a).
(** The coordinates of a list of vertices. *)
Definition xs_d (l : list dvec3) : list R := map (fun v => val64 (fst (fst v))) l.
Definition ys_d (l : list dvec3) : list R := map (fun v => val64 (snd (fst v))) l.
Definition zs_d (l : list dvec3) : list R := map (fun v => val64 (snd v)) l.
(** Every coordinate is a finite number of at most [B] in absolute value. *)
Definition bounded_d (B : R) (v : dvec3) : Prop :=
  finite3_d v /\ Rabs (val64 (fst (fst v))) <= B /\ Rabs (val64 (snd (fst v))) <= B /\ Rabs (val64 (snd v)) <= B.

(** The six numbers stored with a vertex array, which mix the axes as in VertexSpec.v. *)
Record stored_box_d (vs : list dvec3) (x0 x1 y0 y1 z0 z1 : f64) : Prop := {
  box_finite_d : finite64 x0 /\ finite64 x1 /\ finite64 y0 /\ finite64 y1 /\ finite64 z0 /\ finite64 z1;
  box_x0_d : least (xs_d vs) (val64 x0);
  box_x1_d : greatest (xs_d (removelast vs) ++ ys_d vs) (val64 x1);
  box_y0_d : least (ys_d (removelast vs) ++ zs_d vs) (val64 y0);
  box_y1_d : greatest (xs_d vs ++ ys_d vs) (val64 y1);
  box_z0_d : least (ys_d vs ++ zs_d vs) (val64 z0);
  box_z1_d : greatest (zs_d vs) (val64 z1) }.
Definition between_d (lo hi x : f64) : Prop := val64 lo <= val64 x <= val64 hi.

(** The distance between two points, the sides of the triangles listed by a triangle array, and
    the length of the shortest (0.1 when there is no triangle). *)
Definition dist3_d (a b : dvec3) : R :=
  sqrt ((val64 (fst (fst a)) - val64 (fst (fst b))) * (val64 (fst (fst a)) - val64 (fst (fst b))) +
        (val64 (snd (fst a)) - val64 (snd (fst b))) * (val64 (snd (fst a)) - val64 (snd (fst b))) +
        (val64 (snd a) - val64 (snd b)) * (val64 (snd a) - val64 (snd b))).
Inductive side_of_d (vs : list dvec3) : list N -> R -> Prop :=
| side_first_d a b c t va vb vc d : nth_error vs (N.to_nat a) = Some va -> nth_error vs (N.to_nat b) = Some vb ->
    nth_error vs (N.to_nat c) = Some vc -> d = dist3_d va vb \/ d = dist3_d vb vc \/ d = dist3_d vc va ->
    side_of_d vs (a :: b :: c :: t) d
| side_later_d a b c t d : side_of_d vs t d -> side_of_d vs (a :: b :: c :: t) d.
Definition shortest_edge_d (vs : option (list dvec3)) (ts : option (list N)) (s : R) : Prop :=
  match ts, vs with
  | Some (i :: t), Some v => side_of_d v (i :: t) s /\ forall d, side_of_d v (i :: t) d -> s <= d
  | _, _ => s = 0.1
  end.

(** How a coordinate [x], stored with [p] bits between [lo] and [hi], loads as [y]: close to it
    when it lies between the bounds, whatever the width; as the lower bound when both bounds are
    equal or when it lies below the lower bound. [B] bounds all numbers involved; its multiples
    account for the rounding errors. *)
Record coordinate_stored_d (B : R) (p : nat) (lo hi x y : f64) : Prop := {
  cs_inside_d : between_d lo hi x ->
    finite64 y /\ val64 lo <= val64 y <= val64 hi + / 2 ^ 49 * B /\
    within_d (Rmax ((val64 hi - val64 lo) / (2 ^ p - 1)) 0.000001001 + / 2 ^ 48 * B) x y;
  cs_flat_d : val64 lo = val64 hi -> finite64 y /\ val64 y = val64 lo;
  cs_below_d : val64 x <= val64 lo -> finite64 y /\ val64 y = val64 lo }.

(** How far a vertex of a piece moves when [t] is the requested fraction of the shortest edge. *)
Definition piece_moved_d (B t : R) (a b : list dvec3) : Prop :=
  exists x0 x1 y0 y1 z0 z1, stored_box_d a x0 x1 y0 y1 z0 z1 /\
    Forall2 (fun v v' =>
      (between_d x0 x1 (fst (fst v)) -> finite64 (fst (fst v')) /\
         within_d (2.003 * t + 0.000001001 + / 2 ^ 48 * B) (fst (fst v)) (fst (fst v'))) /\
      (between_d y0 y1 (snd (fst v)) -> finite64 (snd (fst v')) /\
         within_d (2.003 * t + 0.000001001 + / 2 ^ 48 * B) (snd (fst v)) (snd (fst v'))) /\
      finite64 (snd v') /\
      within_d (2.003 * t * ((val64 z1 - val64 z0) / Rmax (val64 y1 - val64 y0) 0.000001) + 0.000001001 + / 2 ^ 48 * B)
        (snd v) (snd v')) a b.

(** Every number is finite and at most [B] in absolute value; [lo] and [hi] are the least and the
    greatest of them. *)
Definition ranges_d (B lo hi : R) (l : list f64) : Prop :=
  Forall finite64 l /\ Forall (fun x => Rabs (val64 x) <= B) l /\ least (map val64 l) lo /\ greatest (map val64 l) hi.
