(** Specification of the vertex properties C38 to C40, over the real numbers. Nothing
    here refers to the encoder or the decoder. *)
From Coq Require Import List NArith Reals Bool.
From Verif Require Import Floats ValueSpec.
Import ListNotations.
Local Open Scope R_scope.

Definition least (l : list R) (m : R) : Prop := In m l /\ forall x, In x l -> m <= x.
Definition greatest (l : list R) (m : R) : Prop := In m l /\ forall x, In x l -> x <= m.

(** The coordinates of a list of vertices. *)
Definition xs (l : list vec3) : list R := map (fun v => val (fst (fst v))) l.
Definition ys (l : list vec3) : list R := map (fun v => val (snd (fst v))) l.
Definition zs (l : list vec3) : list R := map (fun v => val (snd v)) l.

(** Every coordinate is a finite number of at most [B] in absolute value. *)
Definition bounded (B : R) (v : vec3) : Prop :=
  finite3 v /\ Rabs (val (fst (fst v))) <= B /\ Rabs (val (snd (fst v))) <= B /\ Rabs (val (snd v)) <= B.

(** The six numbers stored with a vertex array. A bounding box would have the least
    and greatest x, y and z. The stored one mixes the axes: its upper x also covers
    y but not the last x, its upper y also covers x, its lower y also covers z but not
    the last y, its lower z also covers y. *)
Record stored_box (vs : list vec3) (x0 x1 y0 y1 z0 z1 : f32) : Prop := {
  box_finite : finite x0 /\ finite x1 /\ finite y0 /\ finite y1 /\ finite z0 /\ finite z1;
  box_x0 : least (xs vs) (val x0);
  box_x1 : greatest (xs (removelast vs) ++ ys vs) (val x1);
  box_y0 : least (ys (removelast vs) ++ zs vs) (val y0);
  box_y1 : greatest (xs vs ++ ys vs) (val y1);
  box_z0 : least (ys vs ++ zs vs) (val z0);
  box_z1 : greatest (zs vs) (val z1) }.

(** [x] lies between two stored bounds. *)
Definition between (lo hi x : f32) : Prop := val lo <= val x <= val hi.

(** The distance between two points, and the sides of the triangles listed by a
    triangle array: three consecutive indices each. *)
Definition dist3 (a b : vec3) : R :=
  sqrt ((val (fst (fst a)) - val (fst (fst b))) * (val (fst (fst a)) - val (fst (fst b))) +
        (val (snd (fst a)) - val (snd (fst b))) * (val (snd (fst a)) - val (snd (fst b))) +
        (val (snd a) - val (snd b)) * (val (snd a) - val (snd b))).
Inductive side_of (vs : list vec3) : list N -> R -> Prop :=
| side_first a b c t va vb vc d : nth_error vs (N.to_nat a) = Some va -> nth_error vs (N.to_nat b) = Some vb ->
    nth_error vs (N.to_nat c) = Some vc -> d = dist3 va vb \/ d = dist3 vb vc \/ d = dist3 vc va ->
    side_of vs (a :: b :: c :: t) d
| side_later a b c t d : side_of vs t d -> side_of vs (a :: b :: c :: t) d.

(** The length of the shortest edge, and 0.1 when there is no triangle. *)
Definition shortest_edge (vs : option (list vec3)) (ts : option (list N)) (s : R) : Prop :=
  match ts, vs with
  | Some (i :: t), Some v => side_of v (i :: t) s /\ forall d, side_of v (i :: t) d -> s <= d
  | _, _ => s = 0.1
  end.

(** Lists cut at the same places into related parts. *)
Definition in_pieces {A B} (P : list A -> list B -> Prop) (a : list A) (b : list B) : Prop :=
  exists ps, a = concat (map fst ps) /\ b = concat (map snd ps) /\ Forall (fun p => P (fst p) (snd p)) ps.

(** How a coordinate [x], stored with [p] bits between [lo] and [hi], loads as [y]:
    close to it when it lies between the bounds and 1 to 24 bits are used, as the
    lower bound when both bounds are equal, when it lies below the lower bound, and
    when it is the upper bound and 25 bits or more are used. [B] bounds all numbers
    involved; its multiples account for the rounding errors. *)
Record coordinate_stored (B : R) (p : nat) (lo hi x y : f32) : Prop := {
  cs_inside : (1 <= p <= 24)%nat -> between lo hi x ->
    finite y /\ val lo <= val y <= val hi + / 2 ^ 20 * B /\
    within (Rmax ((val hi - val lo) / (2 ^ p - 1)) 0.000001001 + / 2 ^ 19 * B) x y;
  cs_flat : val lo = val hi -> finite y /\ val y = val lo;
  cs_below : val x <= val lo -> finite y /\ val y = val lo;
  cs_wide : (25 <= p)%nat -> 0.000001001 <= val hi - val lo -> val x = val hi -> finite y /\ val y = val lo }.

(** How far a vertex of a piece moves when [t] is the requested fraction of the
    shortest edge: x and y, where inside the stored box, by little more than twice
    [t]; z by that much times the ratio of the z extent to the y extent. *)
Definition piece_moved (B t : R) (a b : list vec3) : Prop :=
  exists x0 x1 y0 y1 z0 z1, stored_box a x0 x1 y0 y1 z0 z1 /\
    Forall2 (fun v v' =>
      (between x0 x1 (fst (fst v)) -> finite (fst (fst v')) /\
         within (2.003 * t + 0.000001001 + / 2 ^ 19 * B) (fst (fst v)) (fst (fst v'))) /\
      (between y0 y1 (snd (fst v)) -> finite (snd (fst v')) /\
         within (2.003 * t + 0.000001001 + / 2 ^ 19 * B) (snd (fst v)) (snd (fst v'))) /\
      finite (snd v') /\
      within (2.003 * t * ((val z1 - val z0) / Rmax (val y1 - val y0) 0.000001) + 0.000001001 + / 2 ^ 19 * B) (snd v) (snd v')) a b.
