(** What numbers become when one build saves them and a build with the other float type loads
    them. Nothing here refers to the code. *)
From Coq Require Import List NArith Reals.
From Flocq Require Import Core IEEE754.BinarySingleNaN.
From Verif Require Import Floats CustomData Mesh ValueSpec VertexSpec Double DoubleSpec DoubleValueSpec DoubleNormalSpec.
Import ListNotations.
Local Open Scope R_scope.

(** Two texture coordinates, or colour channels, with a relation between the parts. *)
Definition both {A B} (P : A -> B -> Prop) (u : A * A) (v : B * B) : Prop := P (fst u) (fst v) /\ P (snd u) (snd v).
Definition all4 {A B} (P : A -> B -> Prop) (u : A * A * A * A) (v : B * B * B * B) : Prop :=
  P (fst (fst (fst u))) (fst (fst (fst v))) /\ P (snd (fst (fst u))) (snd (fst (fst v))) /\ P (snd (fst u)) (snd (fst v)) /\ P (snd u) (snd v).
(** The scalar product of a direction in each of the types. *)
Definition dot_fd (a : vec3) (b : dvec3) : R :=
  val (fst (fst a)) * val64 (fst (fst b)) + val (snd (fst a)) * val64 (snd (fst b)) + val (snd a) * val64 (snd b).
(** [s] is one step of the width. *)
Definition same_direction_fd (s : R) (a : vec3) (b : dvec3) : Prop :=
  1 - s - 2 * (s * s) - / 2 ^ 8 <= dot_fd a b /\ close (s + / 2 ^ 21) (snd a) (snd b).

(** How far a vertex of a piece moves when [t] is the requested fraction of the shortest edge:
    saved as f64 and loaded as f32, and saved as f32 and loaded as f64 (as [piece_moved] in
    VertexSpec.v and [piece_moved_d] in DoubleValueSpec.v, which mix the axes likewise). *)
Definition piece_moved_df (B t : R) (a : list dvec3) (b : list vec3) : Prop :=
  exists x0 x1 y0 y1 z0 z1, stored_box_d a x0 x1 y0 y1 z0 z1 /\
    Forall2 (fun v v' =>
      (between_d x0 x1 (fst (fst v)) -> close (2.003 * t + 0.000001002 + / 2 ^ 18 * B) (fst (fst v')) (fst (fst v))) /\
      (between_d y0 y1 (snd (fst v)) -> close (2.003 * t + 0.000001002 + / 2 ^ 18 * B) (snd (fst v')) (snd (fst v))) /\
      close (2.003 * t * ((val64 z1 - val64 z0) / Rmax (val64 y1 - val64 y0) 0.000001) + 0.000001002 + / 2 ^ 18 * B) (snd v') (snd v)) a b.
Definition piece_moved_fd (B t : R) (a : list vec3) (b : list dvec3) : Prop :=
  exists x0 x1 y0 y1 z0 z1, stored_box a x0 x1 y0 y1 z0 z1 /\
    Forall2 (fun v v' =>
      (between x0 x1 (fst (fst v)) -> close (2.003 * t + 0.000001002 + / 2 ^ 18 * B) (fst (fst v)) (fst (fst v'))) /\
      (between y0 y1 (snd (fst v)) -> close (2.003 * t + 0.000001002 + / 2 ^ 18 * B) (snd (fst v)) (snd (fst v'))) /\
      close (2.003 * t * ((val z1 - val z0) / Rmax (val y1 - val y0) 0.000001) + 0.000001002 + / 2 ^ 18 * B) (snd v) (snd v')) a b.
(** Both arrays absent, or both present and related piece by piece. *)
Definition array_pieces {A B} (P : list A -> list B -> Prop) (a : option (list A)) (b : option (list B)) : Prop :=
  match a, b with Some x, Some y => in_pieces P x y | None, None => True | _, _ => False end.
