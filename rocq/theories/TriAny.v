(** Model of src/triangulation.rs in builds with other number types, see ObjAny.v. *)
From Coq Require Import List NArith ZArith Arith Bool.
From Flocq Require Import IEEE754.BinarySingleNaN.
From Verif Require Import Base Floats Utilis Mesh FastTrig Double DoubleSave DoubleMesh Importer ObjAny.
Import ListNotations.
Open Scope res_scope.

Section Tri.
Context {F : Type}.
(** The angle at the second of three points, and the comparison of two floats. *)
Record angles := mk_angles { g_angle : F * F * F -> F * F * F -> F * F * F -> F; g_lt : F -> F -> bool }.

(* src/triangulation.rs L13-25 : eval_ear, with L26-33 : is_line_inside_poly, which
   is always true *)
Definition any_eval_ear {E} (g : angles) (tri : N * N * N) (vertices : list (F * F * F)) : res E F :=
  let '(p0, p1, p2) := tri in
  let* v0 := index vertices p0 in
  let* v1 := index vertices p1 in
  let* v2 := index vertices p2 in
  Ok (g_angle g v0 v1 v2).
(* src/triangulation.rs L34-49 : calc_ear_val_at_index. The length is not 0 where it
   is called. *)
Definition any_calc_ear {E} (g : angles) (indices : list N) (i : N) (vertices : list (F * F * F)) : res E F :=
  let* p0 := index indices (pred64 i mod ulen indices)%N in
  let* p1 := index indices i in
  let* p2 := index indices (succ64 i mod ulen indices)%N in
  any_eval_ear g (p0, p1, p2) vertices.
(* src/triangulation.rs L58-61 : the loop filling ear_vals, from index [i] with [n]
   more to do *)
Fixpoint any_all_ears {E} (g : angles) (indices : list N) (vertices : list (F * F * F)) (n : nat) (i : N) : res E (list F) :=
  match n with
  | O => Ok []
  | S k =>
    let* e := any_calc_ear g indices i vertices in
    let* t := any_all_ears g indices vertices k (i + 1)%N in
    Ok (e :: t)
  end.
(* src/triangulation.rs L63-68 : the search for the best ear *)
Fixpoint any_best_ear {E} (g : angles) (ear_vals : list F) (n : nat) (i best : N) : res E N :=
  match n with
  | O => Ok best
  | S k =>
    let* a := index ear_vals i in
    let* b := index ear_vals best in
    any_best_ear g ear_vals k (i + 1)%N (if g_lt g b a then i else best)
  end.
(** Pushing the corners at one position of the three index arrays. *)
Definition any_push_corner {E} (s : any_importer F) (v n u : list N) (i : N) : res E (any_importer F) :=
  let* a := index v i in
  let* b := index n i in
  let* c := index u i in
  Ok (any_push_indices s [a] [b] [c]).
(* src/triangulation.rs L62-96 : the main loop; see Importer.v *)
Fixpoint any_cut_ears {E} (g : angles) (fuel : nat) (s : any_importer F) (v n u : list N) (ear_vals : list F)
  : res E (any_importer F * list N * list N * list N) :=
  match fuel with
  | O => Ok (s, v, n, u)
  | S fuel =>
    if (ulen v <=? 3)%N then Ok (s, v, n, u)
    else
      let* best := any_best_ear g ear_vals (length v) 0 0 in
      let* s := any_push_corner s v n u (pred64 best mod ulen v)%N in
      let* s := any_push_corner s v n u best in
      let* s := any_push_corner s v n u (succ64 best mod ulen v)%N in
      let v := remove v best in
      let n := remove n best in
      let u := remove u best in
      let ear_vals := remove ear_vals best in
      let curr := (best mod ulen v)%N in
      let prev := (pred64 best mod ulen v)%N in
      let* e := any_calc_ear g v curr (ai_vertices s) in
      let ear_vals := update ear_vals curr e in
      let* e := any_calc_ear g v prev (ai_vertices s) in
      let ear_vals := update ear_vals prev e in
      any_cut_ears g fuel s v n u ear_vals
  end.
(* src/triangulation.rs L51-108 : triangulate. The caller made sure that the lengths
   are equal (the debug_assert of L57). *)
Definition any_triangulate {E} (g : angles) (s : any_importer F) (v n u : list N) : res E (any_importer F) :=
  let* ear_vals := any_all_ears g v (ai_vertices s) (length v) 0 in
  let* (s, v, n, u) := any_cut_ears g (length v) s v n u ear_vals in
  let* s := any_push_corner s v n u 0 in
  let* s := any_push_corner s v n u 1 in
  any_push_corner s v n u 2.
(** What the feature "triangulation" makes of polygons: on or off. *)
Definition polygons (g : option angles) : option (any_importer F -> list N -> list N -> list N -> res face_error (any_importer F)) :=
  option_map (fun g => any_triangulate g) g.
End Tri.
Arguments angles : clear implicits.

(* src/utilis.rs L69-80 : dot and sub_vec3, with f64 *)
Definition dot_d (a b : dvec3) : f64 :=
  dadd (dadd (dmul (dvx a) (dvx b)) (dmul (dvy a) (dvy b))) (dmul (dvz a) (dvz b)).
Definition sub_vec3_d (a b : dvec3) : dvec3 :=
  (dsub (dvx a) (dvx b), dsub (dvy a) (dvy b), dsub (dvz a) (dvz b)).
(* src/triangulation.rs L6-12 : compute_angle, with f64 *)
Definition compute_angle_d (acos : f64 -> f64) (prev curr next : dvec3) : f64 :=
  let cp := normalize_d (sub_vec3_d curr prev) in
  let cn := normalize_d (sub_vec3_d curr next) in
  acos (dot_d cp cn).
(** FloatType is f32 or f64; [acos] is the platform's function. *)
Definition angles32 (acos : f32 -> f32) : angles f32 := mk_angles (compute_angle acos) flt.
Definition angles64 (acos : f64 -> f64) : angles f64 := mk_angles (compute_angle_d acos) dlt.
