(** Model of the splitting of vertex arrays: src/tmf_exporter.rs L281-364. *)
From Coq Require Import List NArith ZArith Arith Bool.
From Verif Require Import Base Floats Utilis OptTris.
Import ListNotations.
Open Scope res_scope.

(** A Range<Vector3>: start and end. *)
Definition span : Type := vec3 * vec3.

(* src/tmf_exporter.rs L285-290 : bit count of one axis of extent [d] *)
Definition axis_bits (lm : libm) (shortest_edge d : f32) : nat :=
  u8_of_f32 (fceil (m_log2 lm (fdiv f1 (fdiv shortest_edge d)))).
(* src/tmf_exporter.rs L281-292 : range_to_vertex_bit_count (z uses dy) *)
Definition range_to_vertex_bit_count {E} (lm : libm) (oc : bool) (s : span) (shortest_edge : f32)
  : res E nat :=
  let dx := fsub (vx (snd s)) (vx (fst s)) in
  let dy := fsub (vy (snd s)) (vy (fst s)) in
  let* p := add8 oc (axis_bits lm shortest_edge dx) (axis_bits lm shortest_edge dy) in
  add8 oc p (axis_bits lm shortest_edge dy).
(* src/tmf_exporter.rs L293-299 : expand_vertex_span *)
Definition expand_vertex_span (s : span) (point : vec3) : span :=
  ((fmin (vx (fst s)) (vx point), fmin (vy (fst s)) (vy point), fmin (vz (fst s)) (vz point)),
   (fmax (vx (snd s)) (vx point), fmax (vy (snd s)) (vy point), fmax (vz (snd s)) (vz point))).
(* src/tmf_exporter.rs L300-307 : inside_span *)
Definition inside_span (s : span) (item : vec3) : bool :=
  flt (vx (fst s)) (vx item) && flt (vx item) (vx (snd s)) &&
  flt (vy (fst s)) (vy item) && flt (vy item) (vy (snd s)) &&
  flt (vz (fst s)) (vz item) && flt (vz item) (vz (snd s)).

Definition zero_span : span := ((f0, f0, f0), (f0, f0, f0)).
(* src/tmf_exporter.rs L327-330 : TMF_SEG_SIZE + 8 + 6 * 8 + 3 *)
Definition vertex_split_loss : N := (TMF_SEG_SIZE + 8 + 6 * 8 + 3)%N.

(* src/tmf_exporter.rs L319-338 : the scan; [best] is (best_split_score, best_split_index) *)
Fixpoint vertex_scan {E} (lm : libm) (oc : bool) (shortest_edge : f32) (total : nat)
  (vs : list vec3) (idx : nat) (min_span : span) (per_vertex : nat) (best : Z * nat)
  : res E (Z * nat) :=
  match vs with
  | [] => Ok best
  | v :: t =>
    if negb (inside_span min_span v) then
      let min_span := expand_vertex_span min_span v in
      let* per_vertex := range_to_vertex_bit_count lm oc min_span shortest_edge in
      vertex_scan lm oc shortest_edge total t (S idx) min_span per_vertex best
    else
      let* gain_per_vert := sub8 oc total per_vertex in
      let* gain := mul64 oc (N.of_nat idx) (N.of_nat gain_per_vert) in
      let* score := sub_isize oc (to_isize gain) (to_isize vertex_split_loss) in
      vertex_scan lm oc shortest_edge total t (S idx) min_span per_vertex
        (if (fst best <? score)%Z then (score, idx) else best)
  end.

(* src/tmf_exporter.rs L308-345 : find_best_vertex_spilt *)
Definition find_best_vertex_split {E} (lm : libm) (oc : bool) (vs : list vec3) (shortest_edge : f32)
  : res E (option nat) :=
  let total_span := fold_left expand_vertex_span vs zero_span in
  let* total := range_to_vertex_bit_count lm oc total_span shortest_edge in
  let* best := vertex_scan lm oc shortest_edge total vs 0 zero_span 0 (isize_min, 0) in
  if (0 <? fst best)%Z then
    let* last := sub64 oc (N.of_nat (length vs)) 1 in
    if (N.of_nat (snd best) <? last)%N then Ok (Some (snd best)) else Panic
  else Ok None.

(* src/tmf_exporter.rs L348 : 0.01 *)
Definition split_edge : f32 := flit 1 100.

(* src/tmf_exporter.rs L346-364 : opt_vertices *)
Fixpoint opt_vertices_fuel (lm : libm) (oc : bool) (fuel : nat) (vs : list vec3)
  : res no_fuel (list (list vec3)) :=
  match fuel with
  | O => Err OutOfFuel
  | S fuel' =>
    let* split_pos := find_best_vertex_split lm oc vs split_edge in
    match split_pos with
    | Some p =>
      let* (i0, i1) := split_at vs p in
      let* r_0 := opt_vertices_fuel lm oc fuel' i0 in
      let* r_1 := opt_vertices_fuel lm oc fuel' i1 in
      Ok (r_0 ++ r_1)
    | None => Ok [vs]
    end
  end.
Definition opt_vertices (lm : libm) (oc : bool) (vs : list vec3) : res no_fuel (list (list vec3)) :=
  opt_vertices_fuel lm oc (S (length vs)) vs.
