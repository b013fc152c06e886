(** Model of the vertex array codec, src/vertices.rs L31-159. *)
From Coq Require Import List NArith ZArith Arith Bool.
From Verif Require Import Base UnalignedRW ReadExt Floats Utilis.
Import ListNotations.
Open Scope res_scope.

Record bbox := mk_bbox {
  min_x : f32; max_x : f32; min_y : f32; max_y : f32; min_z : f32; max_z : f32 }.

(* src/vertices.rs L37-42 *)
Definition bbox_init (v : vec3) : bbox := mk_bbox (vx v) (vx v) (vy v) (vy v) (vz v) (vz v).
(* src/vertices.rs L46-51 : one iteration; each line uses the values the lines
   above it have just assigned. *)
Definition bbox_step (b : bbox) (v : vec3) : bbox :=
  let minx := fmin (min_x b) (vx v) in
  let maxx := fmax (max_y b) (vy v) in
  let miny := fmin (min_z b) (vz v) in
  let maxy := fmax maxx (vx v) in
  let minz := fmin miny (vy v) in
  let maxz := fmax (max_z b) (vz v) in
  mk_bbox minx maxx miny maxy minz maxz.
(* src/vertices.rs L37-52; [vertices[0]] panics on an empty slice *)
Definition bounding_box {E} (vs : list vec3) : res E bbox :=
  match vs with
  | [] => Panic
  | v :: _ => Ok (fold_left bbox_step vs (bbox_init v))
  end.

(* src/vertices.rs L64 : 0.000_001 *)
Definition min_extent : f32 := flit 1 1000000.
(* src/vertices.rs L68-78 : width for one axis; [s] is the extent used in it *)
Definition axis_precision (lm : libm) (shortest_edge s precision : f32) : nat :=
  let inc := fmul (fdiv shortest_edge s) precision in
  Nat.max (u8_of_f32 (fceil (m_log2 lm (fdiv f1 inc)))) 1.
(* src/vertices.rs L94-96 : code of one coordinate *)
Definition quantize (v mn s mul : f32) : N := u64_of_f32 (fmul (fdiv (fsub v mn) s) mul).

Definition le_f64 (x : f32) : list N := le_bytes 8 (bits_of_f64 (f64_of_f32 x)).

(* src/vertices.rs L31-104 : save_tmf_vertices *)
Definition save_tmf_vertices (lm : libm) (oc : bool) (vs : list vec3) (precision shortest_edge : f32)
  (sink : list N) : res ioerr (list N) :=
  let* b := bounding_box vs in
  let sink := sink ++ le_bytes 8 (N.of_nat (length vs)) in
  let sink := sink ++ le_f64 (min_x b) ++ le_f64 (max_x b) ++ le_f64 (min_y b)
                   ++ le_f64 (max_y b) ++ le_f64 (min_z b) ++ le_f64 (max_z b) in
  let sx := fmax (fsub (max_x b) (min_x b)) min_extent in
  let sy := fmax (fsub (max_y b) (min_y b)) min_extent in
  let sz := fmax (fsub (max_z b) (min_z b)) min_extent in
  let prec_x := axis_precision lm shortest_edge sx precision in
  let prec_y := axis_precision lm shortest_edge sy precision in
  let prec_z := axis_precision lm shortest_edge sy precision in
  let sink := sink ++ [N.of_nat prec_x; N.of_nat prec_y; N.of_nat prec_z] in
  let* mul_x := mask_f32 oc prec_x in
  let* mul_y := mask_f32 oc prec_y in
  let* mul_z := mask_f32 oc prec_z in
  let fields := flat_map (fun v =>
    [(prec_x, quantize (vx v) (min_x b) sx mul_x);
     (prec_y, quantize (vy v) (min_y b) sy mul_y);
     (prec_z, quantize (vz v) (min_z b) sz mul_z)]) vs in
  let* w := write_fields oc (writer_new sink) fields in
  Ok (writer_finish w).

(* src/read_extension.rs L31-35 : read_f64, followed by the cast to f32 *)
Definition read_f64 (src : list N) : res ioerr (f64 * list N) :=
  let* (b, src) := read_u64 src in Ok (f64_of_bits b, src).
Definition read_f64_as_f32 (src : list N) : res ierr (f32 * list N) :=
  let* (x, src) := io (read_f64 src) in Ok (f32_of_f64 x, src).
(* src/vertices.rs L115-126 : a width byte, refused from 64 on *)
Definition read_prec (src : list N) : res ierr (nat * list N) :=
  let* (p, src) := io (read_u8 src) in
  if (64 <=? p)%N then Err (EInvalidPrecision p) else Ok (N.to_nat p, src).

(* src/vertices.rs L150-155 : value of one coordinate *)
Definition dequantize (q : N) (div s mn : f32) : f32 :=
  fadd (fmul (fdiv (f32_of_N q) div) s) mn.

(* src/vertices.rs L145-157 : the loop, [n] iterations *)
Fixpoint read_vertex_loop (n : nat) (r : reader) (px py pz : nat)
  (mk : N -> N -> N -> vec3) (acc : list vec3) : res ierr (list vec3) :=
  match n with
  | O => Ok acc
  | S n' =>
    let* (x, r) := io (read_unaligned r px) in
    let* (y, r) := io (read_unaligned r py) in
    let* (z, r) := io (read_unaligned r pz) in
    read_vertex_loop n' r px py pz mk (acc ++ [mk x y z])
  end.

(* src/vertices.rs L105-159 : read_tmf_vertices *)
Definition read_tmf_vertices (src : list N) : res ierr (list vec3) :=
  let* (vertex_count, src) := io (read_u64 src) in
  let* (minx, src) := read_f64_as_f32 src in
  let* (maxx, src) := read_f64_as_f32 src in
  let* (miny, src) := read_f64_as_f32 src in
  let* (maxy, src) := read_f64_as_f32 src in
  let* (minz, src) := read_f64_as_f32 src in
  let* (maxz, src) := read_f64_as_f32 src in
  let* (prec_x, src) := read_prec src in
  let* (prec_y, src) := read_prec src in
  let* (prec_z, src) := read_prec src in
  let div_x := f32_of_N (mask_u64 prec_x) in
  let div_y := f32_of_N (mask_u64 prec_y) in
  let div_z := f32_of_N (mask_u64 prec_z) in
  let sx := fsub maxx minx in
  let sy := fsub maxy miny in
  let sz := fsub maxz minz in
  if (MAX_SEG_SIZE <? vertex_count)%N then Err ESegmentTooLong
  else
    read_vertex_loop (N.to_nat vertex_count) (reader_new (slice src)) prec_x prec_y prec_z
      (fun x y z => (dequantize x div_x sx minx, dequantize y div_y sy miny,
                     dequantize z div_z sz minz)) [].
