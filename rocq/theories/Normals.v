(** Model of src/normals.rs and src/tangents.rs (without the fast_trig feature).
    A NormalPrecisionMode is its width (u8) as a [nat]. *)
From Coq Require Import List NArith ZArith Arith Bool.
From Flocq Require Import IEEE754.BinarySingleNaN.
From Verif Require Import Base UnalignedRW ReadExt Floats Utilis Vertices.
Import ListNotations.
Open Scope res_scope.

(* src/normals.rs L24-27 : NormalPrecisionMode::from_deg_dev *)
Definition normal_from_deg_dev (lm : libm) (deg : f32) : nat :=
  Nat.max (u8_of_f32 (fceil (m_log2 lm (fdiv (f32_of_Z 90) deg)))) 1.
(* src/normals.rs L36-39 : from_rad_dev *)
Definition normal_from_rad_dev (lm : libm) (rad : f32) : nat :=
  u8_of_f32 (fceil (m_log2 lm (fdiv f32_FRAC_PI_2 rad))).

(* src/normals.rs L78, L105 : [PI / 2.0] *)
Definition half_pi : f32 := fdiv f32_PI (f32_of_Z 2).

(** The five values stored for a normal: asine, z, sx, sy, sz. *)
Record ncode := mk_ncode { n_asine : N; n_z : N; n_sx : bool; n_sy : bool; n_sz : bool }.

(* src/normals.rs L67-86 : normal_to_encoding *)
Definition normal_to_encoding {E} (lm : libm) (oc : bool) (normal : vec3) (precision : nat)
  : res E ncode :=
  let* multiplier := mask_f32 oc precision in
  let ax := fabs (vx normal) in
  let ay := fabs (vy normal) in
  let xy_mag := fsqrt (fadd (fmul ax ax) (fmul ay ay)) in
  let asine := m_asin lm (fdiv ax xy_mag) in
  let asine := fdiv asine half_pi in
  Ok (mk_ncode (u64_of_f32 (fmul asine multiplier))
               (u64_of_f32 (fmul (fabs (vz normal)) multiplier))
               (flt (vx normal) f0) (flt (vy normal) f0) (flt (vz normal) f0)).

(* src/normals.rs L87-124 : normal_from_encoding *)
Definition normal_from_encoding (lm : libm) (c : ncode) (precision : nat) : vec3 :=
  if precision =? 0 then
    ((if n_sx c then fneg f1 else f1), (if n_sy c then fneg f1 else f1),
     (if n_sz c then fneg f1 else f1))
  else
    let divisor := f32_of_N (mask_u64 precision) in
    let asine := fdiv (f32_of_N (n_asine c)) divisor in
    let asine := fmul asine half_pi in
    let z := fdiv (f32_of_N (n_z c)) divisor in
    let '(x, y) := m_sin_cos lm asine in
    let xy_mag := fsqrt (fsub f1 (fmul z z)) in
    let y := fmul y xy_mag in
    let x := fmul x xy_mag in
    ((if n_sx c then fneg x else x), (if n_sy c then fneg y else y),
     (if n_sz c then fneg z else z)).

(* src/unaligned_rw.rs L174-177 : write_bit(b) writes the same bit as a field of width 1 *)
Definition bit (b : bool) : nat * N := (1, if b then 1%N else 0%N).

(* src/normals.rs L127-142 : save_normal, as the list of fields it writes *)
Definition normal_fields (c : ncode) (precision : nat) : list (nat * N) :=
  [bit (n_sx c); bit (n_sy c); bit (n_sz c); (precision, n_asine c); (precision, n_z c)].

(* src/normals.rs L156-170 : save_normal_array. Simplification: all the normals
   are encoded before the first is written (a panic leaves nothing to see). *)
Definition save_normal_array (lm : libm) (oc : bool) (normals : list vec3) (precision : nat)
  (sink : list N) : res ioerr (list N) :=
  let sink := sink ++ le_bytes 8 (N.of_nat (length normals)) ++ [N.of_nat precision] in
  let* codes := map_res (fun n => normal_to_encoding lm oc n precision) normals in
  let* w := write_fields oc (writer_new sink) (flat_map (fun c => normal_fields c precision) codes) in
  Ok (writer_finish w).

(* src/normals.rs L143-155 : read_normal *)
Definition read_normal (lm : libm) (oc : bool) (precision : nat) (r : reader) : res ierr (vec3 * reader) :=
  let* (sx, r) := io (read_bit r) in
  let* (sy, r) := io (read_bit r) in
  let* (sz, r) := io (read_bit r) in
  let* (p, r) := io (read2_unaligned oc r precision) in
  Ok (normal_from_encoding lm (mk_ncode (fst p) (snd p) sx sy sz) precision, r).

(* src/normals.rs L183-186 : the loop, [n] iterations *)
Fixpoint read_normal_loop (lm : libm) (oc : bool) (n : nat) (precision : nat) (r : reader) (acc : list vec3)
  : res ierr (list vec3) :=
  match n with
  | O => Ok acc
  | S n' => let* (v, r) := read_normal lm oc precision r in
            read_normal_loop lm oc n' precision r (acc ++ [v])
  end.

(* src/normals.rs L171-188 : read_normal_array *)
Definition read_normal_array (lm : libm) (oc : bool) (src : list N) : res ierr (list vec3) :=
  let* (count, src) := io (read_u64 src) in
  if (MAX_SEG_SIZE <? count)%N then Err ESegmentTooLong
  else
    let* (precision, src) := read_prec src in
    read_normal_loop lm oc (N.to_nat count) precision (reader_new (slice src)) [].

(* src/tangents.rs L34-43 : ht_to_bool, ht_from_bool *)
Definition ht_to_bool (ht : f32) : bool := Bsign ht.
Definition ht_from_bool (b : bool) : f32 := if b then fneg f1 else f1.

(* src/tangents.rs L46-53, L80-86 : tangent_to_encoding and the fields written *)
Definition tangent_fields (h : bool) (c : ncode) (precision : nat) : list (nat * N) :=
  bit h :: normal_fields c precision.

(* src/tangents.rs L68-90 : save_tangents *)
Definition save_tangents (lm : libm) (oc : bool) (tangents : list tangent) (precision : nat)
  (sink : list N) : res ioerr (list N) :=
  let sink := sink ++ le_bytes 8 (N.of_nat (length tangents)) ++ [N.of_nat precision] in
  let* codes := map_res (fun t =>
    let* c := normal_to_encoding lm oc (fst t) precision in Ok (ht_to_bool (snd t), c)) tangents in
  let* w := write_fields oc (writer_new sink)
              (flat_map (fun hc => tangent_fields (fst hc) (snd hc) precision) codes) in
  Ok (writer_finish w).

(* src/tangents.rs L54-67, L106-116 : the loop, [n] iterations *)
Fixpoint read_tangent_loop (lm : libm) (n : nat) (precision : nat) (r : reader) (acc : list tangent)
  : res ierr (list tangent) :=
  match n with
  | O => Ok acc
  | S n' =>
    let* (h, r) := io (read_bit r) in
    let* (sx, r) := io (read_bit r) in
    let* (sy, r) := io (read_bit r) in
    let* (sz, r) := io (read_bit r) in
    let* (asine, r) := io (read_unaligned r precision) in
    let* (z, r) := io (read_unaligned r precision) in
    read_tangent_loop lm n' precision r
      (acc ++ [(normal_from_encoding lm (mk_ncode asine z sx sy sz) precision, ht_from_bool h)])
  end.

(* src/tangents.rs L91-118 : read_tangents *)
Definition read_tangents (lm : libm) (src : list N) : res ierr (list tangent) :=
  let* (count, src) := io (read_u64 src) in
  if (MAX_SEG_SIZE <? count)%N then Err ESegmentTooLong
  else
    let* (precision, src) := read_prec src in
    read_tangent_loop lm (N.to_nat count) precision (reader_new (slice src)) [].
