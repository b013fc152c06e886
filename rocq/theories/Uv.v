(** Model of src/uv.rs. A UvPrecisionMode is its width (u8) as a [nat]. *)
From Coq Require Import List NArith ZArith Arith Bool.
From Verif Require Import Base UnalignedRW ReadExt Floats.
Import ListNotations.
Open Scope res_scope.

(* src/uv.rs L16-18 : UvPrecisionMode::form_texture_resolution *)
Definition uv_from_resolution (lm : libm) (resolution pixel_dev : f32) : nat :=
  u8_of_f32 (fceil (m_log2 lm (fdiv resolution pixel_dev))).
(* src/uv.rs L29-31 : default *)
Definition uv_default (lm : libm) : nat := uv_from_resolution lm (f32_of_Z 1024) (flit 1 10).

(* src/uv.rs L45-46 : code of one coordinate *)
Definition uv_code (mul x : f32) : N := u64_of_f32 (fmul x mul).

(* src/uv.rs L33-52 : save_uvs *)
Definition save_uvs (oc : bool) (uvs : list vec2) (precision : nat) (sink : list N)
  : res ioerr (list N) :=
  let* multiplier := mask_f32 oc precision in
  let sink := sink ++ [N.of_nat precision] in
  let sink := sink ++ le_bytes 8 (N.of_nat (length uvs)) in
  let fields := flat_map (fun uv =>
    [(precision, uv_code multiplier (fst uv)); (precision, uv_code multiplier (snd uv))]) uvs in
  let* w := write_fields oc (writer_new sink) fields in
  Ok (writer_finish w).

(* src/uv.rs L71-72 : value of one coordinate *)
Definition uv_value (divisor : f32) (q : N) : f32 := fdiv (f32_of_N q) divisor.

(* src/uv.rs L69-74 : the loop, [n] iterations *)
Fixpoint read_uv_loop (oc : bool) (n : nat) (r : reader) (precision : nat) (divisor : f32)
  (acc : list vec2) : res ierr (list vec2) :=
  match n with
  | O => Ok acc
  | S n' =>
    let* (p, r) := io (read2_unaligned oc r precision) in
    read_uv_loop oc n' r precision divisor
                 (acc ++ [(uv_value divisor (fst p), uv_value divisor (snd p))])
  end.

(* src/uv.rs L53-76 : read_uvs *)
Definition read_uvs (oc : bool) (src : list N) : res ierr (list vec2) :=
  let* (precision, src) := io (read_u8 src) in
  let* (count, src) := io (read_u64 src) in
  if (MAX_SEG_SIZE <? count)%N then Err ESegmentTooLong
  else if (precision =? 0)%N then Ok (repeat (f0, f0) (N.to_nat count))
  else if (64 <=? precision)%N then Err (EInvalidPrecision precision)
  else
    let prec := N.to_nat precision in
    read_uv_loop oc (N.to_nat count) (reader_new (slice src)) prec (f32_of_N (mask_u64 prec)) [].
