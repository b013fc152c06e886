(** Model of src/custom_data.rs. *)
From Coq Require Import List NArith ZArith Arith Bool.
From Flocq Require Import IEEE754.BinarySingleNaN.
From Verif Require Import Base UnalignedRW ReadExt Triangles Floats Vertices.
Import ListNotations.
Open Scope res_scope.

(* src/custom_data.rs L52-57 : enum CustomData *)
Inductive cdata : Type :=
| CIndex (l : list N) (max_index : N)
| CInteger (l : list N) (max_integer : N)
| CFloat (l : list f32) (prec : f32)
| CColor (l : list vec4) (prec : f32).

(* src/custom_data.rs L60-83 : as_index, as_intiger, as_float, as_color_rgba *)
Definition as_index (d : cdata) : option (list N * N) := match d with CIndex l m => Some (l, m) | _ => None end.
Definition as_intiger (d : cdata) : option (list N * N) := match d with CInteger l m => Some (l, m) | _ => None end.
Definition as_float (d : cdata) : option (list f32 * f32) := match d with CFloat l p => Some (l, p) | _ => None end.
Definition as_color_rgba (d : cdata) : option (list vec4 * f32) := match d with CColor l p => Some (l, p) | _ => None end.

(* src/custom_data.rs L5-9 : struct CustomDataSegment *)
Record cseg := mk_cseg { c_name : list N; c_name_len : N; c_data : cdata }.

(* src/custom_data.rs L12-17 *)
Inductive dserr := NoName | NameTooLong.

(* src/custom_data.rs L19-26 : new_raw. The Rust buffer is the name followed by
   zeros up to 255 bytes, of which name_len are kept. *)
Definition new_raw (data : cdata) (name : list N) (name_len : N) : cseg :=
  mk_cseg (firstn (N.to_nat name_len) (name ++ repeat 0%N (255 - length name))) name_len data.

(* src/custom_data.rs L36-48 : CustomDataSegment::new. [name] is the name's bytes. *)
Definition cseg_new (data : cdata) (name : list N) : res dserr cseg :=
  let len := length name in
  if (255 <? N.of_nat len)%N then Err NameTooLong
  else if len =? 0 then Err NoName
  else Ok (new_raw data name (N.of_nat len)).

(* src/custom_data.rs L154-167 : new_index, new_intiger with None *)
Definition new_index (l : list N) : cdata := CIndex l (max_or 0 l).
Definition new_integer (l : list N) : cdata := CInteger l (max_or 0 l).
(* src/custom_data.rs L169-183 : From<&[IndexType]>, From<&[FloatType]>, From<&[Vector4]> *)
Definition from_indices (l : list N) : cdata := new_index l.
Definition from_floats (l : list f32) : cdata := CFloat l (flit 1 100).
Definition from_colors (l : list vec4) : cdata := CColor l (flit 1 100).

(* src/custom_data.rs L94-99 : range of a float array *)
Definition float_range (l : list f32) : f32 * f32 :=
  fold_left (fun mm x => (fmax (fst mm) x, fmin (snd mm) x)) l (f32_MIN, f32_MAX).

Definition c4 (v : vec4) : list f32 := [fst (fst (fst v)); snd (fst (fst v)); snd (fst v); snd v].

(* src/custom_data.rs L84-139 : CustomData::write. The bit writer is not flushed
   explicitly for floats and colours; dropping it does the same. *)
Definition cdata_write (lm : libm) (oc : bool) (d : cdata) (sink : list N) : res ioerr (list N) :=
  match d with
  | CIndex l m => save_triangles oc l m sink
  | CInteger l m => save_triangles oc l m sink
  | CFloat l p =>
    let '(mx, mn) := float_range l in
    let span := fsub mx mn in
    let prec := Nat.max (u8_of_f32 (fceil (m_log2 lm (fdiv span p)))) 1 in
    let* mul := mask_f32 oc prec in
    let sink := sink ++ le_bytes 8 (N.of_nat (length l)) ++ le_f64 mn ++ le_f64 mx ++ [N.of_nat prec] in
    let* w := write_fields oc (writer_new sink)
                (map (fun x => (prec, u64_of_f32 (fmul (fdiv (fsub x mn) span) mul))) l) in
    Ok (writer_finish w)
  | CColor l p =>
    let prec := u8_of_f32 (fceil (m_log2 lm (fdiv f1 (fmin p f1)))) in
    let* mul := mask_f32 oc prec in
    let sink := sink ++ le_bytes 8 (N.of_nat (length l)) ++ [N.of_nat prec] in
    let* w := write_fields oc (writer_new sink)
                (flat_map (fun v => map (fun x => (prec, u64_of_f32 (fmul x mul))) (c4 v)) l) in
    Ok (writer_finish w)
  end.

(* src/custom_data.rs L185-190 : CustomDataSegment::encode. Slicing the name to
   name_len panics if the name is shorter, which new_raw excludes. *)
Definition cseg_encode (lm : libm) (oc : bool) (s : cseg) (sink : list N) : res ioerr (list N) :=
  if (N.of_nat (length (c_name s)) <? c_name_len s)%N then Panic
  else cdata_write lm oc (c_data s)
         (sink ++ le_bytes 1 (c_name_len s) ++ firstn (N.to_nat (c_name_len s)) (c_name s)).

(** Kinds of custom segments. *)
Inductive ckind := KIndex | KInteger | KFloat | KColor.
(* src/custom_data.rs L140-147 : section_type *)
Definition cdata_kind (d : cdata) : ckind :=
  match d with
  | CIndex _ _ => KIndex
  | CInteger _ _ => KInteger
  | CFloat _ _ => KFloat
  | CColor _ _ => KColor
  end.

(* src/custom_data.rs L238-241 : loop of the float reader *)
Fixpoint read_float_loop (n : nat) (r : reader) (prec : nat) (mk : N -> f32) (acc : list f32)
  : res ierr (list f32) :=
  match n with
  | O => Ok acc
  | S n' => let* (v, r) := io (read_unaligned r prec) in
            read_float_loop n' r prec mk (acc ++ [mk v])
  end.

(* src/custom_data.rs L257-266 : loop of the colour reader *)
Fixpoint read_color_loop (oc : bool) (n : nat) (r : reader) (prec : nat) (mk : N -> f32) (acc : list vec4)
  : res ierr (list vec4) :=
  match n with
  | O => Ok acc
  | S n' =>
    let* (p, r) := io (read2_unaligned oc r prec) in
    let* (q, r) := io (read2_unaligned oc r prec) in
    read_color_loop oc n' r prec mk (acc ++ [(mk (fst p), mk (snd p), mk (fst q), mk (snd q))])
  end.

(** [vec![(0.0,0.0,0.0,0.0); len]] panics when the size in bytes exceeds isize::MAX;
    running out of memory (an abort) is not modelled. *)
Definition color_alloc_ok (len : N) : bool := (len * 16 <? 2 ^ 63)%N.

(** 0.99999 (f32 literal) *)
Definition f099999 : f32 := flit 99999 100000.

(* src/custom_data.rs L220-242 : float data *)
Definition read_custom_float (src : list N) : res ierr cdata :=
  let* (len, src) := io (read_u64 src) in
  if (MAX_SEG_SIZE <? len)%N then Err ESegmentTooLong
  else
    let* (mn, src) := io (read_f64 src) in
    let* (mx, src) := io (read_f64 src) in
    let* (prec, src) := read_prec src in
    let div := f64_of_N (mask_u64 prec) in
    let span := dsub mx mn in
    let* l := read_float_loop (N.to_nat len) (reader_new (slice src)) prec
                (fun v => f32_of_f64 (dadd (dmul (ddiv (f64_of_N v) div) span) mn)) [] in
    Ok (CFloat l (fmul (f32_of_f64 (ddiv (dsub mx mn) (f64_of_N (2 ^ N.of_nat prec)))) f099999)).

(* src/custom_data.rs L249-267 : colour data *)
Definition read_custom_color (oc : bool) (src : list N) : res ierr cdata :=
  let* (len, src) := io (read_u64 src) in
  let* (prec_bits, src) := io (read_u8 src) in
  if negb (color_alloc_ok len) then Panic
  else
    let prec := N.to_nat prec_bits in
    let* one := shl64 oc 1 prec in
    let div := f64_of_N (one - 1) in
    let* l := read_color_loop oc (N.to_nat len) (reader_new (slice src)) prec
                (fun v => f32_of_f64 (ddiv (f64_of_N v) div)) [] in
    Ok (CColor l (fmul (f32_of_f64 (ddiv (f64_of_N 1) (f64_of_N one))) f099999)).

(* src/custom_data.rs L192-276 : CustomDataSegment::read *)
Definition cseg_read (oc : bool) (ctx : import_ctx) (kind : ckind) (src : list N) : res ierr cseg :=
  let* (name_len, src) := io (read_u8 src) in
  let* (name, src) := io (read_exact name_len src) in
  let* d :=
    match kind with
    | KIndex => let* l := read_triangles oc ctx src in Ok (new_index l)
    | KInteger => let* l := read_triangles oc ctx src in Ok (new_integer l)
    | KFloat => read_custom_float src
    | KColor => read_custom_color oc src
    end in
  Ok (new_raw d name name_len).
