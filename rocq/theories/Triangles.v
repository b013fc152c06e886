(** Model of the index array codec: src/vertices.rs (calc_prec, save_triangles,
    read_triangles) and src/tmf_importer.rs (read_default_triangles).
    An index (u32) is an [N]. *)
From Coq Require Import List NArith Arith Bool.
From Verif Require Import Base UnalignedRW ReadExt.
Import ListNotations.
Open Scope res_scope.

(** u64::count_ones *)
Fixpoint pos_ones (p : positive) : nat :=
  match p with
  | xH => 1
  | xO q => pos_ones q
  | xI q => S (pos_ones q)
  end.
Definition count_ones (n : N) : nat :=
  match n with N0 => 0 | Npos p => pos_ones p end.
(** u64::leading_zeros *)
Definition leading_zeros (n : N) : nat :=
  match n with N0 => 64 | _ => 63 - N.to_nat (N.log2 n) end.

(* src/vertices.rs L162-178 : calc_prec. The result (u8) is a [nat]. The argument
   is a usize, i.e. below 2^64; [max + 1] cannot overflow after the first test. *)
Definition calc_prec (max : N) : nat :=
  if (max =? two64 - 1)%N then 64
  else
    let max1 := (max + 1)%N in
    let offset_of_first_1 := 64 - 1 - leading_zeros max1 in
    let round_up := 1 <? count_ones max1 in
    offset_of_first_1 + (if round_up then 1 else 0).

(** [iter().min().unwrap_or(&d)] and [iter().max().unwrap_or(&d)] *)
Definition min_or (d : N) (l : list N) : N :=
  match l with [] => d | x :: t => fold_left N.min t x end.
Definition max_or (d : N) (l : list N) : N :=
  match l with [] => d | x :: t => fold_left N.max t x end.

(* src/vertices.rs L179-195 : save_triangles. [sink] is what the target already
   holds; the result is its final content. *)
Definition save_triangles (oc : bool) (tris : list N) (max_index : N) (sink : list N)
  : res ioerr (list N) :=
  let min := min_or 0 tris in
  let precision := calc_prec max_index in
  let sink := sink ++ le_bytes 1 (N.of_nat precision) in
  let sink := sink ++ le_bytes 8 (N.of_nat (length tris)) in
  let sink := sink ++ le_bytes 8 min in
  let* w := write_fields oc (writer_new sink) (map (fun index => (precision, index - min)%N) tris) in
  Ok (writer_finish w).

(* src/tmf_importer.rs L12-16, L32-36, L51-56 : SegLenWidth, SegTypeWidth,
   TMFImportContext *)
Inductive seg_len_width := LenU32 | LenU64.
Inductive seg_type_width := TypeU16 | TypeU8.
Record import_ctx := mk_ctx {
  segment_length_width : seg_len_width;
  segment_type_width : seg_type_width;
  should_read_min_index : bool }.

(* src/tmf_importer.rs L108-114 : read_traingle_min *)
Definition read_triangle_min (ctx : import_ctx) (src : list N) : res ioerr (N * list N) :=
  if should_read_min_index ctx then read_u64 src else Ok (0%N, src).

(** [(i + min) as u32] *)
Definition add_min (oc : bool) (i min : N) : res ierr N :=
  let* s := add64 oc i min in Ok (s mod two32)%N.

(* src/vertices.rs L209-213 : first loop of read_triangles, [n] iterations *)
Fixpoint read_tri_pairs (oc : bool) (n : nat) (r : reader) (prec : nat) (min : N) (acc : list N)
  : res ierr (list N * reader) :=
  match n with
  | O => Ok (acc, r)
  | S n' =>
    let* (p, r1) := io (read2_unaligned oc r prec) in
    let* a := add_min oc (fst p) min in
    let* b := add_min oc (snd p) min in
    read_tri_pairs oc n' r1 prec min (acc ++ [a; b])
  end.

(* src/vertices.rs L196-218 : read_triangles *)
Definition read_triangles (oc : bool) (ctx : import_ctx) (src : list N) : res ierr (list N) :=
  let* (precision, src) := io (read_u8 src) in
  let* (length, src) := io (read_u64 src) in
  let* (min, src) := io (read_triangle_min ctx src) in
  if (MAX_SEG_SIZE <? length)%N then Err ESegmentTooLong
  else
    let prec := N.to_nat precision in
    let* (res, r) := read_tri_pairs oc (N.to_nat (length / 2)) (reader_new (slice src)) prec min [] in
    if (length mod 2 =? 0)%N then Ok res
    else
      let* (i, _) := io (read_unaligned r prec) in
      let* v := add_min oc i min in
      Ok (res ++ [v]).

(** The spare capacity of a Vec: cells that may or may not have been written. *)
Definition cells := list (option N).

(** [buf[i].write(v)]: a bounds-checked store. *)
Fixpoint set_cell (buf : cells) (i : nat) (v : N) : res ierr cells :=
  match buf, i with
  | [], _ => Panic
  | _ :: t, O => Ok (Some v :: t)
  | c :: t, S i' => let* t' := set_cell t i' v in Ok (c :: t')
  end.

(* src/tmf_importer.rs L276-280 : pair loop of read_default_triangles *)
Fixpoint default_tri_pairs (oc : bool) (n index : nat) (r : reader) (prec : nat) (min : N) (buf : cells)
  : res ierr (cells * reader) :=
  match n with
  | O => Ok (buf, r)
  | S n' =>
    let* (p, r1) := io (read2_unaligned oc r prec) in
    let* a := add_min oc (fst p) min in
    let* buf := set_cell buf (index * 2) a in
    let* b := add_min oc (snd p) min in
    let* buf := set_cell buf (index * 2 + 1) b in
    default_tri_pairs oc n' (S index) r1 prec min buf
  end.

(* src/tmf_importer.rs L258-289 : read_default_triangles on an empty Vec (every
   caller passes one). [spare] is how much more than [length] cells the allocator
   reserved. The result is the Vec after set_len(length): its cells, with [None]
   for memory that was never written. *)
Definition read_default_cells (oc : bool) (ctx : import_ctx) (spare : nat) (src : list N)
  : res ierr cells :=
  let* (precision_bits, src) := io (read_u8 src) in
  let* (length, src) := io (read_u64 src) in
  let* (min, src) := io (read_triangle_min ctx src) in
  if (MAX_SEG_SIZE <? length)%N then Err ESegmentTooLong
  else
    let len := N.to_nat length in
    let buf := repeat None (len + spare) in
    let prec := N.to_nat precision_bits in
    let* buf :=
      (if (precision_bits =? 0)%N then Ok (map (fun _ => Some 0%N) buf)
       else
         let* (buf, r) := default_tri_pairs oc (N.to_nat (length / 2)) 0
                                            (reader_new (slice src)) prec min buf in
         if (length mod 2 =? 0)%N then Ok buf
         else
           let* (i, _) := io (read_unaligned r prec) in
           let* v := add_min oc i min in
           set_cell buf (N.to_nat (length - 1)) v) in
    Ok (firstn len buf).

(** The values in fully written cells; [None] if some cell was never written. *)
Fixpoint written (l : cells) : option (list N) :=
  match l with
  | [] => Some []
  | Some v :: t => option_map (cons v) (written t)
  | None :: _ => None
  end.

(** The loaded index array. Using a never-written cell is undefined behaviour; it
    is modelled as [Panic] and proved impossible. *)
Definition read_default_triangles (oc : bool) (ctx : import_ctx) (src : list N) : res ierr (list N) :=
  let* c := read_default_cells oc ctx 0 src in
  match written c with Some l => Ok l | None => Panic end.
