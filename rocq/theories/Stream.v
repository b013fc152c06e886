(** Model of loading from any source and saving to any sink: the functions of
    src/tmf_importer.rs L66-204 and src/tmf_exporter.rs L66-137 over sources and sinks whose
    calls may be short, be interrupted or fail. File.v has the same functions over a list of
    bytes and a sink with room for so many bytes. Decoding and encoding work on memory and are
    those of File.v. *)
From Coq Require Import List NArith ZArith Arith Bool.
From Verif Require Import Base UnalignedRW ReadExt Triangles Floats Utilis Unify CustomData Mesh Tmf File StreamSpec.
Import ListNotations.
Open Scope res_scope.

(** An error of a load: one of the crate's own (with std's UnexpectedEof and the crate's
    InvalidUtf8 as [EIO]), or the error of the source passed on as TMFImportError::IO. *)
Inductive lerr := LErr (e : ierr) | LSource (e : N).
Definition eof : lerr := LErr (EIO UnexpectedEof).

(** std::io::Read::read_exact (default_read_exact of std): read until the buffer is full;
    retry after an interruption; no bytes is the end; an error is passed on. *)
Fixpoint s_read_exact (n : N) (s : stream) {struct s} : res lerr (list N * stream) :=
  if (n =? 0)%N then Ok ([], s)
  else
    match s with
    | [] => Err eof
    | Interrupted :: t => s_read_exact n t
    | Fails e :: _ => Err (LSource e)
    | Piece [] :: _ => Err eof
    | Piece l :: t =>
      if (N.of_nat (length l) <=? n)%N
      then let* (r, s) := s_read_exact (n - N.of_nat (length l)) t in Ok (l ++ r, s)
      else Ok (firstn (N.to_nat n) l, Piece (skipn (N.to_nat n) l) :: t)
    end.
(* src/read_extension.rs L10-29 : ReadExt::read_u8, read_u16, read_u32, read_u64 *)
Definition s_read_le (n : N) (s : stream) : res lerr (N * stream) :=
  let* (tmp, s) := s_read_exact n s in Ok (of_le_bytes tmp, s).

(* src/tmf_importer.rs L66-77 : read_string *)
Definition s_read_string (s : stream) : res lerr (list N * stream) :=
  let* (byte_len, s) := s_read_le 2 s in
  let* (bytes, s) := s_read_exact byte_len s in
  if utf8_valid bytes then Ok (bytes, s) else Err (LErr (EIO InvalidUtf8)).

(* src/tmf_importer.rs L78-100 : read_tmf_header *)
Definition s_read_tmf_header (s : stream) : res lerr (header * stream) :=
  let* (m, s) := s_read_exact 3 s in
  if negb (list_eqb m magic) then Err (LErr ENotTMFFile)
  else
    let* (major, s) := s_read_le 2 s in
    let* (minor, s) := s_read_le 2 s in
    let* (min_major, s) := s_read_le 2 s in
    let* (min_minor, s) := s_read_le 2 s in
    if ((TMF_MAJOR <? min_major) || ((min_major =? TMF_MAJOR) && (TMF_MINOR <? min_minor)))%N
    then Err (LErr ENewerVersionRequired)
    else Ok (mk_header major minor min_major min_minor, s).

(* src/tmf_importer.rs L25-30 : SegLenWidth::read *)
Definition s_seg_len_read (w : seg_len_width) (s : stream) : res lerr (N * stream) :=
  match w with LenU32 => s_read_le 4 s | LenU64 => s_read_le 8 s end.
(* src/tmf_importer.rs L45-50 : SegTypeWidth::read *)
Definition s_seg_type_read (w : seg_type_width) (s : stream) : res lerr (section * stream) :=
  match w with
  | TypeU8 => let* (b, s) := s_read_le 1 s in Ok (section_from_u8 b, s)
  | TypeU16 => let* (b, s) := s_read_le 2 s in Ok (section_from_u16 b, s)
  end.
(* src/tmf.rs L139-156 : EncodedSegment::read *)
Definition s_eseg_read (ctx : import_ctx) (s : stream) : res lerr (eseg * stream) :=
  let* (seg_type, s) := s_seg_type_read (segment_type_width ctx) s in
  let* (data_length, s) := s_seg_len_read (segment_length_width ctx) s in
  if (MAX_SEG_SIZE <? data_length)%N then Err (LErr ESegmentTooLong)
  else
    let* (b, s) := s_read_le 1 s in
    let* comp := map_err LErr (compression_from_u8 b) in
    let* (data, s) := s_read_exact data_length s in
    Ok (mk_eseg seg_type comp data, s).
(* src/tmf_importer.rs L131-141 : the segments of a mesh, read in order *)
Fixpoint s_read_segments (ctx : import_ctx) (n : nat) (s : stream) : res lerr (list eseg * stream) :=
  match n with
  | O => Ok ([], s)
  | S n' =>
    let* (e, s) := s_eseg_read ctx s in
    let* (l, s) := s_read_segments ctx n' s in
    Ok (e :: l, s)
  end.
(* src/tmf_importer.rs L122-154 : import_mesh *)
Definition s_import_mesh (lm : libm) (oc : bool) (ctx : import_ctx) (s : stream) : res lerr ((mesh * list N) * stream) :=
  let* (name, s) := s_read_string s in
  let* (segment_count, s) := s_read_le 2 s in
  let* (encoded, s) := s_read_segments ctx (N.to_nat segment_count) s in
  let* decoded := map_err LErr (join_collect (map (decode lm oc ctx) encoded)) in
  Ok ((fold_left apply decoded empty, name), s).
(* src/tmf_importer.rs L184-186 *)
Fixpoint s_import_meshes (lm : libm) (oc : bool) (ctx : import_ctx) (n : nat) (s : stream) : res lerr (list (mesh * list N) * stream) :=
  match n with
  | O => Ok ([], s)
  | S n' =>
    let* (m, s) := s_import_mesh lm oc ctx s in
    let* (l, s) := s_import_meshes lm oc ctx n' s in
    Ok (m :: l, s)
  end.
(* src/tmf_importer.rs L177-188 : import *)
Definition s_import (lm : libm) (oc : bool) (s : stream) : res lerr (list (mesh * list N) * stream) :=
  let* (h, s) := s_read_tmf_header s in
  let* (mesh_count, s) := s_read_le 4 s in
  s_import_meshes lm oc (init_header h) (N.to_nat mesh_count) s.
(* src/lib.rs L820-822 : read_tmf *)
Definition s_read_tmf (lm : libm) (oc : bool) (s : stream) : res lerr (list (mesh * list N)) :=
  let* (meshes, _) := s_import lm oc s in Ok meshes.
(* src/lib.rs L852-864 : read_tmf_one *)
Definition s_read_tmf_one (lm : libm) (oc : bool) (s : stream) : res lerr (mesh * list N) :=
  let* meshes := s_read_tmf lm oc s in
  match meshes with
  | [] => Err (LErr ENoMeshes)
  | [m] => Ok m
  | _ => Err (LErr ETooManyMeshes)
  end.

(** *** Saving *)

(** An error of a save: one of the crate's own, or that of the sink passed on as
    TMFExportError::IO ([None]: std's WriteZero). *)
Inductive werr := WErr (e : xerr) | WSink (e : option N).
(** The bytes a sink has taken, and what its next calls do. *)
Record wsink := mk_wsink { ws_data : list N; ws_sched : list wevent }.
Definition waction (A : Type) : Type := wsink -> wsink * res werr A.
Definition wret {A} (a : A) : waction A := fun s => (s, Ok a).
Definition wbind {A B} (m : waction A) (f : A -> waction B) : waction B :=
  fun s => let '(s, r) := m s in
           match r with
           | Ok a => f a s
           | Err e => (s, Err e)
           | Panic => (s, Panic)
           end.
Definition wpure {A} (r : res xerr A) : waction A := fun s => (s, map_err WErr r).
Notation "'dw*' p '<-' m 'in' k" :=
  (wbind m (fun p => k)) (at level 200, p pattern, m at level 100, k at level 200, right associativity).

(** std::io::Write::write_all: write until nothing is left; retry after an interruption; a
    call that takes nothing is the error WriteZero; an error is passed on. *)
Fixpoint write_loop (bytes data : list N) (sched : list wevent) {struct sched} : wsink * res werr unit :=
  match bytes with
  | [] => (mk_wsink data sched, Ok tt)
  | _ =>
    match sched with
    | [] => (mk_wsink (data ++ bytes) [], Ok tt)
    | WInterrupted :: t => write_loop bytes data t
    | WFails e :: t => (mk_wsink data t, Err (WSink (Some e)))
    | Takes 0 :: t => (mk_wsink data t, Err (WSink None))
    | Takes n :: t => write_loop (skipn (N.to_nat n) bytes) (data ++ firstn (N.to_nat n) bytes) t
    end
  end.
Definition w_write_all (bytes : list N) : waction unit := fun s => write_loop bytes (ws_data s) (ws_sched s).
Fixpoint w_write_chunks (l : list (list N)) : waction unit :=
  match l with
  | [] => wret tt
  | b :: t => dw* _ <- w_write_all b in w_write_chunks t
  end.
(* src/tmf_exporter.rs L66-70 : write_mesh_name *)
Definition w_write_mesh_name (name : list N) : waction unit :=
  w_write_chunks [le_bytes 2 (N.of_nat (length name)); name].
(* src/tmf_exporter.rs L109-111 : [seg?.write(target)?] for each *)
Fixpoint w_write_segments (l : list (res xerr eseg)) : waction unit :=
  match l with
  | [] => wret tt
  | r :: t =>
    dw* s <- wpure r in
    dw* _ <- w_write_chunks (eseg_chunks s) in
    w_write_segments t
  end.
(* src/tmf_exporter.rs L84-113 : write_mesh *)
Definition w_write_mesh (lm : libm) (oc : bool) (p : prec_info) (m : mesh) (name : list N) : waction unit :=
  dw* _ <- w_write_mesh_name name in
  dw* shortest_edge <- wpure (calc_shortest_edge (vertex_triangles m) (vertices m)) in
  dw* segs <- wpure (optimize_all lm oc (merge_segments (tmf_segs m))) in
  let encoded := map (fun s => map_err XIo (encode lm oc p shortest_edge s)) segs in
  dw* _ <- wpure (if existsb is_panic encoded then Panic else Ok tt) in
  dw* _ <- w_write_all (le_bytes 2 (N.of_nat (length encoded))) in
  w_write_segments encoded.
(* src/tmf_exporter.rs L126-136 : write_tmf_header *)
Definition w_write_tmf_header (mesh_count : N) : waction unit :=
  w_write_chunks [magic; le_bytes 2 TMF_MAJOR; le_bytes 2 TMF_MINOR; le_bytes 2 MIN_TMF_MAJOR;
                  le_bytes 2 MIN_TMF_MINOR; le_bytes 4 mesh_count].
Fixpoint w_write_meshes (lm : libm) (oc : bool) (p : prec_info) (l : list (mesh * list N)) : waction unit :=
  match l with
  | [] => wret tt
  | (m, name) :: t => dw* _ <- w_write_mesh lm oc p m name in w_write_meshes lm oc p t
  end.
(* src/tmf_exporter.rs L114-125 : write_tmf; src/lib.rs L773-779 *)
Definition w_write_tmf (lm : libm) (oc : bool) (p : prec_info) (l : list (mesh * list N)) : waction unit :=
  dw* _ <- w_write_tmf_header (N.of_nat (length l)) in w_write_meshes lm oc p l.
