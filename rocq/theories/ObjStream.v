(** Model of src/obj.rs over sources and sinks whose calls may be short, be interrupted or
    fail: L28-41 (read_from_obj) through BufReader and BufRead::lines, and L222-237
    (write_obj) through BufWriter. *)
From Coq Require Import List NArith ZArith Arith Bool.
From Verif Require Import Base Floats Utilis Unify CustomData Mesh File Importer Obj StreamSpec Stream.
Import ListNotations.
Open Scope res_scope.

(** An error of an import: one of its own, or that of the source. *)
Inductive olerr := OOwn (e : oerr) | OSource (e : N).
(** The lines that end in a piece, and the start of a line that does not. *)
Fixpoint feed (acc : list N) (l : list N) : list (list N) * list N :=
  match l with
  | [] => ([], acc)
  | c :: t =>
    if (c =? 10)%N then let '(ls, r) := feed [] t in (drop_cr acc :: ls, r)
    else feed (acc ++ [c]) t
  end.
(** BufRead::lines over a BufReader: what its iterator yields, up to the first error. At the
    end of the source (no bytes) a started line is yielded; without one the iterator stops.
    BufReader cuts pieces to its capacity, which is a division into pieces like any other. *)
Fixpoint s_lines (acc : list N) (s : stream) : list (res N (list N)) :=
  match s with
  | [] => match acc with [] => [] | _ => [Ok acc] end
  | Interrupted :: t => s_lines acc t
  | Fails e :: _ => [Err e]
  | Piece [] :: t => match acc with [] => [] | _ => Ok acc :: s_lines [] t end
  | Piece l :: t => let '(ls, acc) := feed acc l in map Ok ls ++ s_lines acc t
  end.
(* src/obj.rs L34-38 : the loop over the lines; L6 : [let line = line?] *)
Fixpoint s_read_lines (ft : float_text) (tri : option (f32 -> f32)) (ls : list (res N (list N))) (oi : importer)
  (acc : list (mesh * list N)) : res olerr (importer * list (mesh * list N)) :=
  match ls with
  | [] => Ok (oi, acc)
  | l :: t =>
    let* l := map_err OSource l in
    let* (oi, o) := map_err OOwn (parse_line ft tri l oi) in
    s_read_lines ft tri t oi (match o with Some m => acc ++ [m] | None => acc end)
  end.
(* src/obj.rs L28-41 : read_from_obj; src/lib.rs L665-667 *)
Definition s_read_from_obj (ft : float_text) (tri : option (f32 -> f32)) (s : stream) : res olerr (list (mesh * list N)) :=
  let* (oi, acc) := s_read_lines ft tri (s_lines [] s) importer_new [] in
  Ok (acc ++ [importer_finish oi]).

(** *** Saving *)

(** BufWriter::flush_buf: write the buffer to the sink; what the sink took leaves the buffer
    also when it then fails. Result: the buffer, the sink, the error. *)
Fixpoint flush_loop (buf data : list N) (sched : list wevent) {struct sched} : list N * wsink * res (option N) unit :=
  match buf with
  | [] => ([], mk_wsink data sched, Ok tt)
  | _ =>
    match sched with
    | [] => ([], mk_wsink (data ++ buf) [], Ok tt)
    | WInterrupted :: t => flush_loop buf data t
    | WFails e :: t => (buf, mk_wsink data t, Err (Some e))
    | Takes 0 :: t => (buf, mk_wsink data t, Err None)
    | Takes n :: t => flush_loop (skipn (N.to_nat n) buf) (data ++ firstn (N.to_nat n) buf) t
    end
  end.
Definition flush_buf (buf : list N) (k : wsink) : list N * wsink * res (option N) unit :=
  flush_loop buf (ws_data k) (ws_sched k).
(** BufWriter::write_all and write_all_cold, with a buffer of [cap] bytes: keep what fits;
    else make room first; what is as long as the buffer goes straight to the sink. *)
Definition buf_write_all (cap : nat) (bytes buf : list N) (k : wsink) : list N * wsink * res (option N) unit :=
  let spare := cap - length buf in
  if length bytes <? spare then (buf ++ bytes, k, Ok tt)
  else
    let '(buf, k, r) := if spare <? length bytes then flush_buf buf k else (buf, k, Ok tt) in
    match r with
    | Ok _ =>
      if cap <=? length bytes then let '(_, k, r) := flush_buf bytes k in (buf, k, r)
      else (buf ++ bytes, k, Ok tt)
    | _ => (buf, k, r)
    end.
Fixpoint buf_write_each (cap : nat) (frs : list (list N)) (buf : list N) (k : wsink) : list N * wsink * res (option N) unit :=
  match frs with
  | [] => (buf, k, Ok tt)
  | b :: t =>
    let '(buf, k, r) := buf_write_all cap b buf k in
    match r with Ok _ => buf_write_each cap t buf k | _ => (buf, k, r) end
  end.
(* src/obj.rs L222-237 : write_obj. [frs] is the text as [writeln!] and [write!] pass it on,
   fragment by fragment; where it is cut is left open. The final flush, and Drop of the
   BufWriter, which flushes once more and ignores the error. The sink's own flush does nothing. *)
Definition s_write_obj (cap : nat) (frs : list (list N)) (k : wsink) : wsink * res (option N) unit :=
  let '(buf, k, r) := buf_write_each cap frs [] k in
  let '(buf, k, r) := match r with Ok _ => flush_buf buf k | _ => (buf, k, r) end in
  let '(_, k, _) := flush_buf buf k in
  (k, r).
