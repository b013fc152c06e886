(** Sources that deliver their bytes in pieces and may fail, and sinks that take bytes in
    pieces and may fail, as std::io describes them. Nothing here is specific to tmf. *)
From Coq Require Import List NArith.
Import ListNotations.

(** What the next calls of [Read::read] bring: bytes (an empty piece reports the end),
    an interruption ([ErrorKind::Interrupted], to be retried), or another error. After the
    last event every call reports the end. *)
Inductive event := Piece (l : list N) | Interrupted | Fails (e : N).
Definition stream := list event.
(** How the bytes of a source end. *)
Inductive ending := AtEnd | Failed (e : N).
(** The bytes a source delivers before it first reports its end or an error. *)
Fixpoint delivers (s : stream) : list N :=
  match s with
  | Piece (x :: l) :: t => (x :: l) ++ delivers t
  | Interrupted :: t => delivers t
  | _ => []
  end.
Fixpoint ends (s : stream) : ending :=
  match s with
  | Piece (_ :: _) :: t => ends t
  | Interrupted :: t => ends t
  | Fails e :: _ => Failed e
  | _ => AtEnd
  end.

(** The source does not report its end before it is there. *)
Definition lasting (s : stream) : Prop := Forall (fun e => e <> Piece []) s.

(** What the next calls of [Write::write] do: take at most [n] bytes, report an interruption,
    or fail. After the last event every call takes all it is given. *)
Inductive wevent := Takes (n : N) | WInterrupted | WFails (e : N).
(** The sink makes no save fail: it always takes something and reports no error. *)
Definition patient (s : list wevent) : Prop :=
  Forall (fun e => match e with Takes n => n <> 0%N | WInterrupted => True | WFails _ => False end) s.
(** Why a sink can make a save fail: it took nothing ([None]), or it reported an error. *)
Definition refuses (s : list wevent) (why : option N) : Prop :=
  match why with None => In (Takes 0) s | Some e => In (WFails e) s end.
