(** Lines of .obj text. Independent of the model. *)
From Coq Require Import List NArith.
From Verif Require Import FileSpec ObjSpec.
Import ListNotations.

(** The content of a line: no newline, no carriage return at the end. *)
Definition line (l : list N) : Prop := ~ In 10%N l /\ last l 0%N <> 13%N.
(** The two ways to end a line. *)
Definition line_end (e : list N) : Prop := e = [10]%N \/ e = [13; 10]%N.
(** Text made of these lines, with these ends. *)
Inductive text_of : list (list N) -> list N -> Prop :=
| text_nil : text_of [] []
| text_cons l e ls t : line l -> line_end e -> text_of ls t -> text_of (l :: ls) (l ++ e ++ t).
(** Whole lines. *)
Definition whole (t : list N) : Prop := t = [] \/ exists t', t = t' ++ [10]%N.
(** The words v, vn, vt, f, o. *)
Definition words : list (list N) := [[118]; [118; 110]; [118; 116]; [102]; [111]]%N.
(** A line that starts with none of them: a comment, a blank line, mtllib, usemtl, g, s, ... *)
Definition ignorable (l : list N) : Prop := line l /\ utf8 l /\ exists w, first_word l w /\ ~ In w words.
(** A number as it stands between spaces. *)
Definition token (p : list N) : Prop := ~ In 32%N p /\ ~ In 47%N p /\ ~ In 10%N p /\ p <> [] /\ last p 0%N <> 13%N /\ utf8 p.
(** Words separated by spaces. *)
Definition spaced (ws : list (list N)) (w : list N) : list N := w ++ concat (map (fun p => 32%N :: p) ws).
