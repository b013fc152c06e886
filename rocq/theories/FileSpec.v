(** The layout of TMF files as byte strings, and what it means for a mesh to be
    stored faithfully. Written without looking at how the model reads or writes. *)
From Coq Require Import List NArith ZArith Arith Bool.
From Verif Require Import Floats CustomData Mesh.
Import ListNotations.

(** The number [v] on [n] bytes, least significant first. *)
Definition lend (n : nat) (v : N) : list N :=
  map (fun i => ((v / 256 ^ N.of_nat i) mod 256)%N) (seq 0 n).

(** A segment: kind code, compression code, payload. *)
Record raw_seg := mk_raw { r_kind : N; r_comp : N; r_payload : list N }.
Definition len {A} (l : list A) : N := N.of_nat (length l).

(** Current framing: kind on one byte, length on four, compression on one. *)
Definition seg_bytes (s : raw_seg) : list N :=
  [r_kind s] ++ lend 4 (len (r_payload s)) ++ [r_comp s] ++ r_payload s.
(** Framing before version 0.2: kind on two bytes, length on eight. *)
Definition old_seg_bytes (s : raw_seg) : list N :=
  lend 2 (r_kind s) ++ lend 8 (len (r_payload s)) ++ [r_comp s] ++ r_payload s.

(** A named mesh, the file header and a file. *)
Definition raw_mesh : Type := list N * list raw_seg.
Definition mesh_bytes (frame : raw_seg -> list N) (m : raw_mesh) : list N :=
  lend 2 (len (fst m)) ++ fst m ++ lend 2 (len (snd m)) ++ concat (map frame (snd m)).
Definition header_bytes (major minor min_major min_minor : N) : list N :=
  [84; 77; 70]%N ++ lend 2 major ++ lend 2 minor ++ lend 2 min_major ++ lend 2 min_minor.
Definition file_bytes (ms : list raw_mesh) : list N :=
  header_bytes 0 2 0 2 ++ lend 4 (len ms) ++ concat (map (mesh_bytes seg_bytes) ms).
(** A file of an older version [(major, minor)] that asks for [min_minor]. *)
Definition old_file_bytes (major minor min_minor : N) (ms : list raw_mesh) : list N :=
  header_bytes major minor 0 min_minor ++ lend 4 (len ms) ++ concat (map (mesh_bytes old_seg_bytes) ms).

(** The kind codes that are assigned, and the compression codes. *)
Definition known_kinds : list N := [1; 2; 3; 4; 5; 6; 9; 10; 15; 16; 23; 24; 25]%N.
Definition known (s : raw_seg) : bool := existsb (N.eqb (r_kind s)) known_kinds.
Definition comp_codes : list N := [0; 1; 2; 255]%N.

(** A segment that can be framed: kind and compression codes are in range and the
    payload is at most 2^31 bytes. *)
Definition frameable (s : raw_seg) : Prop :=
  (r_kind s < 256)%N /\ In (r_comp s) comp_codes /\ (len (r_payload s) <= 2 ^ 31)%N.

(** Well-formed UTF-8 (Unicode, table 3-7), as a relation. *)
Inductive utf8 : list N -> Prop :=
| utf8_nil : utf8 []
| utf8_1 a t : (a <= 0x7F)%N -> utf8 t -> utf8 (a :: t)
| utf8_2 a b t : (0xC2 <= a <= 0xDF)%N -> (0x80 <= b <= 0xBF)%N -> utf8 t -> utf8 (a :: b :: t)
| utf8_3 a b c t :
    ((a = 0xE0 /\ 0xA0 <= b <= 0xBF) \/ (0xE1 <= a <= 0xEC /\ 0x80 <= b <= 0xBF) \/
     (a = 0xED /\ 0x80 <= b <= 0x9F) \/ (0xEE <= a <= 0xEF /\ 0x80 <= b <= 0xBF))%N ->
    (0x80 <= c <= 0xBF)%N -> utf8 t -> utf8 (a :: b :: c :: t)
| utf8_4 a b c d t :
    ((a = 0xF0 /\ 0x90 <= b <= 0xBF) \/ (0xF1 <= a <= 0xF3 /\ 0x80 <= b <= 0xBF) \/
     (a = 0xF4 /\ 0x80 <= b <= 0x8F))%N ->
    (0x80 <= c <= 0xBF)%N -> (0x80 <= d <= 0xBF)%N -> utf8 t -> utf8 (a :: b :: c :: d :: t).

(** A mesh name that fits the format. *)
Definition name_ok (name : list N) : Prop := utf8 name /\ (len name < 65536)%N.

Definition mesh_ok (m : raw_mesh) : Prop :=
  name_ok (fst m) /\ (len (snd m) < 65536)%N /\ Forall frameable (snd m).
Definition file_ok (ms : list raw_mesh) : Prop := (len ms < 2 ^ 32)%N /\ Forall mesh_ok ms.

(** [old_index old new]: an index array as stored before version 0.2 and the
    current payload with the same content, which has in addition an offset field,
    zero here. *)
Definition old_index (old new : list N) : Prop :=
  exists w count bits, old = [w] ++ count ++ bits /\ new = [w] ++ count ++ lend 8 0 ++ bits /\
    length count = 8.
(** Old and new payload of a segment of the given kind. *)
Definition same_payload (kind : N) (old new : list N) : Prop :=
  if existsb (N.eqb kind) [2; 4; 6; 10]%N then old_index old new
  else if (kind =? 25)%N then
    exists mask o n, old = mask :: o /\ new = mask :: n /\ old_index o n
  else if existsb (N.eqb kind) [15; 24]%N then
    exists name o n, old = len name :: name ++ o /\ new = len name :: name ++ n /\ old_index o n
  else old = new.
Definition same_segment (a b : raw_seg) : Prop :=
  r_kind a = r_kind b /\ r_comp a = r_comp b /\ same_payload (r_kind a) (r_payload a) (r_payload b).
Definition same_raw_mesh (a b : raw_mesh) : Prop :=
  fst a = fst b /\ Forall2 same_segment (snd a) (snd b).

(** The payloads that make the loader panic. A colour array (kind 23) that declares
    2^59 entries or more or, with overflow checks, a width of 64 bits or more; with
    overflow checks, an index array whose offset plus the largest number of its
    width exceeds 64 bits. *)
Definition index_prefix (kind : N) (pre : list N) : Prop :=
  (In kind [2; 4; 6; 10]%N /\ pre = []) \/
  (kind = 25%N /\ len pre = 1%N) \/
  (In kind [15; 24]%N /\ exists name, pre = [len name] ++ name).
Definition panic_payload (oc : bool) (kind : N) (payload : list N) : Prop :=
  (kind = 23%N /\ exists name count w bits,
     payload = [len name] ++ name ++ lend 8 count ++ [w] ++ bits /\ (count < 2 ^ 64)%N /\
     ((2 ^ 59 <= count)%N \/ (oc = true /\ (64 <= w)%N)))
  \/
  (oc = true /\ exists pre w count offset bits,
     payload = pre ++ [w] ++ lend 8 count ++ lend 8 offset ++ bits /\ index_prefix kind pre /\
     (1 <= w < 64)%N /\ (offset < 2 ^ 64)%N /\ (2 ^ 64 < offset + 2 ^ w)%N).

(** [declares kind payload n]: the payload of a segment of this kind declares [n]
    elements (all kinds that hold arrays, except colours). *)
Inductive declares : N -> list N -> N -> Prop :=
| dec_count8 kind n rest : In kind [1; 3; 9]%N -> declares kind (lend 8 n ++ rest) n
| dec_width_count8 kind w n rest : In kind [2; 4; 5; 6; 10]%N -> (w < 256)%N ->
    declares kind ([w] ++ lend 8 n ++ rest) n
| dec_shared mask w n rest : (w < 256)%N -> declares 25 ([mask; w] ++ lend 8 n ++ rest) n
| dec_custom_index kind name w n rest : In kind [15; 24]%N -> (len name < 256)%N -> (w < 256)%N ->
    declares kind ([len name] ++ name ++ [w] ++ lend 8 n ++ rest) n
| dec_custom_float name n rest : (len name < 256)%N ->
    declares 16 ([len name] ++ name ++ lend 8 n ++ rest) n.
