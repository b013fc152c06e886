(** What the bytes of a file say, mesh by mesh, whatever its version. Written without looking
    at how the model reads. *)
From Coq Require Import List NArith.
From Verif Require Import FileSpec.
Import ListNotations.

(** The framing of the segments, from the oldest reader (0, [min_minor]) the file asks for. *)
Definition framing (min_minor : N) : raw_seg -> list N := if (min_minor <? 2)%N then old_seg_bytes else seg_bytes.
(** The fields of a mesh have room for its contents. *)
Definition storable_seg (min_minor : N) (s : raw_seg) : Prop :=
  (r_kind s < if min_minor <? 2 then 65536 else 256)%N /\ In (r_comp s) comp_codes /\ (len (r_payload s) <= 2 ^ 31)%N.
Definition storable (min_minor : N) (m : raw_mesh) : Prop :=
  name_ok (fst m) /\ (len (snd m) < 65536)%N /\ Forall (storable_seg min_minor) (snd m).
(** [src] declares [n] meshes and starts with the meshes [ms]. *)
Definition starts_with (src : list N) (n : N) (ms : list raw_mesh) : Prop :=
  exists a b c d rest, src = header_bytes a b c d ++ lend 4 n ++ concat (map (mesh_bytes (framing d)) ms) ++ rest /\
    Forall (fun v => v < 65536)%N [a; b; c; d] /\ (n < 2 ^ 32)%N /\ Forall (storable d) ms.
(** [src] declares and holds the meshes [ms]; bytes may follow. *)
Definition holds (src : list N) (ms : list raw_mesh) : Prop := starts_with src (len ms) ms.

Inductive Forall3 {A B C} (P : A -> B -> C -> Prop) : list A -> list B -> list C -> Prop :=
| Forall3_nil : Forall3 P [] [] []
| Forall3_cons a b c la lb lc : P a b c -> Forall3 P la lb lc -> Forall3 P (a :: la) (b :: lb) (c :: lc).

(** A file with the header numbers [a b c d], the meshes [ms], and bytes that follow. *)
Definition file_of (a b c d : N) (ms : list raw_mesh) (rest : list N) : list N :=
  header_bytes a b c d ++ lend 4 (len ms) ++ concat (map (mesh_bytes (framing d)) ms) ++ rest.
(** The numbers fit their fields. *)
Definition file_fits (a b c d : N) (ms : list raw_mesh) : Prop :=
  Forall (fun v => v < 65536)%N [a; b; c; d] /\ (len ms < 2 ^ 32)%N /\ Forall (storable d) ms.

(** The parts of a mesh that a segment of a kind adds to: 1 vertices, 2 vertex triangles,
    3 normals, 4 normal triangles, 5 texture coordinates, 6 their triangles, 9 tangents,
    10 their triangles, 0 custom data. A shared index segment (25) adds to up to three. *)
Definition parts (kind : N) : list N :=
  if existsb (N.eqb kind) [1; 2; 3; 4; 5; 6; 9; 10]%N then [kind]
  else if existsb (N.eqb kind) [15; 16; 23; 24]%N then [0]%N
  else if (kind =? 25)%N then [2; 4; 6]%N
  else [].
Definition independent (s t : raw_seg) : Prop := forall p, In p (parts (r_kind s)) -> ~ In p (parts (r_kind t)).
(** The same segments in another order, where any two that add to the same part keep their
    order. *)
Inductive rearranged : list raw_seg -> list raw_seg -> Prop :=
| re_refl l : rearranged l l
| re_swap l s t r : independent s t -> rearranged (l ++ s :: t :: r) (l ++ t :: s :: r)
| re_trans l m r : rearranged l m -> rearranged m r -> rearranged l r.
