(** What exporting to and importing from .obj text must do. Independent of the model. *)
From Coq Require Import List NArith ZArith Arith Bool.
From Verif Require Import Floats FileSpec MeshSpec CustomData Mesh Importer Obj.
Import ListNotations.

(** Printing a float and parsing it gives the float back, and the text is made of
    visible ASCII characters other than the slash. *)
Definition plain (b : N) : Prop := (33 <= b <= 126)%N /\ b <> 47%N.
Definition text_ok (ft : float_text) : Prop :=
  forall x, t_parse ft (t_show ft x) = Some x /\ Forall plain (t_show ft x).

(** ** Numbers *)
Definition digit (c : N) : Prop := (48 <= c <= 57)%N.
Definition decimal (l : list N) : N := fold_left (fun a c => (10 * a + (c - 48))%N) l 0%N.
(** [s] is a decimal numeral, with or without a plus sign, for the 32 bit number [n]. *)
Definition numeral (s : list N) (n : N) : Prop :=
  exists d, (s = d \/ s = 43%N :: d) /\ d <> [] /\ Forall digit d /\ decimal d = n /\ (n < 2 ^ 32)%N.
(** The index that a part of a face stands for: the number, or 1 if it is none. *)
Definition stands_for (s : list N) (n : N) : Prop :=
  numeral s n \/ ((forall k, ~ numeral s k) /\ n = 1%N).

(** ** Meshes *)
(** An attribute with [k] indices, all in range. *)
Definition indexed {A} (d : option (list A)) (t : option (list N)) (k : nat) : Prop :=
  exists d0 t0, d = Some d0 /\ t = Some t0 /\ length t0 = k /\ in_range d0 t0.
(** A mesh with [3 * k] corners, each with a vertex and a normal, and all or none
    with a UV. *)
Definition exportable (m : mesh) : Prop :=
  exists k, (0 < k)%nat /\ indexed (vertices m) (vertex_triangles m) (3 * k) /\
    indexed (normals m) (normal_triangles m) (3 * k) /\
    (indexed (uvs m) (uv_triangles m) (3 * k) \/ uv_triangles m = None).
(** A name that a line of the file can hold. *)
Definition line_name (name : list N) : Prop :=
  utf8 name /\ ~ In 10%N name /\ last name 0%N <> 13%N.
(** [w] is the part of the name before the first space or slash. *)
Definition first_word (name w : list N) : Prop :=
  ~ In 32%N w /\ ~ In 47%N w /\ (name = w \/ exists c rest, name = w ++ c :: rest /\ (c = 32%N \/ c = 47%N)).

Definition size {A} (d : option (list A)) : N := match d with Some l => len l | None => 0%N end.
Definition total {A} (f : mesh -> option (list A)) (l : list (mesh * list N)) : N :=
  fold_right (fun mn a => (size (f (fst mn)) + a)%N) 0%N l.
(** The positions in the file fit 32 bits. *)
Definition numbered (l : list (mesh * list N)) : Prop :=
  (total vertices l + 1 < 2 ^ 32)%N /\ (total normals l + 1 < 2 ^ 32)%N /\ (total uvs l + 1 < 2 ^ 32)%N.

(** The data lost elements at the front that no index uses, and the indices were
    adapted. *)
Definition front_cut {A} (d : option (list A)) (t : option (list N)) (d' : option (list A)) (t' : option (list N)) : Prop :=
  exists front d1 t1, d = Some (front ++ d1) /\ t = Some (map (fun i => (i + len front)%N) t1) /\ d' = Some d1 /\ t' = Some t1.

(** What a mesh and its name become by export and import. *)
Definition reimported (a b : mesh * list N) : Prop :=
  first_word (snd a) (snd b) /\
  front_cut (vertices (fst a)) (vertex_triangles (fst a)) (vertices (fst b)) (vertex_triangles (fst b)) /\
  front_cut (normals (fst a)) (normal_triangles (fst a)) (normals (fst b)) (normal_triangles (fst b)) /\
  (uv_triangles (fst a) <> None -> front_cut (uvs (fst a)) (uv_triangles (fst a)) (uvs (fst b)) (uv_triangles (fst b))) /\
  (forall t, uv_triangles (fst a) = None -> vertex_triangles (fst a) = Some t -> uv_triangles (fst b) = Some (map (fun _ => 0%N) t)) /\
  tangents (fst b) = None /\ tangent_triangles (fst b) = None /\ custom_data (fst b) = [].

(** ** Faces *)
(** The text of a face whose corners are given by three texts each: vertex, UV and
    normal. *)
Definition face_line (cs : list (list N * list N * list N)) : list N :=
  [102]%N ++ concat (map (fun c => [32]%N ++ fst (fst c) ++ [47]%N ++ snd (fst c) ++ [47]%N ++ snd c) cs).
Definition corner_plain (c : list N * list N * list N) : Prop :=
  Forall plain (fst (fst c)) /\ Forall plain (snd (fst c)) /\ Forall plain (snd c).
(** The three numbers that a corner's texts stand for. *)
Definition corner_numbers (c : list N * list N * list N) (n : N * N * N) : Prop :=
  stands_for (fst (fst c)) (fst (fst n)) /\ stands_for (snd (fst c)) (snd (fst n)) /\ stands_for (snd c) (snd n).
Definition nonzero (n : N * N * N) : Prop := fst (fst n) <> 0%N /\ snd (fst n) <> 0%N /\ snd n <> 0%N.
(** [good] are the corners before the first with a zero. *)
Definition up_to_zero (nums good : list (N * N * N)) : Prop :=
  exists rest, nums = good ++ rest /\ Forall nonzero good /\ (rest = [] \/ exists z t, rest = z :: t /\ ~ nonzero z).

(** ** Meshes that can be exported *)
(** The other index arrays are as long as that of the vertices; there is none
    without that. *)
Definition same_length (t : list N) (o : option (list N)) : Prop := forall l, o = Some l -> length l = length t.
Definition consistent (m : mesh) : Prop :=
  match vertex_triangles m with
  | None => normal_triangles m = None /\ uv_triangles m = None
  | Some t => same_length t (normal_triangles m) /\ same_length t (uv_triangles m)
  end.
(** Indices plus a position in the file fit 32 bits. *)
Definition small_indices (bound : N) (o : option (list N)) : Prop :=
  forall l, o = Some l -> Forall (fun i => (i + bound < 2 ^ 32)%N) l.
Definition small_file (l : list (mesh * list N)) : Prop :=
  numbered l /\ Forall (fun mn => small_indices (total vertices l + 1) (vertex_triangles (fst mn)) /\
    small_indices (total normals l + 1) (normal_triangles (fst mn)) /\ small_indices (total uvs l + 1) (uv_triangles (fst mn))) l.
(** A mesh with data but no faces. *)
Definition point_cloud (m : mesh) : Prop := vertex_triangles m = None /\ normal_triangles m = None /\ uv_triangles m = None.
