(** Model of src/obj.rs and of the functions of src/lib.rs that call it. Text is a
    list of bytes. Readers and writers that fail, BufReader and BufWriter are in
    ObjStream.v. *)
From Coq Require Import List NArith ZArith Arith Bool.
From Flocq Require Import IEEE754.BinarySingleNaN.
From Verif Require Import Base Floats Utilis Unify CustomData Mesh File Importer.
Import ListNotations.
Open Scope res_scope.

(** How the standard library prints (Display) and parses (FromStr) a float. *)
Record float_text := mk_float_text { t_show : f32 -> list N; t_parse : list N -> option f32 }.

(** std::io::Error: not UTF-8; "Invalid .obj line"; a float that does not parse; a
    face that is refused; an index array of the wrong length in a saved mesh; not
    exactly one mesh. *)
Inductive oerr := ONotUtf8 | OLine | OFloat | OFace | OMesh | OCount.

(** Display for u32. *)
Fixpoint show_digits (fuel : nat) (n : N) (acc : list N) : list N :=
  match fuel with
  | O => acc
  | S fuel =>
    let acc := (48 + n mod 10)%N :: acc in
    if (n <? 10)%N then acc else show_digits fuel (n / 10)%N acc
  end.
Definition show_u32 (n : N) : list N := show_digits 10 n [].
(** FromStr for u32. *)
Fixpoint parse_digits (l : list N) (acc : N) : option N :=
  match l with
  | [] => Some acc
  | c :: t =>
    if ((48 <=? c) && (c <=? 57))%N then
      let a := (acc * 10 + (c - 48))%N in
      if (a <? two32)%N then parse_digits t a else None
    else None
  end.
Definition parse_u32 (l : list N) : option N :=
  match l with
  | [] => None
  | [c] => if ((c =? 43) || (c =? 45))%N then None else parse_digits l 0
  | c :: t => if (c =? 43)%N then parse_digits t 0 else parse_digits l 0
  end.

(** BufRead::lines: the text up to each newline, without it and without a carriage
    return before it, and what follows the last newline if that is not empty. *)
Fixpoint drop_cr (l : list N) : list N :=
  match l with
  | [] => []
  | [c] => if (c =? 13)%N then [] else [c]
  | c :: t => c :: drop_cr t
  end.
Fixpoint lines_from (acc : list N) (l : list N) : list (list N) :=
  match l with
  | [] => match acc with [] => [] | _ => [acc] end
  | c :: t => if (c =? 10)%N then drop_cr acc :: lines_from [] t else lines_from (acc ++ [c]) t
  end.
Definition lines (l : list N) : list (list N) := lines_from [] l.
(** str::split(&[' ', '/']). *)
Fixpoint split_from (acc : list N) (l : list N) : list (list N) :=
  match l with
  | [] => [acc]
  | c :: t => if ((c =? 32) || (c =? 47))%N then acc :: split_from [] t else split_from (acc ++ [c]) t
  end.
Definition split (l : list N) : list (list N) := split_from [] l.

(* src/obj.rs L42-50 : parse_float_type *)
Definition parse_float_type (ft : float_text) (s : list N) : res oerr f32 :=
  match t_parse ft s with Some x => Ok x | None => Err OFloat end.
(* src/obj.rs L51-53 : parse_index *)
Definition parse_index (s : list N) : N :=
  match parse_u32 s with Some i => i | None => 1%N end.
(* src/obj.rs L54-62 : match_split applied to the next part of the line *)
Definition next_part (parts : list (list N)) : res oerr (list N * list (list N)) :=
  match parts with p :: t => Ok (p, t) | [] => Err OLine end.

(* src/obj.rs L65-80 : load_indices *)
Definition load_indices (parts : list (list N)) : res oerr (N * N * N * list (list N)) :=
  let* (i0, parts) := next_part parts in
  let* (i1, parts) := next_part parts in
  let* (i2, parts) := next_part parts in
  let i0 := parse_index i0 in
  let i1 := parse_index i1 in
  let i2 := parse_index i2 in
  if ((i0 <? 1) || (i1 <? 1) || (i2 <? 1))%N then Err OLine
  else Ok (i0 - 1, i1 - 1, i2 - 1, parts)%N.
(* src/obj.rs L86-90 : the loop of load_face; every round takes three parts *)
Fixpoint load_corners (fuel : nat) (parts : list (list N)) (v u n : list N) : list N * list N * list N :=
  match fuel with
  | O => (v, u, n)
  | S fuel =>
    match load_indices parts with
    | Ok (a, b, c, parts) => load_corners fuel parts (v ++ [a]) (u ++ [b]) (n ++ [c])
    | _ => (v, u, n)
    end
  end.
(* src/obj.rs L82-95 : load_face *)
Definition load_face (tri : option (f32 -> f32)) (parts : list (list N)) (oi : importer) : res oerr importer :=
  let '(v, u, n) := load_corners (length parts) parts [] [] [] in
  map_err (fun _ => OFace) (push_face tri oi v u n).
(* src/obj.rs L96-107 : load_vec3 *)
Definition load_vec3 (ft : float_text) (parts : list (list N)) : res oerr vec3 :=
  let* (x, parts) := next_part parts in
  let* (y, parts) := next_part parts in
  let* (z, _) := next_part parts in
  let* x := parse_float_type ft x in
  let* y := parse_float_type ft y in
  let* z := parse_float_type ft z in
  Ok (x, y, z).
(* src/obj.rs L108-111 : load_vec2 *)
Definition load_vec2 (ft : float_text) (parts : list (list N)) : res oerr vec2 :=
  let* (x, parts) := next_part parts in
  let* (y, _) := next_part parts in
  let* x := parse_float_type ft x in
  let* y := parse_float_type ft y in
  Ok (x, y).

(** The words that begin a line: v, vn, vt, f, o. *)
Definition kw_v : list N := [118]%N.
Definition kw_vn : list N := [118; 110]%N.
Definition kw_vt : list N := [118; 116]%N.
Definition kw_f : list N := [102]%N.
Definition kw_o : list N := [111]%N.
(* src/obj.rs L5-27 : parse_line. Other words, among them #, mtllib, usemtl and s,
   make it ignore the line. *)
Definition parse_line (ft : float_text) (tri : option (f32 -> f32)) (line : list N) (oi : importer)
  : res oerr (importer * option (mesh * list N)) :=
  if negb (utf8_valid line) then Err ONotUtf8
  else
    let* (beg, parts) := next_part (split line) in
    if list_eqb beg kw_v then let* v := load_vec3 ft parts in Ok (push_vertex oi v, None)
    else if list_eqb beg kw_vn then let* v := load_vec3 ft parts in Ok (push_normal oi v, None)
    else if list_eqb beg kw_vt then let* v := load_vec2 ft parts in Ok (push_uv oi v, None)
    else if list_eqb beg kw_f then let* oi := load_face tri parts oi in Ok (oi, None)
    else if list_eqb beg kw_o then let* (name, _) := next_part parts in Ok (next_mesh oi name)
    else Ok (oi, None).
(* src/obj.rs L34-38 : the loop over the lines *)
Fixpoint read_lines (ft : float_text) (tri : option (f32 -> f32)) (ls : list (list N)) (oi : importer)
  (acc : list (mesh * list N)) : res oerr (importer * list (mesh * list N)) :=
  match ls with
  | [] => Ok (oi, acc)
  | l :: t =>
    let* (oi, o) := parse_line ft tri l oi in
    read_lines ft tri t oi (match o with Some m => acc ++ [m] | None => acc end)
  end.
(* src/obj.rs L28-41 : read_from_obj; src/lib.rs L665-667 *)
Definition read_from_obj (ft : float_text) (tri : option (f32 -> f32)) (src : list N)
  : res oerr (list (mesh * list N)) :=
  let* (oi, acc) := read_lines ft tri (lines src) importer_new [] in
  Ok (acc ++ [importer_finish oi]).
(* src/lib.rs L683-701 : read_from_obj_one *)
Definition read_from_obj_one (ft : float_text) (tri : option (f32 -> f32)) (src : list N)
  : res oerr (mesh * list N) :=
  let* l := read_from_obj ft tri src in
  match l with
  | [] => Err OCount
  | [m] => Ok m
  | _ => Err OCount
  end.

(** u32 addition. *)
Definition add32 {E} (oc : bool) (a b : N) : res E N :=
  if (a + b <? two32)%N then Ok (a + b)%N
  else if oc then Panic else Ok ((a + b) mod two32)%N.
Definition nl : list N := [10]%N.
Definition sp : list N := [32]%N.
Definition slash : list N := [47]%N.
(* src/obj.rs L123 and L132 : a line with three floats *)
Definition vec3_line (ft : float_text) (word : list N) (v : vec3) : list N :=
  word ++ sp ++ t_show ft (vx v) ++ sp ++ t_show ft (vy v) ++ sp ++ t_show ft (vz v) ++ nl.
(* src/obj.rs L140 *)
Definition vec2_line (ft : float_text) (v : vec2) : list N :=
  kw_vt ++ sp ++ t_show ft (fst v) ++ sp ++ t_show ft (snd v) ++ nl.
Definition or_empty {A} (o : option (list A)) : list A := match o with Some l => l | None => [] end.
(* src/obj.rs L181-205 : the loop writing the faces, from position [i] on *)
Fixpoint face_loop (oc : bool) (off : N * N * N) (i : N) (vt : list N) (ut nt : option (list N)) : res oerr (list N) :=
  match vt with
  | [] => Ok []
  | v :: rest =>
    let '(off_v, off_u, off_n) := off in
    let beg := if (i mod 3 =? 0)%N then kw_f ++ sp else [] in
    let* vertex := add32 oc v off_v in
    let* uv := match ut with
      | Some ut => let* u := index ut i in let* u := add32 oc u off_u in Ok (slash ++ show_u32 u)
      | None => Ok (match nt with Some _ => slash | None => [] end)
      end in
    let* normal := match nt with
      | Some nt => let* n := index nt i in let* n := add32 oc n off_n in Ok (slash ++ show_u32 n)
      | None => Ok []
      end in
    let fin := if (i mod 3 =? 2)%N then nl else sp in
    let* t := face_loop oc off (i + 1)%N rest ut nt in
    Ok (beg ++ show_u32 vertex ++ uv ++ normal ++ fin ++ t)
  end.
(* src/obj.rs L112-220 : save_obj. Result: the text and the numbers of vertices, uvs
   and normals. *)
Definition save_obj (ft : float_text) (oc : bool) (m : mesh) (off : N * N * N) (name : list N)
  : res oerr (list N * (N * N * N)) :=
  let head := kw_o ++ sp ++ name ++ nl in
  let body := concat (map (vec3_line ft kw_v) (or_empty (vertices m)))
    ++ concat (map (vec3_line ft kw_vn) (or_empty (normals m)))
    ++ concat (map (vec2_line ft) (or_empty (uvs m))) in
  match vertex_triangles m with
  | None =>
    match normal_triangles m, uv_triangles m with
    | None, None => Ok (head ++ body, (0, 0, 0)%N)
    | _, _ => Err OMesh
    end
  | Some vt =>
    let bad (t : option (list N)) := match t with Some l => negb (length l =? length vt) | None => false end in
    if bad (normal_triangles m) then Err OMesh
    else if bad (uv_triangles m) then Err OMesh
    else
      let* faces := face_loop oc off 0 vt (uv_triangles m) (normal_triangles m) in
      Ok (head ++ body ++ faces,
          (ulen (or_empty (vertices m)) mod two32, ulen (or_empty (uvs m)) mod two32,
           ulen (or_empty (normals m)) mod two32)%N)
  end.
(* src/obj.rs L227-234 : the loop of write_obj *)
Fixpoint save_objs (ft : float_text) (oc : bool) (l : list (mesh * list N)) (off : N * N * N) : res oerr (list N) :=
  match l with
  | [] => Ok []
  | (m, name) :: t =>
    let* (text, (v, u, n)) := save_obj ft oc m off name in
    let '(off_v, off_u, off_n) := off in
    let* off_v := add32 oc off_v v in
    let* off_u := add32 oc off_u u in
    let* off_n := add32 oc off_n n in
    let* rest := save_objs ft oc t (off_v, off_u, off_n) in
    Ok (text ++ rest)
  end.
(* src/obj.rs L222-237 : write_obj; src/lib.rs L731-736. Result: the text, if the
   writer accepts it. *)
Definition write_obj (ft : float_text) (oc : bool) (l : list (mesh * list N)) : res oerr (list N) :=
  let* text := save_objs ft oc l (1, 1, 1)%N in
  Ok ([115; 32; 49]%N ++ nl ++ text).
(* src/lib.rs L715-717 : write_obj_one *)
Definition write_obj_one (ft : float_text) (oc : bool) (m : mesh) (name : list N) : res oerr (list N) :=
  write_obj ft oc [(m, name)].
