(** Model of src/obj.rs and src/model_importer.rs in builds with other number types: FloatType is
    f32 or f64 (feature "double_precision"), IndexType is u16, u32 or u64 (features
    "short_indices" and "long_indices"). The float type is a type [F] with its text, the index
    type the number [top] of its values. Text is cut into lines and words as in Obj.v. *)
From Coq Require Import List NArith ZArith Arith Bool.
From Verif Require Import Base Floats Utilis Unify CustomData Mesh File Importer Obj.
Import ListNotations.
Open Scope res_scope.

Section Any.
Context {F : Type}.
(** How the standard library prints (Display) and parses (FromStr) a float. *)
Record any_text := mk_any_text { a_show : F -> list N; a_parse : list N -> option F }.
(* src/lib.rs : struct TMFMesh, without the tangents and the custom data, which src/obj.rs neither
   writes nor reads *)
Record any_mesh := mk_any_mesh {
  a_normals : option (list (F * F * F));
  a_normal_triangles : option (list N);
  a_vertices : option (list (F * F * F));
  a_vertex_triangles : option (list N);
  a_uvs : option (list (F * F));
  a_uv_triangles : option (list N) }.

(** Display for u16, u32 and u64. *)
Definition show_any (n : N) : list N := show_digits 20 n [].
(** FromStr for the unsigned type with [top] values. *)
Fixpoint digits_any (top : N) (l : list N) (acc : N) : option N :=
  match l with
  | [] => Some acc
  | c :: t =>
    if ((48 <=? c) && (c <=? 57))%N then
      let a := (acc * 10 + (c - 48))%N in
      if (a <? top)%N then digits_any top t a else None
    else None
  end.
Definition parse_any (top : N) (l : list N) : option N :=
  match l with
  | [] => None
  | [c] => if ((c =? 43) || (c =? 45))%N then None else digits_any top l 0
  | c :: t => if (c =? 43)%N then digits_any top t 0 else digits_any top l 0
  end.

(* src/utilis.rs L6-23 : fast_prune *)
Definition prune_any {A} (top : N) (data : list A) (indices : list N) : list A * list N :=
  let min_index := (N.of_nat (length data) mod top)%N in
  let min_index := match indices with [] => 0%N | _ => min_index end in
  match prune_scan indices min_index with
  | None => (data, indices)
  | Some m => (skipn (N.to_nat m) data, map (fun i => (i - m)%N) indices)
  end.

(* src/model_importer.rs L9-17 : struct ModelImporter *)
Record any_importer := mk_any_importer {
  ai_vertices : list (F * F * F);
  ai_normals : list (F * F * F);
  ai_uvs : list (F * F);
  ai_vertex_triangles : list N;
  ai_normal_triangles : list N;
  ai_uv_triangles : list N;
  ai_name : list N }.
(* src/model_importer.rs L19-29 : new *)
Definition any_importer_new : any_importer := mk_any_importer [] [] [] [] [] [] [].
(* src/model_importer.rs L36-53 and L62-80 : the mesh made of what was read so far *)
Definition any_imported_mesh (top : N) (s : any_importer) : any_mesh :=
  let (vertices, vertex_triangles) := prune_any top (ai_vertices s) (ai_vertex_triangles s) in
  let (normals, normal_triangles) := prune_any top (ai_normals s) (ai_normal_triangles s) in
  let (uvs, uv_triangles) := prune_any top (ai_uvs s) (ai_uv_triangles s) in
  mk_any_mesh (Some normals) (Some normal_triangles) (Some vertices) (Some vertex_triangles) (Some uvs) (Some uv_triangles).
(* src/model_importer.rs L30-60 : next_mesh *)
Definition any_next_mesh (top : N) (s : any_importer) (name : list N) : any_importer * option (any_mesh * list N) :=
  match ai_vertex_triangles s with
  | [] => (mk_any_importer (ai_vertices s) (ai_normals s) (ai_uvs s) (ai_vertex_triangles s)
                           (ai_normal_triangles s) (ai_uv_triangles s) name, None)
  | _ => (mk_any_importer (ai_vertices s) (ai_normals s) (ai_uvs s) [] [] [] name,
          Some (any_imported_mesh top s, ai_name s))
  end.
(* src/model_importer.rs L61-83 : finish *)
Definition any_finish (top : N) (s : any_importer) : any_mesh * list N := (any_imported_mesh top s, ai_name s).
(* src/model_importer.rs L84-104 : the push functions; those for indices take all indices of a face *)
Definition any_push_vertex (s : any_importer) (v : F * F * F) : any_importer :=
  mk_any_importer (ai_vertices s ++ [v]) (ai_normals s) (ai_uvs s) (ai_vertex_triangles s)
                  (ai_normal_triangles s) (ai_uv_triangles s) (ai_name s).
Definition any_push_normal (s : any_importer) (v : F * F * F) : any_importer :=
  mk_any_importer (ai_vertices s) (ai_normals s ++ [v]) (ai_uvs s) (ai_vertex_triangles s)
                  (ai_normal_triangles s) (ai_uv_triangles s) (ai_name s).
Definition any_push_uv (s : any_importer) (v : F * F) : any_importer :=
  mk_any_importer (ai_vertices s) (ai_normals s) (ai_uvs s ++ [v]) (ai_vertex_triangles s)
                  (ai_normal_triangles s) (ai_uv_triangles s) (ai_name s).
Definition any_push_indices (s : any_importer) (v n u : list N) : any_importer :=
  mk_any_importer (ai_vertices s) (ai_normals s) (ai_uvs s) (ai_vertex_triangles s ++ v)
                  (ai_normal_triangles s ++ n) (ai_uv_triangles s ++ u) (ai_name s).
(* src/model_importer.rs L105-148 : push_face. [tri] is what `triangulate` of
   src/triangulation.rs does, if the feature "triangulation" is on. *)
Definition any_push_face (tri : option (any_importer -> list N -> list N -> list N -> res face_error any_importer))
  (s : any_importer) (v u n : list N) : res face_error any_importer :=
  if negb ((length v =? length u) && (length v =? length n)) then Err BadFace
  else match v with
  | [] | [_] | [_; _] => Err BadFace
  | [_; _; _] => Ok (any_push_indices s v n u)
  | _ =>
    match tri with
    | None => Err BadFace
    | Some triangulate => triangulate s v n u
    end
  end.

(* src/obj.rs L42-50 : parse_float_type *)
Definition any_float (ft : any_text) (s : list N) : res oerr F :=
  match a_parse ft s with Some x => Ok x | None => Err OFloat end.
(* src/obj.rs L51-53 : parse_index *)
Definition any_index (top : N) (s : list N) : N :=
  match parse_any top s with Some i => i | None => 1%N end.
(* src/obj.rs L65-80 : load_indices *)
Definition any_indices (top : N) (parts : list (list N)) : res oerr (N * N * N * list (list N)) :=
  let* (i0, parts) := next_part parts in
  let* (i1, parts) := next_part parts in
  let* (i2, parts) := next_part parts in
  let i0 := any_index top i0 in
  let i1 := any_index top i1 in
  let i2 := any_index top i2 in
  if ((i0 <? 1) || (i1 <? 1) || (i2 <? 1))%N then Err OLine
  else Ok (i0 - 1, i1 - 1, i2 - 1, parts)%N.
(* src/obj.rs L86-90 : the loop of load_face; every round takes three parts *)
Fixpoint any_corners (top : N) (fuel : nat) (parts : list (list N)) (v u n : list N) : list N * list N * list N :=
  match fuel with
  | O => (v, u, n)
  | S fuel =>
    match any_indices top parts with
    | Ok (a, b, c, parts) => any_corners top fuel parts (v ++ [a]) (u ++ [b]) (n ++ [c])
    | _ => (v, u, n)
    end
  end.
(* src/obj.rs L82-95 : load_face *)
Definition any_face top tri (parts : list (list N)) (oi : any_importer) : res oerr any_importer :=
  let '(v, u, n) := any_corners top (length parts) parts [] [] [] in
  map_err (fun _ => OFace) (any_push_face tri oi v u n).
(* src/obj.rs L96-107 : load_vec3 *)
Definition any_vec3 (ft : any_text) (parts : list (list N)) : res oerr (F * F * F) :=
  let* (x, parts) := next_part parts in
  let* (y, parts) := next_part parts in
  let* (z, _) := next_part parts in
  let* x := any_float ft x in
  let* y := any_float ft y in
  let* z := any_float ft z in
  Ok (x, y, z).
(* src/obj.rs L108-111 : load_vec2 *)
Definition any_vec2 (ft : any_text) (parts : list (list N)) : res oerr (F * F) :=
  let* (x, parts) := next_part parts in
  let* (y, _) := next_part parts in
  let* x := any_float ft x in
  let* y := any_float ft y in
  Ok (x, y).
(* src/obj.rs L5-27 : parse_line *)
Definition any_line top (ft : any_text) tri (line : list N) (oi : any_importer)
  : res oerr (any_importer * option (any_mesh * list N)) :=
  if negb (utf8_valid line) then Err ONotUtf8
  else
    let* (beg, parts) := next_part (split line) in
    if list_eqb beg kw_v then let* v := any_vec3 ft parts in Ok (any_push_vertex oi v, None)
    else if list_eqb beg kw_vn then let* v := any_vec3 ft parts in Ok (any_push_normal oi v, None)
    else if list_eqb beg kw_vt then let* v := any_vec2 ft parts in Ok (any_push_uv oi v, None)
    else if list_eqb beg kw_f then let* oi := any_face top tri parts oi in Ok (oi, None)
    else if list_eqb beg kw_o then let* (name, _) := next_part parts in Ok (any_next_mesh top oi name)
    else Ok (oi, None).
(* src/obj.rs L34-38 : the loop over the lines *)
Fixpoint any_lines top (ft : any_text) tri (ls : list (list N)) (oi : any_importer)
  (acc : list (any_mesh * list N)) : res oerr (any_importer * list (any_mesh * list N)) :=
  match ls with
  | [] => Ok (oi, acc)
  | l :: t =>
    let* (oi, o) := any_line top ft tri l oi in
    any_lines top ft tri t oi (match o with Some m => acc ++ [m] | None => acc end)
  end.
(* src/obj.rs L28-41 : read_from_obj; src/lib.rs L665-667 *)
Definition read_obj_any top (ft : any_text) tri (src : list N) : res oerr (list (any_mesh * list N)) :=
  let* (oi, acc) := any_lines top ft tri (lines src) any_importer_new [] in
  Ok (acc ++ [any_finish top oi]).

(** Addition of the index type. *)
Definition add_any {E} (top : N) (oc : bool) (a b : N) : res E N :=
  if (a + b <? top)%N then Ok (a + b)%N
  else if oc then Panic else Ok ((a + b) mod top)%N.
(* src/obj.rs L123 and L132 : a line with three floats *)
Definition any_vec3_line (ft : any_text) (word : list N) (v : F * F * F) : list N :=
  word ++ sp ++ a_show ft (fst (fst v)) ++ sp ++ a_show ft (snd (fst v)) ++ sp ++ a_show ft (snd v) ++ nl.
(* src/obj.rs L140 *)
Definition any_vec2_line (ft : any_text) (v : F * F) : list N :=
  kw_vt ++ sp ++ a_show ft (fst v) ++ sp ++ a_show ft (snd v) ++ nl.
(* src/obj.rs L181-205 : the loop writing the faces, from position [i] on *)
Fixpoint any_face_loop (top : N) (oc : bool) (off : N * N * N) (i : N) (vt : list N) (ut nt : option (list N)) : res oerr (list N) :=
  match vt with
  | [] => Ok []
  | v :: rest =>
    let '(off_v, off_u, off_n) := off in
    let beg := if (i mod 3 =? 0)%N then kw_f ++ sp else [] in
    let* vertex := add_any top oc v off_v in
    let* uv := match ut with
      | Some ut => let* u := index ut i in let* u := add_any top oc u off_u in Ok (slash ++ show_any u)
      | None => Ok (match nt with Some _ => slash | None => [] end)
      end in
    let* normal := match nt with
      | Some nt => let* n := index nt i in let* n := add_any top oc n off_n in Ok (slash ++ show_any n)
      | None => Ok []
      end in
    let fin := if (i mod 3 =? 2)%N then nl else sp in
    let* t := any_face_loop top oc off (i + 1)%N rest ut nt in
    Ok (beg ++ show_any vertex ++ uv ++ normal ++ fin ++ t)
  end.
(* src/obj.rs L112-220 : save_obj. Result: the text and the numbers of vertices, uvs
   and normals. *)
Definition any_save (top : N) (ft : any_text) (oc : bool) (m : any_mesh) (off : N * N * N) (name : list N)
  : res oerr (list N * (N * N * N)) :=
  let head := kw_o ++ sp ++ name ++ nl in
  let body := concat (map (any_vec3_line ft kw_v) (or_empty (a_vertices m)))
    ++ concat (map (any_vec3_line ft kw_vn) (or_empty (a_normals m)))
    ++ concat (map (any_vec2_line ft) (or_empty (a_uvs m))) in
  match a_vertex_triangles m with
  | None =>
    match a_normal_triangles m, a_uv_triangles m with
    | None, None => Ok (head ++ body, (0, 0, 0)%N)
    | _, _ => Err OMesh
    end
  | Some vt =>
    let bad (t : option (list N)) := match t with Some l => negb (length l =? length vt) | None => false end in
    if bad (a_normal_triangles m) then Err OMesh
    else if bad (a_uv_triangles m) then Err OMesh
    else
      let* faces := any_face_loop top oc off 0 vt (a_uv_triangles m) (a_normal_triangles m) in
      Ok (head ++ body ++ faces,
          (ulen (or_empty (a_vertices m)) mod top, ulen (or_empty (a_uvs m)) mod top,
           ulen (or_empty (a_normals m)) mod top)%N)
  end.
(* src/obj.rs L227-234 : the loop of write_obj *)
Fixpoint any_saves (top : N) (ft : any_text) (oc : bool) (l : list (any_mesh * list N)) (off : N * N * N) : res oerr (list N) :=
  match l with
  | [] => Ok []
  | (m, name) :: t =>
    let* (text, (v, u, n)) := any_save top ft oc m off name in
    let '(off_v, off_u, off_n) := off in
    let* off_v := add_any top oc off_v v in
    let* off_u := add_any top oc off_u u in
    let* off_n := add_any top oc off_n n in
    let* rest := any_saves top ft oc t (off_v, off_u, off_n) in
    Ok (text ++ rest)
  end.
(* src/obj.rs L222-237 : write_obj; src/lib.rs L731-736 *)
Definition write_obj_any (top : N) (ft : any_text) (oc : bool) (l : list (any_mesh * list N)) : res oerr (list N) :=
  let* text := any_saves top ft oc l (1, 1, 1)%N in
  Ok ([115; 32; 49]%N ++ nl ++ text).
End Any.
Arguments any_text : clear implicits.
Arguments any_mesh : clear implicits.
Arguments any_importer : clear implicits.
