(** Model of whole files: src/tmf_importer.rs L66-204, src/tmf_exporter.rs L23-197,
    src/lib.rs L751-864. Mesh names are their UTF-8 bytes. *)
From Coq Require Import List NArith ZArith Arith Bool.
From Flocq Require Import IEEE754.BinarySingleNaN.
From Verif Require Import Base UnalignedRW ReadExt Triangles OptTris Floats Utilis Unify
  CustomData Mesh Tmf.
Import ListNotations.
Open Scope res_scope.

(** std::str::from_utf8 succeeds: the well-formed byte sequences of Unicode. *)
Definition in_range (lo hi b : N) : bool := ((lo <=? b) && (b <=? hi))%N.
Definition cont (b : N) : bool := in_range 0x80 0xBF b.
Fixpoint utf8_valid (l : list N) : bool :=
  match l with
  | [] => true
  | a :: t =>
    if (a <? 0x80)%N then utf8_valid t
    else if in_range 0xC2 0xDF a then
      match t with b :: t => cont b && utf8_valid t | [] => false end
    else if in_range 0xE0 0xEF a then
      match t with
      | b :: c :: t =>
        in_range (if a =? 0xE0 then 0xA0 else 0x80)%N (if a =? 0xED then 0x9F else 0xBF)%N b
        && cont c && utf8_valid t
      | _ => false
      end
    else if in_range 0xF0 0xF4 a then
      match t with
      | b :: c :: d :: t =>
        in_range (if a =? 0xF0 then 0x90 else 0x80)%N (if a =? 0xF4 then 0x8F else 0xBF)%N b
        && cont c && cont d && utf8_valid t
      | _ => false
      end
    else false
  end.

(** *** Loading *)

(* src/tmf_importer.rs L66-77 : read_string *)
Definition read_string (src : list N) : res ioerr (list N * list N) :=
  let* (byte_len, src) := read_u16 src in
  let* (bytes, src) := read_exact byte_len src in
  if utf8_valid bytes then Ok (bytes, src) else Err InvalidUtf8.

(* src/tmf_importer.rs L60-65 : TMFHeader *)
Record header := mk_header { h_major : N; h_minor : N; h_min_major : N; h_min_minor : N }.
(* src/lib.rs L56-59 *)
Definition TMF_MAJOR : N := 0.
Definition TMF_MINOR : N := 2.
Definition MIN_TMF_MAJOR : N := 0.
Definition MIN_TMF_MINOR : N := 2.
Definition magic : list N := [0x54; 0x4D; 0x46]%N.

(* src/tmf_importer.rs L78-100 : read_tmf_header *)
Definition read_tmf_header (src : list N) : res ierr (header * list N) :=
  let* (m, src) := io (read_exact 3 src) in
  if negb (list_eqb m magic) then Err ENotTMFFile
  else
    let* (major, src) := io (read_u16 src) in
    let* (minor, src) := io (read_u16 src) in
    let* (min_major, src) := io (read_u16 src) in
    let* (min_minor, src) := io (read_u16 src) in
    if ((TMF_MAJOR <? min_major) || ((min_major =? TMF_MAJOR) && (TMF_MINOR <? min_minor)))%N
    then Err ENewerVersionRequired
    else Ok (mk_header major minor min_major min_minor, src).

(* src/tmf_importer.rs L115-121, L18-24, L38-44 : init_header *)
Definition init_header (h : header) : import_ctx :=
  mk_ctx (if (1 <? h_min_minor h)%N then LenU32 else LenU64)
         (if (1 <? h_min_minor h)%N then TypeU8 else TypeU16)
         (1 <? h_min_minor h)%N.

(* src/tmf_importer.rs L131-141 : the segments of a mesh, read in order *)
Fixpoint read_segments (ctx : import_ctx) (n : nat) (src : list N) : res ierr (list eseg * list N) :=
  match n with
  | O => Ok ([], src)
  | S n' =>
    let* (s, src) := eseg_read ctx src in
    let* (l, src) := read_segments ctx n' src in
    Ok (s :: l, src)
  end.

(** [joined.into_iter().collect::<Result<Vec<_>,_>>()]: the first error, if any. *)
Fixpoint collect {E A} (l : list (res E A)) : res E (list A) :=
  match l with
  | [] => Ok []
  | x :: t => let* a := x in let* r := collect t in Ok (a :: r)
  end.
Definition is_panic {E A} (r : res E A) : bool := match r with Panic => true | _ => false end.
(** [join_all(futures).await]: a panic in any of the futures is propagated before
    their results are looked at. *)
Definition join_collect {E A} (l : list (res E A)) : res E (list A) :=
  if existsb is_panic l then Panic else collect l.

(* src/tmf_importer.rs L122-154 : import_mesh *)
Definition import_mesh (lm : libm) (oc : bool) (ctx : import_ctx) (src : list N)
  : res ierr ((mesh * list N) * list N) :=
  let* (name, src) := io (read_string src) in
  let* (segment_count, src) := io (read_u16 src) in
  let* (encoded, src) := read_segments ctx (N.to_nat segment_count) src in
  let* decoded := join_collect (map (decode lm oc ctx) encoded) in
  Ok ((fold_left apply decoded empty, name), src).

(* src/tmf_importer.rs L184-186 *)
Fixpoint import_meshes (lm : libm) (oc : bool) (ctx : import_ctx) (n : nat) (src : list N)
  : res ierr (list (mesh * list N) * list N) :=
  match n with
  | O => Ok ([], src)
  | S n' =>
    let* (m, src) := import_mesh lm oc ctx src in
    let* (l, src) := import_meshes lm oc ctx n' src in
    Ok (m :: l, src)
  end.

(* src/tmf_importer.rs L177-188 : import, together with the bytes it leaves unread *)
Definition import (lm : libm) (oc : bool) (src : list N) : res ierr (list (mesh * list N) * list N) :=
  let* (h, src) := read_tmf_header src in
  let* (mesh_count, src) := io (read_u32 src) in
  import_meshes lm oc (init_header h) (N.to_nat mesh_count) src.

(* src/lib.rs L820-822 : read_tmf *)
Definition read_tmf (lm : libm) (oc : bool) (src : list N) : res ierr (list (mesh * list N)) :=
  let* (meshes, _) := import lm oc src in Ok meshes.
(* src/lib.rs L852-864 : read_tmf_one *)
Definition read_tmf_one (lm : libm) (oc : bool) (src : list N) : res ierr (mesh * list N) :=
  let* meshes := read_tmf lm oc src in
  match meshes with
  | [] => Err ENoMeshes
  | [m] => Ok m
  | _ => Err ETooManyMeshes
  end.

(** *** Saving *)

(* src/lib.rs L1142-1146 : TMFExportError. [XFuel] is an artefact of the model (the
   splitting recursions run with fuel), proved not to occur. *)
Inductive xerr := XIo (e : ioerr) | XFuel.

(** The target of a save: the bytes it has accepted and how many more it will
    accept before it fails ([None]: it never fails). *)
Record sink := mk_sink { k_data : list N; k_room : option N }.
(** Something that writes to a sink. The sink after it is known whatever the outcome. *)
Definition action (A : Type) : Type := sink -> sink * res xerr A.
Definition ret {A} (a : A) : action A := fun s => (s, Ok a).
Definition abind {A B} (m : action A) (f : A -> action B) : action B :=
  fun s => let '(s, r) := m s in
           match r with
           | Ok a => f a s
           | Err e => (s, Err e)
           | Panic => (s, Panic)
           end.
(** A computation that does not touch the sink. *)
Definition pure {A} (r : res xerr A) : action A := fun s => (s, r).
Notation "'do*' p '<-' m 'in' k" :=
  (abind m (fun p => k)) (at level 200, p pattern, m at level 100, k at level 200, right associativity).

(** std::io::Write::write_all: on failure the bytes that fitted have been accepted. *)
Definition write_all (bytes : list N) : action unit :=
  fun s =>
    match k_room s with
    | None => (mk_sink (k_data s ++ bytes) None, Ok tt)
    | Some room =>
      if (N.of_nat (length bytes) <=? room)%N
      then (mk_sink (k_data s ++ bytes) (Some (room - N.of_nat (length bytes))%N), Ok tt)
      else (mk_sink (k_data s ++ firstn (N.to_nat room) bytes) (Some 0%N), Err (XIo WriteFailed))
    end.
Fixpoint write_chunks (l : list (list N)) : action unit :=
  match l with
  | [] => ret tt
  | b :: t => do* _ <- write_all b in write_chunks t
  end.

(* src/tmf_exporter.rs L39-53 : the loop over triangles; indexing panics out of range *)
Fixpoint shortest_loop (vs : list vec3) (tris : list N) (shortest : f32) : res xerr f32 :=
  match tris with
  | a :: b :: c :: t =>
    let* va := index vs a in
    let* vb := index vs b in
    let* vc := index vs c in
    let d1 := distance va vb in
    let d2 := distance vb vc in
    let d3 := distance vc va in
    shortest_loop vs t (fmin shortest (fmin d1 (fmin d2 d3)))
  | _ => Ok shortest
  end.
(* src/tmf_exporter.rs L31, L36, L57 : 0.1 *)
Definition default_edge : f32 := flit 1 10.
(* src/tmf_exporter.rs L23-64 : calc_shortest_edge *)
Definition calc_shortest_edge (tris : option (list N)) (vs : option (list vec3)) : res xerr f32 :=
  match tris with
  | None => Ok default_edge
  | Some [] => Ok default_edge
  | Some t =>
    match vs with
    | None => Ok default_edge
    | Some v =>
      let* s := shortest_loop v t f32_inf in
      if is_finite s then Ok s else Panic
    end
  end.

(* src/tmf_exporter.rs L66-70 : write_mesh_name *)
Definition write_mesh_name (name : list N) : action unit :=
  write_chunks [le_bytes 2 (N.of_nat (length name)); name].

(* src/tmf_exporter.rs L76-78 : merge [seg] with each of the others *)
Fixpoint merge_all (seg : dseg) (others : list dseg) : dseg * list dseg :=
  match others with
  | [] => (seg, [])
  | o :: t =>
    let '(seg, o) := merge seg o in
    let '(seg, t) := merge_all seg t in
    (seg, o :: t)
  end.
(* src/tmf_exporter.rs L71-83 : merge_segments. [segments.pop()] takes from the end:
   the model keeps the stack reversed. [fuel] is the length of the stack. *)
Fixpoint merge_loop (fuel : nat) (stack : list dseg) : list dseg :=
  match fuel with
  | O => []
  | S fuel' =>
    match stack with
    | [] => []
    | seg :: rest =>
      if is_something seg then
        let '(seg, others) := merge_all seg (rev rest) in
        seg :: merge_loop fuel' (rev others)
      else merge_loop fuel' rest
    end
  end.
Definition merge_segments (segments : list dseg) : list dseg :=
  merge_loop (length segments) (rev segments).

(* src/tmf_exporter.rs L141-197 : MeshSegIter *)
Definition opt_seg {A} (f : A -> dseg) (o : option A) : list dseg :=
  match o with Some x => [f x] | None => [] end.
Definition tmf_segs (m : mesh) : list dseg :=
  opt_seg DVertex (vertices m) ++ opt_seg DNormal (normals m) ++ opt_seg DUV (uvs m) ++
  opt_seg DTriVertex (vertex_triangles m) ++ opt_seg DTriNormal (normal_triangles m) ++
  opt_seg DTriUV (uv_triangles m) ++ opt_seg DTangent (tangents m) ++
  opt_seg DTriTangent (tangent_triangles m) ++ map DCustom (custom_data m).

(* src/tmf_exporter.rs L96-101 *)
Fixpoint optimize_all (lm : libm) (oc : bool) (segs : list dseg) : res xerr (list dseg) :=
  match segs with
  | [] => Ok []
  | s :: t =>
    let* a := map_err (fun _ => XFuel) (optimize lm oc s) in
    let* b := optimize_all lm oc t in
    Ok (a ++ b)
  end.
(* src/tmf_exporter.rs L109-111 : [seg?.write(target)?] for each *)
Fixpoint write_segments (l : list (res xerr eseg)) : action unit :=
  match l with
  | [] => ret tt
  | r :: t =>
    do* s <- pure r in
    do* _ <- write_chunks (eseg_chunks s) in
    write_segments t
  end.

(* src/tmf_exporter.rs L84-113 : write_mesh *)
Definition write_mesh (lm : libm) (oc : bool) (p : prec_info) (m : mesh) (name : list N) : action unit :=
  do* _ <- write_mesh_name name in
  do* shortest_edge <- pure (calc_shortest_edge (vertex_triangles m) (vertices m)) in
  do* segs <- pure (optimize_all lm oc (merge_segments (tmf_segs m))) in
  let encoded := map (fun s => map_err XIo (encode lm oc p shortest_edge s)) segs in
  do* _ <- pure (if existsb is_panic encoded then Panic else Ok tt) in
  do* _ <- write_all (le_bytes 2 (N.of_nat (length encoded))) in
  write_segments encoded.

(* src/tmf_exporter.rs L126-136 : write_tmf_header *)
Definition write_tmf_header (mesh_count : N) : action unit :=
  write_chunks [magic; le_bytes 2 TMF_MAJOR; le_bytes 2 TMF_MINOR; le_bytes 2 MIN_TMF_MAJOR;
                le_bytes 2 MIN_TMF_MINOR; le_bytes 4 mesh_count].

Fixpoint write_meshes (lm : libm) (oc : bool) (p : prec_info) (l : list (mesh * list N)) : action unit :=
  match l with
  | [] => ret tt
  | (m, name) :: t => do* _ <- write_mesh lm oc p m name in write_meshes lm oc p t
  end.
(* src/tmf_exporter.rs L114-125 : write_tmf; src/lib.rs L773-779 *)
Definition write_tmf (lm : libm) (oc : bool) (p : prec_info) (l : list (mesh * list N)) : action unit :=
  do* _ <- write_tmf_header (N.of_nat (length l)) in write_meshes lm oc p l.
(* src/lib.rs L751-758 : write_tmf_one *)
Definition write_tmf_one (lm : libm) (oc : bool) (p : prec_info) (m : mesh) (name : list N) : action unit :=
  write_tmf lm oc p [(m, name)].

(** The bytes of a save into a sink that never fails (a Vec). *)
Definition saved (lm : libm) (oc : bool) (p : prec_info) (l : list (mesh * list N)) : res xerr (list N) :=
  let '(s, r) := write_tmf lm oc p l (mk_sink [] None) in
  let* _ := r in Ok (k_data s).
