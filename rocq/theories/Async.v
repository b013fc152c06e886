(** Model of the asynchronous part of the loader: src/tmf_importer.rs L131-153.
    Each segment that has been read is handed to a decoding task
    ([tokio::task::spawn] with the feature tokio_runtime, a future polled by
    [join_all] otherwise). A task may complete at any moment after it was created,
    also while later segments are still being read. The poll and wake-up mechanism
    of the executor is not modelled: only the order of completions is. *)
From Coq Require Import List NArith Arith Bool.
From Verif Require Import Base UnalignedRW ReadExt Triangles Floats Mesh Tmf File.
Import ListNotations.
Open Scope res_scope.

(** A decoding task: its segment, and its result once it has completed. *)
Definition task : Type := eseg * option (res ierr dseg).
(** Segments still to be read, the stream, the tasks in the order of creation. *)
Record astate := mk_astate { a_todo : nat; a_src : list N; a_tasks : list task }.

Fixpoint set_task (i : nat) (t : task) (l : list task) : list task :=
  match l, i with
  | [], _ => []
  | _ :: r, O => t :: r
  | x :: r, S i' => x :: set_task i' t r
  end.

(* src/tmf_importer.rs L131-141 *)
Inductive astep (lm : libm) (oc : bool) (ctx : import_ctx) : astate -> astate -> Prop :=
| a_read n src e src' tasks :
    eseg_read ctx src = Ok (e, src') ->
    astep lm oc ctx (mk_astate (S n) src tasks) (mk_astate n src' (tasks ++ [(e, None)]))
| a_complete n src tasks i e :
    nth_error tasks i = Some (e, None) ->
    astep lm oc ctx (mk_astate n src tasks)
          (mk_astate n src (set_task i (e, Some (decode lm oc ctx e)) tasks)).

Inductive asteps (lm : libm) (oc : bool) (ctx : import_ctx) : astate -> astate -> Prop :=
| as_refl s : asteps lm oc ctx s s
| as_step s t u : astep lm oc ctx s t -> asteps lm oc ctx t u -> asteps lm oc ctx s u.

(** [?] on a failed read leaves the function without waiting for the tasks; once
    everything has been read, [join_all] waits for all of them and yields their
    results in the order of creation (L143-153). *)
Fixpoint results (l : list task) : option (list (res ierr dseg)) :=
  match l with
  | [] => Some []
  | (_, Some r) :: t => option_map (cons r) (results t)
  | (_, None) :: _ => None
  end.
Inductive afinal (ctx : import_ctx) : astate -> res ierr (list dseg * list N) -> Prop :=
| af_err n src tasks e :
    eseg_read ctx src = Err e -> afinal ctx (mk_astate (S n) src tasks) (Err e)
| af_panic n src tasks :
    eseg_read ctx src = Panic -> afinal ctx (mk_astate (S n) src tasks) Panic
| af_join src tasks l :
    results tasks = Some l ->
    afinal ctx (mk_astate 0 src tasks) (let* d := join_collect l in Ok (d, src)).

(** A run of [import_mesh] (L122-154) under some order of completions. *)
Inductive amesh (lm : libm) (oc : bool) (ctx : import_ctx) (src : list N)
  : res ierr ((mesh * list N) * list N) -> Prop :=
| am_name_err e : read_string src = Err e -> amesh lm oc ctx src (Err (EIO e))
| am_count_err name s1 e :
    read_string src = Ok (name, s1) -> read_u16 s1 = Err e -> amesh lm oc ctx src (Err (EIO e))
| am_run name s1 n s2 st r :
    read_string src = Ok (name, s1) -> read_u16 s1 = Ok (n, s2) ->
    asteps lm oc ctx (mk_astate (N.to_nat n) s2 []) st -> afinal ctx st r ->
    amesh lm oc ctx src
      (let* (d, rest) := r in Ok ((fold_left apply d empty, name), rest)).

(** A run of [import] (L177-188): the meshes one after another. *)
Inductive ameshes (lm : libm) (oc : bool) (ctx : import_ctx)
  : nat -> list N -> res ierr (list (mesh * list N) * list N) -> Prop :=
| ams_nil src : ameshes lm oc ctx 0 src (Ok ([], src))
| ams_ok n src m rest r :
    amesh lm oc ctx src (Ok (m, rest)) -> ameshes lm oc ctx n rest r ->
    ameshes lm oc ctx (S n) src (let* (l, s) := r in Ok (m :: l, s))
| ams_err n src e : amesh lm oc ctx src (Err e) -> ameshes lm oc ctx (S n) src (Err e)
| ams_panic n src : amesh lm oc ctx src Panic -> ameshes lm oc ctx (S n) src Panic.
Inductive aimport (lm : libm) (oc : bool) (src : list N)
  : res ierr (list (mesh * list N) * list N) -> Prop :=
| ai_head_err e : read_tmf_header src = Err e -> aimport lm oc src (Err e)
| ai_count_err h s1 e :
    read_tmf_header src = Ok (h, s1) -> read_u32 s1 = Err e -> aimport lm oc src (Err (EIO e))
| ai_run h s1 n s2 r :
    read_tmf_header src = Ok (h, s1) -> read_u32 s1 = Ok (n, s2) ->
    ameshes lm oc (init_header h) (N.to_nat n) s2 r -> aimport lm oc src r.
