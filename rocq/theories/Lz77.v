(** Model of src/lz77.rs. The mappers are applied by the caller: the data are u64
    values. The progress messages on standard output are left out. *)
From Coq Require Import List NArith Arith Bool.
From Verif Require Import Base UnalignedRW Utilis Triangles.
Import ListNotations.
Open Scope res_scope.

(* src/lz77.rs L24-34 : match_len. [fuel] bounds the iterations; the length of the
   data is enough. *)
Fixpoint match_len (fuel : nat) (data : list N) (offset pos len : nat) : nat :=
  match fuel with
  | O => len
  | S fuel' =>
    if (offset <? pos) && (pos <? length data) then
      match nth_error data offset, nth_error data pos with
      | Some a, Some b => if (a =? b)%N then match_len fuel' data (S offset) (S pos) (S len) else len
      | _, _ => len
      end
    else len
  end.
(* src/lz77.rs L15-21 : the loop over the offsets *)
Fixpoint best_match (data : list N) (pos : nat) (offsets : list nat) (best : nat * nat) : nat * nat :=
  match offsets with
  | [] => best
  | offset :: t =>
    let len := match_len (length data) data offset pos 0 in
    best_match data pos t (if snd best <? len then (pos - offset, len) else best)
  end.
(* src/lz77.rs L7-23 : find_longest_match *)
Definition find_longest_match (data : list N) (pos scrollback_limit : nat) : nat * nat :=
  let start := if pos <? scrollback_limit then 0 else pos - scrollback_limit in
  best_match data pos (seq start (pos - start)) (0, 0).

(* src/lz77.rs L48-63 : the loop of save_compressed_array. [fuel] bounds the
   iterations; running out of it is [Panic] and proved unreachable. *)
Fixpoint save_lz_loop (fuel : nat) (oc : bool) (prec : nat) (data : list N) (pos : nat) (w : writer) : res ioerr writer :=
  if length data <=? pos then Ok w
  else match fuel with
  | O => Panic
  | S fuel' =>
    let '(offset, len) := find_longest_match data pos 127 in
    let write_raw := (offset =? 0) || (len <? 2) in
    let* w := write_bit oc w write_raw in
    if write_raw then
      let* v := index data (N.of_nat pos) in
      let* w := write_unaligned oc w prec v in
      save_lz_loop fuel' oc prec data (pos + 1) w
    else
      let* w := write_unaligned oc w prec (N.of_nat len) in
      let* w := write_unaligned oc w prec (N.of_nat offset) in
      save_lz_loop fuel' oc prec data (pos + len) w
  end.
(* src/lz77.rs L36-65 : save_compressed_array. [sink] is what the target already
   holds; the result is its final content. *)
Definition save_compressed_array (oc : bool) (prec : nat) (data sink : list N) : res ioerr (list N) :=
  let* w := save_lz_loop (length data) oc prec data 0 (writer_new sink) in
  Ok (writer_finish w).

(* src/lz77.rs L87-91 : the copy loop *)
Fixpoint copy_loop (n : nat) (i : N) (output : list N) : res ioerr (list N) :=
  match n with
  | O => Ok output
  | S n' => let* current := index output i in copy_loop n' (i + 1)%N (output ++ [current])
  end.
(* src/lz77.rs L74-93 : the loop of read_compressed_array. Every iteration reads at
   least one bit, so the number of bits of the source, plus one, is enough [fuel]. *)
Fixpoint read_lz_loop (fuel : nat) (oc : bool) (prec : nat) (length : N) (r : reader) (output : list N) : res ioerr (list N) :=
  if (length <=? N.of_nat (List.length output))%N then Ok output
  else match fuel with
  | O => Panic
  | S fuel' =>
    let* (is_raw, r) := read_bit r in
    let* (data_or_len, r) := read_unaligned r prec in
    if is_raw then read_lz_loop fuel' oc prec length r (output ++ [data_or_len])
    else
      let* (offset, r) := read_unaligned r prec in
      let* start := sub64 oc (N.of_nat (List.length output)) offset in
      let* stop := add64 oc start data_or_len in
      let* output := copy_loop (N.to_nat (stop - start)) start output in
      read_lz_loop fuel' oc prec length r output
  end.
(* src/lz77.rs L66-96 : read_compressed_array *)
Definition read_compressed_array (oc : bool) (prec : nat) (length : N) (src : source) : res ioerr (list N) :=
  read_lz_loop (S (8 * List.length (s_data src))) oc prec length (reader_new src) [].

(* src/lz77.rs L97-111 : save_triangles_lzz *)
Definition save_triangles_lzz (oc : bool) (tris : list N) (max_index : N) (sink : list N) : res ioerr (list N) :=
  let min := min_or 0 tris in
  let precision := calc_prec max_index in
  let sink := sink ++ le_bytes 1 (N.of_nat precision) in
  let sink := sink ++ le_bytes 8 (N.of_nat (length tris)) in
  let sink := sink ++ le_bytes 8 min in
  save_compressed_array oc precision (map (fun index => index - min)%N tris) sink.
