(** Properties C07-C10 and the index array part of C52. *)
From Coq Require Import List NArith Arith.
From Verif Require Import Base BitSpec UnalignedRW ReadExt Triangles TriSpec Triangles_proofs
  OptTris OptTris_proofs.
Import ListNotations.

(** C07. The field width chosen for a largest index [m]: [m] fits, no smaller
    width would do, and it is at most 64. *)
Theorem C07_width_minimal : forall m,
  (m < 2 ^ 64)%N ->
  (m < 2 ^ N.of_nat (calc_prec m))%N /\
  (forall k, (m < 2 ^ k)%N -> (N.of_nat (calc_prec m) <= k)%N) /\
  calc_prec m <= 64.
Proof. exact calc_prec_spec. Qed.
Print Assumptions C07_width_minimal.

Example C07_case : map calc_prec [0; 1; 2; 3; 4; 255; 256; 2 ^ 64 - 1]%N = [0; 1; 2; 2; 3; 8; 9; 64].
Proof. vm_compute. reflexivity. Qed.

(** C08. Saving an index array whose entries do not exceed the declared [m] and
    loading it with either loader gives back the same array, whatever follows it. *)
Theorem C08_index_array_roundtrip : forall oc oc' tris m rest,
  u32s tris -> (N.of_nat (length tris) <= 2 ^ 31)%N -> (m < 2 ^ 31)%N -> all_le m tris ->
  bytes_ok rest ->
  exists bytes,
    save_triangles oc tris m [] = Ok bytes /\
    read_triangles oc' new_ctx (bytes ++ rest) = Ok tris /\
    read_default_triangles oc' new_ctx (bytes ++ rest) = Ok tris.
Proof. exact index_array_roundtrip. Qed.
Print Assumptions C08_index_array_roundtrip.

(** C08, general loader only: it is enough that [m] bounds the differences of the
    entries, and widths 33..63 are fine as well. *)
Theorem C08_general_loader_roundtrip : forall oc oc' tris m rest,
  u32s tris -> (N.of_nat (length tris) <= 2 ^ 31)%N ->
  (m < 2 ^ 31 \/ 2 ^ 32 <= m < 2 ^ 63)%N ->
  (forall i j, In i tris -> In j tris -> (i - j <= m)%N) ->
  bytes_ok rest ->
  exists bytes,
    save_triangles oc tris m [] = Ok bytes /\
    read_triangles oc' new_ctx (bytes ++ rest) = Ok tris.
Proof. exact index_array_roundtrip_spread. Qed.
Print Assumptions C08_general_loader_roundtrip.

(** C08, the other side of the boundary: for every [m] from 2^31 to 2^32 - 1 and
    every array, both loaders return this instead. *)
Theorem C08_width_32_result : forall oc oc' tris m rest,
  u32s tris -> (N.of_nat (length tris) <= 2 ^ 31)%N -> (2 ^ 31 <= m < 2 ^ 32)%N ->
  bytes_ok rest ->
  exists bytes,
    save_triangles oc tris m [] = Ok bytes /\
    read_default_triangles oc' new_ctx (bytes ++ rest) = Ok (wide_loss tris) /\
    read_triangles oc' new_ctx (bytes ++ rest) = Ok (wide_loss tris).
Proof. exact wide_arrays. Qed.
Print Assumptions C08_width_32_result.

(** ... so the unrestricted claim is false: the array [m; 0] loads as [0; 0]. *)
Theorem C08_large_indices_refuted : forall oc oc' m,
  (2 ^ 31 <= m < 2 ^ 32)%N ->
  u32s [m; 0]%N /\ all_le m [m; 0]%N /\
  exists bytes,
    save_triangles oc [m; 0]%N m [] = Ok bytes /\
    read_default_triangles oc' new_ctx bytes = Ok [0; 0]%N /\ [0; 0]%N <> [m; 0]%N.
Proof.
  intros oc oc' m Hm.
  assert (U : u32s [m; 0%N]) by (apply Forall_cons; [apply Hm|apply Forall_cons; [reflexivity|apply Forall_nil]]).
  split; [exact U|]. split.
  - apply Forall_cons; [reflexivity|apply Forall_cons; [apply N.le_0_l|apply Forall_nil]].
  - destruct (wide_arrays oc oc' [m; 0%N] m [] U) as (b & E & D & _); [discriminate|exact Hm|apply Forall_nil|].
    exists b. rewrite app_nil_r in D. split; [exact E|]. split.
    + rewrite D. unfold wide_loss. cbn [smallest]. now rewrite N.min_0_r.
    + intros [= <-]. destruct Hm as [Hm _]. now apply Hm.
Qed.
Print Assumptions C08_large_indices_refuted.

(** ... and the segment loader does need the entries themselves, not only their
    differences, to be bounded by [m]: with [m = 0] every array loads as zeros. *)
Theorem C08_zero_width_loader : forall oc oc' tris,
  u32s tris -> (N.of_nat (length tris) <= 2 ^ 31)%N ->
  exists bytes,
    save_triangles oc tris 0 [] = Ok bytes /\
    read_default_triangles oc' new_ctx bytes = Ok (repeat 0%N (length tris)).
Proof. exact zero_width_default. Qed.
Print Assumptions C08_zero_width_loader.

Example C08_case : exists bytes,
  save_triangles true [7; 3; 300; 3; 9]%N 300 [] = Ok bytes /\
  bytes = [9; 5;0;0;0;0;0;0;0; 3;0;0;0;0;0;0;0; 2; 0; 37; 32; 0; 48]%N /\
  read_default_triangles true new_ctx (bytes ++ [1; 2]%N) = Ok [7; 3; 300; 3; 9]%N /\
  read_triangles false new_ctx bytes = Ok [7; 3; 300; 3; 9]%N /\
  u32s [7; 3; 300; 3; 9]%N /\ all_le 300 [7; 3; 300; 3; 9]%N /\
  wide_loss [7; 3; 300; 3; 9]%N = [3; 3; 3; 3; 7]%N.
Proof.
  eexists. split; [vm_compute; reflexivity|]. do 3 (split; [vm_compute; reflexivity|]).
  split; [repeat (apply Forall_cons; [reflexivity|]); apply Forall_nil|].
  split; [repeat (apply Forall_cons; [vm_compute; discriminate|]); apply Forall_nil|].
  reflexivity.
Qed.

(** C09. Splitting: consecutive pieces, nothing lost, no panic, no endless
    recursion ([OutOfFuel] is an [Err], so [Ok] excludes it), no empty piece unless
    the array itself is empty. *)
Theorem C09_split_lossless : forall oc tris,
  (N.of_nat (length tris) < 2 ^ 57)%N -> u32s tris ->
  exists segs,
    opt_tris oc tris = Ok segs /\ concat segs = tris /\ segs <> [] /\
    (tris <> [] -> Forall (fun s => s <> []) segs).
Proof. exact opt_tris_ok. Qed.
Print Assumptions C09_split_lossless.

Example C09_case :
  match opt_tris true (repeat 1%N 20 ++ repeat 1000%N 3 ++ [3; 4]%N) with
  | Ok segs => map (@length N) segs = [19; 6]
  | _ => False
  end.
Proof. vm_compute. reflexivity. Qed.

(** C10. Whatever the bytes are and however much spare room the allocator gave,
    a successful load has written every element it publishes. *)
Theorem C10_no_uninitialised_element : forall oc ctx spare src c,
  read_default_cells oc ctx spare src = Ok c -> Forall (fun x => x <> None) c.
Proof. exact default_cells_written. Qed.
Print Assumptions C10_no_uninitialised_element.

Example C10_case :
  read_default_cells true new_ctx 4 [9; 5;0;0;0;0;0;0;0; 3;0;0;0;0;0;0;0; 2; 0; 37; 32; 0; 48]%N
  = Ok [Some 7; Some 3; Some 300; Some 3; Some 9]%N.
Proof. vm_compute. reflexivity. Qed.

(** C52 (index arrays; framing is in P_File.v). 17 header bytes, then the fields,
    rounded up to whole bytes. *)
Theorem C52_index_array_size : forall oc tris m,
  u32s tris -> (m < 2 ^ 64)%N ->
  exists bytes,
    save_triangles oc tris m [] = Ok bytes /\
    length bytes = 17 + bytes_for_bits (calc_prec m * length tris).
Proof. exact index_array_size. Qed.
Print Assumptions C52_index_array_size.
