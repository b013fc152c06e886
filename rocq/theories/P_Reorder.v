(** C49: reordering triangles. *)
From Coq Require Import List NArith Arith Lia Bool Permutation Sorted.
From Verif Require Import Base ReorderTri ReorderSpec Reorder_proofs.
Import ListNotations.

(** All arrays get the same new order of whole triangles, and every triangle keeps its
    three indices in their order. *)
Theorem C49_reorder : forall {E} arrays n, arrays <> [] -> Forall (fun a => length a = n) arrays ->
  exists order, new_order arrays (n / 3) order /\
  reorder_triangles (E:=E) (length arrays) arrays = Ok (map (fun a => pick_triangles a order) arrays).
Proof. intros E. exact reorder_ok. Qed.
(** So in each array every triangle is there as often as before, and when the indices
    form whole triangles, every index is. *)
Theorem C49_same_triangles : forall {E} arrays n out, arrays <> [] -> Forall (fun a => length a = n) arrays ->
  reorder_triangles (E:=E) (length arrays) arrays = Ok out ->
  Forall2 (fun a b => Permutation (map (triangle b) (seq 0 (n / 3))) (map (triangle a) (seq 0 (n / 3))) /\
    length b = 3 * (n / 3) /\ (n mod 3 = 0 -> Permutation b a)) arrays out.
Proof.
  intros E arrays n out NE F R. destruct (reorder_ok (E:=E) arrays n NE F) as (order & O & R2). rewrite R in R2. injection R2 as ->.
  destruct O as (near & far & _ & P & _). clear - F P.
  induction F as [|a t L F IH]; [constructor|]. cbn [map]. constructor; auto.
  assert (FO : Forall (fun t => 3 * t + 3 <= length a) order).
  { eapply Permutation_Forall; [symmetry; exact P|]. apply Forall_forall. intros x I. apply in_seq in I.
    pose proof (Nat.div_mod n 3 ltac:(lia)). lia. }
  assert (T3 : forall x, In x order -> length (triangle a x) = 3).
  { intros x I. rewrite Forall_forall in FO. rewrite triangle_is by auto. reflexivity. }
  assert (LO : length order = n / 3) by (rewrite (Permutation_length P); apply seq_length).
  split; [rewrite <- LO at 1; rewrite (triangles_of_pick a order T3); now apply Permutation_map|]. split.
  - rewrite (pick_length a order T3). now rewrite LO.
  - intros M. apply Permutation_trans with (pick_triangles a (seq 0 (n / 3))); [apply Permutation_concat_map, P|].
    rewrite pick_all; [reflexivity|]. pose proof (Nat.div_mod n 3 ltac:(lia)). lia.
Qed.
(** It panics exactly on a wrong number of arrays, no array, or arrays of different
    lengths. *)
Theorem C49_panics : forall {E} count arrays,
  reorder_triangles (E:=E) count arrays = Panic <->
  (length arrays <> count \/ arrays = [] \/ exists a b, In a arrays /\ In b arrays /\ length a <> length b).
Proof. intros E. exact reorder_panics. Qed.
(** The full claim is false: indices after the last whole triangle are dropped. *)
Theorem C49_leftover_refuted : exists (a : list N) b, reorder_triangles (E:=unit) 1 [a] = Ok [b] /\ ~ Permutation b a.
Proof. exists [1; 2; 3; 4]%N, [1; 2; 3]%N. split; [reflexivity|]. intros P. apply Permutation_length in P. discriminate P. Qed.
(** Two arrays of three triangles; the second triangle is far in one array only. *)
Example C49_case : reorder_triangles (E:=unit) 2 [[0; 1; 2; 3; 4; 5; 6; 7; 8]; [0; 1; 2; 3; 40; 41; 42; 43; 44]]%N =
  Ok [[0; 1; 2; 6; 7; 8; 3; 4; 5]; [0; 1; 2; 42; 43; 44; 3; 40; 41]]%N /\
  [[0; 1; 2; 3; 4; 5; 6; 7; 8]; [0; 1; 2; 3; 40; 41; 42; 43; 44]]%N <> [] /\
  Forall (fun a : list N => length a = 9) [[0; 1; 2; 3; 4; 5; 6; 7; 8]; [0; 1; 2; 3; 40; 41; 42; 43; 44]]%N.
Proof. split; [vm_compute; reflexivity|]. split; [discriminate|]. repeat constructor. Qed.
(** The bound is exact: a difference of 15 is near, one of 16 is not. *)
Example C49_bound : reorder_triangles (E:=unit) 1 [[16; 16; 16; 31; 31; 31]]%N = Ok [[31; 31; 31; 16; 16; 16]]%N.
Proof. vm_compute. reflexivity. Qed.

Print Assumptions C49_reorder.
Print Assumptions C49_same_triangles.
Print Assumptions C49_panics.
Print Assumptions C49_leftover_refuted.
