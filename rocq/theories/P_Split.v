(** Properties C41, C47: splitting of vertex arrays on export and pruning on import. *)
From Coq Require Import List NArith ZArith Arith Lia Bool ZifyN ZifyNat ZifyBool.
From Flocq Require Import IEEE754.BinarySingleNaN.
From Verif Require Import Base Floats Utilis OptTris OptVertices FileSpec MeshSpec Demo Mesh_proofs Mesh2_proofs
  Agree_proofs OptVertices_proofs Split_proofs.
Import ListNotations.
Open Scope res_scope.

(** [lm] are the platform's mathematical functions, arbitrary; [oc] tells whether
    overflow checks are on. The coordinates are arbitrary, infinities and NaN
    included. *)

(** C41. The pieces, put together, are the array, and none of them is empty. *)
Theorem C41_lossless : forall lm oc vs segs, opt_vertices lm oc vs = Ok segs ->
  concat segs = vs /\ (vs <> [] -> Forall (fun s => s <> []) segs).
Proof.
  intros lm oc vs segs H. destruct (opt_vertices_total lm oc vs) as [P|(segs' & E & C & _ & F)]; [congruence|].
  rewrite E in H. injection H as <-. auto.
Qed.
(** C41. Without overflow checks splitting always returns: the recursion ends and the
    assertion does not fire. *)
Theorem C41_returns : forall lm vs, exists segs, opt_vertices lm false vs = Ok segs.
Proof. intros lm vs. apply opt_vertices_release_fuel. lia. Qed.
(** C41. With overflow checks it ends, too, with the same pieces unless an arithmetic
    overflow panics; [Err] is the model's way to say that the recursion did not end. *)
Theorem C41_ends : forall lm vs,
  opt_vertices lm true vs = Panic \/ opt_vertices lm true vs = opt_vertices lm false vs.
Proof. intros lm vs. apply ag_opt_vertices. Qed.
(** C41. The assertion "the best split index is not the last one" holds in both modes
    whenever it is evaluated, that is when the scan ends with a positive score. *)
Theorem C41_assertion : forall lm oc edge vs total score index,
  range_to_vertex_bit_count (E:=False) lm oc (fold_left expand_vertex_span vs zero_span) edge = Ok total ->
  vertex_scan (E:=False) lm oc edge total vs 0 zero_span 0 (isize_min, 0) = Ok (score, index) ->
  (0 < score)%Z -> index + 1 < length vs.
Proof.
  intros lm oc edge vs total score index T V P.
  assert (L : not_last (0 + length vs) (score, index)).
  { eapply scan_not_last; eauto. intros H. cbn [fst] in H. vm_compute in H. discriminate H. }
  exact (L P).
Qed.
(** A case that splits: seventy vertices near the origin and one far away. *)
Definition pt (a b c : Z) : vec3 := (f32_of_Z a, f32_of_Z b, f32_of_Z c).
Definition far_apart : list vec3 := pt (-1) (-1) (-1) :: pt 1 1 1 :: repeat (f0, f0, f0) 70 ++ [pt 1000 1000 1000].
(** A stand-in for log2 that is good enough here: the exponent. *)
Definition exponent_log2 : libm := mk_libm
  (fun x => match x with B754_finite _ m e _ => f32_of_Z (e + Z.pos (Digits.digits2_pos m)) | x => x end)
  (m_asin demo) (m_sin_cos demo).
Example C41_case : match opt_vertices exponent_log2 true far_apart with
  | Ok segs => map (@length vec3) segs = [71; 2] | _ => False end.
Proof. vm_compute. reflexivity. Qed.
Print Assumptions C41_lossless.
Print Assumptions C41_returns.
Print Assumptions C41_ends.
Print Assumptions C41_assertion.

(** C47. Pruning keeps what the indices look up. *)
Theorem C47_prune_lookup : forall A (data : list A) indices data' indices', fast_prune data indices = (data', indices') ->
  forall b, looks_up data indices b -> looks_up data' indices' b.
Proof.
  intros A data indices data' indices' H b L. unfold fast_prune in H.
  destruct (prune_scan indices _) as [m|] eqn:P; injection H as <- <-; auto.
  apply looks_up_skip; auto. apply prune_scan_some in P as (_ & Q & _). apply Forall_forall. intros i I. apply Q. exact I.
Qed.
(** C47. It removes all that is unused at the front: afterwards the first element is
    used, unless nothing is. *)
Theorem C47_prune_front : forall A (data : list A) indices data' indices', (len data < 2 ^ 32)%N ->
  in_range data indices -> fast_prune data indices = (data', indices') ->
  (indices = [] /\ indices' = [] /\ data' = data) \/ In 0%N indices'.
Proof.
  intros A data indices data' indices' S R H. unfold fast_prune in H. fold (len data) in H.
  rewrite N.mod_small in H by exact S. destruct indices as [|i indices].
  { cbn [prune_scan] in H. injection H as <- <-. left. auto. }
  right. destruct (prune_scan (i :: indices) (len data)) as [m|] eqn:P; injection H as <- <-.
  - apply prune_scan_some in P as (LE & Q & [M|M]).
    + exfalso. inversion R. destruct (Q i (or_introl eq_refl)). lia.
    + change ((i - m)%N :: map (fun i => (i - m)%N) indices) with (map (fun i => (i - m)%N) (i :: indices)).
      apply in_map_iff. exists m. split; auto. lia.
  - apply prune_scan_none in P. exact P.
Qed.
(** C47. Indices stay in range, nothing else is removed, and pruning again changes
    nothing. *)
Theorem C47_prune_suffix : forall A (data : list A) indices data' indices', (len data < 2 ^ 32)%N ->
  in_range data indices -> fast_prune data indices = (data', indices') ->
  in_range data' indices' /\ fast_prune data' indices' = (data', indices') /\
  exists front, data = front ++ data' /\ indices = map (fun i => (i + len front)%N) indices'.
Proof.
  intros A data indices data' indices' S R H.
  assert (R' : in_range data' indices').
  { destruct (in_range_looks_up _ _ R) as [b B]. eapply looks_up_in_range. eapply C47_prune_lookup; eauto. }
  split; auto. split.
  - destruct (C47_prune_front A data indices data' indices' S R H) as [(-> & -> & ->)|Z].
    + unfold fast_prune. cbn [prune_scan N.to_nat skipn map]. reflexivity.
    + unfold fast_prune. destruct indices' as [|i l]; [destruct Z|]. apply (prune_scan_none _ (N.of_nat (length data') mod two32)) in Z.
      rewrite Z. reflexivity.
  - unfold fast_prune in H. fold (len data) in H. rewrite N.mod_small in H by exact S.
    destruct (prune_scan indices (match indices with [] => 0 | _ => len data end)%N) as [m|] eqn:P; injection H as <- <-.
    + exists (firstn (N.to_nat m) data). split; [symmetry; apply firstn_skipn|].
      apply prune_scan_some in P as (LE & Q & _).
      assert (ML : (m <= len data)%N) by (destruct indices; lia).
      assert (FL : len (firstn (N.to_nat m) data) = m) by (unfold len in *; rewrite firstn_length; lia). rewrite FL, map_map.
      rewrite <- (map_id indices) at 1. apply map_ext_in. intros i I. destruct (Q i I). lia.
    + exists []. split; auto. rewrite <- (map_id indices) at 1. apply map_ext. intros i. unfold len. cbn. lia.
Qed.
Example C47_case : fast_prune [10; 20; 30; 40]%N [3; 2; 3]%N = ([30; 40]%N, [1; 0; 1]%N) /\ in_range [10; 20; 30; 40]%N [3; 2; 3]%N.
Proof. split; [reflexivity|]. repeat constructor; reflexivity. Qed.
Print Assumptions C47_prune_lookup.
Print Assumptions C47_prune_front.
Print Assumptions C47_prune_suffix.
