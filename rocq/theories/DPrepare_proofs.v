(** Lemmas about double precision meshes that are reordered and unified before they are saved. *)
From Coq Require Import List NArith ZArith Arith Lia Bool Reals ZifyN ZifyNat ZifyBool.
From Flocq Require Import IEEE754.BinarySingleNaN.
From Verif Require Import Base Floats Utilis Unify CustomData Mesh FileSpec SaveSpec MeshSpec ValueSpec VertexSpec PrepareSpec
  File_proofs Mesh_proofs Unify_proofs Mesh2_proofs Prepare_proofs Double DoubleSpec DoubleEdit DoubleSave DoubleSaveSpec DoubleValueSpec DoublePanicSpec
  DoubleNormalSpec DoublePrepareSpec P_DoubleEdit.
Import ListNotations.
Open Scope res_scope.

(** The sides of the triangles depend on the buffer only. *)
Lemma sides_kept_d v i v' i' d : side_of_d v i d -> forall b, looks_up v i b -> looks_up v' i' b -> side_of_d v' i' d.
Proof.
  intros S. revert i'. induction S as [a b c t va vb vc d A B C D|a b c t d S IH]; intros i' bb L L'.
  - inversion L as [|? ? ? ? E1 L1]; subst. inversion L1 as [|? ? ? ? E2 L2]; subst. inversion L2 as [|? ? ? ? E3 L3]; subst.
    inversion L' as [|? ? ? ? E1' L1']; subst. inversion L1' as [|? ? ? ? E2' L2']; subst. inversion L2' as [|? ? ? ? E3' L3']; subst.
    eapply side_first_d; eauto; congruence || (rewrite A in E1; rewrite B in E2; rewrite C in E3; congruence).
  - inversion L as [|? ? ? ? E1 L1]; subst. inversion L1 as [|? ? ? ? E2 L2]; subst. inversion L2 as [|? ? ? ? E3 L3]; subst.
    inversion L' as [|? ? ? ? E1' L1']; subst. inversion L1' as [|? ? ? ? E2' L2']; subst. inversion L2' as [|? ? ? ? E3' L3']; subst.
    apply side_later_d. eapply IH; eauto.
Qed.
Lemma repacked_edge_d d t d' t' s : repacked d t d' t' -> shortest_edge_d d t s -> shortest_edge_d d' t' s.
Proof.
  intros [[-> ->]|(v0 & i & v1 & i' & b & -> & -> & -> & -> & NE & L & L' & F)]; [auto|].
  unfold shortest_edge_d. destruct i as [|i0 i]; [congruence|].
  destruct i' as [|j0 j]; [inversion L; inversion L'; subst; discriminate|]. intros [S1 S2]. split; [eapply sides_kept_d; eauto|].
  intros x X. apply S2. eapply sides_kept_d; [exact X|exact L'|exact L].
Qed.

(** What both calls do to a whole dmesh. *)
Definition mesh_repacked_d (m m' : dmesh) : Prop :=
  repacked (d_vertices m) (d_vertex_triangles m) (d_vertices m') (d_vertex_triangles m') /\
  repacked (d_normals m) (d_normal_triangles m) (d_normals m') (d_normal_triangles m') /\
  repacked (d_uvs m) (d_uv_triangles m) (d_uvs m') (d_uv_triangles m') /\
  repacked (d_tangents m) (d_tangent_triangles m) (d_tangents m') (d_tangent_triangles m') /\
  d_custom_data m' = d_custom_data m.
Lemma reorder_repacks_d k m : (0 < k)%nat -> storable_d m -> fitting_d k m ->
  exists m', d_reorder_data (E:=False) m = Ok m' /\ mesh_repacked_d m m'.
Proof.
  intros K S (F1 & F2 & F3 & F4).
  assert (U : forall t, indices_ok t -> u32_opt t).
  { intros t H l E. destruct (H l E) as [_ H2]. eapply Forall_impl; [|exact H2]. cbv beta. lia. }
  assert (UM : d_u32_indices m) by (destruct S; repeat split; auto).
  assert (G : forall A (d : option (list A)) t, fits k d t -> reorderable d t).
  { intros A d t F. destruct d as [v|]; [|left; left; auto]. destruct t as [i|]; [|left; right; left; auto].
    right. exists v, i. split; auto. split; auto. apply (F v i); auto. }
  destruct (C83_reorder_panics m UM) as [[_ R] _]. destruct R as [m' R]; [split; [|split]; apply G; auto|].
  exists m'. split; [exact R|]. destruct (C83_reorder_compacts m m' UM R) as (A1 & A2 & A3 & _).
  destruct (C83_reorder_same_buffers m m' UM R) as (_ & _ & _ & T1 & T2 & C).
  split; [eapply reordered_repacked; eauto|]. split; [eapply reordered_repacked; eauto|]. split; [eapply reordered_repacked; eauto|].
  split; [left; auto|exact C].
Qed.
Lemma unify_repacks_d k m : (0 < k)%nat -> storable_d m -> fitting_d k m ->
  exists m', d_unify_index_data (E:=False) m = Ok m' /\ mesh_repacked_d m m'.
Proof.
  intros K S (F1 & F2 & F3 & F4).
  assert (U : forall t, indices_ok t -> short t).
  { intros t H l E. destruct (H l E) as [H1 _]. lia. }
  assert (UM : d_short_indices m) by (destruct S; repeat split; auto).
  destruct (C83_unify_returns m k UM F1 F2 F3 F4) as [m' R]. exists m'. split; [exact R|].
  destruct (C83_unify_same_buffers m m' UM R) as (B1 & B2 & B3 & B4 & C).
  destruct (C83_unify_compact m m' UM R) as [->|(idx & n & FU & U1 & U2 & U3 & U4 & _)].
  - repeat split; left; auto.
  - split; [eapply unified_repacked; eauto|]. split; [eapply unified_repacked; eauto|]. split; [eapply unified_repacked; eauto|].
    split; [eapply unified_repacked; eauto|exact C].
Qed.
Lemma repacked_storable_d m m' : mesh_repacked_d m m' -> storable_d m -> storable_d m'.
Proof.
  intros (R1 & R2 & R3 & R4 & C) S. destruct S.
  destruct (repacked_small _ _ _ _ R1), (repacked_small _ _ _ _ R2), (repacked_small _ _ _ _ R3), (repacked_small _ _ _ _ R4); auto.
  constructor; auto. now rewrite C.
Qed.
Lemma repacked_fitting_d k m m' : mesh_repacked_d m m' -> fitting_d k m -> fitting_d k m'.
Proof. intros (R1 & R2 & R3 & R4 & C) (F1 & F2 & F3 & F4). split; [|split; [|split]]; eapply repacked_fits; eauto. Qed.

Lemma pieces_moved_d vs B t a b : in_pieces (piece_moved_d B t) a b -> incl a vs -> Forall2 (moved_among_d vs B t) a b.
Proof.
  intros (ps & -> & -> & F) I. revert I. induction F as [|[x y] ps (x0 & x1 & y0 & y1 & z0 & z1 & BX & FF) F IH]; intros I; cbn [map concat fst snd] in *; [constructor|].
  apply Forall2_app; [|apply IH; intros z Z; apply I, in_or_app; auto].
  assert (IX : incl x vs) by (intros z Z; apply I, in_or_app; auto). clear IH F I.
  assert (G : forall x' y', incl x' x -> Forall2 (fun v v' =>
      (between_d x0 x1 (fst (fst v)) -> finite64 (fst (fst v')) /\
         within_d (2.003 * t + 0.000001001 + / 2 ^ 48 * B) (fst (fst v)) (fst (fst v'))) /\
      (between_d y0 y1 (snd (fst v)) -> finite64 (snd (fst v')) /\
         within_d (2.003 * t + 0.000001001 + / 2 ^ 48 * B) (snd (fst v)) (snd (fst v'))) /\
      finite64 (snd v') /\
      within_d (2.003 * t * ((val64 z1 - val64 z0) / Rmax (val64 y1 - val64 y0) 0.000001) + 0.000001001 + / 2 ^ 48 * B) (snd v) (snd v'))%R x' y' ->
      Forall2 (moved_among_d vs B t) x' y').
  { intros x' y' IN H. induction H as [|v v' x' y' (A1 & A2 & A3 & A4) H IH2]; constructor.
    - exists x, x0, x1, y0, y1, z0, z1. split; [exact IX|]. split; [apply IN; left; auto|]. auto.
    - apply IH2. intros z Z. apply IN. right. auto. }
  apply G; [apply incl_refl|exact FF].
Qed.
Lemma range_corners_d v t : MeshSpec.in_range v t -> corners_exist_d v t.
Proof.
  unfold corners_exist_d, MeshSpec.in_range. remember (length t) as n eqn:E. assert (L : length t <= n) by lia. clear E. revert t L.
  induction n as [n IH] using lt_wf_ind. intros t L F.
  destruct t as [|a [|b [|c t]]]; try constructor.
  - inversion F as [|? ? A F1]; subst. inversion F1 as [|? ? B F2]; subst. inversion F2; subst. auto.
  - cbn [length] in L. apply (IH (length t)); [lia|lia|]. inversion F as [|? ? A F1]; subst. inversion F1 as [|? ? B F2]; subst. inversion F2; subst. auto.
Qed.
