(** Lemmas about meshes that are reordered and unified before they are saved. *)
From Coq Require Import List NArith ZArith Arith Lia Bool Reals ZifyN ZifyNat ZifyBool.
From Flocq Require Import IEEE754.BinarySingleNaN.
From Verif Require Import Base Floats Utilis Unify CustomData Mesh FileSpec SaveSpec MeshSpec ValueSpec VertexSpec PrepareSpec
  File_proofs Mesh_proofs Unify_proofs Mesh2_proofs P_Mesh.
Import ListNotations.
Open Scope res_scope.

(** One attribute is left alone, or gets other data and indices for the same buffer, with
    every element in use. *)
Definition repacked {A} (d : option (list A)) (t : option (list N)) (d' : option (list A)) (t' : option (list N)) : Prop :=
  (d' = d /\ t' = t) \/
  exists v i v' i' b, d = Some v /\ t = Some i /\ d' = Some v' /\ t' = Some i' /\ i <> [] /\
    looks_up v i b /\ looks_up v' i' b /\ first_use 0 i' (len v').

Lemma first_use_bounds n t m : first_use n t m -> (n <= m <= n + len t)%N /\ Forall (fun i => (i < m)%N) t /\
  forall j, (n <= j < m)%N -> In j t.
Proof.
  induction 1 as [n|n i t m L _ (IH1 & IH2 & IH3)|n t m _ (IH1 & IH2 & IH3)].
  - split; [unfold len; cbn [length]; lia|]. split; [constructor|]. intros j H. lia.
  - unfold len in *. cbn [length]. split; [lia|]. split; [constructor; auto; lia|]. intros j H. right. auto.
  - unfold len in *. cbn [length]. split; [lia|]. split; [constructor; auto; lia|]. intros j H.
    destruct (N.eq_dec j n) as [->|]; [left; auto|right; apply IH3; lia].
Qed.
Lemma looks_up_in {A} (d : list A) t b x : looks_up d t b -> In x b -> In x d.
Proof.
  induction 1 as [|i y t b H _ IH]; [intros []|]. intros [->|I]; auto. eapply nth_error_In; eauto.
Qed.
Lemma looks_up_used {A} (d : list A) t b j x : looks_up d t b -> In (N.of_nat j) t -> nth_error d j = Some x -> In x b.
Proof.
  induction 1 as [|i y t b H _ IH]; [intros []|]. intros [->|I] E; [left|right; auto].
  rewrite Nat2N.id in H. congruence.
Qed.

Lemma repacked_incl {A} (d d' : option (list A)) t t' v v' : repacked d t d' t' -> d = Some v -> d' = Some v' -> incl v' v.
Proof.
  intros [[-> ->]|(v0 & i & v1 & i' & b & -> & -> & -> & -> & _ & L & L' & F)] E E'; [congruence || (rewrite E in E'; injection E' as <-; apply incl_refl)|].
  injection E as <-. injection E' as <-. intros x I. apply In_nth_error in I as [j J].
  eapply looks_up_in; [exact L|]. eapply looks_up_used; [exact L'| |exact J].
  apply (first_use_bounds _ _ _ F). unfold len. assert (j < length v1) by (apply nth_error_Some; congruence). lia.
Qed.
Lemma repacked_small {A} (d d' : option (list A)) t t' : repacked d t d' t' -> small d -> indices_ok t -> small d' /\ indices_ok t'.
Proof.
  intros [[-> ->]|(v0 & i & v1 & i' & b & -> & -> & -> & -> & _ & L & L' & F)] S I; [auto|].
  destruct (I i eq_refl) as [I1 I2]. destruct (first_use_bounds _ _ _ F) as (F1 & F2 & _).
  assert (length i' = length i) by (rewrite <- (looks_up_length _ _ _ L), <- (looks_up_length _ _ _ L'); auto).
  assert (len i' = len i) by (unfold len; lia). split.
  - intros l E. injection E as <-. lia.
  - intros l E. injection E as <-. split; [lia|]. eapply Forall_impl; [|exact F2]. cbv beta. lia.
Qed.
Lemma repacked_fits {A} k (d d' : option (list A)) t t' : repacked d t d' t' -> fits k d t -> fits k d' t'.
Proof.
  intros [[-> ->]|(v0 & i & v1 & i' & b & -> & -> & -> & -> & _ & L & L' & F)] H; [auto|].
  destruct (H v0 i eq_refl eq_refl) as [H1 H2]. intros d0 i0 E1 E2. injection E1 as <-. injection E2 as <-.
  split; [rewrite <- H1, <- (looks_up_length _ _ _ L), <- (looks_up_length _ _ _ L'); auto|]. eapply looks_up_in_range; eauto.
Qed.
Lemma repacked_buffer {A} (d d' : option (list A)) t t' : repacked d t d' t' -> buffer d' t' = buffer d t.
Proof.
  intros [[-> ->]|(v0 & i & v1 & i' & b & -> & -> & -> & -> & _ & L & L' & F)]; [auto|].
  transitivity (Some b); [apply buffer_iff; eauto|symmetry; apply buffer_iff; eauto].
Qed.
Lemma repacked_some {A} (d d' : option (list A)) t t' : repacked d t d' t' ->
  (forall v', d' = Some v' -> exists v, d = Some v /\ (v <> [] -> v' <> [])).
Proof.
  intros [[-> ->]|(v0 & i & v1 & i' & b & -> & -> & -> & -> & NE & L & L' & F)] v' E; [eauto|].
  injection E as <-. exists v0. split; auto. intros _ ->. destruct (first_use_bounds _ _ _ F) as (_ & F2 & _).
  apply looks_up_length in L, L'. destruct i'; [|inversion F2; subst; cbn in *; lia]. destruct i; [congruence|cbn in *; lia].
Qed.

(** The sides of the triangles depend on the buffer only. *)
Lemma sides_kept v i v' i' d : side_of v i d -> forall b, looks_up v i b -> looks_up v' i' b -> side_of v' i' d.
Proof.
  intros S. revert i'. induction S as [a b c t va vb vc d A B C D|a b c t d S IH]; intros i' bb L L'.
  - inversion L as [|? ? ? ? E1 L1]; subst. inversion L1 as [|? ? ? ? E2 L2]; subst. inversion L2 as [|? ? ? ? E3 L3]; subst.
    inversion L' as [|? ? ? ? E1' L1']; subst. inversion L1' as [|? ? ? ? E2' L2']; subst. inversion L2' as [|? ? ? ? E3' L3']; subst.
    eapply side_first; eauto; congruence || (rewrite A in E1; rewrite B in E2; rewrite C in E3; congruence).
  - inversion L as [|? ? ? ? E1 L1]; subst. inversion L1 as [|? ? ? ? E2 L2]; subst. inversion L2 as [|? ? ? ? E3 L3]; subst.
    inversion L' as [|? ? ? ? E1' L1']; subst. inversion L1' as [|? ? ? ? E2' L2']; subst. inversion L2' as [|? ? ? ? E3' L3']; subst.
    apply side_later. eapply IH; eauto.
Qed.
Lemma repacked_edge d t d' t' s : repacked d t d' t' -> shortest_edge d t s -> shortest_edge d' t' s.
Proof.
  intros [[-> ->]|(v0 & i & v1 & i' & b & -> & -> & -> & -> & NE & L & L' & F)]; [auto|].
  unfold shortest_edge. destruct i as [|i0 i]; [congruence|].
  destruct i' as [|j0 j]; [inversion L; inversion L'; subst; discriminate|]. intros [S1 S2]. split; [eapply sides_kept; eauto|].
  intros x X. apply S2. eapply sides_kept; [exact X|exact L'|exact L].
Qed.

(** What both calls do to a whole mesh. *)
Definition mesh_repacked (m m' : mesh) : Prop :=
  repacked (vertices m) (vertex_triangles m) (vertices m') (vertex_triangles m') /\
  repacked (normals m) (normal_triangles m) (normals m') (normal_triangles m') /\
  repacked (uvs m) (uv_triangles m) (uvs m') (uv_triangles m') /\
  repacked (tangents m) (tangent_triangles m) (tangents m') (tangent_triangles m') /\
  custom_data m' = custom_data m.
Lemma reordered_repacked {A} k (d d' : option (list A)) t t' : (0 < k)%nat -> fits k d t -> reordered d t d' t' -> repacked d t d' t'.
Proof.
  intros K FT [(_ & E1 & E2)|(v & i & v' & i' & -> & -> & -> & -> & R & used & _ & _ & U & FU & FF)]; [left; auto|].
  right. destruct (in_range_looks_up v i R) as [b B]. exists v, i, v', i', b. destruct (FT v i eq_refl eq_refl) as [LI _].
  repeat split; auto; [intros ->; cbn in LI; lia|]. eapply looks_up_trans; eauto.
Qed.
Lemma unified_repacked {A} k idx n (d d' : option (list A)) t t' : (0 < k)%nat -> fits k d t -> first_use 0 idx n ->
  unified idx n d t d' t' -> buffer d' t' = buffer d t -> repacked d t d' t'.
Proof.
  intros K FT FU [(_ & E1 & E2)|(_ & v & i & v' & -> & -> & -> & -> & R & LI & LV)] B; [left; auto|].
  right. destruct (in_range_looks_up v i R) as [b L]. exists v, i, v', idx, b. destruct (FT v i eq_refl eq_refl) as [LK _].
  assert (X : buffer (Some v) (Some i) = Some b) by (apply buffer_iff; eauto).
  rewrite X in B. apply buffer_iff in B as (v1 & i1 & E1 & E2 & L'). injection E1 as <-. injection E2 as <-.
  repeat split; auto; [intros ->; cbn in LK; lia|]. now rewrite LV.
Qed.
Lemma reorder_repacks k m : (0 < k)%nat -> storable m -> fitting k m ->
  exists m', reorder_data (E:=False) m = Ok m' /\ mesh_repacked m m'.
Proof.
  intros K S (F1 & F2 & F3 & F4).
  assert (U : forall t, indices_ok t -> u32_opt t).
  { intros t H l E. destruct (H l E) as [_ H2]. eapply Forall_impl; [|exact H2]. cbv beta. lia. }
  assert (UM : u32_indices m) by (destruct S; repeat split; auto).
  assert (G : forall A (d : option (list A)) t, fits k d t -> reorderable d t).
  { intros A d t F. destruct d as [v|]; [|left; left; auto]. destruct t as [i|]; [|left; right; left; auto].
    right. exists v, i. split; auto. split; auto. apply (F v i); auto. }
  destruct (C25_reorder_panics m UM) as [[_ R] _]. destruct R as [m' R]; [split; [|split]; apply G; auto|].
  exists m'. split; [exact R|]. destruct (C26_reorder_compacts m m' UM R) as (A1 & A2 & A3 & _).
  destruct (C25_reorder_same_buffers m m' UM R) as (_ & _ & _ & T1 & T2 & C).
  split; [eapply reordered_repacked; eauto|]. split; [eapply reordered_repacked; eauto|]. split; [eapply reordered_repacked; eauto|].
  split; [left; auto|exact C].
Qed.
Lemma unify_repacks k m : (0 < k)%nat -> storable m -> fitting k m ->
  exists m', unify_index_data (E:=False) m = Ok m' /\ mesh_repacked m m'.
Proof.
  intros K S (F1 & F2 & F3 & F4).
  assert (U : forall t, indices_ok t -> short t).
  { intros t H l E. destruct (H l E) as [H1 _]. lia. }
  assert (UM : short_indices m) by (destruct S; repeat split; auto).
  destruct (C27_unify_returns m k UM F1 F2 F3 F4) as [m' R]. exists m'. split; [exact R|].
  destruct (C27_unify_same_buffers m m' UM R) as (B1 & B2 & B3 & B4 & C).
  destruct (C28_unify_compact m m' UM R) as [->|(idx & n & FU & U1 & U2 & U3 & U4 & _)].
  - repeat split; left; auto.
  - split; [eapply unified_repacked; eauto|]. split; [eapply unified_repacked; eauto|]. split; [eapply unified_repacked; eauto|].
    split; [eapply unified_repacked; eauto|exact C].
Qed.
Lemma repacked_storable m m' : mesh_repacked m m' -> storable m -> storable m'.
Proof.
  intros (R1 & R2 & R3 & R4 & C) S. destruct S.
  destruct (repacked_small _ _ _ _ R1), (repacked_small _ _ _ _ R2), (repacked_small _ _ _ _ R3), (repacked_small _ _ _ _ R4); auto.
  constructor; auto. now rewrite C.
Qed.
Lemma repacked_fitting k m m' : mesh_repacked m m' -> fitting k m -> fitting k m'.
Proof. intros (R1 & R2 & R3 & R4 & C) (F1 & F2 & F3 & F4). split; [|split; [|split]]; eapply repacked_fits; eauto. Qed.

(** From arrays to buffers. *)
Lemma F2_nth {A B} (P : A -> B -> Prop) a b : Forall2 P a b -> forall n x, nth_error a n = Some x -> exists y, nth_error b n = Some y /\ P x y.
Proof.
  induction 1 as [|x y a b H _ IH]; intros [|n] z E; try discriminate E; cbn [nth_error] in *; eauto.
  injection E as <-. eauto.
Qed.
Lemma looks_up_rel {A B} (P : A -> B -> Prop) (d : list A) (d' : list B) t b : Forall2 P d d' -> looks_up d t b ->
  exists b', looks_up d' t b' /\ Forall2 P b b'.
Proof.
  intros F L. induction L as [|i x t b E _ (b' & IH1 & IH2)]; [exists []; split; constructor|].
  destruct (F2_nth P _ _ F _ _ E) as (y & Y & PY). exists (y :: b'). split; constructor; auto.
Qed.
Lemma arrays_buffer {A} (P : A -> A -> Prop) d d' t : arrays P d d' -> arrays P (buffer d t) (buffer d' t).
Proof.
  unfold arrays at 1. destruct d as [v|], d' as [v'|]; try contradiction; [|reflexivity]. intros F.
  assert (FL : length v = length v') by (clear - F; induction F; cbn; lia).
  destruct (buffer (Some v) t) as [b|] eqn:E.
  - apply buffer_iff in E as (v0 & i & E1 & -> & L). injection E1 as <-.
    destruct (looks_up_rel P v v' i b F L) as (b' & L' & FB).
    assert (X : buffer (Some v') (Some i) = Some b') by (apply buffer_iff; eauto). rewrite X. exact FB.
  - destruct (buffer (Some v') t) as [b'|] eqn:E'; [|reflexivity]. exfalso.
    apply buffer_iff in E' as (v0 & i & E1 & -> & L). injection E1 as <-. apply looks_up_in_range in L.
    assert (R : MeshSpec.in_range v i) by (unfold MeshSpec.in_range, len in *; rewrite FL; exact L).
    destruct (in_range_looks_up v i R) as [b B]. assert (X : buffer (Some v) (Some i) = Some b) by (apply buffer_iff; eauto). congruence.
Qed.
Lemma pieces_moved vs B t a b : in_pieces (piece_moved B t) a b -> incl a vs -> Forall2 (moved_among vs B t) a b.
Proof.
  intros (ps & -> & -> & F) I. revert I. induction F as [|[x y] ps (x0 & x1 & y0 & y1 & z0 & z1 & BX & FF) F IH]; intros I; cbn [map concat fst snd] in *; [constructor|].
  apply Forall2_app; [|apply IH; intros z Z; apply I, in_or_app; auto].
  assert (IX : incl x vs) by (intros z Z; apply I, in_or_app; auto). clear IH F I.
  assert (G : forall x' y', incl x' x -> Forall2 (fun v v' =>
      (between x0 x1 (fst (fst v)) -> finite (fst (fst v')) /\
         within (2.003 * t + 0.000001001 + / 2 ^ 19 * B) (fst (fst v)) (fst (fst v'))) /\
      (between y0 y1 (snd (fst v)) -> finite (snd (fst v')) /\
         within (2.003 * t + 0.000001001 + / 2 ^ 19 * B) (snd (fst v)) (snd (fst v'))) /\
      finite (snd v') /\
      within (2.003 * t * ((val z1 - val z0) / Rmax (val y1 - val y0) 0.000001) + 0.000001001 + / 2 ^ 19 * B) (snd v) (snd v'))%R x' y' ->
      Forall2 (moved_among vs B t) x' y').
  { intros x' y' IN H. induction H as [|v v' x' y' (A1 & A2 & A3 & A4) H IH2]; constructor.
    - exists x, x0, x1, y0, y1, z0, z1. split; [exact IX|]. split; [apply IN; left; auto|]. auto.
    - apply IH2. intros z Z. apply IN. right. auto. }
  apply G; [apply incl_refl|exact FF].
Qed.
Lemma range_corners v t : MeshSpec.in_range v t -> corners_exist v t.
Proof.
  unfold corners_exist, MeshSpec.in_range. remember (length t) as n eqn:E. assert (L : length t <= n) by lia. clear E. revert t L.
  induction n as [n IH] using lt_wf_ind. intros t L F.
  destruct t as [|a [|b [|c t]]]; try constructor.
  - inversion F as [|? ? A F1]; subst. inversion F1 as [|? ? B F2]; subst. inversion F2; subst. auto.
  - cbn [length] in L. apply (IH (length t)); [lia|lia|]. inversion F as [|? ? A F1]; subst. inversion F1 as [|? ? B F2]; subst. inversion F2; subst. auto.
Qed.
