(** Property C87: meshes that are reordered or unified before they are saved. *)
From Coq Require Import List NArith ZArith Arith Lia Bool Reals Lra ZifyN ZifyNat ZifyBool.
From Flocq Require Import Core IEEE754.BinarySingleNaN.
From Verif Require Import Base UnalignedRW ReadExt Floats Utilis Vertices Uv Normals Unify CustomData Mesh Tmf File FileSpec SaveSpec
  ValueSpec VertexSpec CheckedSpec MeshSpec PrepareSpec Demo Save_proofs Image_proofs Mesh_proofs Panic_proofs Prepare_proofs
  P_Save P_Uv P_Normals P_Vertices P_Checked P_Mesh P_Default.
Import ListNotations.
Open Scope res_scope.
Local Open Scope R_scope.

(** Any sequence of calls of reorder_data and unify_index_data. *)
Inductive call := Reorder | Unify.
Fixpoint prepare (calls : list call) (m : mesh) : res False mesh :=
  match calls with
  | [] => Ok m
  | Reorder :: rest => let* m := reorder_data m in prepare rest m
  | Unify :: rest => let* m := unify_index_data m in prepare rest m
  end.

Lemma prepare_trace (I : mesh -> mesh -> Prop) k m : (0 < k)%nat -> storable m -> fitting k m -> I m m ->
  (forall a b, storable a -> fitting k a -> I m a -> mesh_repacked a b -> I m b) ->
  forall calls, exists m', prepare calls m = Ok m' /\ I m m' /\ storable m' /\ fitting k m'.
Proof.
  intros K S F I0 IS calls.
  assert (G : forall calls a, storable a -> fitting k a -> I m a -> exists m', prepare calls a = Ok m' /\ I m m' /\ storable m' /\ fitting k m').
  { clear calls. induction calls as [|c calls IH]; intros a SA FA IA; [exists a; auto|].
    destruct c; cbn [prepare];
      [destruct (reorder_repacks k a K SA FA) as (b & E & R)|destruct (unify_repacks k a K SA FA) as (b & E & R)]; rewrite E; cbn [bind]; apply IH; eauto using repacked_storable, repacked_fitting. }
  apply G; auto.
Qed.
(** What the calls keep. *)
Definition kept (m m' : mesh) : Prop :=
  get_vertex_buffer m' = get_vertex_buffer m /\ get_normal_buffer m' = get_normal_buffer m /\ get_uv_buffer m' = get_uv_buffer m /\
  buffer (tangents m') (tangent_triangles m') = buffer (tangents m) (tangent_triangles m) /\ custom_data m' = custom_data m /\
  (forall v', vertices m' = Some v' -> exists v, vertices m = Some v /\ incl v' v /\ (v <> [] -> v' <> [])) /\
  (forall s, shortest_edge (vertices m) (vertex_triangles m) s -> shortest_edge (vertices m') (vertex_triangles m') s).
Lemma kept_step m a b : kept m a -> mesh_repacked a b -> kept m b.
Proof.
  intros (K1 & K2 & K3 & K4 & K5 & K6 & K7) (R1 & R2 & R3 & R4 & C).
  unfold kept, get_vertex_buffer, get_normal_buffer, get_uv_buffer in *.
  rewrite (repacked_buffer _ _ _ _ R1), (repacked_buffer _ _ _ _ R2), (repacked_buffer _ _ _ _ R3), (repacked_buffer _ _ _ _ R4), C.
  repeat (split; [assumption|]). split.
  - intros v' V'. destruct (repacked_some _ _ _ _ R1 v' V') as (v & V & NE). destruct (K6 v V) as (v0 & V0 & IN & NE0).
    exists v0. split; auto. split; auto. eapply incl_tran; [exact (repacked_incl _ _ _ _ v v' R1 V V')|exact IN].
  - intros s H. eapply repacked_edge; eauto.
Qed.
Lemma kept_self m : kept m m.
Proof. unfold kept. repeat (split; [reflexivity|]). split; [|auto]. intros v V. exists v. split; auto. split; [apply incl_refl|auto]. Qed.

(** C87. On a mesh whose index arrays fit its data, all these calls return, in any order
    and any number. *)
Theorem C87_calls_return : forall k m, (0 < k)%nat -> storable m -> fitting k m ->
  forall calls, exists m', prepare calls m = Ok m' /\ storable m' /\ fitting k m' /\
    get_vertex_buffer m' = get_vertex_buffer m /\ get_normal_buffer m' = get_normal_buffer m /\ get_uv_buffer m' = get_uv_buffer m /\
    custom_data m' = custom_data m.
Proof.
  intros k m K S F calls. destruct (prepare_trace kept k m K S F (kept_self m)) with (calls := calls) as (m' & E & KP & S' & F').
  { intros a b _ _ KA R. eapply kept_step; eauto. }
  exists m'. destruct KP as (K1 & K2 & K3 & _ & K5 & _). auto 10.
Qed.
Print Assumptions C87_calls_return.

(** ... and when the prepared meshes are saved with the default settings and loaded, in
    any builds, every corner of every triangle is as C80 says of the arrays: names and
    custom data are there, UVs and unit normals are where they were up to the precision, and points
    moved with a tenth of the shortest edge. *)
Theorem C87_prepared_save : forall lm lm' oc oc' l l1,
  log2_ok lm -> log2_standard lm -> asin_ok lm -> sin_cos_ok lm' -> (len l < 2 ^ 32)%N ->
  Forall (fun mn => storable (fst mn) /\ (exists k, (0 < k)%nat /\ fitting k (fst mn)) /\ name_ok (snd mn) /\
    usual_vertices (fst mn) /\ Forall (custom_widths_ok lm) (custom_data (fst mn))) l ->
  Forall2 (fun a b => (exists calls, prepare calls (fst a) = Ok (fst b)) /\ snd b = snd a) l l1 ->
  Forall (fun mn => (segment_count lm true (fst mn) < 65536)%N) l1 ->
  exists out l', saved lm oc (default_precision lm) l1 = Ok out /\ read_tmf lm' oc' out = Ok l' /\
    map snd l' = map snd l /\
    Forall2 (fun a b =>
      arrays (fun u u' : vec2 => texel_near (fst u) (fst u') /\ texel_near (snd u) (snd u')) (get_uv_buffer (fst a)) (get_uv_buffer (fst b)) /\
      arrays turned_little (get_normal_buffer (fst a)) (get_normal_buffer (fst b)) /\
      (forall B s, Forall (bounded B) (vlist (vertices (fst a))) -> B <= 2 ^ 50 ->
        shortest_edge (vertices (fst a)) (vertex_triangles (fst a)) s -> / 2 ^ 20 <= s -> B <= 100000 * s ->
        arrays (moved_among (vlist (vertices (fst a))) B (s * val (flit 1 10))) (get_vertex_buffer (fst a)) (get_vertex_buffer (fst b))) /\
      Forall2 same_custom (rev (custom_data (fst a))) (custom_data (fst b))) l l'.
Proof.
  intros lm lm' oc oc' l l1 LG LS AS SC LL HL PR SG.
  assert (PK : Forall2 (fun a b => kept (fst a) (fst b) /\ storable (fst b) /\ (exists k, fitting k (fst b)) /\ snd b = snd a) l l1).
  { clear -HL PR. revert HL. induction PR as [|a b l l1 [[calls E] EN] _ IH]; intros HL; [constructor|].
    apply Forall_cons_iff in HL as [(S & (k & K & F) & _) HL]. constructor; [|auto].
    destruct (prepare_trace kept k (fst a) K S F (kept_self _)) with (calls := calls) as (m' & E' & KP & S' & F').
    { intros x y _ _ KA R. eapply kept_step; eauto. }
    rewrite E in E'. injection E' as <-. eauto. }
  assert (U : Forall (fun mn => usual_vertices (fst mn) /\ Forall (custom_widths_ok lm) (custom_data (fst mn))) l1).
  { clear -HL PK. revert HL. induction PK as [|a b l l1 (KP & S & (k & F) & _) _ IH]; intros HL; [constructor|].
    apply Forall_cons_iff in HL as [(_ & _ & _ & UV & CW) HL]. constructor; [|auto].
    destruct KP as (_ & _ & _ & _ & K5 & K6 & K7). split; [|now rewrite K5].
    intros v' V'. destruct (K6 v' V') as (v & V & IN & NE). destruct (UV v V) as (NV & _ & B & s & UB & UB2 & US & US2 & US3).
    split; [auto|]. split.
    - intros t T. apply range_corners. destruct F as (F1 & _). apply (F1 v' t); auto.
    - exists B, s. split; [|split; [exact UB2|]].
      + apply Forall_forall. intros x X. rewrite Forall_forall in UB. auto.
      + rewrite <- V'. split; [apply K7; now rewrite V|auto]. }
  assert (HL1 : list_ok lm l1).
  { split.
    - clear -PR LL. enough (length l1 = length l) by (unfold len in *; lia). clear -PR. induction PR; cbn; auto.
    - clear -HL PK SG. revert HL SG. induction PK as [|a b l l1 (KP & S & _ & E) _ IH]; intros HL SG; [constructor|].
      apply Forall_cons_iff in HL as [(_ & _ & NM & _) HL]. apply Forall_cons_iff in SG as [SG1 SG]. constructor; [|auto].
      rewrite E. auto. }
  destruct (C80_default_settings lm lm' oc oc' l1 LG LS AS SC HL1 U) as (out & l' & S & R & N & A1 & A2 & A3 & A4 & _ & A6).
  exists out, l'. split; [exact S|]. split; [exact R|]. split.
  - rewrite N. clear -PK. induction PK as [|a b l l1 (_ & _ & _ & E) _ IH]; cbn [map]; congruence.
  - clear -PK A1 A2 A3 A4 A6. revert l' A1 A2 A3 A4 A6. induction PK as [|a b l l1 (KP & _) _ IH]; intros l' A1 A2 A3 A4 A6; [inversion A1; constructor|].
    inversion A1 as [|? c ? l2 B1 A1']; subst. inversion A2 as [|? ? ? ? B2 A2']; subst. inversion A3 as [|? ? ? ? B3 A3']; subst.
    inversion A4 as [|? ? ? ? B4 A4']; subst. inversion A6 as [|? ? ? ? B6 A6']; subst. constructor; [|auto]. clear IH A1 A2 A3 A4 A6 A1' A2' A3' A4' A6'.
    destruct KP as (K1 & K2 & K3 & _ & K5 & K6 & K7). destruct B1. split; [|split; [|split]].
    + rewrite <- K3. unfold get_uv_buffer. rewrite <- sa_uv_triangles. apply arrays_buffer. exact B3.
    + rewrite <- K2. unfold get_normal_buffer. rewrite <- sa_normal_triangles. apply arrays_buffer. exact B4.
    + intros B s H1 H2 H3 H4 H5. rewrite <- K1. unfold get_vertex_buffer. rewrite <- sa_vertex_triangles. apply arrays_buffer.
      assert (VL : incl (vlist (vertices (fst b))) (vlist (vertices (fst a)))).
      { destruct (vertices (fst b)) as [v'|]; [|intros x []]. destruct (K6 v' eq_refl) as (v & V & IN & _). rewrite V. exact IN. }
      assert (B6' := B6 B s). unfold P_Vertices.on_vertices in B6'. specialize (B6' ltac:(apply Forall_forall; intros x X; rewrite Forall_forall in H1; auto) H2 (K7 s H3) H4 H5).
      unfold arrays. destruct (vertices (fst b)) as [v'|], (vertices (fst c)); try exact B6'. apply pieces_moved; [exact B6'|exact VL].
    + rewrite <- K5. exact B2.
Qed.
Print Assumptions C87_prepared_save.

(** A triangle with a normal and UVs under other numbers than its points, data that is not
    used, and tags. Reordering and unifying it moves the normals and the UVs. *)
Definition apart_of (n1 n2 a b c : vec3) (u w : vec2) : mesh :=
  mk_mesh (Some [n1; n2]) (Some [1; 1; 1]%N) (Some [a; b; c]) (Some [0; 1; 2]%N)
          (Some [u; w]) (Some [1; 0; 1]%N) None None [tags].
Definition packed_of (n1 n2 a b c : vec3) (u w : vec2) : mesh :=
  mk_mesh (Some [n2; n2; n2]) (Some [0; 1; 2]%N) (Some [a; b; c]) (Some [0; 1; 2]%N)
          (Some [w; u; w]) (Some [0; 1; 2]%N) None None [tags].
Lemma apart_prepared n1 n2 a b c u w :
  prepare [Reorder; Unify; Reorder] (apart_of n1 n2 a b c u w) = Ok (packed_of n1 n2 a b c u w).
Proof. reflexivity. Qed.
Definition apart : mesh := apart_of (v3 1 0 0) (v3 0 0 1) (f0, f0, f0) (leg, f0, f0) (f0, leg, f0) (f0, f1) (f1, f0).
Definition packed : mesh := packed_of (v3 1 0 0) (v3 0 0 1) (f0, f0, f0) (leg, f0, f0) (f0, leg, f0) (f0, f1) (f1, f0).
Lemma tags_ok : Forall custom_ok [tags].
Proof. exact (st_custom scene scene_storable). Qed.
Lemma apart_storable : storable apart.
Proof. unfold apart, apart_of. storable_tac. exact tags_ok. Qed.
Lemma apart_fitting : fitting 3 apart.
Proof.
  split; [|split; [|split]]; try (intros d0 i0 E1 E2; discriminate E2);
    intros d0 i0 E1 E2; injection E1 as <-; injection E2 as <-; (split; [reflexivity|]); repeat (apply Forall_cons; [reflexivity|]); apply Forall_nil.
Qed.
Example C87_case : storable apart /\ fitting 3 apart /\ usual_vertices apart /\
  Forall (custom_widths_ok ieee_libm) (custom_data apart) /\ prepare [Reorder; Unify; Reorder] apart = Ok packed /\
  (segment_count ieee_libm true packed < 65536)%N /\ get_uv_buffer apart = Some [(f1, f0); (f0, f1); (f1, f0)].
Proof.
  destruct C80_case as (_ & _ & _ & _ & _ & C). apply Forall_cons_iff in C as [[U CW] _]. cbn [fst] in *.
  split; [exact apart_storable|]. split; [exact apart_fitting|]. split; [exact U|]. split; [exact CW|].
  split; [apply apart_prepared|]. split; [|reflexivity].
  assert (S : storable packed).
  { destruct (C87_calls_return 3 apart ltac:(lia) apart_storable apart_fitting [Reorder; Unify; Reorder]) as (m' & E & S & _).
    assert (E' : prepare [Reorder; Unify; Reorder] apart = Ok packed) by apply apart_prepared. rewrite E in E'. injection E' as <-. exact S. }
  eapply N.le_lt_trans; [apply C54_few_segments, storable_any, S|]. vm_compute. reflexivity.
Qed.
