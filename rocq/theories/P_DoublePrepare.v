(** Property C87 with double precision. *)
From Coq Require Import List NArith ZArith Arith Lia Bool Reals Lra ZifyN ZifyNat ZifyBool.
From Flocq Require Import Core IEEE754.BinarySingleNaN.
From Verif Require Import Base UnalignedRW ReadExt Floats Utilis Vertices Uv Normals Unify CustomData Mesh Tmf File FileSpec SaveSpec
  ValueSpec VertexSpec CheckedSpec MeshSpec PrepareSpec Demo Save_proofs Image_proofs Mesh_proofs Panic_proofs Prepare_proofs
  P_Save P_Uv P_Normals P_Vertices P_Checked P_Mesh P_Default P_Prepare
  Double DoubleSpec DoubleEdit DoubleSave DoubleSaveSpec DoubleValueSpec DoubleNormalSpec DoublePanicSpec DoublePrepareSpec DSave_proofs DPiece_proofs DPrepare_proofs
  P_Double P_DoubleSave P_DoubleValue P_DoubleNormals P_DoubleChecked P_DoubleEdit P_DoubleDefault.
Import ListNotations.
Open Scope res_scope.
Local Open Scope R_scope.

(** Any sequence of calls of d_reorder_data and d_unify_index_data. *)
Fixpoint prepare_d (calls : list call) (m : dmesh) : res False dmesh :=
  match calls with
  | [] => Ok m
  | Reorder :: rest => let* m := d_reorder_data m in prepare_d rest m
  | Unify :: rest => let* m := d_unify_index_data m in prepare_d rest m
  end.

Lemma prepare_trace_d (I : dmesh -> dmesh -> Prop) k m : (0 < k)%nat -> storable_d m -> fitting_d k m -> I m m ->
  (forall a b, storable_d a -> fitting_d k a -> I m a -> mesh_repacked_d a b -> I m b) ->
  forall calls, exists m', prepare_d calls m = Ok m' /\ I m m' /\ storable_d m' /\ fitting_d k m'.
Proof.
  intros K S F I0 IS calls.
  assert (G : forall calls a, storable_d a -> fitting_d k a -> I m a -> exists m', prepare_d calls a = Ok m' /\ I m m' /\ storable_d m' /\ fitting_d k m').
  { clear calls. induction calls as [|c calls IH]; intros a SA FA IA; [exists a; auto|].
    destruct c; cbn [prepare_d];
      [destruct (reorder_repacks_d k a K SA FA) as (b & E & R)|destruct (unify_repacks_d k a K SA FA) as (b & E & R)]; rewrite E; cbn [bind]; apply IH; eauto using repacked_storable_d, repacked_fitting_d. }
  apply G; auto.
Qed.
(** What the calls keep. *)
Definition kept_d (m m' : dmesh) : Prop :=
  d_get_vertex_buffer m' = d_get_vertex_buffer m /\ d_get_normal_buffer m' = d_get_normal_buffer m /\ d_get_uv_buffer m' = d_get_uv_buffer m /\
  buffer (d_tangents m') (d_tangent_triangles m') = buffer (d_tangents m) (d_tangent_triangles m) /\ d_custom_data m' = d_custom_data m /\
  (forall v', d_vertices m' = Some v' -> exists v, d_vertices m = Some v /\ incl v' v /\ (v <> [] -> v' <> [])) /\
  (forall s, shortest_edge_d (d_vertices m) (d_vertex_triangles m) s -> shortest_edge_d (d_vertices m') (d_vertex_triangles m') s).
Lemma kept_step_d m a b : kept_d m a -> mesh_repacked_d a b -> kept_d m b.
Proof.
  intros (K1 & K2 & K3 & K4 & K5 & K6 & K7) (R1 & R2 & R3 & R4 & C).
  unfold kept_d, d_get_vertex_buffer, d_get_normal_buffer, d_get_uv_buffer in *.
  rewrite (repacked_buffer _ _ _ _ R1), (repacked_buffer _ _ _ _ R2), (repacked_buffer _ _ _ _ R3), (repacked_buffer _ _ _ _ R4), C.
  repeat (split; [assumption|]). split.
  - intros v' V'. destruct (repacked_some _ _ _ _ R1 v' V') as (v & V & NE). destruct (K6 v V) as (v0 & V0 & IN & NE0).
    exists v0. split; auto. split; auto. eapply incl_tran; [exact (repacked_incl _ _ _ _ v v' R1 V V')|exact IN].
  - intros s H. eapply repacked_edge_d; eauto.
Qed.
Lemma kept_self_d m : kept_d m m.
Proof. unfold kept_d. repeat (split; [reflexivity|]). split; [|auto]. intros v V. exists v. split; auto. split; [apply incl_refl|auto]. Qed.

(** C87. On a dmesh whose index arrays fit its data, all these calls return, in any order
    and any number. *)
Theorem C87_calls_return_double : forall k m, (0 < k)%nat -> storable_d m -> fitting_d k m ->
  forall calls, exists m', prepare_d calls m = Ok m' /\ storable_d m' /\ fitting_d k m' /\
    d_get_vertex_buffer m' = d_get_vertex_buffer m /\ d_get_normal_buffer m' = d_get_normal_buffer m /\ d_get_uv_buffer m' = d_get_uv_buffer m /\
    d_custom_data m' = d_custom_data m.
Proof.
  intros k m K S F calls. destruct (prepare_trace_d kept_d k m K S F (kept_self_d m)) with (calls := calls) as (m' & E & KP & S' & F').
  { intros a b _ _ KA R. eapply kept_step_d; eauto. }
  exists m'. destruct KP as (K1 & K2 & K3 & _ & K5 & _). auto 10.
Qed.
Print Assumptions C87_calls_return_double.

(** ... and when the prepared meshes are saved_d with the default settings and loaded, in
    any builds, every corner of every triangle is as C80 says of the arrays: names and
    custom data are there, UVs and unit normals are where they were up to the precision, and points
    moved with a tenth of the shortest edge. *)
Theorem C87_prepared_save_double : forall lf lm sc oc oc' l l1,
  log2_ok lf -> log2_64_ok lm -> log2_64_standard lm -> asin_64_ok lm -> sin_cos64_sharp sc -> (len l < 2 ^ 32)%N ->
  Forall (fun mn => storable_d (fst mn) /\ (exists k, (0 < k)%nat /\ fitting_d k (fst mn)) /\ name_ok (snd mn) /\
    usual_vertices_d (fst mn) /\ Forall (custom_widths_ok_d lm) (d_custom_data (fst mn))) l ->
  Forall2 (fun a b => (exists calls, prepare_d calls (fst a) = Ok (fst b)) /\ snd b = snd a) l l1 ->
  Forall (fun mn => (segment_count_d lm true (fst mn) < 65536)%N) l1 ->
  exists out l', saved_d lm oc (default_precision_d lf lm) l1 = Ok out /\ read_tmf_d sc oc' out = Ok l' /\
    map snd l' = map snd l /\
    Forall2 (fun a b =>
      arrays (fun u u' : dvec2 => texel_near_d (fst u) (fst u') /\ texel_near_d (snd u) (snd u')) (d_get_uv_buffer (fst a)) (d_get_uv_buffer (fst b)) /\
      arrays turned_little_d (d_get_normal_buffer (fst a)) (d_get_normal_buffer (fst b)) /\
      (forall B s, Forall (bounded_d B) (vlist_d (d_vertices (fst a))) -> B <= 2 ^ 50 ->
        shortest_edge_d (d_vertices (fst a)) (d_vertex_triangles (fst a)) s -> / 2 ^ 20 <= s ->
        arrays (moved_among_d (vlist_d (d_vertices (fst a))) B (s * val64 (dlit 1 10))) (d_get_vertex_buffer (fst a)) (d_get_vertex_buffer (fst b))) /\
      Forall2 same_custom_d (rev (d_custom_data (fst a))) (d_custom_data (fst b))) l l'.
Proof.
  intros lf lm sc oc oc' l l1 LF LG LS AS SC LL HL PR SG.
  assert (PK : Forall2 (fun a b => kept_d (fst a) (fst b) /\ storable_d (fst b) /\ (exists k, fitting_d k (fst b)) /\ snd b = snd a) l l1).
  { clear -HL PR. revert HL. induction PR as [|a b l l1 [[calls E] EN] _ IH]; intros HL; [constructor|].
    apply Forall_cons_iff in HL as [(S & (k & K & F) & _) HL]. constructor; [|auto].
    destruct (prepare_trace_d kept_d k (fst a) K S F (kept_self_d _)) with (calls := calls) as (m' & E' & KP & S' & F').
    { intros x y _ _ KA R. eapply kept_step_d; eauto. }
    rewrite E in E'. injection E' as <-. eauto. }
  assert (U : Forall (fun mn => usual_vertices_d (fst mn) /\ Forall (custom_widths_ok_d lm) (d_custom_data (fst mn))) l1).
  { clear -HL PK. revert HL. induction PK as [|a b l l1 (KP & S & (k & F) & _) _ IH]; intros HL; [constructor|].
    apply Forall_cons_iff in HL as [(_ & _ & _ & UV & CW) HL]. constructor; [|auto].
    destruct KP as (_ & _ & _ & _ & K5 & K6 & K7). split; [|now rewrite K5].
    intros v' V'. destruct (K6 v' V') as (v & V & IN & NE). destruct (UV v V) as (NV & _ & B & s & UB & UB2 & US & US2 & US3).
    split; [auto|]. split.
    - intros t T. apply range_corners_d. destruct F as (F1 & _). apply (F1 v' t); auto.
    - exists B, s. split; [|split; [exact UB2|]].
      + apply Forall_forall. intros x X. rewrite Forall_forall in UB. auto.
      + rewrite <- V'. split; [apply K7; now rewrite V|auto]. }
  assert (HL1 : list_ok_d lm l1).
  { split.
    - clear -PR LL. enough (length l1 = length l) by (unfold len in *; lia). clear -PR. induction PR; cbn; auto.
    - clear -HL PK SG. revert HL SG. induction PK as [|a b l l1 (KP & S & _ & E) _ IH]; intros HL SG; [constructor|].
      apply Forall_cons_iff in HL as [(_ & _ & NM & _) HL]. apply Forall_cons_iff in SG as [SG1 SG]. constructor; [|auto].
      rewrite E. auto. }
  destruct (C85_default_settings lf lm sc oc oc' l1 LF LG LS AS SC HL1 U) as (out & l' & S & R & A1 & A3 & A4 & _ & A6).
  exists out, l'. split; [exact S|]. split; [exact R|]. split.
  - transitivity (map snd l1).
    + clear -A1. induction A1 as [|a b l l1 [E _] _ IH]; cbn [map]; congruence.
    + clear -PK. induction PK as [|a b l l1 (_ & _ & _ & E) _ IH]; cbn [map]; congruence.
  - clear -PK A1 A3 A4 A6. revert l' A1 A3 A4 A6. induction PK as [|a b l l1 (KP & _) _ IH]; intros l' A1 A3 A4 A6; [inversion A1; constructor|].
    inversion A1 as [|? c ? l2 [_ B1] A1']; subst. inversion A3 as [|? ? ? ? B3 A3']; subst.
    inversion A4 as [|? ? ? ? B4 A4']; subst. inversion A6 as [|? ? ? ? B6 A6']; subst. constructor; [|auto]. clear IH A1 A3 A4 A6 A1' A3' A4' A6'.
    destruct KP as (K1 & K2 & K3 & _ & K5 & K6 & K7). destruct B1. split; [|split; [|split]].
    + rewrite <- K3. unfold d_get_uv_buffer. rewrite <- da_uv_triangles. apply arrays_buffer. exact B3.
    + rewrite <- K2. unfold d_get_normal_buffer. rewrite <- da_normal_triangles. apply arrays_buffer. exact B4.
    + intros B s H1 H2 H3 H4. rewrite <- K1. unfold d_get_vertex_buffer. rewrite <- da_vertex_triangles. apply arrays_buffer.
      assert (VL : incl (vlist_d (d_vertices (fst b))) (vlist_d (d_vertices (fst a)))).
      { destruct (d_vertices (fst b)) as [v'|]; [|intros x []]. destruct (K6 v' eq_refl) as (v & V & IN & _). rewrite V. exact IN. }
      assert (B6' := B6 B s). unfold P_DoubleValue.on_vertices_d in B6'. specialize (B6' ltac:(apply Forall_forall; intros x X; rewrite Forall_forall in H1; auto) H2 (K7 s H3) H4).
      unfold arrays. destruct (d_vertices (fst b)) as [v'|], (d_vertices (fst c)); try exact B6'. apply pieces_moved_d; [exact B6'|exact VL].
    + rewrite <- K5. exact da_custom.
Qed.
Print Assumptions C87_prepared_save_double.

(** The mesh of C85 with unused and repeated normals and UVs. *)
Definition apart_of_d (n1 n2 a b c : dvec3) (u w : dvec2) (s : dcseg) : dmesh :=
  mk_dmesh (Some [n1; n2]) (Some [1; 1; 1]%N) (Some [a; b; c]) (Some [0; 1; 2]%N)
           (Some [u; w]) (Some [1; 0; 1]%N) None None [s].
Definition packed_of_d (n1 n2 a b c : dvec3) (u w : dvec2) (s : dcseg) : dmesh :=
  mk_dmesh (Some [n2; n2; n2]) (Some [0; 1; 2]%N) (Some [a; b; c]) (Some [0; 1; 2]%N)
           (Some [w; u; w]) (Some [0; 1; 2]%N) None None [s].
Lemma apart_prepared_d n1 n2 a b c u w s :
  prepare_d [Reorder; Unify; Reorder] (apart_of_d n1 n2 a b c u w s) = Ok (packed_of_d n1 n2 a b c u w s).
Proof. reflexivity. Qed.
Definition apart_d : dmesh := apart_of_d (dv3 1 0 0) (dv3 0 0 1) (d0, d0, d0) (leg_d, d0, d0) (d0, leg_d, d0) (d0, d1) (d1, d0) (mk_dcseg [97; 98]%N 2 (XIndex [5; 0; 7]%N 7)).
Definition packed_d : dmesh := packed_of_d (dv3 1 0 0) (dv3 0 0 1) (d0, d0, d0) (leg_d, d0, d0) (d0, leg_d, d0) (d0, d1) (d1, d0) (mk_dcseg [97; 98]%N 2 (XIndex [5; 0; 7]%N 7)).
Lemma apart_storable_d : storable_d apart_d.
Proof.
  pose proof (sd_custom scene_d scene_storable_d) as C.
  constructor; unfold apart_d, apart_of_d; cbn [d_normals d_normal_triangles d_vertices d_vertex_triangles d_uvs d_uv_triangles d_tangents d_tangent_triangles d_custom_data]; first [exact C | apply small_none | apply indices_none | apply small_some; reflexivity
        | apply indices_some; reflexivity].
Qed.
Lemma apart_fitting_d : fitting_d 3 apart_d.
Proof.
  split; [|split; [|split]]; try (intros d0 i0 E1 E2; discriminate E2);
    intros e0 i0 E1 E2; injection E1 as <-; injection E2 as <-; (split; [reflexivity|]); repeat (apply Forall_cons; [reflexivity|]); apply Forall_nil.
Qed.
Example C87_double_case : storable_d apart_d /\ fitting_d 3 apart_d /\ usual_vertices_d apart_d /\
  Forall (custom_widths_ok_d ieee_d) (d_custom_data apart_d) /\ prepare_d [Reorder; Unify; Reorder] apart_d = Ok packed_d /\
  (segment_count_d ieee_d true packed_d < 65536)%N /\ d_get_uv_buffer apart_d = Some [(d1, d0); (d0, d1); (d1, d0)].
Proof.
  destruct C85_case as (_ & _ & _ & _ & _ & _ & C). apply Forall_cons_iff in C as [[U CW] _]. cbn [fst] in *.
  split; [exact apart_storable_d|]. split; [exact apart_fitting_d|]. split; [exact U|]. split; [exact CW|].
  split; [apply apart_prepared_d|]. split; [|reflexivity].
  assert (S : storable_d packed_d).
  { destruct (C87_calls_return_double 3 apart_d ltac:(lia) apart_storable_d apart_fitting_d [Reorder; Unify; Reorder]) as (m' & E & S & _).
    assert (E' : prepare_d [Reorder; Unify; Reorder] apart_d = Ok packed_d) by apply apart_prepared_d. rewrite E in E'. injection E' as <-. exact S. }
  eapply N.le_lt_trans; [apply C84_few_segments, storable_any_d, S|]. vm_compute. reflexivity.
Qed.
