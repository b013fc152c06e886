(** Property C77, built with [double_precision]: what has settled after the first load. *)
From Coq Require Import List NArith ZArith Arith Lia Bool Reals Lra.
From Flocq Require Import Core IEEE754.BinarySingleNaN.
From Verif Require Import Base UnalignedRW ReadExt Floats Floats_proofs FloatReal_proofs Utilis Mesh Tmf File FileSpec SaveSpec
  ValueSpec Demo Save_proofs Save2_proofs Codec_proofs Image_proofs Quant_proofs NormalReal_proofs Again_proofs Trig_proofs
  P_Save P_Uv P_Normals P_Again Double DoubleSpec DoubleSave DoubleSaveSpec DoubleValueSpec Double2_proofs DCodec_proofs DSave_proofs
  DMerge_proofs P_Double P_DoubleSave P_DoubleValue P_DoubleNormals.
Import ListNotations.
Open Scope res_scope.
Local Open Scope R_scope.

(** One cycle: [l], within the limits of the format, is saved and [l1] is loaded from that. *)
Definition cycle_d (ok : dprec_info -> Prop) (l l1 : list (dmesh * list N)) : Prop :=
  exists lm sc oc' p out, ok p /\ precision_ok_d p /\ list_ok_d lm l /\ saved_d lm true p l = Ok out /\ read_tmf_d sc oc' out = Ok l1.
Inductive cycles_of_d (ok : dprec_info -> Prop) : nat -> list (dmesh * list N) -> list (dmesh * list N) -> Prop :=
| cycles_stop_d l : cycles_of_d ok 0 l l
| cycles_more_d n l l1 l2 : cycle_d ok l l1 -> cycles_of_d ok n l1 l2 -> cycles_of_d ok (S n) l l2.

Lemma cycle_image_d ok l l1 : cycle_d ok l l1 ->
  exists lm sc p, ok p /\ Forall2 (fun a b => loaded_as_d lm sc p (fst a) (fst b)) l l1.
Proof.
  intros (lm & sc & oc' & p & out & O & HP & HL & S & R). destruct (loads_as_d lm sc oc' p l out HP HL S) as (l' & R' & F).
  rewrite R in R'. apply Ok_inj in R'. subst l'. exists lm, sc, p. split; auto. eapply F2_impl; [|exact F]. tauto.
Qed.
Lemma settle_d (ok : dprec_info -> Prop) (P : dmesh -> dmesh -> Prop) : (forall a, P a a) -> (forall a b c, P a b -> P b c -> P a c) ->
  (forall lm1 sc1 p lm2 sc2 p' a b c, ok p -> ok p' -> loaded_as_d lm1 sc1 p a b -> loaded_as_d lm2 sc2 p' b c -> P b c) ->
  forall n l0 l1 l2, cycle_d ok l0 l1 -> cycles_of_d ok n l1 l2 -> Forall2 (fun a b => P (fst a) (fst b)) l1 l2.
Proof.
  intros HR HT H n l0 l1 l2 C K. revert l0 C. induction K as [l|n l l1 l2 C1 K IH]; intros l0 C.
  - clear C. induction l; constructor; auto.
  - destruct (cycle_image_d ok l0 l C) as (lm1 & lm2 & p & O & F1).
    destruct (cycle_image_d ok l l1 C1) as (lm3 & lm4 & p' & O' & F2).
    pose proof (F2_join _ _ _ _ _ F1 F2) as J. specialize (IH l C1).
    assert (S : Forall2 (fun a b => P (fst a) (fst b)) l l1).
    { eapply F2_impl; [|exact J]. intros a b [[z Z] Q]. eapply H; [exact O|exact O'|exact Z|exact Q]. }
    clear - HT IH S. revert l2 IH. induction S as [|a b l l1 AB _ IHS]; intros l2 IH; inversion IH; subst; constructor; eauto.
Qed.

(** UV coordinates, with any width that saves. *)
Theorem C77_double_uvs_settle : forall w n l0 l1 l2,
  cycle_d (fun p => d_uv_prec p = w) l0 l1 -> cycles_of_d (fun p => d_uv_prec p = w) n l1 l2 ->
  map (fun mn => d_uvs (fst mn)) l2 = map (fun mn => d_uvs (fst mn)) l1.
Proof.
  intros w n l0 l1 l2 C K.
  assert (F : Forall2 (fun a b => d_uvs (fst b) = d_uvs (fst a)) l1 l2).
  { apply (settle_d (fun p => d_uv_prec p = w) (fun a b => d_uvs b = d_uvs a)) with (n := n) (l0 := l0); auto; [congruence|].
    intros lm1 lm2 p lm3 lm4 p' a b c O O' (e & _ & M) (e' & _ & M'). apply dr_u in M, M'.
    cbn [with_custom_data_d d_uvs image_rels_d du] in M, M'. rewrite O in M. rewrite O' in M'.
    apply arrays_eq. eapply orel_join; [|exact M|exact M']. cbv beta. intros x y z X Y. symmetry. now apply (uv_settled_d w x). }
  clear - F. induction F; cbn [map]; congruence.
Qed.
Print Assumptions C77_double_uvs_settle.

(** The z component of normals and of tangents, with any width of at least one bit, and the
    handedness of tangents. *)
Definition same_z_d (v v' : dvec3) : Prop := finite64 (dvz v) /\ finite64 (dvz v') /\ val64 (dvz v') = val64 (dvz v).
Definition keeps_z_d (v v' : dvec3) : Prop := finite64 (dvz v) -> finite64 (dvz v') /\ val64 (dvz v') = val64 (dvz v).
Lemma keeps_refl_d v : keeps_z_d v v. Proof. unfold keeps_z_d. auto. Qed.
Lemma keeps_trans_d a b c : keeps_z_d a b -> keeps_z_d b c -> keeps_z_d a c.
Proof. unfold keeps_z_d. intros H K F. destruct (H F) as [A B]. destruct (K A). split; congruence. Qed.
Theorem C77_double_normal_z_settles : forall w n l0 l1 l2, (1 <= w)%nat ->
  cycle_d (fun p => d_normal_precision p = w) l0 l1 -> cycles_of_d (fun p => d_normal_precision p = w) n l1 l2 ->
  Forall2 (on_normals_d same_z_d) l1 l2.
Proof.
  intros w n l0 l1 l2 W C K.
  assert (S : Forall2 (fun a b => arrays keeps_z_d (d_normals (fst a)) (d_normals (fst b))) l1 l2).
  { apply (settle_d (fun p => d_normal_precision p = w) (fun a b => arrays keeps_z_d (d_normals a) (d_normals b))) with (n := n) (l0 := l0); auto.
    - intros a. apply arrays_refl, keeps_refl_d.
    - intros a b c. apply arrays_trans. apply keeps_trans_d.
    - intros k1 k2 q k3 k4 q' a b c H1 H2 (e & _ & M) (e' & _ & M'). apply dr_n in M, M'.
      cbn [with_custom_data_d d_normals image_rels_d dn] in M, M'. rewrite H1 in M. rewrite H2 in M'.
      eapply orel_join; [|exact M|exact M']. intros x y z X Y _. now apply (normal_again_d k1 k2 k3 k4 w x). }
  destruct (cycle_image_d _ l0 l1 C) as (lm1 & lm2 & p & O & F).
  pose proof (F2_join _ _ _ _ _ F S) as J. eapply F2_impl; [|exact J].
  intros b c [[a (e & _ & M)] H]. apply dr_n in M. cbn [with_custom_data_d d_normals image_rels_d dn] in M. rewrite O in M.
  unfold on_normals_d. eapply (arrays_with keeps_z_d same_z_d (fun v => finite64 (dvz v))); [| |exact H].
  - intros x y X Y. split; auto.
  - eapply orel_impl; [|exact M]. cbv beta. intros x y. now apply normal_z_finite_d.
Qed.
Print Assumptions C77_double_normal_z_settles.
Theorem C77_double_tangents_settle : forall w n l0 l1 l2, (1 <= w)%nat ->
  cycle_d (fun p => d_tangent_prec p = w) l0 l1 -> cycles_of_d (fun p => d_tangent_prec p = w) n l1 l2 ->
  Forall2 (on_tangents_d (fun t t' => same_z_d (fst t) (fst t') /\ snd t' = snd t)) l1 l2.
Proof.
  intros w n l0 l1 l2 W C K. set (P := fun t t' : dtangent => keeps_z_d (fst t) (fst t') /\ snd t' = snd t).
  assert (S : Forall2 (fun a b => arrays P (d_tangents (fst a)) (d_tangents (fst b))) l1 l2).
  { apply (settle_d (fun p => d_tangent_prec p = w) (fun a b => arrays P (d_tangents a) (d_tangents b))) with (n := n) (l0 := l0); auto.
    - intros a. apply arrays_refl. intros t. split; [apply keeps_refl_d|reflexivity].
    - intros a b c. apply arrays_trans. intros x y z [X1 X2] [Y1 Y2]. split; [eapply keeps_trans_d; eauto|congruence].
    - intros k1 k2 q k3 k4 q' a b c H1 H2 (e & _ & M) (e' & _ & M'). apply dr_t in M, M'.
      cbn [with_custom_data_d d_tangents image_rels_d dt] in M, M'. rewrite H1 in M. rewrite H2 in M'.
      eapply orel_join; [|exact M|exact M']. intros x y z [X X'] [Y Y']. split.
      + intros _. now apply (normal_again_d k1 k2 k3 k4 w (fst x)).
      + rewrite Y', X'. apply handed_again_d. }
  destruct (cycle_image_d _ l0 l1 C) as (lm1 & lm2 & p & O & F).
  pose proof (F2_join _ _ _ _ _ F S) as J. eapply F2_impl; [|exact J].
  intros b c [[a (e & _ & M)] H]. apply dr_t in M. cbn [with_custom_data_d d_tangents image_rels_d dt] in M. rewrite O in M.
  unfold on_tangents_d. eapply (arrays_with P _ (fun v => finite64 (dvz (fst v)))); [| |exact H].
  - intros x y X [Y Y']. split; [split; auto|exact Y'].
  - eapply orel_impl; [|exact M]. cbv beta. intros x y [X _]. now apply (normal_z_finite_d lm1 lm2 w (fst x)).
Qed.
Print Assumptions C77_double_tangents_settle.

(** The demo mesh, saved and loaded three times. *)
Definition one_cycle_d (k : list (dmesh * list N) -> bool) (l : list (dmesh * list N)) : bool :=
  match saved_d demo_d true demo_prec_d l with
  | Ok out => match read_tmf_d (l_sin_cos demo_d) true out with Ok l1 => k l1 | _ => false end
  | _ => false
  end.
Definition plain_d (m : dmesh) : bool :=
  match m with
  | mk_dmesh (Some ns) None None None (Some us) None (Some ts) None [] => (len ns <=? 2 ^ 27)%N && (len us <=? 2 ^ 27)%N && (len ts <=? 2 ^ 27)%N
  | _ => false
  end && (segment_count_d demo_d true m <? 65536)%N.
Definition try_cycle_d (k : list (dmesh * list N) -> bool) (l : list (dmesh * list N)) : bool :=
  forallb (fun mn => plain_d (fst mn) && match snd mn with [] => true | _ => false end) l && (len l <? 2 ^ 32)%N && one_cycle_d k l.
Lemma try_cycle_ok_d k n l : (forall l1, k l1 = true -> exists l2, cycles_of_d (fun p => p = demo_prec_d) n l1 l2) ->
  try_cycle_d k l = true -> exists l1 l2, cycle_d (fun p => p = demo_prec_d) l l1 /\ cycles_of_d (fun p => p = demo_prec_d) n l1 l2.
Proof.
  intros H T. apply andb_prop in T as [T1 T2]. apply andb_prop in T1 as [T1 T3]. unfold one_cycle_d in T2.
  destruct (saved_d demo_d true demo_prec_d l) as [out| |] eqn:S; try discriminate T2.
  destruct (read_tmf_d _ true out) as [l1| |] eqn:R; try discriminate T2.
  destruct (H l1 T2) as [l2 C]. exists l1, l2. split; [|exact C]. exists demo_d, (l_sin_cos demo_d), true, demo_prec_d, out.
  split; [reflexivity|]. split; [exact (proj1 demo_ok_d)|]. split; [|split; assumption]. split; [now apply N.ltb_lt|].
  apply Forall_forall. intros [m nm] X. rewrite forallb_forall in T1. specialize (T1 _ X). cbn [fst snd] in *.
  apply andb_prop in T1 as [P Q]. destruct nm; [|discriminate Q]. unfold plain_d in P. apply andb_prop in P as [P P'].
  split; [|split; [apply name_ok_ascii; reflexivity|now apply N.ltb_lt]].
  destruct m as [[ns|] [|] [|] [|] [us|] [|] [ts|] [|] [|]]; try discriminate P.
  apply andb_prop in P as [P P3]. apply andb_prop in P as [P1 P2].
  constructor; cbn; first [apply small_none|apply indices_none|now apply small_some|apply Forall_nil].
Qed.
Definition again_mesh_d : dmesh :=
  mk_dmesh (Some [dv3 0 0 1; (dlit 6 10, d0, dlit 8 10); (dlit 48 100, dlit 36 100, dneg (dlit 8 10))]) None None None
    (Some [(dlit 1 3, dlit 2 7); (d1, d0)]) None (Some [((dlit 6 10, d0, dlit 8 10), dneg d1)]) None [].
Example C77_double_case : d_uv_prec demo_prec_d = 14%nat /\ d_normal_precision demo_prec_d = 7%nat /\ d_tangent_prec demo_prec_d = 8%nat /\
  exists l1 l2, cycle_d (fun p => p = demo_prec_d) [(again_mesh_d, [])] l1 /\ cycles_of_d (fun p => p = demo_prec_d) 2 l1 l2.
Proof.
  repeat (split; [reflexivity|]).
  apply (try_cycle_ok_d (try_cycle_d (try_cycle_d (fun _ => true)))); [|vm_compute; reflexivity].
  intros l1 H1. destruct (try_cycle_ok_d (try_cycle_d (fun _ => true)) 1 l1) as (la & lb & A & B); [|exact H1|].
  - intros l2 H2. destruct (try_cycle_ok_d (fun _ => true) 0 l2) as (la & lb & A & B); [|exact H2|].
    + intros l3 _. exists l3. constructor.
    + exists lb. econstructor; eauto.
  - exists lb. econstructor; eauto.
Qed.
