(** Whatever the order of completions, a load gives the sequential result. *)
From Coq Require Import List NArith Arith Bool Lia.
From Verif Require Import Base UnalignedRW ReadExt Triangles Floats Mesh Tmf File Async Parse_proofs.
Import ListNotations.
Open Scope res_scope.

Definition task_ok lm oc ctx (t : task) : Prop :=
  match snd t with None => True | Some r => r = decode lm oc ctx (fst t) end.

(** The segments of the tasks, followed by those still to be read, are what the
    sequential reader reads. *)
Definition ainv lm oc ctx (n0 : nat) (src0 : list N) (s : astate) : Prop :=
  Forall (task_ok lm oc ctx) (a_tasks s) /\
  read_segments ctx n0 src0 =
    let* (l, r) := read_segments ctx (a_todo s) (a_src s) in Ok (map fst (a_tasks s) ++ l, r).

Lemma set_task_fst i e r l : nth_error l i = Some (e, None) ->
  map fst (set_task i (e, r) l) = map fst l.
Proof.
  revert i. induction l as [|x l IH]; intros [|i] H; cbn in *; try discriminate.
  - injection H as ->. reflexivity.
  - now rewrite IH.
Qed.
Lemma set_task_ok lm oc ctx i e l : Forall (task_ok lm oc ctx) l ->
  Forall (task_ok lm oc ctx) (set_task i (e, Some (decode lm oc ctx e)) l).
Proof.
  intros H. revert i. induction H as [|x l Hx Hl IH]; intros [|i]; cbn [set_task]; constructor; auto.
  reflexivity.
Qed.

Lemma astep_inv lm oc ctx n0 src0 s t :
  ainv lm oc ctx n0 src0 s -> astep lm oc ctx s t -> ainv lm oc ctx n0 src0 t.
Proof.
  intros [I1 I2] H. destruct H as [n src e src' tasks H|n src tasks i e H]; cbn in *.
  - split; cbn; [apply Forall_app; split; auto; repeat constructor|].
    rewrite I2. cbn [read_segments]. rewrite H. cbn [bind].
    destruct (read_segments ctx n src') as [[l r]| |]; cbn [bind]; auto.
    rewrite map_app, <- app_assoc. reflexivity.
  - split; cbn; [now apply set_task_ok|]. rewrite (set_task_fst i e _ tasks H). exact I2.
Qed.

Lemma results_decode lm oc ctx tasks l : Forall (task_ok lm oc ctx) tasks ->
  results tasks = Some l -> l = map (decode lm oc ctx) (map fst tasks).
Proof.
  intros H. revert l. induction H as [|[e [r|]] t Ht _ IH]; intros l E; cbn in *; try discriminate.
  - now injection E as <-.
  - destruct (results t) as [l'|]; try discriminate. injection E as <-. unfold task_ok in Ht.
    cbn in Ht. rewrite Ht. f_equal. now apply IH.
Qed.

Lemma asteps_final lm oc ctx n src st r :
  asteps lm oc ctx (mk_astate n src []) st -> afinal ctx st r ->
  r = let* (l, rest) := read_segments ctx n src in
      let* d := join_collect (map (decode lm oc ctx) l) in Ok (d, rest).
Proof.
  intros HS HF.
  assert (I : ainv lm oc ctx n src st).
  { assert (I0 : ainv lm oc ctx n src (mk_astate n src [])).
    { split; [constructor|]. cbn. destruct (read_segments ctx n src) as [[? ?]| |]; reflexivity. }
    clear HF. remember (mk_astate n src []) as s0 eqn:E0. clear E0.
    induction HS as [|s t u H1 _ IH]; auto. apply IH. eapply astep_inv; eauto. }
  destruct I as [I1 I2]. destruct HF as [k s tasks e H|k s tasks H|s tasks l H]; cbn in *.
  - rewrite I2. rewrite H. reflexivity.
  - rewrite I2. rewrite H. reflexivity.
  - rewrite I2. cbn. rewrite app_nil_r. now rewrite (results_decode lm oc ctx tasks l).
Qed.

Lemma amesh_det lm oc ctx src r : amesh lm oc ctx src r -> r = import_mesh lm oc ctx src.
Proof.
  unfold import_mesh. intros [e H|name s1 e H1 H2|name s1 n s2 st r0 H1 H2 H3 H4].
  - now rewrite H.
  - rewrite H1. cbn. now rewrite H2.
  - rewrite H1. cbn [io map_err bind]. rewrite H2. cbn [io map_err bind].
    rewrite (asteps_final _ _ _ _ _ _ _ H3 H4).
    destruct (read_segments ctx (N.to_nat n) s2) as [[l rest]| |]; cbn [bind]; auto.
    destruct (join_collect _); reflexivity.
Qed.

Lemma ameshes_det lm oc ctx n src r : ameshes lm oc ctx n src r -> r = import_meshes lm oc ctx n src.
Proof.
  induction 1 as [src|n src m rest r H1 H2 IH|n src e H|n src H]; cbn [import_meshes].
  - reflexivity.
  - rewrite <- (amesh_det _ _ _ _ _ H1). cbn [bind]. rewrite IH. reflexivity.
  - now rewrite <- (amesh_det _ _ _ _ _ H).
  - now rewrite <- (amesh_det _ _ _ _ _ H).
Qed.

Lemma aimport_det lm oc src r : aimport lm oc src r -> r = import lm oc src.
Proof.
  unfold import. intros [e H|h s1 e H1 H2|h s1 n s2 r0 H1 H2 H3].
  - now rewrite H.
  - rewrite H1. cbn. now rewrite H2.
  - rewrite H1. cbn [bind]. rewrite H2. cbn [io map_err bind]. now apply ameshes_det.
Qed.

(** Runs exist and are finite. *)
Definition pending (t : task) : nat := match snd t with None => 1 | Some _ => 0 end.
Definition work (s : astate) : nat := 2 * a_todo s + list_sum (map pending (a_tasks s)).

Lemma set_task_pending i e r l : nth_error l i = Some (e, None) ->
  S (list_sum (map pending (set_task i (e, Some r) l))) = list_sum (map pending l).
Proof.
  revert i. induction l as [|x l IH]; intros [|i] H; cbn [nth_error set_task map list_sum fold_right] in *;
    try discriminate.
  - injection H as ->. reflexivity.
  - specialize (IH i H). unfold list_sum in *. cbn [fold_right]. lia.
Qed.

Lemma astep_work lm oc ctx s t : astep lm oc ctx s t -> S (work t) = work s.
Proof.
  intros [n src e src' tasks H|n src tasks i e H]; unfold work; cbn [a_todo a_tasks].
  - rewrite map_app, list_sum_app. cbn. lia.
  - rewrite <- (set_task_pending i e (decode lm oc ctx e) tasks H). lia.
Qed.

Lemma results_or_pending l : (exists r, results l = Some r) \/ exists i e, nth_error l i = Some (e, None).
Proof.
  induction l as [|[e [r|]] l [[r' IH]|(i & e' & IH)]]; cbn; eauto.
  - rewrite IH. cbn. eauto.
  - right. exists (S i), e'. exact IH.
  - right. exists 0, e. reflexivity.
  - right. exists 0, e. reflexivity.
Qed.

Lemma aprogress lm oc ctx s : (exists r, afinal ctx s r) \/ exists t, astep lm oc ctx s t.
Proof.
  destruct s as [[|n] src tasks].
  - destruct (results_or_pending tasks) as [[l H]|(i & e & H)].
    + left. eexists. apply af_join. exact H.
    + right. eexists. apply a_complete. exact H.
  - destruct (eseg_read ctx src) as [[e s']|e|] eqn:E.
    + right. eexists. apply a_read. exact E.
    + left. eexists. apply af_err. exact E.
    + left. eexists. apply af_panic. exact E.
Qed.

(** Any partial run can be completed. *)
Lemma acomplete lm oc ctx s : exists t r, asteps lm oc ctx s t /\ afinal ctx t r.
Proof.
  remember (work s) as n eqn:En. revert s En. induction n as [|n IH]; intros s En.
  - destruct (aprogress lm oc ctx s) as [[r H]|[t H]].
    + exists s, r. split; [constructor|auto].
    + apply astep_work in H. lia.
  - destruct (aprogress lm oc ctx s) as [[r H]|[t H]].
    + exists s, r. split; [constructor|auto].
    + pose proof (astep_work _ _ _ _ _ H). destruct (IH t ltac:(lia)) as (u & r & H1 & H2).
      exists u, r. split; auto. econstructor; eauto.
Qed.

Lemma read_string_total s : read_string s <> Panic.
Proof.
  unfold read_string, read_u16, read_le, read_exact.
  destruct (_ <? _)%N; [discriminate|]. cbn. destruct (_ <? _)%N; [discriminate|]. cbn.
  destruct (utf8_valid _); discriminate.
Qed.
Lemma read_le_total n s : read_le n s <> Panic.
Proof. unfold read_le, read_exact. destruct (_ <? _)%N; discriminate. Qed.

Lemma amesh_exists lm oc ctx src : exists r, amesh lm oc ctx src r.
Proof.
  destruct (read_string src) as [[name s1]|e|] eqn:E1.
  - destruct (read_u16 s1) as [[n s2]|e|] eqn:E2.
    + destruct (acomplete lm oc ctx (mk_astate (N.to_nat n) s2 [])) as (t & r & H1 & H2).
      eexists. eapply am_run; eauto.
    + eexists. eapply am_count_err; eauto.
    + destruct (read_le_total _ _ E2).
  - eexists. apply am_name_err; exact E1.
  - destruct (read_string_total _ E1).
Qed.

Lemma ameshes_exists lm oc ctx n : forall src, exists r, ameshes lm oc ctx n src r.
Proof.
  induction n as [|n IH]; intros src; [eexists; constructor|].
  destruct (amesh_exists lm oc ctx src) as [[[m rest]|e|] H].
  - destruct (IH rest) as [r H2]. eexists. eapply ams_ok; eauto.
  - eexists. apply ams_err; eauto.
  - eexists. apply ams_panic; eauto.
Qed.

Lemma header_total s : read_tmf_header s <> Panic.
Proof.
  unfold read_tmf_header. destruct (read_exact 3 s) as [[m s0]|e|] eqn:E0; cbn [io map_err bind]; try discriminate.
  2:{ unfold read_exact in E0. destruct (_ <? _)%N; discriminate. }
  destruct (negb _); [discriminate|].
  do 4 (match goal with |- context [read_u16 ?s] =>
    destruct (read_u16 s) as [[? ?]|?|] eqn:?; cbn [io map_err bind]; try discriminate;
    [|exfalso; eapply read_le_total; eassumption] end).
  destruct (_ || _)%bool; discriminate.
Qed.

Lemma aimport_exists lm oc src : exists r, aimport lm oc src r.
Proof.
  destruct (read_tmf_header src) as [[h s1]|e|] eqn:E1.
  - destruct (read_u32 s1) as [[n s2]|e|] eqn:E2.
    + destruct (ameshes_exists lm oc (init_header h) (N.to_nat n) s2) as [r H].
      exists r. eapply ai_run; eauto.
    + eexists. eapply ai_count_err; eauto.
    + destruct (read_le_total _ _ E2).
  - eexists. apply ai_head_err; exact E1.
  - destruct (header_total _ E1).
Qed.
