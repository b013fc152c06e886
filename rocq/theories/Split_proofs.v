(** The consistency assertion of the vertex splitter holds. *)
From Coq Require Import List NArith ZArith Arith Bool Lia ZifyN ZifyNat ZifyBool.
From Flocq Require Import IEEE754.BinarySingleNaN.
From Verif Require Import Base Floats Utilis OptTris OptVertices OptVertices_proofs Agree_proofs.
Import ListNotations.
Open Scope res_scope.

Lemma Ok_inj {E A} (a b : A) : @Ok E A a = Ok b -> a = b. Proof. congruence. Qed.
Lemma flt_asym x y : flt x y = true -> flt y x = false.
Proof.
  unfold flt, Bltb, SpecFloat.SFltb. fold (Bcompare x y) (Bcompare y x). rewrite (Bcompare_swap _ _ y x).
  destruct (Bcompare y x) as [[]|]; cbn; congruence.
Qed.
Lemma flt_not_nan x y : flt x y = true -> is_nan x = false /\ is_nan y = false.
Proof. destruct x, y; cbn; auto; discriminate. Qed.
Lemma fmin_left x y : flt x y = true -> fmin x y = x.
Proof. intros H. unfold fmin. destruct (flt_not_nan _ _ H) as [-> ->]. now rewrite (flt_asym _ _ H). Qed.
Lemma fmax_left x y : flt y x = true -> fmax x y = x.
Proof. intros H. unfold fmax. destruct (flt_not_nan _ _ H) as [-> ->]. now rewrite (flt_asym _ _ H). Qed.
Lemma inside_expand s v : inside_span s v = true -> expand_vertex_span s v = s.
Proof.
  unfold inside_span, expand_vertex_span. rewrite !andb_true_iff. intros [[[[[A B] C] D] E] F].
  rewrite !fmin_left, !fmax_left by assumption. destruct s as [[[a b] c] [[d e] f]]. reflexivity.
Qed.
Lemma not_inside_zero v : inside_span zero_span v = false.
Proof.
  destruct (inside_span zero_span v) eqn:E; auto. unfold inside_span in E. rewrite !andb_true_iff in E.
  destruct E as [[[[[A B] C] D] G] F]. apply flt_asym in A. unfold zero_span, vx in *. cbn [fst snd] in *. congruence.
Qed.

(** Positive best split not at the last index. *)
Definition not_last (n : nat) (b : Z * nat) : Prop := (0 < fst b)%Z -> snd b + 1 < n.
Lemma scan_not_last {E} lm oc edge total rest : forall i sp pv b b',
  range_to_vertex_bit_count (E:=E) lm oc (fold_left expand_vertex_span rest sp) edge = Ok total ->
  (sp = zero_span \/ range_to_vertex_bit_count (E:=E) lm oc sp edge = Ok pv) ->
  not_last (i + length rest) b ->
  vertex_scan (E:=E) lm oc edge total rest i sp pv b = Ok b' -> not_last (i + length rest) b'.
Proof.
  induction rest as [|v rest IH]; intros i sp pv b b' T S B V; cbn [vertex_scan] in V.
  - apply Ok_inj in V. subst b'. exact B.
  - cbn [length fold_left] in *. replace (i + Datatypes.S (length rest)) with (Datatypes.S i + length rest) in * by lia.
    destruct (inside_span sp v) eqn:I; cbn [negb] in V; cbv zeta in V.
    + pose proof (inside_expand _ _ I) as X. rewrite X in T.
      assert (P : range_to_vertex_bit_count (E:=E) lm oc sp edge = Ok pv).
      { destruct S as [-> |S]; auto. rewrite not_inside_zero in I. discriminate. }
      destruct (sub8 (E:=E) oc total pv) as [g|e|] eqn:G; cbn [bind] in V; try discriminate V.
      destruct (mul64 (E:=E) oc (N.of_nat i) (N.of_nat g)) as [gain|e|] eqn:M; cbn [bind] in V; try discriminate V.
      destruct (sub_isize (E:=E) oc (to_isize gain) (to_isize vertex_split_loss)) as [score|e|] eqn:SC; cbn [bind] in V; try discriminate V.
      refine (IH _ _ _ _ _ T (or_intror P) _ V). destruct (fst b <? score)%Z; [|exact B].
      intros Q. cbn [fst snd] in *. destruct rest as [|w rest]; [|cbn [length]; lia]. exfalso.
      cbn [fold_left] in T. rewrite P in T. apply Ok_inj in T. subst pv.
      assert (g = 0). { unfold sub8 in G. rewrite Nat.leb_refl in G. apply Ok_inj in G. lia. } subst g.
      assert (gain = 0%N).
      { unfold mul64 in M. rewrite N.mul_0_r in M. destruct (0 <? two64)%N; [|destruct oc; try discriminate M]; apply Ok_inj in M; subst; reflexivity. }
      subst gain. vm_compute in SC. apply Ok_inj in SC. subst score. lia.
    + destruct (range_to_vertex_bit_count (E:=E) lm oc (expand_vertex_span sp v) edge) as [pv'|e|] eqn:R; cbn [bind] in V; try discriminate V.
      exact (IH _ _ _ _ _ T (or_intror R) B V).
Qed.
(** In builds without overflow checks nothing panics. *)
Lemma bit_count_release {E} lm s e : exists n, range_to_vertex_bit_count (E:=E) lm false s e = Ok n.
Proof.
  unfold range_to_vertex_bit_count, add8. cbv zeta.
  repeat first [eexists; reflexivity | cbn [bind]; match goal with |- context [if ?c then _ else _] => destruct c end].
Qed.
Lemma scan_release {E} lm edge total rest : forall i sp pv b, exists b', vertex_scan (E:=E) lm false edge total rest i sp pv b = Ok b'.
Proof.
  induction rest as [|v rest IH]; intros i sp pv b; cbn [vertex_scan]; [eauto|]. destruct (inside_span sp v); cbn [negb]; cbv zeta.
  - unfold sub8, mul64, sub_isize.
    repeat first [apply IH | cbn [bind]; match goal with |- context [bind (if ?c then _ else _)] => destruct c end].
  - destruct (bit_count_release (E:=E) lm (expand_vertex_span sp v) edge) as [n ->]. cbn [bind]. apply IH.
Qed.
Lemma find_split_release {E} lm vs edge : exists o, find_best_vertex_split (E:=E) lm false vs edge = Ok o.
Proof.
  unfold find_best_vertex_split. cbv zeta. destruct (bit_count_release (E:=E) lm (fold_left expand_vertex_span vs zero_span) edge) as [t R].
  rewrite R. cbn [bind]. destruct (scan_release (E:=E) lm edge t vs 0 zero_span 0 (isize_min, 0)) as [b V]. rewrite V. cbn [bind].
  destruct (0 <? fst b)%Z eqn:P; [|eauto]. apply Z.ltb_lt in P.
  assert (L : not_last (0 + length vs) b).
  { eapply scan_not_last; eauto. intros H. cbn [fst] in H. vm_compute in H. discriminate H. }
  specialize (L P). cbn [plus] in L. unfold sub64. replace (1 <=? N.of_nat (length vs))%N with true by lia. cbn [bind].
  replace (N.of_nat (snd b) <? N.of_nat (length vs) - 1)%N with true by lia. eauto.
Qed.
Lemma opt_vertices_release_fuel lm fuel : forall vs, length vs < fuel -> exists segs, opt_vertices_fuel lm false fuel vs = Ok segs.
Proof.
  induction fuel as [|fuel IH]; intros vs L; [lia|]. cbn [opt_vertices_fuel].
  destruct (find_split_release (E:=no_fuel) lm vs split_edge) as [[p|] F]; rewrite F; cbn [bind]; [|eauto].
  destruct (find_split_ok (E:=no_fuel) lm false vs split_edge) as [_ B]. specialize (B _ F). unfold split_at.
  replace (p <=? length vs) with true by lia. cbn [bind].
  destruct (IH (firstn p vs)) as [a A]; [rewrite firstn_length; lia|]. destruct (IH (skipn p vs)) as [c C]; [rewrite skipn_length; lia|].
  rewrite A. cbn [bind]. rewrite C. cbn [bind]. eauto.
Qed.
