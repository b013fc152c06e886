(** Splitting of vertex arrays in double precision: it ends, loses nothing, makes no empty pieces, and
    cannot panic without overflow checks. As OptVertices_proofs.v and Split_proofs.v. *)
From Coq Require Import List NArith ZArith Arith Bool Lia ZifyN ZifyNat ZifyBool.
From Flocq Require Import IEEE754.BinarySingleNaN.
From Verif Require Import Base Floats Utilis OptTris OptVertices OptVertices_proofs Split_proofs Double DoubleSave.
Import ListNotations.
Open Scope res_scope.
Ltac Zify.zify_post_hook ::= Z.div_mod_to_equations.




Lemma bit_count_err_d {E} lm oc s e (x : E) : range_to_vertex_bit_count_d lm oc s e <> Err x.
Proof.
  unfold range_to_vertex_bit_count_d, add8. cbv zeta.
  repeat first [discriminate | cbn [bind]; match goal with |- context [if ?c then _ else _] => destruct c end].
Qed.

Lemma vertex_scan_best_d {E} lm oc edge total vs : forall i sp pv b,
  best_ok b -> (forall x : E, vertex_scan_d lm oc edge total vs i sp pv b <> Err x) /\
  forall b', vertex_scan_d (E:=E) lm oc edge total vs i sp pv b = Ok b' -> best_ok b'.
Proof.
  induction vs as [|v vs IH]; intros i sp pv b B; cbn [vertex_scan_d].
  - split; [discriminate|]. intros b' [= <-]. exact B.
  - destruct (inside_span_d sp v); cbn [negb]; cbv zeta.
    2:{ destruct (range_to_vertex_bit_count_d lm oc _ edge) as [n|x|] eqn:R; cbn [bind]; auto.
        - exfalso. eapply bit_count_err_d; eauto.
        - split; discriminate. }
    unfold sub8, mul64, sub_isize.
    assert (G : forall n g, (g = N.of_nat i * N.of_nat n \/ g = (N.of_nat i * N.of_nat n) mod two64)%N -> forall score,
       (score = to_isize g - to_isize vertex_split_loss \/
        score = (to_isize g - to_isize vertex_split_loss + 2 ^ 63) mod 2 ^ 64 - 2 ^ 63)%Z ->
       best_ok (if (fst b <? score)%Z then (score, i) else b)).
    { intros n g Hg score Hs. destruct (fst b <? score)%Z; auto. intros P. cbn [fst snd] in *.
      destruct i; [exfalso|lia]. assert (g = 0%N) as ->.
      { destruct Hg as [-> | ->]; [lia|]. rewrite N.mul_0_l. reflexivity. }
      destruct Hs as [-> | ->]; vm_compute in P; discriminate. }
    assert (D : forall n, (forall x : E, (let* gain := mul64 oc (N.of_nat i) (N.of_nat n) in
        let* score := sub_isize oc (to_isize gain) (to_isize vertex_split_loss) in
        vertex_scan_d lm oc edge total vs (S i) sp pv (if (fst b <? score)%Z then (score, i) else b)) <> Err x) /\
      forall b', (let* gain := mul64 oc (N.of_nat i) (N.of_nat n) in
        let* score := sub_isize oc (to_isize gain) (to_isize vertex_split_loss) in
        vertex_scan_d (E:=E) lm oc edge total vs (S i) sp pv (if (fst b <? score)%Z then (score, i) else b)) = Ok b' -> best_ok b').
    { intros n. unfold mul64, sub_isize.
      assert (Q : forall g, (g = N.of_nat i * N.of_nat n \/ g = (N.of_nat i * N.of_nat n) mod two64)%N ->
        (forall x : E, (let* score := sub_isize oc (to_isize g) (to_isize vertex_split_loss) in
          vertex_scan_d lm oc edge total vs (S i) sp pv (if (fst b <? score)%Z then (score, i) else b)) <> Err x) /\
        forall b', (let* score := sub_isize oc (to_isize g) (to_isize vertex_split_loss) in
          vertex_scan_d (E:=E) lm oc edge total vs (S i) sp pv (if (fst b <? score)%Z then (score, i) else b)) = Ok b' -> best_ok b').
      { intros g Hg. unfold sub_isize. destruct (_ && _); cbn [bind].
        - apply IH. eapply (G n); eauto.
        - destruct oc; cbn [bind]; [split; discriminate|]. apply IH. eapply (G n); eauto. }
      destruct (N.of_nat i * N.of_nat n <? two64)%N; [|destruct oc]; cbn [bind]; [|split; discriminate|]; apply Q; auto. }
    destruct (pv <=? total); [|destruct oc]; cbn [bind]; [apply D|split; discriminate|apply D].
Qed.

Lemma find_split_ok_d {E} lm oc vs edge :
  (forall x : E, find_best_vertex_split_d lm oc vs edge <> Err x) /\
  forall p, find_best_vertex_split_d (E:=E) lm oc vs edge = Ok (Some p) -> 0 < p < length vs.
Proof.
  unfold find_best_vertex_split_d. cbv zeta.
  destruct (range_to_vertex_bit_count_d lm oc _ edge) as [t|x|] eqn:R; cbn [bind];
    [|exfalso; eapply bit_count_err_d; eauto|split; discriminate].
  destruct (vertex_scan_best_d (E:=E) lm oc edge t vs 0 zero_span_d 0 (isize_min, 0)) as [NE BO].
  { intros H. exfalso. cbn [fst] in H. vm_compute in H. discriminate. }
  destruct (vertex_scan_d lm oc edge t vs 0 zero_span_d 0 (isize_min, 0)) as [b|x|] eqn:V; cbn [bind];
    [|exfalso; eapply NE; eauto|split; discriminate].
  specialize (BO _ eq_refl). destruct (0 <? fst b)%Z eqn:Z; [|split; discriminate].
  apply Z.ltb_lt in Z. specialize (BO Z).
  assert (L : (1 <=? N.of_nat (length vs))%N = true).
  { destruct vs; [|cbn [length]; lia]. cbn [vertex_scan_d] in V. injection V as <-. cbn [fst] in Z.
    vm_compute in Z. discriminate. }
  unfold sub64. rewrite L. cbn [bind].
  destruct (N.of_nat (snd b) <? N.of_nat (length vs) - 1)%N eqn:C; [|split; discriminate].
  split; [discriminate|]. intros p [= <-]. lia.
Qed.

Lemma opt_vertices_fuel_total_d lm oc fuel : forall vs, length vs < fuel ->
  opt_vertices_fuel_d lm oc fuel vs = Panic \/
  exists segs, opt_vertices_fuel_d lm oc fuel vs = Ok segs /\ concat segs = vs /\ segs <> [] /\
    (vs <> [] -> Forall (fun s => s <> []) segs).
Proof.
  induction fuel as [|fuel IH]; intros vs L; [lia|]. cbn [opt_vertices_fuel_d].
  destruct (find_split_ok_d (E:=no_fuel) lm oc vs split_edge_d) as [NE P].
  destruct (find_best_vertex_split_d lm oc vs split_edge_d) as [[p|]|x|] eqn:F; cbn [bind];
    [| |exfalso; eapply NE; eauto|now left].
  2:{ right. exists [vs]. cbn [concat]. rewrite app_nil_r. split; auto. split; auto. split; [discriminate|].
      intros H. constructor; auto. }
  destruct (P p eq_refl) as [P1 P2]. unfold split_at.
  destruct (p <=? length vs) eqn:C; cbn [bind]; [|lia].
  destruct (IH (firstn p vs)) as [->|(s0 & -> & E0 & N0 & F0)]; [rewrite firstn_length; lia|now left|]. cbn [bind].
  destruct (IH (skipn p vs)) as [->|(s1 & -> & E1 & N1 & F1)]; [rewrite skipn_length; lia|now left|]. cbn [bind].
  right. exists (s0 ++ s1). split; auto. rewrite concat_app, E0, E1, firstn_skipn. split; auto.
  split; [destruct s0; [congruence|discriminate]|]. intros _. apply Forall_app. split.
  - apply F0. intros H. apply (f_equal (@length _)) in H. rewrite firstn_length in H. cbn in H. lia.
  - apply F1. intros H. apply (f_equal (@length _)) in H. rewrite skipn_length in H. cbn in H. lia.
Qed.
Lemma opt_vertices_total_d lm oc vs :
  opt_vertices_d lm oc vs = Panic \/
  exists segs, opt_vertices_d lm oc vs = Ok segs /\ concat segs = vs /\ segs <> [] /\
    (vs <> [] -> Forall (fun s => s <> []) segs).
Proof. apply opt_vertices_fuel_total_d. lia. Qed.


Lemma dlt_asym x y : dlt x y = true -> dlt y x = false.
Proof.
  unfold dlt, Bltb, SpecFloat.SFltb. fold (Bcompare x y) (Bcompare y x). rewrite (Bcompare_swap _ _ y x).
  destruct (Bcompare y x) as [[]|]; cbn; congruence.
Qed.
Lemma dlt_not_nan x y : dlt x y = true -> is_nan x = false /\ is_nan y = false.
Proof. destruct x, y; cbn; auto; discriminate. Qed.
Lemma dmin_left x y : dlt x y = true -> dmin x y = x.
Proof. intros H. unfold dmin. destruct (dlt_not_nan _ _ H) as [-> ->]. now rewrite (dlt_asym _ _ H). Qed.
Lemma dmax_left x y : dlt y x = true -> dmax x y = x.
Proof. intros H. unfold dmax. destruct (dlt_not_nan _ _ H) as [-> ->]. now rewrite (dlt_asym _ _ H). Qed.
Lemma inside_expand_d s v : inside_span_d s v = true -> expand_vertex_span_d s v = s.
Proof.
  unfold inside_span_d, expand_vertex_span_d. rewrite !andb_true_iff. intros [[[[[A B] C] D] E] F].
  rewrite !dmin_left, !dmax_left by assumption. destruct s as [[[a b] c] [[d e] f]]. reflexivity.
Qed.
Lemma not_inside_zero_d v : inside_span_d zero_span_d v = false.
Proof.
  destruct (inside_span_d zero_span_d v) eqn:E; auto. unfold inside_span_d in E. rewrite !andb_true_iff in E.
  destruct E as [[[[[A B] C] D] G] F]. apply dlt_asym in A. unfold zero_span_d, dvx in *. cbn [fst snd] in *. congruence.
Qed.

(** Positive best split not at the last index. *)
Lemma scan_not_last_d {E} lm oc edge total rest : forall i sp pv b b',
  range_to_vertex_bit_count_d (E:=E) lm oc (fold_left expand_vertex_span_d rest sp) edge = Ok total ->
  (sp = zero_span_d \/ range_to_vertex_bit_count_d (E:=E) lm oc sp edge = Ok pv) ->
  not_last (i + length rest) b ->
  vertex_scan_d (E:=E) lm oc edge total rest i sp pv b = Ok b' -> not_last (i + length rest) b'.
Proof.
  induction rest as [|v rest IH]; intros i sp pv b b' T S B V; cbn [vertex_scan_d] in V.
  - apply Ok_inj in V. subst b'. exact B.
  - cbn [length fold_left] in *. replace (i + Datatypes.S (length rest)) with (Datatypes.S i + length rest) in * by lia.
    destruct (inside_span_d sp v) eqn:I; cbn [negb] in V; cbv zeta in V.
    + pose proof (inside_expand_d _ _ I) as X. rewrite X in T.
      assert (P : range_to_vertex_bit_count_d (E:=E) lm oc sp edge = Ok pv).
      { destruct S as [-> |S]; auto. rewrite not_inside_zero_d in I. discriminate. }
      destruct (sub8 (E:=E) oc total pv) as [g|e|] eqn:G; cbn [bind] in V; try discriminate V.
      destruct (mul64 (E:=E) oc (N.of_nat i) (N.of_nat g)) as [gain|e|] eqn:M; cbn [bind] in V; try discriminate V.
      destruct (sub_isize (E:=E) oc (to_isize gain) (to_isize vertex_split_loss)) as [score|e|] eqn:SC; cbn [bind] in V; try discriminate V.
      refine (IH _ _ _ _ _ T (or_intror P) _ V). destruct (fst b <? score)%Z; [|exact B].
      intros Q. cbn [fst snd] in *. destruct rest as [|w rest]; [|cbn [length]; lia]. exfalso.
      cbn [fold_left] in T. rewrite P in T. apply Ok_inj in T. subst pv.
      assert (g = 0). { unfold sub8 in G. rewrite Nat.leb_refl in G. apply Ok_inj in G. lia. } subst g.
      assert (gain = 0%N).
      { unfold mul64 in M. rewrite N.mul_0_r in M. destruct (0 <? two64)%N; [|destruct oc; try discriminate M]; apply Ok_inj in M; subst; reflexivity. }
      subst gain. vm_compute in SC. apply Ok_inj in SC. subst score. lia.
    + destruct (range_to_vertex_bit_count_d (E:=E) lm oc (expand_vertex_span_d sp v) edge) as [pv'|e|] eqn:R; cbn [bind] in V; try discriminate V.
      exact (IH _ _ _ _ _ T (or_intror R) B V).
Qed.
(** In builds without overflow checks nothing panics. *)
Lemma bit_count_release_d {E} lm s e : exists n, range_to_vertex_bit_count_d (E:=E) lm false s e = Ok n.
Proof.
  unfold range_to_vertex_bit_count_d, add8. cbv zeta.
  repeat first [eexists; reflexivity | cbn [bind]; match goal with |- context [if ?c then _ else _] => destruct c end].
Qed.
Lemma scan_release_d {E} lm edge total rest : forall i sp pv b, exists b', vertex_scan_d (E:=E) lm false edge total rest i sp pv b = Ok b'.
Proof.
  induction rest as [|v rest IH]; intros i sp pv b; cbn [vertex_scan_d]; [eauto|]. destruct (inside_span_d sp v); cbn [negb]; cbv zeta.
  - unfold sub8, mul64, sub_isize.
    repeat first [apply IH | cbn [bind]; match goal with |- context [bind (if ?c then _ else _)] => destruct c end].
  - destruct (bit_count_release_d (E:=E) lm (expand_vertex_span_d sp v) edge) as [n ->]. cbn [bind]. apply IH.
Qed.
Lemma find_split_release_d {E} lm vs edge : exists o, find_best_vertex_split_d (E:=E) lm false vs edge = Ok o.
Proof.
  unfold find_best_vertex_split_d. cbv zeta. destruct (bit_count_release_d (E:=E) lm (fold_left expand_vertex_span_d vs zero_span_d) edge) as [t R].
  rewrite R. cbn [bind]. destruct (scan_release_d (E:=E) lm edge t vs 0 zero_span_d 0 (isize_min, 0)) as [b V]. rewrite V. cbn [bind].
  destruct (0 <? fst b)%Z eqn:P; [|eauto]. apply Z.ltb_lt in P.
  assert (L : not_last (0 + length vs) b).
  { eapply scan_not_last_d; eauto. intros H. cbn [fst] in H. vm_compute in H. discriminate H. }
  specialize (L P). cbn [plus] in L. unfold sub64. replace (1 <=? N.of_nat (length vs))%N with true by lia. cbn [bind].
  replace (N.of_nat (snd b) <? N.of_nat (length vs) - 1)%N with true by lia. eauto.
Qed.
Lemma opt_vertices_release_fuel_d lm fuel : forall vs, length vs < fuel -> exists segs, opt_vertices_fuel_d lm false fuel vs = Ok segs.
Proof.
  induction fuel as [|fuel IH]; intros vs L; [lia|]. cbn [opt_vertices_fuel_d].
  destruct (find_split_release_d (E:=no_fuel) lm vs split_edge_d) as [[p|] F]; rewrite F; cbn [bind]; [|eauto].
  destruct (find_split_ok_d (E:=no_fuel) lm false vs split_edge_d) as [_ B]. specialize (B _ F). unfold split_at.
  replace (p <=? length vs) with true by lia. cbn [bind].
  destruct (IH (firstn p vs)) as [a A]; [rewrite firstn_length; lia|]. destruct (IH (skipn p vs)) as [c C]; [rewrite skipn_length; lia|].
  rewrite A. cbn [bind]. rewrite C. cbn [bind]. eauto.
Qed.
