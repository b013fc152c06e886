(** Splitting of vertex arrays: it ends, loses nothing and makes no empty pieces. *)
From Coq Require Import List NArith ZArith Arith Bool Lia ZifyN ZifyNat ZifyBool.
From Verif Require Import Base Floats Utilis OptTris OptVertices.
Import ListNotations.
Open Scope res_scope.
Ltac Zify.zify_post_hook ::= Z.div_mod_to_equations.

(** A best split with a positive score is not at the start. *)
Definition best_ok (b : Z * nat) : Prop := (0 < fst b)%Z -> 0 < snd b.

Lemma bit_count_err {E} lm oc s e (x : E) : range_to_vertex_bit_count lm oc s e <> Err x.
Proof.
  unfold range_to_vertex_bit_count, add8. cbv zeta.
  repeat first [discriminate | cbn [bind]; match goal with |- context [if ?c then _ else _] => destruct c end].
Qed.

Lemma vertex_scan_best {E} lm oc edge total vs : forall i sp pv b,
  best_ok b -> (forall x : E, vertex_scan lm oc edge total vs i sp pv b <> Err x) /\
  forall b', vertex_scan (E:=E) lm oc edge total vs i sp pv b = Ok b' -> best_ok b'.
Proof.
  induction vs as [|v vs IH]; intros i sp pv b B; cbn [vertex_scan].
  - split; [discriminate|]. intros b' [= <-]. exact B.
  - destruct (inside_span sp v); cbn [negb]; cbv zeta.
    2:{ destruct (range_to_vertex_bit_count lm oc _ edge) as [n|x|] eqn:R; cbn [bind]; auto.
        - exfalso. eapply bit_count_err; eauto.
        - split; discriminate. }
    unfold sub8, mul64, sub_isize.
    assert (G : forall n g, (g = N.of_nat i * N.of_nat n \/ g = (N.of_nat i * N.of_nat n) mod two64)%N -> forall score,
       (score = to_isize g - to_isize vertex_split_loss \/
        score = (to_isize g - to_isize vertex_split_loss + 2 ^ 63) mod 2 ^ 64 - 2 ^ 63)%Z ->
       best_ok (if (fst b <? score)%Z then (score, i) else b)).
    { intros n g Hg score Hs. destruct (fst b <? score)%Z; auto. intros P. cbn [fst snd] in *.
      destruct i; [exfalso|lia]. assert (g = 0%N) as ->.
      { destruct Hg as [-> | ->]; [lia|]. rewrite N.mul_0_l. reflexivity. }
      destruct Hs as [-> | ->]; vm_compute in P; discriminate. }
    assert (D : forall n, (forall x : E, (let* gain := mul64 oc (N.of_nat i) (N.of_nat n) in
        let* score := sub_isize oc (to_isize gain) (to_isize vertex_split_loss) in
        vertex_scan lm oc edge total vs (S i) sp pv (if (fst b <? score)%Z then (score, i) else b)) <> Err x) /\
      forall b', (let* gain := mul64 oc (N.of_nat i) (N.of_nat n) in
        let* score := sub_isize oc (to_isize gain) (to_isize vertex_split_loss) in
        vertex_scan (E:=E) lm oc edge total vs (S i) sp pv (if (fst b <? score)%Z then (score, i) else b)) = Ok b' -> best_ok b').
    { intros n. unfold mul64, sub_isize.
      assert (Q : forall g, (g = N.of_nat i * N.of_nat n \/ g = (N.of_nat i * N.of_nat n) mod two64)%N ->
        (forall x : E, (let* score := sub_isize oc (to_isize g) (to_isize vertex_split_loss) in
          vertex_scan lm oc edge total vs (S i) sp pv (if (fst b <? score)%Z then (score, i) else b)) <> Err x) /\
        forall b', (let* score := sub_isize oc (to_isize g) (to_isize vertex_split_loss) in
          vertex_scan (E:=E) lm oc edge total vs (S i) sp pv (if (fst b <? score)%Z then (score, i) else b)) = Ok b' -> best_ok b').
      { intros g Hg. unfold sub_isize. destruct (_ && _); cbn [bind].
        - apply IH. eapply (G n); eauto.
        - destruct oc; cbn [bind]; [split; discriminate|]. apply IH. eapply (G n); eauto. }
      destruct (N.of_nat i * N.of_nat n <? two64)%N; [|destruct oc]; cbn [bind]; [|split; discriminate|]; apply Q; auto. }
    destruct (pv <=? total); [|destruct oc]; cbn [bind]; [apply D|split; discriminate|apply D].
Qed.

Lemma find_split_ok {E} lm oc vs edge :
  (forall x : E, find_best_vertex_split lm oc vs edge <> Err x) /\
  forall p, find_best_vertex_split (E:=E) lm oc vs edge = Ok (Some p) -> 0 < p < length vs.
Proof.
  unfold find_best_vertex_split. cbv zeta.
  destruct (range_to_vertex_bit_count lm oc _ edge) as [t|x|] eqn:R; cbn [bind];
    [|exfalso; eapply bit_count_err; eauto|split; discriminate].
  destruct (vertex_scan_best (E:=E) lm oc edge t vs 0 zero_span 0 (isize_min, 0)) as [NE BO].
  { intros H. exfalso. cbn [fst] in H. vm_compute in H. discriminate. }
  destruct (vertex_scan lm oc edge t vs 0 zero_span 0 (isize_min, 0)) as [b|x|] eqn:V; cbn [bind];
    [|exfalso; eapply NE; eauto|split; discriminate].
  specialize (BO _ eq_refl). destruct (0 <? fst b)%Z eqn:Z; [|split; discriminate].
  apply Z.ltb_lt in Z. specialize (BO Z).
  assert (L : (1 <=? N.of_nat (length vs))%N = true).
  { destruct vs; [|cbn [length]; lia]. cbn [vertex_scan] in V. injection V as <-. cbn [fst] in Z.
    vm_compute in Z. discriminate. }
  unfold sub64. rewrite L. cbn [bind].
  destruct (N.of_nat (snd b) <? N.of_nat (length vs) - 1)%N eqn:C; [|split; discriminate].
  split; [discriminate|]. intros p [= <-]. lia.
Qed.

Lemma opt_vertices_fuel_total lm oc fuel : forall vs, length vs < fuel ->
  opt_vertices_fuel lm oc fuel vs = Panic \/
  exists segs, opt_vertices_fuel lm oc fuel vs = Ok segs /\ concat segs = vs /\ segs <> [] /\
    (vs <> [] -> Forall (fun s => s <> []) segs).
Proof.
  induction fuel as [|fuel IH]; intros vs L; [lia|]. cbn [opt_vertices_fuel].
  destruct (find_split_ok (E:=no_fuel) lm oc vs split_edge) as [NE P].
  destruct (find_best_vertex_split lm oc vs split_edge) as [[p|]|x|] eqn:F; cbn [bind];
    [| |exfalso; eapply NE; eauto|now left].
  2:{ right. exists [vs]. cbn [concat]. rewrite app_nil_r. split; auto. split; auto. split; [discriminate|].
      intros H. constructor; auto. }
  destruct (P p eq_refl) as [P1 P2]. unfold split_at.
  destruct (p <=? length vs) eqn:C; cbn [bind]; [|lia].
  destruct (IH (firstn p vs)) as [->|(s0 & -> & E0 & N0 & F0)]; [rewrite firstn_length; lia|now left|]. cbn [bind].
  destruct (IH (skipn p vs)) as [->|(s1 & -> & E1 & N1 & F1)]; [rewrite skipn_length; lia|now left|]. cbn [bind].
  right. exists (s0 ++ s1). split; auto. rewrite concat_app, E0, E1, firstn_skipn. split; auto.
  split; [destruct s0; [congruence|discriminate]|]. intros _. apply Forall_app. split.
  - apply F0. intros H. apply (f_equal (@length _)) in H. rewrite firstn_length in H. cbn in H. lia.
  - apply F1. intros H. apply (f_equal (@length _)) in H. rewrite skipn_length in H. cbn in H. lia.
Qed.
Lemma opt_vertices_total lm oc vs :
  opt_vertices lm oc vs = Panic \/
  exists segs, opt_vertices lm oc vs = Ok segs /\ concat segs = vs /\ segs <> [] /\
    (vs <> [] -> Forall (fun s => s <> []) segs).
Proof. apply opt_vertices_fuel_total. lia. Qed.
