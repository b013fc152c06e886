From Coq Require Import List NArith ZArith Arith Lia Bool ZifyN ZifyNat ZifyBool.
From Verif Require Import Base UnalignedRW_proofs Triangles Triangles_proofs OptTris.
Import ListNotations.
Open Scope res_scope.
Ltac Zify.zify_post_hook ::= Z.div_mod_to_equations.

Lemma calc_prec_mono a b : (a <= b)%N -> (b < two64)%N -> calc_prec a <= calc_prec b.
Proof.
  intros H Hb. destruct (calc_prec_spec b Hb) as (P & _ & Q).
  apply calc_prec_le; lia.
Qed.

Lemma score_ok {E} oc len d0 d1 :
  (d1 <= d0)%N -> (d0 < two32)%N -> (N.of_nat len < 2 ^ 57)%N ->
  exists s, @calc_split_score E oc len d0 d1 = Ok s /\ (isize_min < s)%Z /\
            ((0 < s)%Z -> 1 <= len).
Proof.
  intros H H0 Hl. unfold calc_split_score, sub64.
  assert (M : calc_prec d1 <= calc_prec d0) by (apply calc_prec_mono; auto; eapply N.lt_trans; [exact H0|reflexivity]).
  assert (P : calc_prec d0 <= 32) by (apply calc_prec_le; auto; lia).
  set (p0 := N.of_nat (calc_prec d0)). set (p1 := N.of_nat (calc_prec d1)).
  destruct (N.leb_spec p1 p0) as [L|L]; [|exfalso; lia]. cbn [bind].
  unfold mul64. change (2 ^ 57)%N with 144115188075855872%N in Hl.
  assert (B : ((p0 - p1) * N.of_nat len <= 32 * 144115188075855872)%N) by (apply N.mul_le_mono; lia).
  change (32 * 144115188075855872)%N with 4611686018427387904%N in B.
  set (g := ((p0 - p1) * N.of_nat len)%N) in *.
  change two64 with 18446744073709551616%N.
  destruct (N.ltb_spec g 18446744073709551616) as [G|G]; [|exfalso; lia]. cbn [bind].
  unfold to_isize at 1. change (2 ^ 63)%N with 9223372036854775808%N.
  destruct (N.ltb_spec g 9223372036854775808) as [G'|G']; [|exfalso; lia].
  change (to_isize ((TMF_SEG_SIZE + 1 + 4) * 8)) with 88%Z.
  unfold sub_isize, isize_min. change (2 ^ 63)%Z with 9223372036854775808%Z.
  destruct ((- (9223372036854775808) <=? Z.of_N g - 88) && (Z.of_N g - 88 <? 9223372036854775808))%Z eqn:K.
  - eexists. split; [reflexivity|]. split; [lia|]. intros. destruct len; [|lia].
    exfalso. subst g. lia.
  - exfalso. apply andb_false_iff in K. lia.
Qed.

Lemma scan_max_ok {E} oc tris index mx total best :
  (mx <= total)%N -> (total < two32)%N -> Forall (fun t => (t <= total)%N) tris ->
  (N.of_nat (index + length tris) < 2 ^ 57)%N ->
  (0 < fst best -> 1 <= Z.of_nat (snd best) < Z.of_nat (index + length tris))%Z ->
  exists b, @scan_max E oc tris index mx total best = Ok b /\
    (0 < fst b -> 1 <= Z.of_nat (snd b) < Z.of_nat (index + length tris))%Z.
Proof.
  revert index mx best. induction tris as [|t tris IH]; intros index mx best H1 H2 H3 H4 H5.
  - exists best. auto.
  - apply Forall_cons_iff in H3 as [Ht H3]. cbn [scan_max length] in *.
    destruct (@score_ok E oc index total (N.max mx t)) as (s & E1 & S1 & S2); try lia.
    rewrite E1. cbn [bind].
    destruct (IH (S index) (N.max mx t) (if (fst best <? s)%Z then (s, index) else best)) as (b & Eb & Pb); try lia; auto.
    + destruct (fst best <? s)%Z; cbn [fst snd]; lia.
    + exists b. split; auto. lia.
Qed.

Lemma scan_min_ok {E} oc tris index mn total best :
  (total <= mn)%N -> (mn < two32)%N -> Forall (fun t => (total <= t)%N) tris ->
  (N.of_nat (index + length tris) < 2 ^ 57)%N ->
  (0 < fst best -> 1 <= Z.of_nat (snd best) < Z.of_nat (index + length tris))%Z ->
  exists b, @scan_min E oc tris index mn total best = Ok b /\
    (0 < fst b -> 1 <= Z.of_nat (snd b) < Z.of_nat (index + length tris))%Z.
Proof.
  revert index mn best. induction tris as [|t tris IH]; intros index mn best H1 H2 H3 H4 H5.
  - exists best. auto.
  - apply Forall_cons_iff in H3 as [Ht H3]. cbn [scan_min length] in *.
    destruct (@score_ok E oc index (N.min mn t) total) as (s & E1 & S1 & S2); try lia.
    rewrite E1. cbn [bind].
    destruct (IH (S index) (N.min mn t) (if (fst best <? s)%Z then (s, index) else best)) as (b & Eb & Pb); try lia; auto.
    + destruct (fst best <? s)%Z; cbn [fst snd]; lia.
    + exists b. split; auto. lia.
Qed.

Lemma opt_tris_fuel_ok oc fuel : forall tris,
  length tris < fuel -> (N.of_nat (length tris) < 2 ^ 57)%N ->
  Forall (fun t => (t < two32)%N) tris ->
  exists segs, opt_tris_fuel oc fuel tris = Ok segs /\ concat segs = tris /\ segs <> [] /\
    (tris <> [] -> Forall (fun s => s <> []) segs).
Proof.
  induction fuel as [|fuel IH]; intros tris Hf Hl Ht; [lia|]. cbn [opt_tris_fuel].
  assert (Split : forall b, (1 <= Z.of_nat b < Z.of_nat (0 + length tris))%Z ->
    exists segs,
      (let* (s1, s2) := split_at tris b in
       let* r_1 := opt_tris_fuel oc fuel s1 in
       let* r_2 := opt_tris_fuel oc fuel s2 in Ok (r_1 ++ r_2)) = Ok segs /\
      concat segs = tris /\ segs <> [] /\ (tris <> [] -> Forall (fun s => s <> []) segs)).
  { intros b Hb. unfold split_at. destruct (Nat.leb_spec b (length tris)); [|lia]. cbn [bind].
    destruct (IH (firstn b tris)) as (g1 & E1 & C1 & N1 & F1).
    { rewrite firstn_length. lia. } { rewrite firstn_length. lia. } { now apply Forall_firstn. }
    destruct (IH (skipn b tris)) as (g2 & E2 & C2 & N2 & F2).
    { rewrite skipn_length. lia. } { rewrite skipn_length. lia. } { now apply Forall_skipn. }
    rewrite E1, E2. cbn [bind]. eexists. split; [reflexivity|]. split; [|split].
    - now rewrite concat_app, C1, C2, firstn_skipn.
    - destruct g1; [congruence|discriminate].
    - intros _. apply Forall_app. split.
      + apply F1. intros C. apply (f_equal (@length N)) in C. rewrite firstn_length in C. simpl in C. lia.
      + apply F2. intros C. apply (f_equal (@length N)) in C. rewrite skipn_length in C. simpl in C. lia. }
  destruct (@scan_max_ok no_fuel oc tris 0 0 (max_or 1 tris) (isize_min, 0)) as (b & Eb & Pb).
  { lia. } { apply max_or_lt; auto. reflexivity. }
  { apply Forall_forall. intros. now apply max_or_ge. } { simpl. lia. } { cbn. unfold isize_min. lia. }
  rewrite Eb. cbn [bind]. destruct (Z.ltb_spec 0 (fst b)) as [L|L].
  - apply Split. apply Pb. lia.
  - destruct (@scan_min_ok no_fuel oc tris 0 (two32 - 1) (min_or 1 tris) (isize_min, 0)) as (b' & Eb' & Pb').
    { enough (min_or 1 tris < two32)%N by lia. apply min_or_lt; auto. reflexivity. }
    { reflexivity. }
    { apply Forall_forall. intros. now apply min_or_le. } { simpl. lia. } { cbn. unfold isize_min. lia. }
    rewrite Eb'. cbn [bind]. destruct (Z.ltb_spec 0 (fst b')) as [L'|L'].
    + apply Split. apply Pb'. lia.
    + eexists. split; [reflexivity|]. split; [apply app_nil_r|]. split; [discriminate|].
      intros. constructor; auto.
Qed.

Lemma opt_tris_ok oc tris :
  (N.of_nat (length tris) < 2 ^ 57)%N -> Forall (fun t => (t < two32)%N) tris ->
  exists segs, opt_tris oc tris = Ok segs /\ concat segs = tris /\ segs <> [] /\
    (tris <> [] -> Forall (fun s => s <> []) segs).
Proof. intros. apply opt_tris_fuel_ok; auto. Qed.
