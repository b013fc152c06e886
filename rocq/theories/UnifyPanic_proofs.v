(** When unifying index arrays panics. *)
From Coq Require Import List NArith ZArith Arith Bool Lia ZifyN ZifyNat ZifyBool.
From Verif Require Import Base Floats Utilis Unify CustomData Mesh FileSpec MeshSpec Mesh_proofs File_proofs Unify_proofs.
Import ListNotations.
Open Scope res_scope.

(** The attributes that take part, each as its index array and the length of its data. *)
Definition uses {A} (d : option (list A)) (i : option (list N)) : list (list N * N) :=
  match d, i with Some d, Some i => [(i, len d)] | _, _ => [] end.
Definition inside (x : list N * N) : Prop := Forall (fun i => (i < snd x)%N) (fst x).
Definition alike (l : list (list N * N)) : Prop :=
  (forall x y, In x l -> In y l -> length (fst x) = length (fst y)) /\ Forall inside l.
Definition differ (l : list (list N * N)) : Prop := exists x y, In x l /\ In y l /\ fst x <> fst y.

Lemma common_any {E} a cols :
  let all := a :: cols in
  (Forall (fun c => length c = length a) all /\
   exists combos idx idx', numbered (rows all (length a)) combos idx /\
    unify_data_common (E:=E) all = Ok (idx', map (fun j => map (fun c => nth j c 0%N) combos) (seq 0 (length all)))) \/
  (~ Forall (fun c => length c = length a) all /\ unify_data_common (E:=E) all = Panic).
Proof.
  intros all. unfold unify_data_common. subst all.
  destruct (forallb (fun c => length c =? length a) (a :: cols)) eqn:F.
  - left. split.
    { rewrite forallb_forall in F. apply Forall_forall. intros c C. apply Nat.eqb_eq. auto. }
    rewrite combo_loop_spec, app_nil_l. eexists _, _, _. split; [split; reflexivity|]. rewrite F. reflexivity.
  - right. split; [|now rewrite F]. intros H. rewrite <- not_true_iff_false in F. apply F. apply forallb_forall. intros c C.
    rewrite Forall_forall in H. apply Nat.eqb_eq. auto.
Qed.
(** The columns as [alike] sees them. *)
Lemma alike_len (x : list N * N) l : (forall y z, In y (x :: l) -> In z (x :: l) -> length (fst y) = length (fst z)) <->
  Forall (fun c => length c = length (fst x)) (map fst (x :: l)).
Proof.
  rewrite Forall_map, Forall_forall. split.
  - intros H y Y. apply H; cbn; auto.
  - intros H y z Y Z. now rewrite (H y Y), (H z Z).
Qed.

Ltac go_common :=
  match goal with |- context [@unify_data_common ?E (?a :: ?t)] =>
    let F := fresh "F" in let combos := fresh "combos" in let idx := fresh "idx" in let idx' := fresh "idx'" in let C := fresh "C" in
    destruct (common_any (E:=E) a t) as [(F & combos & idx & idx' & C & ->)|(F & ->)]; cbn [bind] end.
Ltac go_gather j :=
  match goal with F : Forall _ ?cols, C : numbered _ ?combos ?idx |- context [@gather ?E _ _ j ?d] =>
    destruct (gather_part (E:=E) cols _ combos idx j d ltac:(cbn; lia) F C) as [(? & -> & ?)|(-> & ?)]; cbn [bind] end.
Ltac close_ok :=
  split; [discriminate|]; intros K; exfalso; apply K; split;
  [apply alike_len; assumption|];
  repeat (apply Forall_cons; [unfold inside; cbn [fst snd]; eapply part_in_range; eassumption|]); apply Forall_nil.

Lemma alike_inside l x : alike l -> In x l -> inside x.
Proof. intros [_ H] I. rewrite Forall_forall in H. auto. Qed.
Lemma alike_lens x l : alike (x :: l) -> Forall (fun c => length c = length (fst x)) (map fst (x :: l)).
Proof. intros [H _]. now apply alike_len. Qed.

Lemma merge_2_panic {E A B} (a : list A) (b : list B) ia ib :
  merge_data_2 (E:=E) ia ib a b = Panic <-> ~ alike [(ia, len a); (ib, len b)].
Proof.
  unfold merge_data_2. go_common.
  2:{ split; auto. intros _ K. apply F. exact (alike_lens _ _ K). }
  go_gather 0. 2:{ split; auto. intros _ K. apply H. apply (alike_inside _ (ia, len a) K). cbn. auto. }
  go_gather 1. 2:{ split; auto. intros _ K. apply H0. apply (alike_inside _ (ib, len b) K). cbn. auto. }
  close_ok.
Qed.
Lemma merge_3_panic {E A B C} (a : list A) (b : list B) (c : list C) ia ib ic :
  merge_data_3 (E:=E) ia ib ic a b c = Panic <-> ~ alike [(ia, len a); (ib, len b); (ic, len c)].
Proof.
  unfold merge_data_3. go_common.
  2:{ split; auto. intros _ K. apply F. exact (alike_lens _ _ K). }
  go_gather 0. 2:{ split; auto. intros _ K. apply H. apply (alike_inside _ (ia, len a) K). cbn. auto. }
  go_gather 1. 2:{ split; auto. intros _ K. apply H0. apply (alike_inside _ (ib, len b) K). cbn. auto. }
  go_gather 2. 2:{ split; auto. intros _ K. apply H1. apply (alike_inside _ (ic, len c) K). cbn. auto. }
  close_ok.
Qed.
Lemma merge_4_panic {E A B C D} (a : list A) (b : list B) (c : list C) (d : list D) ia ib ic id :
  merge_data_4 (E:=E) ia ib ic id a b c d = Panic <-> ~ alike [(ia, len a); (ib, len b); (ic, len c); (id, len d)].
Proof.
  unfold merge_data_4. go_common.
  2:{ split; auto. intros _ K. apply F. exact (alike_lens _ _ K). }
  go_gather 0. 2:{ split; auto. intros _ K. apply H. apply (alike_inside _ (ia, len a) K). cbn. auto. }
  go_gather 1. 2:{ split; auto. intros _ K. apply H0. apply (alike_inside _ (ib, len b) K). cbn. auto. }
  go_gather 2. 2:{ split; auto. intros _ K. apply H1. apply (alike_inside _ (ic, len c) K). cbn. auto. }
  go_gather 3. 2:{ split; auto. intros _ K. apply H2. apply (alike_inside _ (id, len d) K). cbn. auto. }
  close_ok.
Qed.

(** ** The smart merges *)
Lemma needed_true l : is_merge_needed l = true <-> exists x y, In (Some x) l /\ In (Some y) l /\ x <> y.
Proof.
  split.
  - unfold is_merge_needed. intros H.
    assert (S : forall x, In x (somes l) -> In (Some x) l).
    { intros x I. unfold somes in I. apply in_flat_map in I as ([y|] & I & J); [destruct J as [-> |[]]; auto|destruct J]. }
    destruct (somes l) as [|f t]; [discriminate H|]. apply negb_true_iff in H.
    assert (N : exists y, In y t /\ list_eqb y f = false).
    { clear S. induction t as [|y t IH]; [discriminate H|]. cbn [forallb] in H. destruct (list_eqb y f) eqn:Q.
      - cbn [andb] in H. destruct (IH H) as (z & Z & Q'). exists z. cbn. auto.
      - exists y. cbn. auto. }
    destruct N as (y & Y & Q). exists y, f. split; [apply S; cbn; auto|]. split; [apply S; cbn; auto|].
    intros ->. assert (list_eqb f f = true) by now apply list_eqb_eq. congruence.
  - intros (x & y & X & Y & D). destruct (is_merge_needed l) eqn:Q; auto. rewrite needed_false in Q. now destruct D; apply Q.
Qed.
Definition full {A} (d : option (list A)) : Prop := d <> Some [].
Lemma usable_cases {A} (d : option (list A)) i : full d ->
  (unusable d i = true /\ uses d i = []) \/ (exists x t j, d = Some (x :: t) /\ i = Some j /\ uses d i = [(j, len (x :: t))] /\ unusable d i = false).
Proof.
  intros F. destruct d as [[|x t]|], i as [j|]; try (left; split; reflexivity).
  - now destruct F.
  - right. exists x, t, j. repeat split.
Qed.
Lemma uses_in {A} (d : option (list A)) i x : In x (uses d i) -> i = Some (fst x).
Proof. destruct d, i; cbn; intros I; try contradiction. destruct I as [<-|[]]. reflexivity. Qed.

Definition clash (l : list (list N * N)) : Prop := differ l /\ ~ alike l.
Lemma no_clash l is : is_merge_needed is = false -> (forall x, In x l -> In (Some (fst x)) is) -> ~ clash l.
Proof. intros N H [(x & y & X & Y & D) _]. rewrite needed_false in N. apply D. apply N; auto. Qed.
Lemma clash_short l : length l <= 1 -> ~ clash l.
Proof.
  intros L [(x & y & X & Y & D) _]. destruct l as [|a [|b l]]; cbn in *; try contradiction; try lia.
  destruct X as [<-|[]], Y as [<-|[]]. congruence.
Qed.
Ltac uses_of I := repeat (apply in_app_or in I as [I|I]); apply uses_in in I; rewrite I; cbn; auto 6.

Lemma smart_2_panic {E A B} (a : oarr A) (b : oarr B) (ia ib : oarr N) : full a -> full b ->
  smart_merge_data_2 (E:=E) a b ia ib = Panic <-> clash (uses a ia ++ uses b ib).
Proof.
  intros Fa Fb. unfold smart_merge_data_2. destruct (is_merge_needed [ia; ib]) eqn:N; cbn [negb].
  2:{ split; [discriminate|]. intros K. exfalso. revert K. eapply no_clash; [exact N|]. intros x I. uses_of I. }
  destruct a as [a|], ia as [ia|], b as [b|], ib as [ib|];
    try (split; [discriminate|]; intros K; exfalso; revert K; apply clash_short; cbn; lia).
  cbn [uses app]. transitivity (merge_data_2 (E:=E) ia ib a b = Panic).
  { destruct (merge_data_2 ia ib a b) as [[[? ?] ?]|e|]; cbn [bind]; split; intros H; discriminate H || reflexivity. }
  rewrite merge_2_panic. unfold clash. split; [|tauto]. intros K. split; auto.
  apply needed_true in N as (x & y & [X|[X|[]]] & [Y|[Y|[]]] & D); injection X as <-; injection Y as <-; try congruence.
  - exists (ia, len a), (ib, len b). cbn. auto.
  - exists (ib, len b), (ia, len a). cbn. auto.
Qed.
Lemma bind_panic {E A B} (x : res E A) (f : A -> res E B) : (forall a, f a <> Panic) -> (bind x f = Panic <-> x = Panic).
Proof. intros H. destruct x; cbn; split; intros K; auto; try discriminate K. now apply H in K. Qed.
Lemma uses_ne {A} (x : A) t j : uses (Some (x :: t)) (Some j) = [(j, len (x :: t))]. Proof. reflexivity. Qed.

Lemma smart_3_panic {E A B C} (a : oarr A) (b : oarr B) (c : oarr C) (ia ib ic : oarr N) : full a -> full b -> full c ->
  smart_merge_data_3 (E:=E) a b c ia ib ic = Panic <-> clash (uses a ia ++ uses b ib ++ uses c ic).
Proof.
  intros Fa Fb Fc. unfold smart_merge_data_3. destruct (is_merge_needed [ia; ib; ic]) eqn:N; cbn [negb].
  2:{ split; [discriminate|]. intros K. exfalso. revert K. eapply no_clash; [exact N|]. intros x I. uses_of I. }
  destruct (usable_cases a ia Fa) as [(-> & ->)|(xa & ta & ja & -> & -> & Ua & ->)].
  { rewrite bind_panic by (intros [[? ?] ?]; discriminate). now apply smart_2_panic. }
  destruct (usable_cases b ib Fb) as [(-> & ->)|(xb & tb & jb & -> & -> & Ub & ->)].
  { rewrite bind_panic by (intros [[? ?] ?]; discriminate). rewrite app_nil_l. now apply smart_2_panic. }
  destruct (usable_cases c ic Fc) as [(-> & ->)|(xc & tc & jc & -> & -> & Uc & ->)].
  { rewrite bind_panic by (intros [[? ?] ?]; discriminate). rewrite app_nil_r. now apply smart_2_panic. }
  rewrite bind_panic by (intros [[[? ?] ?] ?]; discriminate). rewrite merge_3_panic.
  rewrite Ua, Ub, Uc. cbn [app]. unfold clash. split; [|tauto]. intros K. split; auto.
  apply needed_true in N as (x & y & X & Y & D).
  assert (G : forall z, In (Some z) [Some ja; Some jb; Some jc] -> exists n, In (z, n) [(ja, len (xa :: ta)); (jb, len (xb :: tb)); (jc, len (xc :: tc))]).
  { intros z [Z|[Z|[Z|[]]]]; injection Z as <-; eexists; cbn; eauto. }
  destruct (G x X) as [n Hn], (G y Y) as [k Hk]. exists (x, n), (y, k). auto.
Qed.
Lemma smart_4_panic {E A B C D} (a : oarr A) (b : oarr B) (c : oarr C) (d : oarr D) (ia ib ic id : oarr N) : full a -> full b -> full c -> full d ->
  smart_merge_data_4 (E:=E) a b c d ia ib ic id = Panic <-> clash (uses a ia ++ uses b ib ++ uses c ic ++ uses d id).
Proof.
  intros Fa Fb Fc Fd. unfold smart_merge_data_4. destruct (is_merge_needed [ia; ib; ic; id]) eqn:N; cbn [negb].
  2:{ split; [discriminate|]. intros K. exfalso. revert K. eapply no_clash; [exact N|]. intros x I. uses_of I. }
  destruct (usable_cases a ia Fa) as [(-> & ->)|(xa & ta & ja & -> & -> & Ua & ->)].
  { rewrite bind_panic by (intros [[[? ?] ?] ?]; discriminate). now apply smart_3_panic. }
  destruct (usable_cases b ib Fb) as [(-> & ->)|(xb & tb & jb & -> & -> & Ub & ->)].
  { rewrite bind_panic by (intros [[[? ?] ?] ?]; discriminate). rewrite app_nil_l. now apply smart_3_panic. }
  destruct (usable_cases c ic Fc) as [(-> & ->)|(xc & tc & jc & -> & -> & Uc & ->)].
  { rewrite bind_panic by (intros [[[? ?] ?] ?]; discriminate). rewrite app_nil_l. now apply smart_3_panic. }
  destruct (usable_cases d id Fd) as [(-> & ->)|(xd & td & jd & -> & -> & Ud & ->)].
  { rewrite bind_panic by (intros [[[? ?] ?] ?]; discriminate). rewrite app_nil_r. now apply smart_3_panic. }
  rewrite bind_panic by (intros [[[[? ?] ?] ?] ?]; discriminate). rewrite merge_4_panic.
  rewrite Ua, Ub, Uc, Ud. cbn [app]. unfold clash. split; [|tauto]. intros K. split; auto.
  apply needed_true in N as (x & y & X & Y & DD).
  assert (G : forall z, In (Some z) [Some ja; Some jb; Some jc; Some jd] ->
    exists n, In (z, n) [(ja, len (xa :: ta)); (jb, len (xb :: tb)); (jc, len (xc :: tc)); (jd, len (xd :: td))]).
  { intros z [Z|[Z|[Z|[Z|[]]]]]; injection Z as <-; eexists; cbn; eauto 6. }
  destruct (G x X) as [n Hn], (G y Y) as [k Hk]. exists (x, n), (y, k). auto.
Qed.
Lemma unify_panic {E} m : full (vertices m) -> full (normals m) -> full (uvs m) -> full (tangents m) ->
  unify_index_data (E:=E) m = Panic <->
  clash (uses (vertices m) (vertex_triangles m) ++ uses (normals m) (normal_triangles m) ++
         uses (uvs m) (uv_triangles m) ++ uses (tangents m) (tangent_triangles m)).
Proof.
  intros Fv Fn Fu Ft. unfold unify_index_data. rewrite bind_panic; [now apply smart_4_panic|].
  intros [[[[? ?] ?] ?] [?|]]; discriminate.
Qed.

(** Without classical logic: the ways not to be alike. *)
Definition insideb (x : list N * N) : bool := forallb (fun i => (i <? snd x)%N) (fst x).
Lemma insideb_ok x : insideb x = true <-> inside x.
Proof. unfold insideb, inside. rewrite forallb_forall, Forall_forall. setoid_rewrite N.ltb_lt. tauto. Qed.
Lemma not_alike l : ~ alike l <->
  (exists x y, In x l /\ In y l /\ length (fst x) <> length (fst y)) \/ (exists x i, In x l /\ In i (fst x) /\ (snd x <= i)%N).
Proof.
  split.
  - intros K. destruct (forallb insideb l) eqn:I.
    + left. destruct l as [|x l]; [exfalso; apply K; split; [intros ? ? []|constructor]|].
      assert (J : Forall inside (x :: l)). { apply Forall_forall. intros y Y. apply insideb_ok. rewrite forallb_forall in I. auto. }
      destruct (forallb (fun y => length (fst y) =? length (fst x)) (x :: l)) eqn:Q.
      * exfalso. apply K. split; auto. rewrite forallb_forall in Q. intros y z Y Z. apply Q in Y, Z. apply Nat.eqb_eq in Y, Z. congruence.
      * clear -Q. assert (G : forall t : list (list N * N), forallb (fun y => length (fst y) =? length (fst x)) t = false ->
          exists y, In y t /\ length (fst y) <> length (fst x)).
        { intros t. induction t as [|y t IH]; cbn [forallb]; [discriminate|]. destruct (length (fst y) =? length (fst x)) eqn:R; cbn [andb].
          - intros H. destruct (IH H) as (z & Z & W). exists z. cbn. auto.
          - intros _. exists y. apply Nat.eqb_neq in R. cbn. auto. }
        destruct (G _ Q) as (y & Y & W). exists y, x. cbn in *. auto.
    + right. clear K. induction l as [|x l IH]; cbn [forallb] in I; [discriminate I|]. destruct (insideb x) eqn:Q; cbn [andb] in I.
      * destruct (IH I) as (y & i & Y & H). exists y, i. cbn. auto.
      * exists x. unfold insideb in Q. revert Q. generalize (fst x) as t. clear. 
        intros t. assert (G : forallb (fun i => (i <? snd x)%N) t = false -> exists i, In i t /\ (snd x <= i)%N).
        { induction t as [|i t IH]; cbn [forallb]; [discriminate|]. destruct (N.ltb_spec i (snd x)); cbn [andb].
          - intros H1. destruct (IH H1) as (j & J & W). exists j. cbn. auto.
          - intros _. exists i. cbn. auto. }
        intros Q. destruct (G Q) as (i & I & W). exists i. cbn. auto.
  - intros [(x & y & X & Y & H)|(x & i & X & I & H)] K.
    + now apply H, K.
    + apply (alike_inside _ _ K) in X. unfold inside in X. rewrite Forall_forall in X. apply X in I. lia.
Qed.
