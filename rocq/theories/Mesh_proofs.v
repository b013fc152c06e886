(** Reordering, buffers, verification and histories of calls. *)
From Coq Require Import List NArith ZArith Arith Bool Lia FinFun ZifyN ZifyNat ZifyBool.
From Verif Require Import Base Floats Utilis Unify CustomData Mesh FileSpec MeshSpec.
Import ListNotations.
Open Scope res_scope.

Lemma get_nth {A} (l : list A) : forall i, get l i = nth_error l (N.to_nat i).
Proof.
  induction l as [|x l IH]; intros i; cbn [get].
  - destruct (N.to_nat i); reflexivity.
  - destruct (N.eqb_spec i 0) as [-> | H]; [reflexivity|].
    rewrite IH. replace (N.to_nat i) with (S (N.to_nat (i - 1))) by lia. reflexivity.
Qed.
Lemma nth_lt {A} (l : list A) i : (exists x, nth_error l i = Some x) <-> i < length l.
Proof.
  split.
  - intros [x H]. apply nth_error_Some. congruence.
  - intros H. apply nth_error_Some in H. destruct (nth_error l i); [eauto|congruence].
Qed.

(** ** Buffers *)
Lemma buffer_loop_spec {A} (d : list A) t : forall acc,
  (exists b, looks_up d t b /\ buffer_loop d t acc = Some (acc ++ b)) \/
  (~ in_range d t /\ buffer_loop d t acc = None).
Proof.
  induction t as [|i t IH]; intros acc; cbn [buffer_loop].
  - left. exists []. rewrite app_nil_r. split; [constructor|reflexivity].
  - rewrite get_nth. destruct (nth_error d (N.to_nat i)) as [x|] eqn:E.
    + destruct (IH (acc ++ [x])) as [(b & L & ->)|[R ->]].
      * left. exists (x :: b). split; [constructor; auto|]. now rewrite <- app_assoc.
      * right. split; auto. intros H. inversion H. auto.
    + right. split; auto. intros H. inversion H. apply nth_error_None in E. unfold len in *. lia.
Qed.
Lemma looks_up_in_range {A} (d : list A) t b : looks_up d t b -> in_range d t.
Proof.
  induction 1 as [|i x t b H _ IH]; constructor; auto. unfold len.
  assert (N.to_nat i < length d) by (apply nth_lt; eauto). lia.
Qed.
Lemma in_range_looks_up {A} (d : list A) t : in_range d t -> exists b, looks_up d t b.
Proof.
  induction 1 as [|i t H _ [b IH]]; [exists []; constructor|].
  assert (N.to_nat i < length d) as L by (unfold len in H; lia). apply nth_lt in L as [x X]. exists (x :: b). constructor; auto.
Qed.
Lemma looks_up_fun {A} (d : list A) t b b' : looks_up d t b -> looks_up d t b' -> b = b'.
Proof.
  intros H. revert b'. induction H as [|i x t b H _ IH]; intros b' H'; inversion H'; subst; auto.
  f_equal; [congruence|auto].
Qed.
Lemma buffer_iff {A} (d : option (list A)) t b :
  buffer d t = Some b <-> exists data indices, d = Some data /\ t = Some indices /\ looks_up data indices b.
Proof.
  unfold buffer. split.
  - destruct d as [data|]; try discriminate. destruct t as [indices|]; try discriminate. intros H.
    exists data, indices. split; auto. split; auto.
    destruct (buffer_loop_spec data indices []) as [(b' & L & E)|[_ E]]; rewrite E in H; [|discriminate].
    cbn [app] in H. injection H as <-. exact L.
  - intros (data & indices & -> & -> & L).
    destruct (buffer_loop_spec data indices []) as [(b' & L' & E)|[R _]].
    + rewrite E. cbn [app]. f_equal. eapply looks_up_fun; eauto.
    + apply looks_up_in_range in L. contradiction.
Qed.
Lemma buffer_none {A} (d : option (list A)) t :
  buffer d t = None <->
  (d = None \/ t = None \/ exists data indices, d = Some data /\ t = Some indices /\ ~ in_range data indices).
Proof.
  split.
  - intros H. destruct d as [data|]; auto. destruct t as [indices|]; auto. right. right. exists data, indices.
    split; auto. split; auto. intros R. apply in_range_looks_up in R as [b L].
    assert (buffer (Some data) (Some indices) = Some b) by (apply buffer_iff; eauto). congruence.
  - intros H. destruct (buffer d t) as [b|] eqn:E; auto. apply buffer_iff in E as (data & indices & -> & -> & L).
    destruct H as [H|[H|(d' & i' & [= <-] & [= <-] & R)]]; try discriminate. apply looks_up_in_range in L. contradiction.
Qed.

(** ** First occurrences *)
Fixpoint firsts {A} (eqd : forall x y : A, {x = y} + {x <> y}) (seen t : list A) : list A :=
  match t with
  | [] => seen
  | x :: t' => if in_dec eqd x seen then firsts eqd seen t' else firsts eqd (seen ++ [x]) t'
  end.
Fixpoint pos {A} (eqd : forall x y : A, {x = y} + {x <> y}) (x : A) (l : list A) : option nat :=
  match l with
  | [] => None
  | y :: l' => if eqd x y then Some 0 else option_map S (pos eqd x l')
  end.
Lemma firsts_prefix {A} eqd (t : list A) : forall seen, exists more, firsts eqd seen t = seen ++ more.
Proof.
  induction t as [|x t IH]; intros seen; cbn [firsts]; [exists []; now rewrite app_nil_r|].
  destruct (in_dec eqd x seen); [apply IH|]. destruct (IH (seen ++ [x])) as [more ->].
  exists ([x] ++ more). now rewrite <- app_assoc.
Qed.
Lemma firsts_in {A} eqd (t : list A) : forall seen x, In x (firsts eqd seen t) <-> In x seen \/ In x t.
Proof.
  induction t as [|y t IH]; intros seen x; cbn [firsts]; [cbn; tauto|].
  destruct (in_dec eqd y seen) as [I|I]; rewrite IH.
  - cbn. split; [tauto|]. intros [H|[-> |H]]; auto.
  - rewrite in_app_iff. cbn. tauto.
Qed.
Lemma nodup_snoc {A} (l : list A) x : NoDup l -> ~ In x l -> NoDup (l ++ [x]).
Proof.
  intros H I. apply NoDup_rev in H. rewrite <- (rev_involutive (l ++ [x])). apply NoDup_rev. rewrite rev_app_distr. cbn [rev app].
  constructor; auto. now rewrite <- in_rev.
Qed.
Lemma firsts_nodup {A} eqd (t : list A) : forall seen, NoDup seen -> NoDup (firsts eqd seen t).
Proof.
  induction t as [|x t IH]; intros seen H; cbn [firsts]; auto. destruct (in_dec eqd x seen); auto using nodup_snoc.
Qed.
Lemma pos_nth {A} eqd (x : A) l k : pos eqd x l = Some k -> nth_error l k = Some x.
Proof.
  revert k. induction l as [|y l IH]; intros k; cbn [pos]; [discriminate|].
  destruct (eqd x y) as [-> | ]; [intros [= <-]; reflexivity|]. destruct (pos eqd x l); [|discriminate].
  intros [= <-]. cbn. auto.
Qed.
Lemma pos_in {A} eqd (x : A) l : In x l -> exists k, pos eqd x l = Some k.
Proof.
  induction l as [|y l IH]; intros H; [destruct H|]. cbn [pos]. destruct (eqd x y); [eauto|].
  destruct H as [-> |H]; [congruence|]. destruct (IH H) as [k ->]. cbn [option_map]. eauto.
Qed.
Lemma pos_none {A} eqd (x : A) l : ~ In x l -> pos eqd x l = None.
Proof.
  intros H. destruct (pos eqd x l) eqn:E; auto. apply pos_nth in E. apply nth_error_In in E. contradiction.
Qed.
Lemma pos_lt {A} eqd (x : A) l k : pos eqd x l = Some k -> k < length l.
Proof. intros H. apply nth_lt. apply pos_nth in H. eauto. Qed.
Lemma pos_app {A} eqd (x : A) l m k : pos eqd x l = Some k -> pos eqd x (l ++ m) = Some k.
Proof.
  revert k. induction l as [|y l IH]; intros k; cbn [pos app]; [discriminate|]. destruct (eqd x y); auto.
  destruct (pos eqd x l) as [j|]; [|discriminate]. rewrite (IH j eq_refl). auto.
Qed.
Lemma pos_snoc {A} eqd (x : A) l : ~ In x l -> pos eqd x (l ++ [x]) = Some (length l).
Proof.
  induction l as [|y l IH]; intros H; cbn [pos app length].
  - destruct (eqd x x); congruence.
  - destruct (eqd x y) as [-> | ]; [exfalso; apply H; now left|]. rewrite IH; auto. intros I. apply H. now right.
Qed.
Lemma pos_nodup {A} eqd (x : A) l k : NoDup l -> nth_error l k = Some x -> pos eqd x l = Some k.
Proof.
  intros ND H. destruct (pos_in eqd x l (nth_error_In _ _ H)) as [j P]. rewrite P. f_equal.
  eapply NoDup_nth_error; eauto; [eapply pos_lt; eauto|]. now rewrite (pos_nth _ _ _ _ P).
Qed.
(** Numbering by position in the list of first occurrences. *)
Definition posN {A} eqd (l : list A) (x : A) : N := match pos eqd x l with Some k => N.of_nat k | None => 0%N end.
Lemma number_first_use {A} eqd (t : list A) : forall seen, NoDup seen ->
  first_use (len seen) (map (posN eqd (firsts eqd seen t)) t) (len (firsts eqd seen t)).
Proof.
  induction t as [|x t IH]; intros seen ND; cbn [firsts map]; [constructor|].
  destruct (in_dec eqd x seen) as [I|I].
  - apply fu_known; auto. destruct (firsts_prefix eqd t seen) as [more ->].
    destruct (pos_in eqd x seen I) as [k K]. unfold posN. rewrite (pos_app _ _ _ _ _ K). apply pos_lt in K. unfold len. lia.
  - replace (posN eqd (firsts eqd (seen ++ [x]) t) x) with (len seen).
    + apply fu_next. replace (len seen + 1)%N with (len (seen ++ [x])) by (unfold len; rewrite app_length; cbn; lia).
      apply IH. now apply nodup_snoc.
    + destruct (firsts_prefix eqd t (seen ++ [x])) as [more ->]. unfold posN.
      rewrite (pos_app _ _ _ _ _ (pos_snoc eqd x seen I)). reflexivity.
Qed.
Lemma number_back {A} eqd (t : list A) l : (forall x, In x t -> In x l) ->
  Forall2 (fun x i => nth_error l (N.to_nat i) = Some x) t (map (posN eqd l) t).
Proof.
  induction t as [|x t IH]; intros H; constructor.
  - destruct (pos_in eqd x l (H x (or_introl eq_refl))) as [k K]. unfold posN. rewrite K, Nat2N.id. now apply pos_nth in K.
  - apply IH. intros y Y. apply H. now right.
Qed.

(** ** Reordering one array *)
Lemma update_get {A} (l : list A) : forall i v j, (i < len l)%N -> get (update l i v) j = if (j =? i)%N then Some v else get l j.
Proof.
  induction l as [|x l IH]; intros i v j H; [unfold len in H; cbn in H; lia|]. cbn [update get].
  destruct (N.eqb_spec i 0) as [-> | Hi]; cbn [get].
  - destruct (j =? 0)%N; reflexivity.
  - destruct (N.eqb_spec j 0) as [-> | Hj]; cbn [get].
    + destruct (N.eqb_spec 0 i); [congruence|reflexivity].
    + rewrite IH by (unfold len in *; cbn [length] in H; lia).
      destruct (N.eqb_spec (j - 1) (i - 1)), (N.eqb_spec j i); auto; lia.
Qed.
Lemma update_length {A} (l : list A) : forall i v, length (update l i v) = length l.
Proof. induction l as [|x l IH]; intros i v; cbn [update]; auto. destruct (i =? 0)%N; cbn; auto. Qed.

Definition represents (map : list (option N)) (seen : list N) : Prop :=
  forall i, (i < len map)%N -> get map i = Some (option_map N.of_nat (pos N.eq_dec i seen)).
Lemma opt_loop_spec {E A} (data : list A) t : forall imap mapped seen,
  length imap = length data -> represents imap seen -> looks_up data seen mapped ->
  (in_range data t /\ exists imap' mapped', opt_loop (E:=E) data t imap mapped = Ok (imap', mapped') /\
     length imap' = length data /\ represents imap' (firsts N.eq_dec seen t) /\
     looks_up data (firsts N.eq_dec seen t) mapped') \/
  (~ in_range data t /\ opt_loop (E:=E) data t imap mapped = Panic).
Proof.
  induction t as [|i t IH]; intros imap mapped seen L R M.
  - cbn [opt_loop firsts]. left. split; [constructor|]. eauto 8.
  - cbn [firsts]. destruct (N.ltb_spec i (len data)) as [Hi|Hi].
    2:{ right. split; [intros H; inversion H; lia|]. cbn [opt_loop]. unfold index. rewrite get_nth.
        replace (nth_error imap (N.to_nat i)) with (@None (option N)); [reflexivity|].
        symmetry. apply nth_error_None. unfold len in Hi. lia. }
    assert (G : get imap i = Some (option_map N.of_nat (pos N.eq_dec i seen))) by (apply R; unfold len in *; lia).
    destruct (in_dec N.eq_dec i seen) as [I|I].
    + destruct (pos_in N.eq_dec i seen I) as [k K]. rewrite K in G. cbn [option_map] in G.
      assert (S : opt_loop (E:=E) data (i :: t) imap mapped = opt_loop data t imap mapped).
      { cbn [opt_loop]. unfold index. rewrite G. reflexivity. }
      rewrite S. destruct (IH imap mapped seen L R M) as [(RG & X)|(RG & X)].
      * left. split; [constructor; auto|auto].
      * right. split; auto. intros H. inversion H. auto.
    + rewrite (pos_none _ _ _ I) in G. cbn [option_map] in G.
      assert (exists d, nth_error data (N.to_nat i) = Some d) as [d D] by (apply nth_lt; unfold len in Hi; lia).
      assert (S : opt_loop (E:=E) data (i :: t) imap mapped =
                  opt_loop data t (update imap i (Some (N.of_nat (length mapped)))) (mapped ++ [d])).
      { cbn [opt_loop]. unfold index. rewrite G. cbn [bind]. rewrite get_nth, D. reflexivity. }
      rewrite S.
      assert (LS : length mapped = length seen). { clear -M. unfold looks_up in M. induction M; cbn; auto. }
      destruct (IH (update imap i (Some (N.of_nat (length mapped)))) (mapped ++ [d]) (seen ++ [i])) as [(RG & X)|(RG & X)].
      * now rewrite update_length.
      * intros j Hj. rewrite update_get by (unfold len in *; lia). unfold len in Hj. rewrite update_length in Hj.
        destruct (N.eqb_spec j i) as [-> | NE].
        -- rewrite (pos_snoc _ _ _ I). cbn [option_map]. now rewrite LS.
        -- rewrite R by (unfold len; lia). f_equal. f_equal.
           destruct (in_dec N.eq_dec j seen) as [J|J].
           ++ destruct (pos_in N.eq_dec j seen J) as [k K]. rewrite K. symmetry. now apply pos_app.
           ++ rewrite !pos_none; auto. rewrite in_app_iff. cbn. intros [?|[?|[]]]; congruence.
      * apply Forall2_app; auto.
      * left. split; [constructor; auto|auto].
      * right. split; auto. intros H. inversion H. auto.
Qed.
Lemma nodup_bound (l : list N) b : NoDup l -> Forall (fun i => (i < b)%N) l -> (len l <= b)%N.
Proof.
  intros ND F. assert (length l <= length (map N.of_nat (seq 0 (N.to_nat b)))).
  { apply NoDup_incl_length; auto. intros i I. apply in_map_iff. exists (N.to_nat i). split; [lia|]. apply in_seq.
    rewrite Forall_forall in F. specialize (F i I). lia. }
  rewrite map_length, seq_length in H. unfold len. lia.
Qed.
Lemma map_res_map {E A B} (f : A -> res E B) g l : (forall a, In a l -> f a = Ok (g a)) -> map_res f l = Ok (map g l).
Proof.
  induction l as [|a l IH]; intros H; [reflexivity|]. cbn [map_res map]. rewrite H by now left. cbn [bind].
  rewrite IH by (intros; apply H; now right). reflexivity.
Qed.
Lemma none_represents {A} (data : list A) : represents (map (fun _ => None) data) [].
Proof.
  intros i H. rewrite get_nth. unfold len in H. rewrite map_length in H.
  assert (N.to_nat i < length data) as L by lia. apply nth_lt in L as [x X].
  rewrite (map_nth_error _ _ _ X). reflexivity.
Qed.
Lemma optimize_spec {E A} t (data : list A) : u32_all t -> t <> [] -> data <> [] ->
  (in_range data t /\ exists d', optimize_triangle_indices (E:=E) t data =
     Ok (map (posN N.eq_dec (firsts N.eq_dec [] t)) t, d') /\ looks_up data (firsts N.eq_dec [] t) d') \/
  (~ in_range data t /\ optimize_triangle_indices (E:=E) t data = Panic).
Proof.
  intros U T D. unfold optimize_triangle_indices. destruct t as [|i0 t0] eqn:ET; [congruence|]. destruct data as [|x0 data0] eqn:ED; [congruence|].
  rewrite <- ET, <- ED in *. clear T D.
  destruct (opt_loop_spec (E:=E) data t (map (fun _ => None) data) [] []) as [(R & imap & mapped & -> & L & RP & LU)|(R & ->)].
  - apply map_length.
  - apply none_represents.
  - constructor.
  - left. split; auto. cbn [bind]. exists mapped. split; auto.
    rewrite (map_res_map _ (posN N.eq_dec (firsts N.eq_dec [] t))); [reflexivity|].
    intros i I. unfold in_range in R. rewrite Forall_forall in R. specialize (R i I). unfold index.
    rewrite RP by (unfold len in *; lia). unfold posN.
    destruct (pos_in N.eq_dec i (firsts N.eq_dec [] t)) as [k K]; [apply firsts_in; auto|].
    rewrite K. cbn [option_map bind]. f_equal. apply N.mod_small. apply pos_lt in K.
    assert (len (firsts N.eq_dec [] t) <= 2 ^ 32)%N.
    { apply nodup_bound; [apply firsts_nodup; constructor|]. apply Forall_forall. intros j J. apply firsts_in in J as [[]|J].
      unfold u32_all in U. rewrite Forall_forall in U. auto. }
    unfold len in H. change two32 with (2 ^ 32)%N. lia.
  - right. auto.
Qed.
Lemma looks_up_trans {A} (d : list A) used d' t t' : looks_up d used d' ->
  Forall2 (fun i i' => nth_error used (N.to_nat i') = Some i) t t' -> forall b, looks_up d t b -> looks_up d' t' b.
Proof.
  intros U F. induction F as [|i i' t t' H _ IH]; intros b B; inversion B as [|? x ? b' HX HB]; subst; constructor; [|now apply IH].
  clear IH B HB. revert H. generalize (N.to_nat i'). clear -U HX.
  induction U as [|j y used d' HJ _ IH]; intros n H; [destruct n; discriminate|].
  destruct n; cbn [nth_error] in *; [congruence|now apply IH].
Qed.
Lemma compacted_lookup {A} (d d' : list A) t t' : compacted t d t' d' -> forall b, looks_up d t b -> looks_up d' t' b.
Proof. intros (used & _ & _ & LU & _ & F). eapply looks_up_trans; eauto. Qed.
Lemma compacted_buffer {A} (d d' : list A) t t' : in_range d t -> compacted t d t' d' ->
  buffer (Some d') (Some t') = buffer (Some d) (Some t).
Proof.
  intros R C. apply in_range_looks_up in R as [b B].
  transitivity (Some b); [|symmetry]; apply buffer_iff.
  - exists d', t'. split; auto. split; auto. eapply compacted_lookup; eauto.
  - eauto.
Qed.
Lemma firsts_compacted {A} (d d' : list A) t : looks_up d (firsts N.eq_dec [] t) d' ->
  compacted t d (map (posN N.eq_dec (firsts N.eq_dec [] t)) t) d'.
Proof.
  intros LU. exists (firsts N.eq_dec [] t). split; [apply firsts_nodup; constructor|]. split; [intros i; rewrite firsts_in; cbn; tauto|].
  split; auto. split.
  - replace (len d') with (len (firsts N.eq_dec [] t)).
    + apply (number_first_use N.eq_dec t []). constructor.
    + unfold len. f_equal. clear -LU. unfold looks_up in LU. induction LU; cbn; auto.
  - apply number_back. intros x X. apply firsts_in. auto.
Qed.
Lemma optimize_in_range {E A} t (data : list A) : u32_all t -> t <> [] -> data <> [] -> in_range data t ->
  exists t' d', optimize_triangle_indices (E:=E) t data = Ok (t', d') /\ compacted t data t' d'.
Proof.
  intros U T D R. destruct (optimize_spec (E:=E) t data U T D) as [(_ & d' & O & LU)|(NR & _)]; [|contradiction].
  eexists _, d'. split; [exact O|]. now apply firsts_compacted.
Qed.
Lemma optimize_empty {E A} t (data : list A) : t = [] \/ data = [] -> optimize_triangle_indices (E:=E) t data = Ok (t, data).
Proof. intros [-> | ->]; [reflexivity|]. destruct t; reflexivity. Qed.
Lemma optimize_out_of_range {E A} t (data : list A) : u32_all t -> data <> [] -> ~ in_range data t ->
  optimize_triangle_indices (E:=E) t data = Panic.
Proof.
  intros U D R. destruct t as [|i t]; [exfalso; apply R; constructor|].
  destruct (optimize_spec (E:=E) (i :: t) data U) as [(X & _)|(_ & X)]; auto; [discriminate|contradiction].
Qed.

(** Doing it again *)
Definition iota (n : N) : list N := map N.of_nat (seq 0 (N.to_nat n)).
Lemma iota_len n : len (iota n) = n. Proof. unfold len, iota. rewrite map_length, seq_length. lia. Qed.
Lemma iota_in n i : In i (iota n) <-> (i < n)%N.
Proof.
  unfold iota. rewrite in_map_iff. split.
  - intros (k & <- & I). apply in_seq in I. lia.
  - intros H. exists (N.to_nat i). split; [lia|]. apply in_seq. lia.
Qed.
Lemma iota_snoc n : iota n ++ [n] = iota (n + 1).
Proof.
  unfold iota. replace (N.to_nat (n + 1)) with (S (N.to_nat n)) by lia. rewrite seq_S, map_app. cbn. f_equal. f_equal. lia.
Qed.
Lemma iota_nth n i : (i < n)%N -> nth_error (iota n) (N.to_nat i) = Some i.
Proof.
  intros H. unfold iota. replace (Some i) with (Some (N.of_nat (N.to_nat i))) by (f_equal; lia).
  apply map_nth_error. rewrite nth_error_nth' with (d := 0) by (rewrite seq_length; lia). rewrite seq_nth by lia. reflexivity.
Qed.
Lemma iota_nodup n : NoDup (iota n).
Proof. unfold iota. apply Injective_map_NoDup; [intros a b; lia|apply seq_NoDup]. Qed.
Lemma first_use_firsts n t m : first_use n t m -> firsts N.eq_dec (iota n) t = iota m.
Proof.
  induction 1 as [n|n i t m H _ IH|n t m _ IH]; cbn [firsts]; auto.
  - destruct (in_dec N.eq_dec i (iota n)) as [_|X]; auto. exfalso. apply X. now apply iota_in.
  - destruct (in_dec N.eq_dec n (iota n)) as [X|_]; [apply iota_in in X; lia|]. now rewrite iota_snoc.
Qed.
Lemma posN_iota n i : (i < n)%N -> posN N.eq_dec (iota n) i = i.
Proof.
  intros H. unfold posN. rewrite (pos_nodup _ _ _ (N.to_nat i) (iota_nodup n) (iota_nth n i H)). lia.
Qed.
Lemma looks_up_iota {A} (d : list A) : looks_up d (iota (len d)) d.
Proof.
  unfold iota, len. rewrite Nat2N.id. unfold looks_up.
  assert (G : forall pre, Forall2 (fun i x => nth_error (pre ++ d) (N.to_nat i) = Some x) (map N.of_nat (seq (length pre) (length d))) d).
  { induction d as [|x d IH]; intros pre; cbn [length seq map]; constructor.
    - rewrite Nat2N.id, nth_error_app2 by lia. now rewrite Nat.sub_diag.
    - specialize (IH (pre ++ [x])). rewrite app_length in IH. cbn [length] in IH. rewrite Nat.add_1_r in IH.
      rewrite <- app_assoc in IH. exact IH. }
  exact (G []).
Qed.
Lemma optimize_again {E A} t (d : list A) : u32_all t -> first_use 0 t (len d) ->
  optimize_triangle_indices (E:=E) t d = Ok (t, d).
Proof.
  intros U F. destruct t as [|i t]; [now apply optimize_empty; left|]. destruct d as [|x d]; [now apply optimize_empty; right|].
  pose proof (first_use_firsts _ _ _ F) as FF. change (iota 0) with (@nil N) in FF.
  destruct (optimize_spec (E:=E) (i :: t) (x :: d) U) as [(R & d' & O & LU)|(NR & _)]; try discriminate.
  - rewrite O. rewrite FF in *. f_equal. f_equal.
    + rewrite <- (map_id (i :: t)) at 2. apply map_ext_in. intros j J. apply posN_iota.
      unfold in_range in R. rewrite Forall_forall in R. auto.
    + eapply looks_up_fun; [exact LU|apply looks_up_iota].
  - exfalso. apply NR. apply Forall_forall. intros j J. apply iota_in. rewrite <- FF. apply firsts_in. auto.
Qed.
Lemma compacted_again {E A} t (d : list A) t' d' : u32_all t -> compacted t d t' d' -> optimize_triangle_indices (E:=E) t' d' = Ok (t', d').
Proof.
  intros U (used & ND & I & LU & FU & F). apply optimize_again; auto.
  assert (len used <= 2 ^ 32)%N. { apply nodup_bound; auto. apply Forall_forall. intros i X. apply I in X. unfold u32_all in U. rewrite Forall_forall in U. auto. }
  clear -F H. induction F as [|i i' t t' HI _ IH]; constructor; auto.
  assert (N.to_nat i' < length used) by (apply nth_lt; eauto). unfold len in H. lia.
Qed.

(** ** Reordering a mesh *)
Definition opt_pair {E A} (d : option (list A)) (t : option (list N)) : res E (option (list A) * option (list N)) :=
  match d, t with
  | Some v, Some t => let* (t, v) := optimize_triangle_indices t v in Ok (Some v, Some t)
  | _, _ => Ok (d, t)
  end.
Lemma reorder_pairs {E} m : reorder_data (E:=E) m =
  let* (v, vt) := opt_pair (vertices m) (vertex_triangles m) in
  let* (n, nt) := opt_pair (normals m) (normal_triangles m) in
  let* (u, ut) := opt_pair (uvs m) (uv_triangles m) in
  Ok (mk_mesh n nt v vt u ut (tangents m) (tangent_triangles m) (custom_data m)).
Proof.
  destruct m as [n nt v vt u ut tg tt cd]. unfold reorder_data, opt_pair.
  cbn [vertices normals uvs vertex_triangles normal_triangles uv_triangles tangents tangent_triangles custom_data].
  Ltac one d t := destruct d as [d|], t as [t|];
    [destruct (optimize_triangle_indices t d) as [[? ?]| |] | | |]; cbn [bind]; try reflexivity;
    cbn [bind fst set_vertices set_vertex_triangles with_vertices with_vertex_triangles set_normals set_normal_triangles
      with_normals with_normal_triangles vertices normals uvs vertex_triangles normal_triangles uv_triangles tangents tangent_triangles custom_data].
  one v vt; one n nt; one u ut.
Qed.
Lemma opt_pair_spec {E A} (d : option (list A)) t : u32_opt t ->
  (reorderable d t /\ exists d' t', opt_pair (E:=E) d t = Ok (d', t') /\ reordered d t d' t' /\ opt_pair (E:=E) d' t' = Ok (d', t')) \/
  (~ reorderable d t /\ opt_pair (E:=E) d t = Panic).
Proof.
  intros U.
  assert (NT : nothing_to_do d t -> opt_pair (E:=E) d t = Ok (d, t)).
  { intros [-> |[-> |[-> | ->]]]; [reflexivity|destruct d; reflexivity| |].
    - destruct t as [t|]; [|reflexivity]. cbn [opt_pair]. rewrite optimize_empty by auto. reflexivity.
    - destruct d as [d|]; [|reflexivity]. cbn [opt_pair]. rewrite optimize_empty by auto. reflexivity. }
  assert (dec : nothing_to_do d t \/ exists d0 t0, d = Some d0 /\ t = Some t0 /\ d0 <> [] /\ t0 <> []).
  { unfold nothing_to_do. destruct d as [[|x d]|]; auto. destruct t as [[|y t]|]; auto.
    right. exists (x :: d), (y :: t). repeat split; discriminate. }
  destruct dec as [N|(d0 & t0 & -> & -> & D & T)].
  - left. split; [now left|]. exists d, t. split; auto. split; [left; auto|auto].
  - specialize (U t0 eq_refl). unfold opt_pair at 1 3.
    assert (RR : reorderable (Some d0) (Some t0) <-> in_range d0 t0).
    { split.
      - intros [[H|[H|[H|H]]]|(a & b & [= <-] & [= <-] & H)]; auto; try congruence.
      - intros H. right. eauto. }
    rewrite RR. destruct (optimize_spec (E:=E) t0 d0 U T D) as [(R & d1 & O & LU)|(R & O)]; rewrite O; cbn [bind].
    + left. split; auto. apply firsts_compacted in LU. eexists _, _. split; [reflexivity|]. split.
      * right. eauto 12.
      * cbn [opt_pair]. rewrite (compacted_again _ _ _ _ U LU). reflexivity.
    + right. auto.
Qed.
Lemma reordered_buffer {A} (d d' : option (list A)) t t' : reordered d t d' t' -> buffer d' t' = buffer d t.
Proof.
  intros [(_ & -> & ->)|(d0 & t0 & d1 & t1 & -> & -> & -> & -> & R & C)]; auto. now apply compacted_buffer.
Qed.
Lemma reorder_spec {E} m : u32_opt (vertex_triangles m) -> u32_opt (normal_triangles m) -> u32_opt (uv_triangles m) ->
  (reorderable (vertices m) (vertex_triangles m) /\ reorderable (normals m) (normal_triangles m) /\
   reorderable (uvs m) (uv_triangles m) /\
   exists m', reorder_data (E:=E) m = Ok m' /\ reorder_data (E:=E) m' = Ok m' /\
     reordered (vertices m) (vertex_triangles m) (vertices m') (vertex_triangles m') /\
     reordered (normals m) (normal_triangles m) (normals m') (normal_triangles m') /\
     reordered (uvs m) (uv_triangles m) (uvs m') (uv_triangles m') /\
     tangents m' = tangents m /\ tangent_triangles m' = tangent_triangles m /\ custom_data m' = custom_data m) \/
  (~ (reorderable (vertices m) (vertex_triangles m) /\ reorderable (normals m) (normal_triangles m) /\
      reorderable (uvs m) (uv_triangles m)) /\ reorder_data (E:=E) m = Panic).
Proof.
  intros U1 U2 U3. setoid_rewrite reorder_pairs.
  destruct (opt_pair_spec (E:=E) (vertices m) _ U1) as [(R1 & v & vt & O1 & S1 & A1)|(R1 & O1)].
  2:{ right. split; [tauto|]. now rewrite O1. }
  destruct (opt_pair_spec (E:=E) (normals m) _ U2) as [(R2 & n & nt & O2 & S2 & A2)|(R2 & O2)].
  2:{ right. split; [tauto|]. rewrite O1. cbn [bind]. now rewrite O2. }
  destruct (opt_pair_spec (E:=E) (uvs m) _ U3) as [(R3 & u & ut & O3 & S3 & A3)|(R3 & O3)].
  2:{ right. split; [tauto|]. rewrite O1. cbn [bind]. rewrite O2. cbn [bind]. now rewrite O3. }
  left. split; auto. split; auto. split; auto.
  exists (mk_mesh n nt v vt u ut (tangents m) (tangent_triangles m) (custom_data m)).
  cbn [vertices normals uvs vertex_triangles normal_triangles uv_triangles tangents tangent_triangles custom_data].
  rewrite O1, A1. cbn [bind]. rewrite O2, A2. cbn [bind]. rewrite O3, A3. cbn [bind]. auto 12.
Qed.
