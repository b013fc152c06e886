(** Unifying index arrays. *)
From Coq Require Import List NArith ZArith Arith Bool Lia ZifyN ZifyNat ZifyBool.
From Verif Require Import Base Floats Utilis Unify CustomData Mesh FileSpec MeshSpec Mesh_proofs File_proofs.
Import ListNotations.
Open Scope res_scope.

Definition ld := list_eq_dec N.eq_dec.
Lemma position_pos c l : forall k, position c l k = option_map (fun j => (k + N.of_nat j)%N) (pos ld c l).
Proof.
  induction l as [|d l IH]; intros k; cbn [position pos]; [reflexivity|].
  destruct (list_eqb c d) eqn:Q.
  - apply list_eqb_eq in Q. subst d. destruct (ld c c); [|congruence]. cbn [option_map]. f_equal. lia.
  - destruct (ld c d) as [-> |_].
    + assert (list_eqb d d = true) by now apply list_eqb_eq. congruence.
    + rewrite IH. destruct (pos ld c l); [|reflexivity]. cbn [option_map]. f_equal. lia.
Qed.
Lemma combo_loop_spec rows : forall seen acc,
  combo_loop rows seen acc =
    (acc ++ map (fun r => (posN ld (firsts ld seen rows) r mod two32)%N) rows, firsts ld seen rows).
Proof.
  induction rows as [|r rows IH]; intros seen acc; cbn [combo_loop firsts map]; [now rewrite app_nil_r|].
  rewrite position_pos. destruct (in_dec ld r seen) as [I|I].
  - destruct (pos_in ld r seen I) as [k K]. rewrite K. cbn [option_map]. rewrite IH. f_equal. rewrite <- app_assoc. f_equal.
    cbn [app]. f_equal. destruct (firsts_prefix ld rows seen) as [more ->]. unfold posN. rewrite (pos_app _ _ _ _ _ K). reflexivity.
  - rewrite (pos_none _ _ _ I). cbn [option_map]. rewrite IH. f_equal. rewrite <- app_assoc. f_equal. cbn [app]. f_equal.
    destruct (firsts_prefix ld rows (seen ++ [r])) as [more ->]. unfold posN.
    rewrite (pos_app _ _ _ _ _ (pos_snoc ld r seen I)). reflexivity.
Qed.

(** The numbering of rows. *)
Definition numbered (rows combos : list (list N)) (idx : list N) : Prop :=
  combos = firsts ld [] rows /\ idx = map (posN ld combos) rows.
Lemma posN_lt {A} eqd (l : list A) x : In x l -> (posN eqd l x < len l)%N.
Proof. intros H. unfold posN. destruct (pos_in eqd x l H) as [k K]. rewrite K. apply pos_lt in K. unfold len. lia. Qed.
Lemma firsts_length {A} eqd (t : list A) : forall seen, length (firsts eqd seen t) <= length seen + length t.
Proof.
  induction t as [|x t IH]; intros seen; cbn [firsts length]; [lia|]. destruct (in_dec eqd x seen).
  - specialize (IH seen). lia.
  - specialize (IH (seen ++ [x])). rewrite app_length in IH. cbn [length] in IH. lia.
Qed.
Lemma numbered_mod rows : (len rows <= 2 ^ 32)%N ->
  map (fun r => (posN ld (firsts ld [] rows) r mod two32)%N) rows = map (posN ld (firsts ld [] rows)) rows.
Proof.
  intros H. apply map_ext_in. intros r R. apply N.mod_small.
  assert (posN ld (firsts ld [] rows) r < len (firsts ld [] rows))%N by (apply posN_lt, firsts_in; auto).
  pose proof (firsts_length ld rows []). unfold len in *. change two32 with (2 ^ 32)%N. cbn [length] in *. lia.
Qed.

(** One attribute: its index array is a column of the rows, its new data the
    elements at that column of the combinations. *)
Definition part {A} (rows combos : list (list N)) (d : list A) (i : list N) (d' : list A) : Prop :=
  exists f : list N -> N, i = map f rows /\ looks_up d (map f combos) d'.
Lemma part_in_range {A} rows combos idx (d : list A) i d' : numbered rows combos idx -> part rows combos d i d' -> in_range d i.
Proof.
  intros [-> _] (f & -> & L). apply looks_up_in_range in L. unfold in_range in *. rewrite Forall_map, Forall_forall in *.
  intros r R. apply L. apply firsts_in. auto.
Qed.
Lemma part_lookup {A} rows combos idx (d : list A) i d' : numbered rows combos idx -> part rows combos d i d' ->
  forall b, looks_up d i b -> looks_up d' idx b.
Proof.
  intros [C ->] (f & -> & L). apply (looks_up_trans _ _ _ _ _ L).
  assert (N : Forall2 (fun x i => nth_error combos (N.to_nat i) = Some x) rows (map (posN ld combos) rows)).
  { apply number_back. intros x X. rewrite C. apply firsts_in. auto. }
  clear L C. induction N; cbn [map]; constructor; auto. now apply map_nth_error.
Qed.
Lemma part_buffer {A} rows combos idx (d : list A) i d' : numbered rows combos idx -> part rows combos d i d' ->
  buffer (Some d') (Some idx) = buffer (Some d) (Some i).
Proof.
  intros N P. pose proof (part_in_range _ _ _ _ _ _ N P) as R. apply in_range_looks_up in R as [b B].
  transitivity (Some b); [|symmetry]; apply buffer_iff; eauto. exists d', idx. split; auto. split; auto. eapply part_lookup; eauto.
Qed.
Lemma looks_up_length {A} (d : list A) t b : looks_up d t b -> length b = length t.
Proof. unfold looks_up. induction 1; cbn; auto. Qed.
Lemma part_length {A} rows combos (d : list A) i d' : part rows combos d i d' -> length d' = length combos.
Proof. intros (f & _ & L). apply looks_up_length in L. now rewrite map_length in L. Qed.
Lemma numbered_first_use rows combos idx : numbered rows combos idx -> first_use 0 idx (len combos) /\ NoDup combos.
Proof.
  intros [-> ->]. split; [apply (number_first_use ld rows []); constructor|apply firsts_nodup; constructor].
Qed.

(** ** Merging equally long columns *)
Lemma gather_spec {E A} (data : list A) l :
  (exists d', map_res (E:=E) (index data) l = Ok d' /\ looks_up data l d') \/
  (map_res (E:=E) (index data) l = Panic /\ ~ in_range data l).
Proof.
  induction l as [|i l [(d' & E1 & L)|[E1 R]]]; cbn [map_res].
  - left. exists []. split; auto. constructor.
  - unfold index at 1 3. rewrite get_nth. destruct (nth_error data (N.to_nat i)) as [x|] eqn:X; cbn [bind].
    + left. rewrite E1. exists (x :: d'). split; auto. constructor; auto.
    + right. split; auto. intros H. inversion H. apply nth_error_None in X. unfold len in *. lia.
  - right. unfold index at 1. destruct (get data i); cbn [bind]; [rewrite E1|]; split; auto; intros H; inversion H; auto.
Qed.
Lemma row_col cols j n : j < length cols -> Forall (fun c => length c = n) cols ->
  nth j cols [] = map (fun r => nth j r 0%N) (rows cols n).
Proof.
  intros J F. unfold rows. rewrite map_map.
  assert (L : length (nth j cols []) = n). { rewrite Forall_forall in F. apply F. now apply nth_In. }
  apply (nth_ext _ _ 0%N 0%N); [rewrite map_length, seq_length; auto|].
  intros k K. rewrite L in K.
  rewrite (nth_indep (map _ _) 0%N ((fun i => nth j (row cols i) 0%N) 0)) by (rewrite map_length, seq_length; auto).
  rewrite (map_nth (fun i => nth j (row cols i) 0%N)), seq_nth by auto. unfold row.
  rewrite (nth_indep (map _ _) 0%N ((fun c => nth (0 + k) c 0%N) [])) by (rewrite map_length; auto).
  now rewrite (map_nth (fun c => nth (0 + k) c 0%N)).
Qed.
Lemma common_spec {E} a cols : (len a <= 2 ^ 32)%N ->
  let all := a :: cols in
  (Forall (fun c => length c = length a) all /\
   exists combos idx, numbered (rows all (length a)) combos idx /\
    unify_data_common (E:=E) all = Ok (idx, map (fun j => map (fun c => nth j c 0%N) combos) (seq 0 (length all)))) \/
  (~ Forall (fun c => length c = length a) all /\ unify_data_common (E:=E) all = Panic).
Proof.
  intros L all. unfold unify_data_common. subst all.
  destruct (forallb (fun c => length c =? length a) (a :: cols)) eqn:F.
  - left. split.
    { rewrite forallb_forall in F. apply Forall_forall. intros c C. apply Nat.eqb_eq. auto. }
    rewrite combo_loop_spec, app_nil_l, numbered_mod by (unfold len in *; unfold rows; now rewrite map_length, seq_length).
    eexists _, _. split; [split; reflexivity|]. rewrite F. reflexivity.
  - right. split; [|now rewrite F]. intros H. rewrite <- not_true_iff_false in F. apply F. apply forallb_forall. intros c C.
    rewrite Forall_forall in H. apply Nat.eqb_eq. auto.
Qed.
Lemma gather_part {E A} cols n combos idx j (d : list A) :
  j < length cols -> Forall (fun c => length c = n) cols -> numbered (rows cols n) combos idx ->
  (exists d', gather (E:=E) (map (fun j => map (fun c => nth j c 0%N) combos) (seq 0 (length cols))) j d = Ok d' /\
     part (rows cols n) combos d (nth j cols []) d') \/
  (gather (E:=E) (map (fun j => map (fun c => nth j c 0%N) combos) (seq 0 (length cols))) j d = Panic /\
     ~ in_range d (nth j cols [])).
Proof.
  intros J F N. unfold gather.
  assert (E0 : nth j (map (fun j => map (fun c => nth j c 0%N) combos) (seq 0 (length cols))) [] = map (fun c => nth j c 0%N) combos).
  { rewrite (nth_indep _ [] (map (fun c => nth 0 c 0%N) combos)) by (rewrite map_length, seq_length; auto).
    rewrite (map_nth (fun j => map (fun c => nth j c 0%N) combos)), seq_nth by auto. reflexivity. }
  rewrite E0, (row_col cols j n J F).
  destruct (gather_spec (E:=E) d (map (fun c => nth j c 0%N) combos)) as [(d' & -> & L)|(-> & R)].
  - left. exists d'. split; auto. exists (fun r => nth j r 0%N). auto.
  - right. split; auto. intros H. apply R. destruct N as [-> _]. unfold in_range in *. rewrite Forall_map, Forall_forall in *.
    intros r I. apply H. apply firsts_in in I as [[]|I]; auto.
Qed.

(** ** The smart merges *)
Lemma needed_false l : is_merge_needed l = false <-> forall x y, In (Some x) l -> In (Some y) l -> x = y.
Proof.
  unfold is_merge_needed.
  assert (S : forall x, In x (somes l) <-> In (Some x) l).
  { intros x. unfold somes. rewrite in_flat_map. split.
    - intros ([y|] & I & J); [destruct J as [-> |[]]; auto|destruct J].
    - intros I. exists (Some x). split; auto. cbn. auto. }
  destruct (somes l) as [|f t] eqn:Q.
  - split; auto. intros _ x y X. apply S in X. destruct X.
  - rewrite negb_false_iff, forallb_forall. split.
    + intros H x y X Y. apply S in X, Y.
      assert (G : forall z, In z (f :: t) -> z = f). { intros z [->|Z]; auto. apply list_eqb_eq. auto. }
      now rewrite (G x X), (G y Y).
    + intros H z Z. apply list_eqb_eq. apply H; apply S; cbn; auto.
Qed.

Definition keeps {A} rows combos (d : oarr A) (i : oarr N) (r : oarr A) : Prop :=
  match r with
  | None => unusable d i = true
  | Some d' => unusable d i = false /\ exists d0 i0, d = Some d0 /\ i = Some i0 /\ part rows combos d0 i0 d'
  end.
Definition agree {A B} (a : oarr A) (b : oarr B) (ia ib : oarr N) : Prop :=
  unusable a ia = false -> unusable b ib = false -> ia = ib.

(** The index arrays that take part. *)
Definition taking {A} (d : oarr A) (i : oarr N) : list (list N) :=
  match i with Some l => if unusable d i then [] else [l] | None => [] end.
(** Rows are determined by the columns in the list. *)
Definition joint (rows : list (list N)) (l : list (list N)) : Prop :=
  forall p q, p < length rows -> q < length rows -> (forall i, In i l -> nth p i 0%N = nth q i 0%N) -> nth p rows [] = nth q rows [].
Lemma joint_incl rows l l' : joint rows l -> incl l l' -> joint rows l'.
Proof. intros J I p q P Q H. apply J; auto. Qed.
Lemma rows_nth cols n p : p < n -> nth p (rows cols n) [] = row cols p.
Proof.
  intros P. unfold rows. rewrite (nth_indep _ [] (row cols 0)) by (rewrite map_length, seq_length; auto).
  rewrite (map_nth (row cols)), seq_nth; auto.
Qed.
Lemma joint_rows cols n : joint (rows cols n) cols.
Proof.
  intros p q P Q H. unfold rows in P, Q. rewrite map_length, seq_length in P, Q. rewrite !rows_nth by auto.
  unfold row. apply map_ext_in. auto.
Qed.
Lemma rows_nonempty a cols : a <> [] -> rows (a :: cols) (length a) <> [].
Proof. destruct a; [congruence|]. cbn. congruence. Qed.
Lemma part_usable {A} rows combos idx (d : list A) i d' : numbered rows combos idx -> part rows combos d i d' -> rows <> [] ->
  unusable (Some d) (Some i) = false.
Proof.
  intros N P R. destruct d; [|reflexivity]. apply part_in_range with (1 := N) in P as I.
  destruct P as (f & -> & _). destruct rows; [congruence|]. inversion I. unfold len in *. cbn in *. lia.
Qed.

Lemma smart_2_spec {E A B} (a : oarr A) (b : oarr B) (ia ib : oarr N) : short ia -> short ib ->
  (smart_merge_data_2 (E:=E) a b ia ib = Panic /\ ~ exists n, fits n a ia /\ fits n b ib) \/
  (smart_merge_data_2 (E:=E) a b ia ib = Ok (None, None, None) /\ agree a b ia ib) \/
  (exists rows combos idx a' b', smart_merge_data_2 (E:=E) a b ia ib = Ok (Some a', Some b', Some idx) /\
     numbered rows combos idx /\ rows <> [] /\ keeps rows combos a ia (Some a') /\ keeps rows combos b ib (Some b') /\
     joint rows (taking a ia ++ taking b ib)).
Proof.
  intros Sa Sb. unfold smart_merge_data_2. destruct (is_merge_needed [ia; ib]) eqn:N; cbn [negb].
  2:{ right. left. split; auto. intros U V. rewrite needed_false in N.
      destruct a as [[|? ?]|], ia as [i|]; try discriminate U. destruct b as [[|? ?]|], ib as [k|]; try discriminate V.
      f_equal. apply N; cbn; auto. }
  destruct a as [a|]; [|right; left; split; auto; intros U; discriminate U].
  destruct ia as [ia|]; [|right; left; split; auto; intros U; destruct a; discriminate U].
  destruct b as [b|]; [|right; left; split; auto; intros _ U; discriminate U].
  destruct ib as [ib|]; [|right; left; split; auto; intros _ U; destruct b; discriminate U].
  unfold merge_data_2. destruct (common_spec (E:=E) ia [ib] (Sa _ eq_refl)) as [(F & combos & idx & C & ->)|(F & ->)]; cbn [bind].
  2:{ left. split; auto. intros (n & X & Y). apply F. destruct (X _ _ eq_refl eq_refl) as [X0 _], (Y _ _ eq_refl eq_refl) as [Y0 _].
      repeat constructor; congruence. }
  destruct (gather_part (E:=E) [ia; ib] (length ia) combos idx 0 a ltac:(cbn; lia) F C) as [(a' & -> & PA)|(-> & R)]; cbn [bind].
  2:{ left. split; auto. intros (n & X & Y). apply R. apply (X _ _ eq_refl eq_refl). }
  destruct (gather_part (E:=E) [ia; ib] (length ia) combos idx 1 b ltac:(cbn; lia) F C) as [(b' & -> & PB)|(-> & R)]; cbn [bind].
  2:{ left. split; auto. intros (n & X & Y). apply R. apply (Y _ _ eq_refl eq_refl). }
  cbn [nth] in PA, PB.
  assert (NE : rows [ia; ib] (length ia) <> []).
  { apply rows_nonempty. intros ->. inversion F as [|? ? _ F2]; subst. inversion F2 as [|? ? L _]; subst. destruct ib; [|discriminate L].
    discriminate N. }
  right. right. exists (rows [ia; ib] (length ia)), combos, idx, a', b'. split; auto. split; auto. split; auto.
  assert (VA : unusable (Some a) (Some ia) = false) by (eapply part_usable; eauto).
  assert (VB : unusable (Some b) (Some ib) = false) by (eapply part_usable; eauto).
  split; [split; eauto|]. split; [split; eauto|]. unfold taking. rewrite VA, VB. apply joint_rows.
Qed.
Ltac inclu := let x := fresh in intros x; rewrite ?in_app_iff; tauto.

Lemma smart_3_spec {E A B C} (a : oarr A) (b : oarr B) (c : oarr C) (ia ib ic : oarr N) : short ia -> short ib -> short ic ->
  (smart_merge_data_3 (E:=E) a b c ia ib ic = Panic /\ ~ exists n, fits n a ia /\ fits n b ib /\ fits n c ic) \/
  (smart_merge_data_3 (E:=E) a b c ia ib ic = Ok (None, None, None, None) /\ agree a b ia ib /\ agree a c ia ic /\ agree b c ib ic) \/
  (exists rows combos idx a' b' c', smart_merge_data_3 (E:=E) a b c ia ib ic = Ok (a', b', c', Some idx) /\
     numbered rows combos idx /\ rows <> [] /\
     keeps rows combos a ia a' /\ keeps rows combos b ib b' /\ keeps rows combos c ic c' /\
     joint rows (taking a ia ++ taking b ib ++ taking c ic)).
Proof.
  intros Sa Sb Sc. unfold smart_merge_data_3. destruct (is_merge_needed [ia; ib; ic]) eqn:N; cbn [negb].
  2:{ right. left. split; auto. rewrite needed_false in N.
      split; [|split]; intros U V.
      - destruct a as [[|? ?]|], ia as [i|]; try discriminate U. destruct b as [[|? ?]|], ib as [k|]; try discriminate V.
        f_equal. apply N; cbn; auto.
      - destruct a as [[|? ?]|], ia as [i|]; try discriminate U. destruct c as [[|? ?]|], ic as [k|]; try discriminate V.
        f_equal. apply N; cbn; auto.
      - destruct b as [[|? ?]|], ib as [i|]; try discriminate U. destruct c as [[|? ?]|], ic as [k|]; try discriminate V.
        f_equal. apply N; cbn; auto. }
  destruct (unusable a ia) eqn:UA.
  { destruct (smart_2_spec (E:=E) b c ib ic Sb Sc) as [(-> & H)|[(-> & H)|(rws & cbs & idx & b' & c' & -> & H1 & H2 & H3 & H4 & HJ)]]; cbn [bind].
    - left. split; auto. intros (n & X). apply H. exists n. tauto.
    - right. left. split; auto. unfold agree in *. split; [|split]; auto; congruence.
    - right. right. exists rws, cbs, idx, None, (Some b'), (Some c'). repeat (split; auto); apply (joint_incl _ _ _ HJ); inclu. }
  destruct (unusable b ib) eqn:UB.
  { destruct (smart_2_spec (E:=E) a c ia ic Sa Sc) as [(-> & H)|[(-> & H)|(rws & cbs & idx & b' & c' & -> & H1 & H2 & H3 & H4 & HJ)]]; cbn [bind].
    - left. split; auto. intros (n & X). apply H. exists n. tauto.
    - right. left. split; auto. unfold agree in *. split; [|split]; auto; congruence.
    - right. right. exists rws, cbs, idx, (Some b'), None, (Some c'). repeat (split; auto); apply (joint_incl _ _ _ HJ); inclu. }
  destruct (unusable c ic) eqn:UC.
  { destruct (smart_2_spec (E:=E) a b ia ib Sa Sb) as [(-> & H)|[(-> & H)|(rws & cbs & idx & b' & c' & -> & H1 & H2 & H3 & H4 & HJ)]]; cbn [bind].
    - left. split; auto. intros (n & X). apply H. exists n. tauto.
    - right. left. split; auto. unfold agree in *. split; [|split]; auto; congruence.
    - right. right. exists rws, cbs, idx, (Some b'), (Some c'), None. repeat (split; auto); apply (joint_incl _ _ _ HJ); inclu. }
  destruct a as [a|], ia as [ia|]; try discriminate UA; [|destruct a; discriminate UA].
  destruct b as [b|], ib as [ib|]; try discriminate UB; [|destruct b; discriminate UB].
  destruct c as [c|], ic as [ic|]; try discriminate UC; [|destruct c; discriminate UC].
  unfold merge_data_3. destruct (common_spec (E:=E) ia [ib; ic] (Sa _ eq_refl)) as [(F & combos & idx & K & ->)|(F & ->)]; cbn [bind].
  2:{ left. split; auto. intros (n & X & Y & Z). apply F. destruct (X _ _ eq_refl eq_refl) as [X0 _], (Y _ _ eq_refl eq_refl) as [Y0 _], (Z _ _ eq_refl eq_refl) as [Z0 _].
      repeat constructor; congruence. }
  destruct (gather_part (E:=E) [ia; ib; ic] (length ia) combos idx 0 a ltac:(cbn; lia) F K) as [(a' & -> & PA)|(-> & R)]; cbn [bind].
  2:{ left. split; auto. intros (n & X & Y & Z). apply R. apply (X _ _ eq_refl eq_refl). }
  destruct (gather_part (E:=E) [ia; ib; ic] (length ia) combos idx 1 b ltac:(cbn; lia) F K) as [(b' & -> & PB)|(-> & R)]; cbn [bind].
  2:{ left. split; auto. intros (n & X & Y & Z). apply R. apply (Y _ _ eq_refl eq_refl). }
  destruct (gather_part (E:=E) [ia; ib; ic] (length ia) combos idx 2 c ltac:(cbn; lia) F K) as [(c' & -> & PC)|(-> & R)]; cbn [bind].
  2:{ left. split; auto. intros (n & X & Y & Z). apply R. apply (Z _ _ eq_refl eq_refl). }
  cbn [nth] in PA, PB, PC.
  assert (NE : rows [ia; ib; ic] (length ia) <> []).
  { apply rows_nonempty. intros ->. inversion F as [|? ? _ F2]; subst. inversion F2 as [|? ? L F3]; subst. inversion F3 as [|? ? L2 _]; subst.
    destruct ib; [|discriminate L]. destruct ic; [|discriminate L2]. discriminate N. }
  right. right. exists (rows [ia; ib; ic] (length ia)), combos, idx, (Some a'), (Some b'), (Some c'). split; auto. split; auto. split; auto.
  split; [split; eauto|]. split; [split; eauto|]. split; [split; eauto|]. unfold taking. rewrite UA, UB, UC. apply joint_rows.
Qed.

Lemma agree_needed {A B} l (a : oarr A) (b : oarr B) ia ib : is_merge_needed l = false -> In ia l -> In ib l -> agree a b ia ib.
Proof.
  intros N I J U V. rewrite needed_false in N.
  destruct a as [[|? ?]|], ia as [i|]; try discriminate U. destruct b as [[|? ?]|], ib as [k|]; try discriminate V.
  f_equal. apply N; auto.
Qed.
Lemma smart_4_spec {E A B C D} (a : oarr A) (b : oarr B) (c : oarr C) (d : oarr D) (ia ib ic id : oarr N) :
  short ia -> short ib -> short ic -> short id ->
  (smart_merge_data_4 (E:=E) a b c d ia ib ic id = Panic /\
     ~ exists n, fits n a ia /\ fits n b ib /\ fits n c ic /\ fits n d id) \/
  (smart_merge_data_4 (E:=E) a b c d ia ib ic id = Ok (None, None, None, None, None) /\
     agree a b ia ib /\ agree a c ia ic /\ agree a d ia id /\ agree b c ib ic /\ agree b d ib id /\ agree c d ic id) \/
  (exists rows combos idx a' b' c' d', smart_merge_data_4 (E:=E) a b c d ia ib ic id = Ok (a', b', c', d', Some idx) /\
     numbered rows combos idx /\ rows <> [] /\
     keeps rows combos a ia a' /\ keeps rows combos b ib b' /\ keeps rows combos c ic c' /\ keeps rows combos d id d' /\
     joint rows (taking a ia ++ taking b ib ++ taking c ic ++ taking d id)).
Proof.
  intros Sa Sb Sc Sd. unfold smart_merge_data_4. destruct (is_merge_needed [ia; ib; ic; id]) eqn:N; cbn [negb].
  2:{ right. left. split; auto. repeat split; (eapply agree_needed; [exact N|cbn; auto|cbn; auto 6]). }
  destruct (unusable a ia) eqn:UA.
  { destruct (smart_3_spec (E:=E) b c d ib ic id Sb Sc Sd) as [(-> & H)|[(-> & H)|(rws & cbs & idx & b' & c' & d' & -> & H1 & H2 & H3 & H4 & H5 & HJ)]]; cbn [bind].
    - left. split; auto. intros (n & X). apply H. exists n. tauto.
    - right. left. split; auto. unfold agree in *. repeat split; try tauto; congruence.
    - right. right. exists rws, cbs, idx, None, b', c', d'. repeat (split; auto); apply (joint_incl _ _ _ HJ); inclu. }
  destruct (unusable b ib) eqn:UB.
  { destruct (smart_3_spec (E:=E) a c d ia ic id Sa Sc Sd) as [(-> & H)|[(-> & H)|(rws & cbs & idx & b' & c' & d' & -> & H1 & H2 & H3 & H4 & H5 & HJ)]]; cbn [bind].
    - left. split; auto. intros (n & X). apply H. exists n. tauto.
    - right. left. split; auto. unfold agree in *. repeat split; try tauto; congruence.
    - right. right. exists rws, cbs, idx, b', None, c', d'. repeat (split; auto); apply (joint_incl _ _ _ HJ); inclu. }
  destruct (unusable c ic) eqn:UC.
  { destruct (smart_3_spec (E:=E) a b d ia ib id Sa Sb Sd) as [(-> & H)|[(-> & H)|(rws & cbs & idx & b' & c' & d' & -> & H1 & H2 & H3 & H4 & H5 & HJ)]]; cbn [bind].
    - left. split; auto. intros (n & X). apply H. exists n. tauto.
    - right. left. split; auto. unfold agree in *. repeat split; try tauto; congruence.
    - right. right. exists rws, cbs, idx, b', c', None, d'. repeat (split; auto); apply (joint_incl _ _ _ HJ); inclu. }
  destruct (unusable d id) eqn:UD.
  { destruct (smart_3_spec (E:=E) a b c ia ib ic Sa Sb Sc) as [(-> & H)|[(-> & H)|(rws & cbs & idx & b' & c' & d' & -> & H1 & H2 & H3 & H4 & H5 & HJ)]]; cbn [bind].
    - left. split; auto. intros (n & X). apply H. exists n. tauto.
    - right. left. split; auto. unfold agree in *. repeat split; try tauto; congruence.
    - right. right. exists rws, cbs, idx, b', c', d', None. repeat (split; auto); apply (joint_incl _ _ _ HJ); inclu. }
  destruct a as [a|], ia as [ia|]; try discriminate UA; [|destruct a; discriminate UA].
  destruct b as [b|], ib as [ib|]; try discriminate UB; [|destruct b; discriminate UB].
  destruct c as [c|], ic as [ic|]; try discriminate UC; [|destruct c; discriminate UC].
  destruct d as [d|], id as [id|]; try discriminate UD; [|destruct d; discriminate UD].
  unfold merge_data_4. destruct (common_spec (E:=E) ia [ib; ic; id] (Sa _ eq_refl)) as [(F & combos & idx & K & ->)|(F & ->)]; cbn [bind].
  2:{ left. split; auto. intros (n & X & Y & Z & W). apply F. destruct (X _ _ eq_refl eq_refl) as [X0 _], (Y _ _ eq_refl eq_refl) as [Y0 _], (Z _ _ eq_refl eq_refl) as [Z0 _], (W _ _ eq_refl eq_refl) as [W0 _].
      repeat constructor; congruence. }
  destruct (gather_part (E:=E) [ia; ib; ic; id] (length ia) combos idx 0 a ltac:(cbn; lia) F K) as [(a' & -> & PA)|(-> & R)]; cbn [bind].
  2:{ left. split; auto. intros (n & X & Y & Z & W). apply R. apply (X _ _ eq_refl eq_refl). }
  destruct (gather_part (E:=E) [ia; ib; ic; id] (length ia) combos idx 1 b ltac:(cbn; lia) F K) as [(b' & -> & PB)|(-> & R)]; cbn [bind].
  2:{ left. split; auto. intros (n & X & Y & Z & W). apply R. apply (Y _ _ eq_refl eq_refl). }
  destruct (gather_part (E:=E) [ia; ib; ic; id] (length ia) combos idx 2 c ltac:(cbn; lia) F K) as [(c' & -> & PC)|(-> & R)]; cbn [bind].
  2:{ left. split; auto. intros (n & X & Y & Z & W). apply R. apply (Z _ _ eq_refl eq_refl). }
  destruct (gather_part (E:=E) [ia; ib; ic; id] (length ia) combos idx 3 d ltac:(cbn; lia) F K) as [(d' & -> & PD)|(-> & R)]; cbn [bind].
  2:{ left. split; auto. intros (n & X & Y & Z & W). apply R. apply (W _ _ eq_refl eq_refl). }
  cbn [nth] in PA, PB, PC, PD.
  assert (NE : rows [ia; ib; ic; id] (length ia) <> []).
  { apply rows_nonempty. intros ->. inversion F as [|? ? _ F2]; subst. inversion F2 as [|? ? L F3]; subst. inversion F3 as [|? ? L2 F4]; subst.
    inversion F4 as [|? ? L3 _]; subst.
    destruct ib; [|discriminate L]. destruct ic; [|discriminate L2]. destruct id; [|discriminate L3]. discriminate N. }
  right. right. exists (rows [ia; ib; ic; id] (length ia)), combos, idx, (Some a'), (Some b'), (Some c'), (Some d'). split; auto. split; auto. split; auto.
  split; [split; eauto|]. split; [split; eauto|]. split; [split; eauto|]. split; [split; eauto|]. unfold taking. rewrite UA, UB, UC, UD. apply joint_rows.
Qed.

(** ** unify_index_data *)
Lemma usable_iff {A} (d : oarr A) t : usable d t <-> unusable d t = false.
Proof.
  unfold usable. destruct d as [[|x l]|], t as [i|]; cbn [unusable]; (split; [intros H; try reflexivity; destruct H as (?&?&?&?&?); discriminate|intros H; try discriminate H]).
  eauto 8.
Qed.
Lemma not_usable {A} (d : oarr A) t : unusable d t = true -> ~ usable d t.
Proof. intros H U. apply usable_iff in U. congruence. Qed.
Lemma agree_shared {A B} (a : oarr A) (b : oarr B) ia ib : agree a b ia ib -> shared a ia b ib.
Proof. intros H U V. apply usable_iff in U, V. auto. Qed.
Lemma numbered_eq rows combos idx p q : numbered rows combos idx -> p < length rows -> q < length rows ->
  (nth_error idx p = nth_error idx q <-> nth p rows [] = nth q rows []).
Proof.
  intros [C ->] P Q. rewrite !nth_error_map.
  rewrite (nth_error_nth' rows [] P), (nth_error_nth' rows [] Q). cbn [option_map]. split.
  - intros H. injection H as H. unfold posN in H.
    assert (I : In (nth p rows []) combos) by (rewrite C; apply firsts_in; right; apply nth_In; auto).
    assert (J : In (nth q rows []) combos) by (rewrite C; apply firsts_in; right; apply nth_In; auto).
    destruct (pos_in ld _ _ I) as [k K], (pos_in ld _ _ J) as [k' K']. rewrite K, K' in H.
    apply Nnat.Nat2N.inj in H. subst k'. apply pos_nth in K, K'. congruence.
  - intros ->. reflexivity.
Qed.
Lemma numbered_length rows combos idx : numbered rows combos idx -> length idx = length rows.
Proof. intros [_ ->]. apply map_length. Qed.
Lemma keeps_unified {A} rows combos idx (d : oarr A) t r : numbered rows combos idx -> keeps rows combos d t r ->
  unified idx (len combos) d t (match r with Some d' => Some d' | None => d end) (match r with Some _ => Some idx | None => t end).
Proof.
  intros N K. destruct r as [d'|]; cbn [keeps] in K.
  - destruct K as (U & d0 & i0 & -> & -> & P). right. split; [now apply usable_iff|]. exists d0, i0, d'.
    split; auto. split; auto. split; auto. split; auto. split; [eapply part_in_range; eauto|].
    split; [|unfold len; f_equal; eapply part_length; eauto]. rewrite (numbered_length _ _ _ N). destruct P as (f & -> & _). apply map_length.
  - left. split; [now apply not_usable|auto].
Qed.
Lemma keeps_buffer {A} rows combos idx (d : oarr A) t r : numbered rows combos idx -> keeps rows combos d t r ->
  buffer (match r with Some d' => Some d' | None => d end) (match r with Some _ => Some idx | None => t end) = buffer d t.
Proof.
  intros N K. destruct r as [d'|]; cbn [keeps] in K; auto. destruct K as (U & d0 & i0 & -> & -> & P). eapply part_buffer; eauto.
Qed.
Lemma keeps_same_at {A} rows combos (d : oarr A) t r p q : keeps rows combos d t r -> p < length rows -> q < length rows ->
  (same_at d t p q <-> forall i, In i (taking d t) -> nth p i 0%N = nth q i 0%N) /\
  (nth p rows [] = nth q rows [] -> same_at d t p q).
Proof.
  intros K P Q. unfold same_at, taking. destruct r as [d'|]; cbn [keeps] in K.
  - destruct K as (U & d0 & i0 & -> & -> & (f & F & _)). rewrite U. rewrite usable_iff.
    assert (LI : length i0 = length rows) by (rewrite F; apply map_length).
    assert (X : forall a b, a < length rows -> b < length rows -> (nth_error i0 a = nth_error i0 b <-> nth a i0 0%N = nth b i0 0%N)).
    { intros a b HA HB. rewrite (nth_error_nth' i0 0%N) by lia. rewrite (nth_error_nth' i0 (n:=b) 0%N) by lia. split; intros; congruence. }
    split.
    + split.
      * intros H i [<-|[]]. apply X; auto.
      * intros H _ i [= <-]. apply X; auto. apply H. cbn. auto.
    + intros H _ i [= <-]. rewrite F, !nth_error_map, (nth_error_nth' rows [] P), (nth_error_nth' rows [] Q). cbn [option_map]. now rewrite H.
  - apply not_usable in K as NU. rewrite K. destruct t; (split; [split; [intros _ i []|intros _ U; tauto]|intros _ U; tauto]).
Qed.

Definition all_shared (m : mesh) : Prop :=
  shared (vertices m) (vertex_triangles m) (normals m) (normal_triangles m) /\
  shared (vertices m) (vertex_triangles m) (uvs m) (uv_triangles m) /\
  shared (vertices m) (vertex_triangles m) (tangents m) (tangent_triangles m) /\
  shared (normals m) (normal_triangles m) (uvs m) (uv_triangles m) /\
  shared (normals m) (normal_triangles m) (tangents m) (tangent_triangles m) /\
  shared (uvs m) (uv_triangles m) (tangents m) (tangent_triangles m).
Definition all_short (m : mesh) : Prop :=
  short (vertex_triangles m) /\ short (normal_triangles m) /\ short (uv_triangles m) /\ short (tangent_triangles m).
Definition all_fit (m : mesh) : Prop := exists n,
  fits n (vertices m) (vertex_triangles m) /\ fits n (normals m) (normal_triangles m) /\
  fits n (uvs m) (uv_triangles m) /\ fits n (tangents m) (tangent_triangles m).
Definition same_buffers (m m' : mesh) : Prop :=
  buffer (vertices m') (vertex_triangles m') = buffer (vertices m) (vertex_triangles m) /\
  buffer (normals m') (normal_triangles m') = buffer (normals m) (normal_triangles m) /\
  buffer (uvs m') (uv_triangles m') = buffer (uvs m) (uv_triangles m) /\
  buffer (tangents m') (tangent_triangles m') = buffer (tangents m) (tangent_triangles m).
Definition all_unified (m m' : mesh) (idx : list N) (n : N) : Prop :=
  unified idx n (vertices m) (vertex_triangles m) (vertices m') (vertex_triangles m') /\
  unified idx n (normals m) (normal_triangles m) (normals m') (normal_triangles m') /\
  unified idx n (uvs m) (uv_triangles m) (uvs m') (uv_triangles m') /\
  unified idx n (tangents m) (tangent_triangles m) (tangents m') (tangent_triangles m').
Definition combination (m : mesh) (p q : nat) : Prop :=
  same_at (vertices m) (vertex_triangles m) p q /\ same_at (normals m) (normal_triangles m) p q /\
  same_at (uvs m) (uv_triangles m) p q /\ same_at (tangents m) (tangent_triangles m) p q.

Lemma unified_shared {A B} idx n (a a' : option (list A)) (b b' : option (list B)) ta ta' tb tb' :
  unified idx n a ta a' ta' -> unified idx n b tb b' tb' -> shared a' ta' b' tb'.
Proof.
  intros [(U & -> & ->)|(U & d0 & t0 & d1 & -> & -> & -> & -> & _)] [(V & -> & ->)|(V & e0 & s0 & e1 & -> & -> & -> & -> & _)] X Y; auto; tauto.
Qed.

Lemma unify_spec {E} m : all_short m ->
  (unify_index_data (E:=E) m = Panic /\ ~ all_fit m) \/
  (unify_index_data (E:=E) m = Ok m /\ all_shared m) \/
  (exists m' idx n, unify_index_data (E:=E) m = Ok m' /\ idx <> [] /\ first_use 0 idx n /\ all_unified m m' idx n /\
     same_buffers m m' /\ custom_data m' = custom_data m /\
     forall p q, p < length idx -> q < length idx -> (nth_error idx p = nth_error idx q <-> combination m p q)).
Proof.
  intros (S1 & S2 & S3 & S4). unfold unify_index_data.
  destruct (smart_4_spec (E:=E) (vertices m) (normals m) (uvs m) (tangents m) _ _ _ _ S1 S2 S3 S4)
    as [(-> & H)|[(-> & H)|(rws & cbs & idx & v & n & u & t & -> & N & NE & K1 & K2 & K3 & K4 & J)]]; cbn [bind].
  - left. auto.
  - right. left. split; auto. destruct H as (H1 & H2 & H3 & H4 & H5 & H6). repeat split; now apply agree_shared.
  - right. right.
    pose proof (keeps_unified _ _ _ _ _ _ N K1) as U1. pose proof (keeps_unified _ _ _ _ _ _ N K2) as U2.
    pose proof (keeps_unified _ _ _ _ _ _ N K3) as U3. pose proof (keeps_unified _ _ _ _ _ _ N K4) as U4.
    pose proof (keeps_buffer _ _ _ _ _ _ N K1) as B1. pose proof (keeps_buffer _ _ _ _ _ _ N K2) as B2.
    pose proof (keeps_buffer _ _ _ _ _ _ N K3) as B3. pose proof (keeps_buffer _ _ _ _ _ _ N K4) as B4.
    eexists _, idx, (len cbs). split; [reflexivity|].
    split. { intros ->. apply numbered_length in N. destruct rws; [congruence|discriminate N]. }
    split; [eapply numbered_first_use; eauto|].
    assert (X : forall p q, p < length idx -> q < length idx -> (nth_error idx p = nth_error idx q <-> combination m p q)).
    { intros p q P Q. rewrite (numbered_length _ _ _ N) in P, Q. rewrite (numbered_eq _ _ _ p q N P Q). unfold combination.
      destruct (keeps_same_at _ _ _ _ _ p q K1 P Q) as [I1 D1], (keeps_same_at _ _ _ _ _ p q K2 P Q) as [I2 D2],
        (keeps_same_at _ _ _ _ _ p q K3 P Q) as [I3 D3], (keeps_same_at _ _ _ _ _ p q K4 P Q) as [I4 D4]. split; [auto|].
      intros (E1 & E2 & E3 & E4). apply J; auto. intros i. rewrite !in_app_iff. destruct I1, I2, I3, I4. intros [I|[I|[I|I]]]; auto. }
    unfold all_unified, same_buffers.
    destruct v, n, u, t;
      cbn [set_vertices set_normals set_uvs set_tangents set_vertex_triangles set_normal_triangles set_uv_triangles set_tangent_triangles
           with_vertices with_normals with_uvs with_tangents with_vertex_triangles with_normal_triangles with_uv_triangles with_tangent_triangles
           fst snd vertices normals uvs tangents vertex_triangles normal_triangles uv_triangles tangent_triangles custom_data];
      (split; [split; [exact U1|split; [exact U2|split; [exact U3|exact U4]]]|]);
      (split; [split; [exact B1|split; [exact B2|split; [exact B3|exact B4]]]|]); split; auto.
Qed.

(** ** Doing it again *)
Definition ucount {A} (d : oarr A) (i : oarr N) : nat := if unusable d i then 0 else 1.
Lemma same_not_needed l i : (forall x, In (Some x) l -> x = i) -> is_merge_needed l = false.
Proof. intros H. apply needed_false. intros x y X Y. rewrite (H x X), (H y Y). reflexivity. Qed.
Lemma usable_some {A} (d : oarr A) i : unusable d i = false -> exists i0, i = Some i0.
Proof. destruct d as [[|? ?]|], i; try discriminate; eauto. Qed.
Lemma agree2_none {E A B} (a : oarr A) (b : oarr B) (ia ib : oarr N) : agree a b ia ib -> ucount a ia + ucount b ib >= 2 ->
  smart_merge_data_2 (E:=E) a b ia ib = Ok (None, None, None).
Proof.
  unfold ucount, agree. intros H U. destruct (unusable a ia) eqn:UA; [destruct (unusable b ib); cbn in U; lia|].
  destruct (unusable b ib) eqn:UB; [cbn in U; lia|]. rewrite <- (H eq_refl eq_refl). destruct (usable_some _ _ UA) as [i ->].
  unfold smart_merge_data_2. rewrite (same_not_needed _ i); [reflexivity|]. cbn. intros x [E1|[E1|[]]]; congruence.
Qed.
Lemma agree3_none {E A B C} (a : oarr A) (b : oarr B) (c : oarr C) (ia ib ic : oarr N) :
  agree a b ia ib -> agree a c ia ic -> agree b c ib ic -> ucount a ia + ucount b ib + ucount c ic >= 2 ->
  smart_merge_data_3 (E:=E) a b c ia ib ic = Ok (None, None, None, None).
Proof.
  intros H1 H2 H3 U. unfold smart_merge_data_3. destruct (is_merge_needed [ia; ib; ic]) eqn:N; cbn [negb]; auto.
  destruct (unusable a ia) eqn:UA.
  { rewrite agree2_none; auto. unfold ucount in *. rewrite UA in U. lia. }
  destruct (unusable b ib) eqn:UB.
  { rewrite agree2_none; auto. unfold ucount in *. rewrite UB in U. lia. }
  destruct (unusable c ic) eqn:UC.
  { rewrite agree2_none; auto. unfold ucount in *. rewrite UC in U. lia. }
  exfalso. destruct (usable_some _ _ UA) as [i EI]. rewrite <- (H1 UA UB), <- (H2 UA UC), EI in N.
  rewrite (same_not_needed _ i) in N; [discriminate|]. cbn. intros x [E1|[E1|[E1|[]]]]; congruence.
Qed.
Lemma agree4_none {E A B C D} (a : oarr A) (b : oarr B) (c : oarr C) (d : oarr D) (ia ib ic id : oarr N) :
  agree a b ia ib -> agree a c ia ic -> agree a d ia id -> agree b c ib ic -> agree b d ib id -> agree c d ic id ->
  ucount a ia + ucount b ib + ucount c ic + ucount d id >= 2 ->
  smart_merge_data_4 (E:=E) a b c d ia ib ic id = Ok (None, None, None, None, None).
Proof.
  intros H1 H2 H3 H4 H5 H6 U. unfold smart_merge_data_4. destruct (is_merge_needed [ia; ib; ic; id]) eqn:N; cbn [negb]; auto.
  destruct (unusable a ia) eqn:UA.
  { rewrite agree3_none; auto. unfold ucount in *. rewrite UA in U. lia. }
  destruct (unusable b ib) eqn:UB.
  { rewrite agree3_none; auto. unfold ucount in *. rewrite UB in U. lia. }
  destruct (unusable c ic) eqn:UC.
  { rewrite agree3_none; auto. unfold ucount in *. rewrite UC in U. lia. }
  destruct (unusable d id) eqn:UD.
  { rewrite agree3_none; auto. unfold ucount in *. rewrite UD in U. lia. }
  exfalso. destruct (usable_some _ _ UA) as [i EI]. rewrite <- (H1 UA UB), <- (H2 UA UC), <- (H3 UA UD), EI in N.
  rewrite (same_not_needed _ i) in N; [discriminate|]. cbn. intros x [E1|[E1|[E1|[E1|[]]]]]; congruence.
Qed.
Lemma ucount_le {A} (d : oarr A) i : ucount d i <= 1.
Proof. unfold ucount. destruct (unusable d i); lia. Qed.
(** The reverse: a merge that happened had two usable attributes. *)
Lemma smart_2_count {E A B} (a : oarr A) (b : oarr B) (ia ib : oarr N) a' b' i : short ia -> short ib ->
  smart_merge_data_2 (E:=E) a b ia ib = Ok (a', b', Some i) -> ucount a ia + ucount b ib >= 2.
Proof.
  intros Sa Sb H. destruct (smart_2_spec (E:=E) a b ia ib Sa Sb) as [(Q & _)|[(Q & _)|(rws & cbs & idx & x & y & Q & N & NE & [K1 _] & [K2 _] & _)]];
    rewrite Q in H; try discriminate H. unfold ucount. rewrite K1, K2. lia.
Qed.
Lemma smart_3_count {E A B C} (a : oarr A) (b : oarr B) (c : oarr C) (ia ib ic : oarr N) a' b' c' i : short ia -> short ib -> short ic ->
  smart_merge_data_3 (E:=E) a b c ia ib ic = Ok (a', b', c', Some i) -> ucount a ia + ucount b ib + ucount c ic >= 2.
Proof.
  intros Sa Sb Sc. unfold smart_merge_data_3. destruct (negb _); [discriminate|].
  destruct (unusable a ia) eqn:UA.
  { destruct (smart_merge_data_2 (E:=E) b c ib ic) as [[[? ?] ?]| |] eqn:Q; cbn [bind]; try discriminate. intros [= _ _ _ ->].
    apply smart_2_count in Q; auto. lia. }
  destruct (unusable b ib) eqn:UB.
  { destruct (smart_merge_data_2 (E:=E) a c ia ic) as [[[? ?] ?]| |] eqn:Q; cbn [bind]; try discriminate. intros [= _ _ _ ->].
    apply smart_2_count in Q; auto. lia. }
  intros _. unfold ucount. rewrite UA, UB. lia.
Qed.
Lemma smart_4_count {E A B C D} (a : oarr A) (b : oarr B) (c : oarr C) (d : oarr D) (ia ib ic id : oarr N) a' b' c' d' i :
  short ia -> short ib -> short ic -> short id ->
  smart_merge_data_4 (E:=E) a b c d ia ib ic id = Ok (a', b', c', d', Some i) ->
  ucount a ia + ucount b ib + ucount c ic + ucount d id >= 2.
Proof.
  intros Sa Sb Sc Sd. unfold smart_merge_data_4. destruct (negb _); [discriminate|].
  destruct (unusable a ia) eqn:UA.
  { destruct (smart_merge_data_3 (E:=E) b c d ib ic id) as [[[[? ?] ?] ?]| |] eqn:Q; cbn [bind]; try discriminate. intros [= _ _ _ _ ->].
    apply smart_3_count in Q; auto. lia. }
  destruct (unusable b ib) eqn:UB.
  { destruct (smart_merge_data_3 (E:=E) a c d ia ic id) as [[[[? ?] ?] ?]| |] eqn:Q; cbn [bind]; try discriminate. intros [= _ _ _ _ ->].
    apply smart_3_count in Q; auto. lia. }
  intros _. unfold ucount. rewrite UA, UB. lia.
Qed.

Lemma unified_ucount {A} idx n (d d' : option (list A)) t t' : unified idx n d t d' t' -> idx <> [] -> first_use 0 idx n ->
  ucount d' t' = ucount d t.
Proof.
  intros [(U & -> & ->)|(U & d0 & t0 & d1 & -> & -> & -> & -> & R & L & LN)] NE F; auto.
  apply usable_iff in U. unfold ucount. rewrite U. destruct d1; [|reflexivity].
  exfalso. unfold len in LN. cbn in LN. subst n. inversion F; subst; try congruence; [lia|].
  match goal with H : first_use (0 + 1) _ 0 |- _ => revert H end. clear. change (0 + 1)%N with 1%N. intros H.
  assert (X : forall a t b, first_use a t b -> (a <= b)%N) by (induction 1; lia). apply X in H. lia.
Qed.
Lemma Ok_inj_u {E A} (x y : A) : Ok (E:=E) x = Ok y -> x = y. Proof. congruence. Qed.
Lemma unify_again {E} m m' : all_short m -> unify_index_data (E:=E) m = Ok m' -> unify_index_data (E:=E) m' = Ok m'.
Proof.
  intros S H. destruct (unify_spec (E:=E) m S) as [(Q & _)|[(Q & _)|(m'' & idx & n & Q & NE & F & (U1 & U2 & U3 & U4) & _)]]; rewrite Q in H.
  - discriminate.
  - apply Ok_inj_u in H. subst m'. auto.
  - apply Ok_inj_u in H. subst m''.
    assert (C : ucount (vertices m) (vertex_triangles m) + ucount (normals m) (normal_triangles m) +
                ucount (uvs m) (uv_triangles m) + ucount (tangents m) (tangent_triangles m) >= 2 \/ m' = m).
    { unfold unify_index_data in Q.
      destruct (smart_merge_data_4 (E:=E) (vertices m) (normals m) (uvs m) (tangents m) (vertex_triangles m) (normal_triangles m)
                  (uv_triangles m) (tangent_triangles m)) as [[[[[? ?] ?] ?] [i|]]| |] eqn:R; cbn [bind] in Q; try discriminate Q.
      - left. destruct S as (? & ? & ? & ?). eapply smart_4_count; eauto.
      - right. apply Ok_inj_u in Q. auto. }
    destruct C as [C | ->]; [|auto].
    unfold unify_index_data. rewrite agree4_none; [reflexivity|..].
    7:{ rewrite (unified_ucount _ _ _ _ _ _ U1), (unified_ucount _ _ _ _ _ _ U2), (unified_ucount _ _ _ _ _ _ U3), (unified_ucount _ _ _ _ _ _ U4); auto. }
    all: intros X Y; apply usable_iff in X, Y; revert X Y; eapply unified_shared; eauto.
Qed.
