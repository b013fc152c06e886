(** Lemmas about the reordering of triangles. *)
From Coq Require Import List NArith Arith Lia Bool Permutation Sorted.
From Verif Require Import Base ReorderTri ReorderSpec.
Import ListNotations.
Open Scope res_scope.

Lemma at_index_ok {E} (l : list N) i : i < length l -> at_index (E:=E) l i = Ok (nth i l 0%N).
Proof. intros L. unfold at_index. now rewrite (nth_error_nth' l 0%N L). Qed.
Definition col (arrays : list (list N)) (i : nat) : list N := map (fun a => nth i a 0%N) arrays.
Lemma column_ok {E} arrays i : Forall (fun a => i < length a) arrays -> column (E:=E) arrays i = Ok (col arrays i).
Proof.
  induction 1 as [|a t L F IH]; [reflexivity|]. cbn [column]. now rewrite at_index_ok, IH by auto.
Qed.
Definition before (arrays : list (list N)) (j : nat) : list N := match j with O => repeat 0%N (length arrays) | S i => col arrays i end.
Definition largest (arrays : list (list N)) (j : nat) (d : N) : N := fold_left (fun d a => N.max d (jump a j)) arrays d.
Lemma abs_diff_max a b : abs_diff a b = N.max (a - b) (b - a).
Proof. unfold abs_diff. destruct (N.leb_spec a b); lia. Qed.
Lemma delta_loop_ok {E} j arrays : forall d, Forall (fun a => j < length a) arrays ->
  delta_loop (E:=E) arrays (before arrays j) j d = Ok (largest arrays j d, col arrays j).
Proof.
  induction arrays as [|a t IH]; intros d F; [destruct j; reflexivity|]. inversion F as [|? ? F1 F2]; subst.
  assert (B : before (a :: t) j = match j with O => 0%N | S i => nth i a 0%N end :: before t j) by (destruct j; reflexivity).
  rewrite B. cbn [delta_loop]. rewrite at_index_ok by auto. cbn [bind]. rewrite abs_diff_max.
  match goal with |- context [N.max ?d (N.max ?x ?y)] => change (N.max x y) with (jump a j) end.
  rewrite IH by auto. reflexivity.
Qed.
Lemma deltas_loop_ok {E} arrays n : forall s, Forall (fun a => s + n <= length a) arrays ->
  deltas_loop (E:=E) arrays (before arrays s) (seq s n) = Ok (map (fun j => largest arrays j 0) (seq s n)).
Proof.
  induction n as [|n IH]; intros s F; [reflexivity|]. cbn [seq deltas_loop map]. rewrite delta_loop_ok.
  2: { eapply Forall_impl; [|exact F]. cbn. lia. }
  cbn [bind]. change (col arrays s) with (before arrays (S s)). rewrite IH; [reflexivity|]. eapply Forall_impl; [|exact F]. cbn. lia.
Qed.
Definition near16 (arrays : list (list N)) (t : nat) : bool :=
  (N.max (N.max (largest arrays (t * 3) 0) (largest arrays (t * 3 + 1) 0)) (largest arrays (t * 3 + 2) 0) <? 16)%N.
Definition cols3 (arrays : list (list N)) (t : nat) : list (list N) := [col arrays (t * 3); col arrays (t * 3 + 1); col arrays (t * 3 + 2)].
Lemma sort_loop_ok {E} arrays n : Forall (fun a => length a = n) arrays -> forall ts s u, Forall (fun t => 3 * t + 3 <= n) ts ->
  sort_loop (E:=E) arrays (map (fun j => largest arrays j 0) (seq 0 n)) ts s u =
  Ok (s ++ concat (map (cols3 arrays) (filter (near16 arrays) ts)), u ++ concat (map (cols3 arrays) (filter (fun t => negb (near16 arrays t)) ts))).
Proof.
  intros F. induction ts as [|t ts IH]; intros s u T; [cbn; now rewrite !app_nil_r|]. inversion T as [|? ? T1 T2]; subst. cbn [sort_loop].
  assert (D : forall j, j < n -> at_index (E:=E) (map (fun j => largest arrays j 0) (seq 0 n)) j = Ok (largest arrays j 0)).
  { intros j J. rewrite at_index_ok by (now rewrite map_length, seq_length). f_equal.
    rewrite (nth_indep _ 0%N (largest arrays 0 0)) by (now rewrite map_length, seq_length).
    rewrite (map_nth (fun j => largest arrays j 0) (seq 0 n) 0 j). now rewrite seq_nth. }
  rewrite !D by lia. cbn [bind]. rewrite !column_ok by (eapply Forall_impl; [|exact F]; cbn; lia). cbn [bind].
  fold (near16 arrays t). cbn [filter]. destruct (near16 arrays t); cbn [negb]; rewrite IH by auto; cbn [map concat]; rewrite <- app_assoc; reflexivity.
Qed.
Lemma pick_ok {E} k l : Forall (fun c => k < length c) l -> pick (E:=E) l k = Ok (map (fun c => nth k c 0%N) l).
Proof. induction 1 as [|c t L F IH]; [reflexivity|]. cbn [pick map]. now rewrite at_index_ok, IH by auto. Qed.
Lemma cols_long arrays k ts : k < length arrays -> Forall (fun c => k < length c) (concat (map (cols3 arrays) ts)).
Proof.
  intros K. induction ts as [|t ts IH]; [constructor|]. cbn [map concat]. apply Forall_app. split; auto.
  unfold cols3, col. repeat constructor; now rewrite map_length.
Qed.
Lemma triangle_is a t : 3 * t + 3 <= length a -> triangle a t = [nth (t * 3) a 0; nth (t * 3 + 1) a 0; nth (t * 3 + 2) a 0]%N.
Proof.
  intros L. unfold triangle. rewrite Nat.mul_comm in L. rewrite (Nat.mul_comm 3 t).
  rewrite <- (firstn_skipn (t * 3) a) at 2 3 4. assert (LF : length (firstn (t * 3) a) = t * 3) by (rewrite firstn_length; lia).
  rewrite !app_nth2 by lia. rewrite !LF. replace (t * 3 - t * 3) with 0 by lia. replace (t * 3 + 1 - t * 3) with 1 by lia. replace (t * 3 + 2 - t * 3) with 2 by lia.
  assert (LS : 3 <= length (skipn (t * 3) a)) by (rewrite skipn_length; lia).
  destruct (skipn (t * 3) a) as [|x [|y [|z l]]]; cbn in LS; try lia. reflexivity.
Qed.
Lemma pick_cols arrays k ts a : nth_error arrays k = Some a -> Forall (fun t => 3 * t + 3 <= length a) ts ->
  map (fun c => nth k c 0%N) (concat (map (cols3 arrays) ts)) = pick_triangles a ts.
Proof.
  intros NA. assert (N1 : forall i, nth k (col arrays i) 0%N = nth i a 0%N).
  { intros i. unfold col. rewrite (nth_indep _ 0%N (nth i [] 0%N)).
    - rewrite (map_nth (fun a => nth i a 0%N)). now rewrite (nth_error_nth _ _ _ NA).
    - rewrite map_length. apply nth_error_Some. congruence. }
  unfold pick_triangles. induction 1 as [|t ts L F IH]; [reflexivity|]. cbn [map concat]. rewrite map_app, IH. f_equal.
  unfold cols3. cbn [map]. rewrite !N1. symmetry. now apply triangle_is.
Qed.
Lemma new_indices_ok {E} arrays n s u ks : Forall (fun a => length a = n) arrays -> Forall (fun t => 3 * t + 3 <= n) (s ++ u) -> Forall (fun k => k < length arrays) ks ->
  new_indices_loop (E:=E) (concat (map (cols3 arrays) s)) (concat (map (cols3 arrays) u)) ks = Ok (map (fun k => pick_triangles (nth k arrays []) (s ++ u)) ks).
Proof.
  intros F T. induction 1 as [|k ks K KF IH]; [reflexivity|]. cbn [new_indices_loop map].
  rewrite !pick_ok by now apply cols_long. cbn [bind]. rewrite IH. cbn [bind]. f_equal. f_equal.
  assert (NA : nth_error arrays k = Some (nth k arrays [])) by now apply nth_error_nth'.
  assert (LA : length (nth k arrays []) = n). { rewrite Forall_forall in F. apply F, nth_In, K. }
  apply Forall_app in T as [T1 T2].
  rewrite (pick_cols arrays k s _ NA), (pick_cols arrays k u _ NA) by (rewrite LA; auto). unfold pick_triangles. now rewrite map_app, concat_app.
Qed.
Lemma map_seq_nth {A B} (f : A -> B) d l : map (fun k => f (nth k l d)) (seq 0 (length l)) = map f l.
Proof.
  induction l as [|x l IH]; [reflexivity|]. cbn [length seq map nth]. f_equal. rewrite <- seq_shift, map_map. exact IH.
Qed.

Lemma largest_lt j b arrays : forall d, (largest arrays j d < b)%N <-> (d < b)%N /\ Forall (fun a => (jump a j < b)%N) arrays.
Proof.
  induction arrays as [|a t IH]; intros d; cbn [largest fold_left]; [split; [auto|tauto]|]. fold (largest t j (N.max d (jump a j))). rewrite IH, Forall_cons_iff, N.max_lub_lt_iff. tauto.
Qed.
Lemma near16_compact arrays t : near16 arrays t = true <-> compact arrays t.
Proof.
  unfold near16. rewrite N.ltb_lt, !N.max_lub_lt_iff, !largest_lt. rewrite !Forall_forall. unfold compact. split.
  - intros (((_ & A) & (_ & B)) & (_ & C)) a j I J. assert (j = t * 3 \/ j = t * 3 + 1 \/ j = t * 3 + 2) as [->|[->| ->]] by lia; auto.
  - intros H. repeat split; try reflexivity; intros a I; apply H; auto; lia.
Qed.
Lemma filter_seq_sorted f n : forall s, StronglySorted lt (filter f (seq s n)).
Proof.
  induction n as [|n IH]; intros s; cbn [seq filter]; [constructor|]. destruct (f s); auto. constructor; auto.
  apply Forall_forall. intros x I. apply filter_In in I as [I _]. apply in_seq in I. lia.
Qed.
Lemma filter_perm {A} f (l : list A) : Permutation (filter f l ++ filter (fun x => negb (f x)) l) l.
Proof.
  induction l as [|x l IH]; [constructor|]. cbn [filter]. destruct (f x); cbn [negb].
  - cbn [app]. now constructor.
  - apply Permutation_trans with (x :: filter f l ++ filter (fun x => negb (f x)) l); [symmetry; apply Permutation_middle|now constructor].
Qed.
Lemma reorder_ok {E} arrays n : arrays <> [] -> Forall (fun a => length a = n) arrays ->
  exists order, new_order arrays (n / 3) order /\ reorder_triangles (E:=E) (length arrays) arrays = Ok (map (fun a => pick_triangles a order) arrays).
Proof.
  intros NE F. set (near := filter (near16 arrays) (seq 0 (n / 3))). set (far := filter (fun t => negb (near16 arrays t)) (seq 0 (n / 3))).
  exists (near ++ far). split.
  - exists near, far. split; auto. split; [apply filter_perm|]. split; [apply filter_seq_sorted|]. split; [apply filter_seq_sorted|]. split.
    + apply Forall_forall. intros t I. apply filter_In in I as [_ I]. now apply near16_compact.
    + apply Forall_forall. intros t I. apply filter_In in I as [_ I]. rewrite <- near16_compact. now destruct (near16 arrays t).
  - unfold reorder_triangles. rewrite Nat.eqb_refl. cbn [negb]. assert (EX : exists a0 t0, arrays = a0 :: t0) by (destruct arrays as [|a0 t0]; [congruence|eauto]). destruct EX as (a0 & t0 & EA).
    assert (A0 : at_index (E:=E) arrays 0 = Ok a0) by now rewrite EA. rewrite A0. cbn [bind].
    assert (L0 : length a0 = n). { rewrite EA in F. now inversion F. } rewrite L0.
    assert (FA : forallb (fun a => length a =? n) arrays = true). { apply forallb_forall. intros a I. apply Nat.eqb_eq. rewrite Forall_forall in F. auto. }
    rewrite FA. cbn [negb]. change (repeat 0%N (length arrays)) with (before arrays 0). rewrite deltas_loop_ok by (eapply Forall_impl; [|exact F]; cbn; lia). cbn [bind].
    assert (TS : Forall (fun t => 3 * t + 3 <= n) (seq 0 (n / 3))).
    { apply Forall_forall. intros t I. apply in_seq in I. pose proof (Nat.div_mod n 3 ltac:(lia)). lia. }
    rewrite (sort_loop_ok arrays n) by auto. cbn [bind app]. fold near far.
    rewrite (new_indices_ok arrays n); auto.
    + f_equal. apply (map_seq_nth (fun a => pick_triangles a (near ++ far))).
    + eapply Permutation_Forall; [symmetry; apply filter_perm|exact TS].
    + apply Forall_forall. intros k I. apply in_seq in I. lia.
Qed.
Lemma pick_length a order : (forall x, In x order -> length (triangle a x) = 3) -> length (pick_triangles a order) = 3 * length order.
Proof.
  unfold pick_triangles. induction order as [|x l IH]; intros T; [reflexivity|]. cbn [map concat]. rewrite app_length, T by now left. rewrite IH by (intros y Y; apply T; now right).
  cbn [length]. lia.
Qed.
Lemma triangle_app p a t : length p = 3 -> triangle (p ++ a) (S t) = triangle a t.
Proof. intros L. unfold triangle. rewrite skipn_app, L. replace (3 * S t - 3) with (3 * t) by lia. rewrite skipn_all2 by lia. reflexivity. Qed.
Lemma triangle_app0 p a : length p = 3 -> triangle (p ++ a) 0 = p.
Proof. intros L. unfold triangle. rewrite Nat.mul_0_r, skipn_O, firstn_app, L, Nat.sub_diag, firstn_O, app_nil_r. rewrite <- L. apply firstn_all. Qed.
Lemma triangles_of_pick a order : (forall x, In x order -> length (triangle a x) = 3) ->
  map (triangle (pick_triangles a order)) (seq 0 (length order)) = map (triangle a) order.
Proof.
  unfold pick_triangles. induction order as [|x l IH]; intros T; [reflexivity|]. cbn [map concat length seq]. rewrite triangle_app0 by (apply T; now left). f_equal.
  rewrite <- seq_shift, map_map. transitivity (map (triangle (concat (map (triangle a) l))) (seq 0 (length l))); [|apply IH; intros y Y; apply T; now right]. apply map_ext. intros t. apply triangle_app, T. now left.
Qed.
Lemma pick_all a : forall k, length a = 3 * k -> pick_triangles a (seq 0 k) = a.
Proof.
  intros k. revert a. induction k as [|k IH]; intros a L; [now destruct a|].
  rewrite <- (firstn_skipn 3 a). assert (L3 : length (firstn 3 a) = 3) by (rewrite firstn_length; lia).
  set (p := firstn 3 a) in *. set (r := skipn 3 a). assert (LR : length r = 3 * k) by (unfold r; rewrite skipn_length; lia).
  unfold pick_triangles. cbn [seq map concat]. rewrite triangle_app0 by auto. f_equal. rewrite <- seq_shift, map_map.
  rewrite (map_ext _ (triangle r)) by (intros t; now apply triangle_app). now apply IH.
Qed.
Lemma Permutation_concat_map {A B} (f : A -> list B) l m : Permutation l m -> Permutation (concat (map f l)) (concat (map f m)).
Proof.
  induction 1 as [|x l m P IH|x y l|l m k P1 I1 P2 I2]; cbn [map concat].
  - constructor.
  - now apply Permutation_app_head.
  - rewrite !app_assoc. apply Permutation_app_tail, Permutation_app_comm.
  - now apply Permutation_trans with (concat (map f m)).
Qed.
Lemma reorder_panics {E} count arrays :
  reorder_triangles (E:=E) count arrays = Panic <->
  (length arrays <> count \/ arrays = [] \/ exists a b, In a arrays /\ In b arrays /\ length a <> length b).
Proof.
  destruct (Nat.eq_dec (length arrays) count) as [<-|NC].
  2: { split; [now left|]. intros _. unfold reorder_triangles. now rewrite (proj2 (Nat.eqb_neq _ _) NC). }
  destruct arrays as [|a0 t]; [split; [auto|reflexivity]|]. set (arrays := a0 :: t).
  destruct (forallb (fun a => length a =? length a0) arrays) eqn:FB.
  - assert (F : Forall (fun a => length a = length a0) arrays).
    { apply Forall_forall. intros a I. rewrite forallb_forall in FB. now apply Nat.eqb_eq, FB. }
    destruct (reorder_ok (E:=E) arrays (length a0)) as (o & _ & R); [discriminate|auto|]. rewrite R. split; [discriminate|].
    intros [K|[K|(a & b & A & B & D)]]; [congruence|discriminate|]. rewrite Forall_forall in F. now rewrite (F a A), (F b B) in D.
  - split.
    + intros _. right. right. assert (X : exists a, In a arrays /\ length a <> length a0).
      { clear - FB. induction arrays as [|x l IH]; [discriminate|]. cbn [forallb] in FB. destruct (Nat.eqb_spec (length x) (length a0)) as [E|E].
        - destruct (IH FB) as (a & I & D). exists a. split; [now right|auto].
        - exists x. split; [now left|auto]. }
      destruct X as (a & I & D). exists a, a0. split; auto. split; [now left|auto].
    + intros _. unfold reorder_triangles. rewrite Nat.eqb_refl. cbn [negb]. unfold arrays at 1. cbn [at_index nth_error bind]. fold arrays. now rewrite FB.
Qed.
