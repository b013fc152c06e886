(** Lemmas about the result of importing any OBJ text. *)
From Coq Require Import List NArith ZArith Arith Lia Bool ZifyN ZifyNat ZifyBool.
From Flocq Require Import IEEE754.BinarySingleNaN.
From Verif Require Import Base Floats Utilis Unify CustomData Mesh FileSpec MeshSpec File File_proofs Mesh_proofs Mesh2_proofs
  Importer Obj ObjSpec Obj_proofs Obj2_proofs PolygonSpec Polygon_proofs ImportedSpec.
Import ListNotations.
Open Scope res_scope.

(** ** Words of a line *)
Lemma utf8_cut l : utf8 l -> forall a c b, (c <= 127)%N -> l = a ++ c :: b -> utf8 a /\ utf8 b.
Proof.
  induction 1 as [|x t X U IH|x y t X Y U IH|x y z t X Z U IH|x y z w t X Z W U IH]; intros a c b C E.
  - destruct a; discriminate E.
  - destruct a as [|a0 a]; injection E as -> E; [subst; split; [constructor|auto]|]. destruct (IH _ _ _ C E). split; auto. now constructor.
  - destruct a as [|a0 [|a1 a]]; [injection E as -> E; lia|injection E as -> -> E; lia|]. injection E as -> -> E.
    destruct (IH _ _ _ C E). split; auto. now constructor.
  - destruct a as [|a0 [|a1 [|a2 a]]]; [injection E as -> E; lia|injection E as -> -> E; lia|injection E as -> -> -> E; lia|]. injection E as -> -> -> E.
    destruct (IH _ _ _ C E). split; auto. now constructor.
  - destruct a as [|a0 [|a1 [|a2 [|a3 a]]]]; [injection E as -> E; lia|injection E as -> -> E; lia|injection E as -> -> -> E; lia|injection E as -> -> -> -> E; lia|].
    injection E as -> -> -> -> E. destruct (IH _ _ _ C E). split; auto. now constructor.
Qed.
Lemma split_words l : forall acc, utf8 (acc ++ l) -> ~ In 32%N acc -> ~ In 47%N acc -> ~ In 10%N (acc ++ l) -> Forall one_word (split_from acc l).
Proof.
  induction l as [|c l IH]; intros acc U A1 A2 A3; cbn [split_from].
  - rewrite app_nil_r in *. repeat constructor; auto.
  - destruct ((c =? 32) || (c =? 47))%N eqn:S.
    + assert (C : (c <= 127)%N) by lia. destruct (utf8_cut _ U acc c l C eq_refl) as [U1 U2]. constructor.
      * split; [exact U1|]. split; [exact A1|]. split; [exact A2|]. intros I. apply A3, in_or_app. auto.
      * apply IH; [exact U2|intros []|intros []|]. cbn [app]. intros I. apply A3, in_or_app. right. right. exact I.
    + apply IH; rewrite <- ?app_assoc; auto; intros I; apply in_app_or in I as [I|[->|[]]]; auto; discriminate S.
Qed.
Lemma drop_cr_incl l : incl (drop_cr l) l.
Proof.
  induction l as [|c l IH]; [intros x []|]. cbn [drop_cr]. destruct l as [|d l]; [destruct (c =? 13)%N; [intros x []|apply incl_refl]|].
  intros x [->|I]; [now left|]. right. apply IH. exact I.
Qed.
Lemma lines_no_newline l : forall acc, ~ In 10%N acc -> Forall (fun line => ~ In 10%N line) (lines_from acc l).
Proof.
  induction l as [|c l IH]; intros acc A; cbn [lines_from].
  - destruct acc; repeat constructor; auto.
  - destruct (N.eqb_spec c 10) as [->|NE].
    + constructor; [intros I; apply A, drop_cr_incl, I|]. apply IH. intros [].
    + apply IH. intros I. apply in_app_or in I as [I|[->|[]]]; congruence.
Qed.

(** ** Faces *)
(** The importer got [k] more triangles in each array. *)
Definition fewer (l : list N) : Prop := Forall (fun i => (i + 1 < 2 ^ 32)%N) l.
Definition balanced (s : importer) : Prop :=
  exists k, triangle_indices k (i_vertex_triangles s) /\ triangle_indices k (i_normal_triangles s) /\ triangle_indices k (i_uv_triangles s).
(** [j] corners after [k] triangles. *)
Definition amid (j : nat) (s : importer) : Prop :=
  exists k, length (i_vertex_triangles s) = 3 * k + j /\ length (i_normal_triangles s) = 3 * k + j /\ length (i_uv_triangles s) = 3 * k + j /\
    fewer (i_vertex_triangles s) /\ fewer (i_normal_triangles s) /\ fewer (i_uv_triangles s).
Lemma amid_balanced s : amid 0 s <-> balanced s.
Proof.
  unfold amid, balanced, triangle_indices, fewer. split; intros [k H]; exists k; rewrite ?Nat.add_0_r in *; tauto.
Qed.
Lemma amid_full s : amid 3 s -> amid 0 s.
Proof. intros (k & L1 & L2 & L3 & F). exists (S k). repeat split; try tauto; lia. Qed.
Lemma index_in {E A} (l : list A) i x : index (E:=E) l i = Ok x -> In x l.
Proof. unfold index. destruct (get l i) eqn:G; [|discriminate]. intros [= ->]. rewrite get_nth in G. eapply nth_error_In; eauto. Qed.
Lemma corner_amid {E} j s v n u i s' : fewer v -> fewer n -> fewer u -> amid j s -> push_corner (E:=E) s v n u i = Ok s' ->
  amid (S j) s' /\ i_name s' = i_name s.
Proof.
  intros V N U (k & L1 & L2 & L3 & F1 & F2 & F3) H. unfold push_corner in H.
  destruct (index v i) as [a|e|] eqn:A; try discriminate H. cbn [bind] in H.
  destruct (index n i) as [b|e|] eqn:B; try discriminate H. cbn [bind] in H.
  destruct (index u i) as [c|e|] eqn:C; try discriminate H. cbn [bind] in H. injection H as <-.
  apply index_in in A, B, C. unfold fewer in *. rewrite Forall_forall in V, N, U.
  split; [|reflexivity]. exists k. cbn. rewrite !app_length. cbn [length].
  repeat split; try lia; apply Forall_app; (split; [assumption|]); constructor; auto.
Qed.
Lemma fewer_remove l i : fewer l -> fewer (remove l i).
Proof. unfold fewer. rewrite !Forall_forall. intros F x X. apply F. eapply remove_incl; eauto. Qed.
Lemma cut_amid {E} acos fuel : forall s v n u ears s' v' n' u', fewer v -> fewer n -> fewer u -> amid 0 s ->
  cut_ears (E:=E) acos fuel s v n u ears = Ok (s', v', n', u') ->
  amid 0 s' /\ i_name s' = i_name s /\ fewer v' /\ fewer n' /\ fewer u'.
Proof.
  induction fuel as [|fuel IH]; intros s v n u ears s' v' n' u' V N U A H; cbn [cut_ears] in H; [injection H as <- <- <- <-; auto|].
  destruct (ulen v <=? 3)%N; [injection H as <- <- <- <-; auto|].
  destruct (best_ear ears (length v) 0 0) as [best|e|]; try discriminate H. cbn [bind] in H.
  destruct (push_corner s v n u (pred64 best mod ulen v)%N) as [s1|e|] eqn:C1; try discriminate H. cbn [bind] in H.
  destruct (push_corner s1 v n u best) as [s2|e|] eqn:C2; try discriminate H. cbn [bind] in H.
  destruct (push_corner s2 v n u (succ64 best mod ulen v)%N) as [s3|e|] eqn:C3; try discriminate H. cbn [bind] in H.
  apply corner_amid with (j := 0) in C1 as [A1 E1]; auto. apply corner_amid with (j := 1) in C2 as [A2 E2]; auto.
  apply corner_amid with (j := 2) in C3 as [A3 E3]; auto.
  destruct (calc_ear_val_at_index _ _ _ _) as [e1|e|]; try discriminate H. cbn [bind] in H.
  destruct (calc_ear_val_at_index _ _ _ _) as [e2|e|]; try discriminate H. cbn [bind] in H.
  apply IH in H as (R1 & R2 & R3); auto using fewer_remove, amid_full. split; [exact R1|]. split; [congruence|exact R3].
Qed.
Lemma triangulate_amid {E} acos s v n u s' : fewer v -> fewer n -> fewer u -> amid 0 s ->
  triangulate (E:=E) acos s v n u = Ok s' -> amid 0 s' /\ i_name s' = i_name s.
Proof.
  intros V N U A H. unfold triangulate in H. destruct (all_ears _ _ _ _ _) as [ears|e|]; try discriminate H. cbn [bind] in H.
  destruct (cut_ears _ _ _ _ _ _ _) as [[[[s0 v0] n0] u0]|e|] eqn:C; try discriminate H. cbn [bind] in H.
  apply cut_amid in C as (A0 & E0 & V0 & N0 & U0); auto.
  destruct (push_corner s0 v0 n0 u0 0) as [s1|e|] eqn:C1; try discriminate H. cbn [bind] in H.
  destruct (push_corner s1 v0 n0 u0 1) as [s2|e|] eqn:C2; try discriminate H. cbn [bind] in H.
  apply corner_amid with (j := 0) in C1 as [A1 E1]; auto. apply corner_amid with (j := 1) in C2 as [A2 E2]; auto.
  apply corner_amid with (j := 2) in H as [A3 E3]; auto. split; [now apply amid_full|congruence].
Qed.
Lemma push_face_amid tri s v u n s' : fewer v -> fewer n -> fewer u -> amid 0 s -> push_face tri s v u n = Ok s' ->
  amid 0 s' /\ i_name s' = i_name s.
Proof.
  intros V N U A H. unfold push_face in H. destruct (negb _) eqn:L; [discriminate H|].
  apply negb_false_iff, andb_prop in L as [L1 L2]. apply Nat.eqb_eq in L1, L2.
  destruct v as [|a [|b [|c [|d v]]]]; try discriminate H.
  - destruct u as [|u0 [|u1 [|u2 [|]]]]; try discriminate L1. destruct n as [|n0 [|n1 [|n2 [|]]]]; try discriminate L2.
    injection H as <-. cbn [fold_left]. split; [|reflexivity]. apply amid_full. destruct A as (k & A1 & A2 & A3 & F1 & F2 & F3).
    exists k. cbn. rewrite !app_length. cbn [length]. unfold fewer in *.
    repeat split; try lia; rewrite <- !app_assoc; apply Forall_app; split; assumption.
  - destruct tri as [acos|]; [|discriminate H]. eapply triangulate_amid in H; eauto.
Qed.

(** ** Lines *)
Lemma parse_digits_lt l : forall acc x, (acc < 2 ^ 32)%N -> parse_digits l acc = Some x -> (x < 2 ^ 32)%N.
Proof.
  induction l as [|c l IH]; intros acc x A H; cbn [parse_digits] in H; [injection H as <-; exact A|].
  destruct ((48 <=? c) && (c <=? 57))%N; [|discriminate H]. destruct (acc * 10 + (c - 48) <? two32)%N eqn:L; [|discriminate H].
  apply IH in H; auto. apply N.ltb_lt in L. exact L.
Qed.
Lemma parse_index_lt s : (parse_index s < 2 ^ 32)%N.
Proof.
  unfold parse_index. destruct (parse_u32 s) as [x|] eqn:P; [|reflexivity]. unfold parse_u32 in P.
  destruct s as [|c [|d t]]; [discriminate P|..].
  - destruct ((c =? 43) || (c =? 45))%N; [discriminate P|]. eapply parse_digits_lt; [|exact P]. reflexivity.
  - destruct (c =? 43)%N; (eapply parse_digits_lt; [|exact P]; reflexivity).
Qed.
Lemma corners_fewer fuel : forall parts v u n v' u' n', fewer v -> fewer u -> fewer n ->
  load_corners fuel parts v u n = (v', u', n') -> fewer v' /\ fewer u' /\ fewer n'.
Proof.
  induction fuel as [|fuel IH]; intros parts v u n v' u' n' V U N H; cbn [load_corners] in H; [injection H as <- <- <-; auto|].
  destruct (load_indices parts) as [[[[a b] c] rest]|e|] eqn:L; try (injection H as <- <- <-; auto).
  apply IH in H; auto; unfold fewer in *; apply Forall_app; (split; [assumption|]); constructor; auto;
    unfold load_indices in L;
    (destruct (next_part parts) as [[p0 parts0]|e|]; try discriminate L; cbn [bind] in L;
     destruct (next_part parts0) as [[p1 parts1]|e|]; try discriminate L; cbn [bind] in L;
     destruct (next_part parts1) as [[p2 parts2]|e|]; try discriminate L; cbn [bind] in L);
    pose proof (parse_index_lt p0); pose proof (parse_index_lt p1); pose proof (parse_index_lt p2);
    destruct ((parse_index p0 <? 1) || (parse_index p1 <? 1) || (parse_index p2 <? 1))%N eqn:Z; try discriminate L; injection L as <- <- <- <-; lia.
Qed.

(** What holds of the importer after any number of lines. *)
Definition sound (s : importer) : Prop := balanced s /\ one_word (i_name s).
Lemma new_sound : sound importer_new.
Proof.
  split; [exists 0; repeat split; constructor|]. repeat split; try (intros []). constructor.
Qed.
Lemma prune_shape {A} (d : list A) k t d' t' : triangle_indices k t -> fast_prune d t = (d', t') -> triangle_indices k t'.
Proof.
  intros [L F] H. unfold fast_prune in H. destruct (prune_scan t _) as [m|]; injection H as <- <-; [|split; auto].
  split; [now rewrite map_length|]. apply Forall_forall. intros x X. apply in_map_iff in X as (y & <- & Y).
  rewrite Forall_forall in F. specialize (F y Y). lia.
Qed.
(** Nothing at the front is unused, except in the cases that do not matter. *)
Definition trimmed {A} (d : list A) (t : list N) : Prop := t = [] \/ In 0%N t \/ d = [] \/ (2 ^ 32 <= len d)%N.
Lemma prune_trimmed {A} (d : list A) t d' t' : fast_prune d t = (d', t') -> trimmed d' t'.
Proof.
  intros H. unfold fast_prune in H. destruct t as [|i t]; [cbn [prune_scan] in H; injection H as <- <-; now left|].
  destruct (prune_scan (i :: t) _) as [m|] eqn:P; injection H as <- <-; right.
  - apply prune_scan_some in P as (LE & Q & [M|M]).
    + right. subst m. unfold two32 in *. pose proof (N.div_mod (N.of_nat (length d)) 4294967296 ltac:(lia)) as D.
      destruct (N.eq_dec (N.of_nat (length d) / 4294967296) 0) as [Z|Z].
      * left. apply length_zero_iff_nil. rewrite skipn_length. lia.
      * right. unfold len. rewrite skipn_length. change (2 ^ 32)%N with 4294967296%N. lia.
    + left. change ((i - m)%N :: map (fun i => (i - m)%N) t) with (map (fun i => (i - m)%N) (i :: t)).
      apply in_map_iff. exists m. split; auto. lia.
  - left. now apply prune_scan_none in P.
Qed.
Definition whole (k : nat) (m : mesh) : Prop :=
  exists v tv n tn u tu, m = mk_mesh (Some n) (Some tn) (Some v) (Some tv) (Some u) (Some tu) None None [] /\
    triangle_indices k tv /\ triangle_indices k tn /\ triangle_indices k tu /\ trimmed v tv /\ trimmed n tn /\ trimmed u tu.
Lemma whole_imported k m : whole k m -> imported k m.
Proof. intros (v & tv & n & tn & u & tu & H). exists v, tv, n, tn, u, tu. tauto. Qed.
Lemma imported_is s k : triangle_indices k (i_vertex_triangles s) -> triangle_indices k (i_normal_triangles s) -> triangle_indices k (i_uv_triangles s) ->
  whole k (imported_mesh s).
Proof.
  intros V N U. unfold imported_mesh. destruct (fast_prune (i_vertices s) _) as [v tv] eqn:PV. destruct (fast_prune (i_normals s) _) as [n tn] eqn:PN.
  destruct (fast_prune (i_uvs s) _) as [u tu] eqn:PU. exists v, tv, n, tn, u, tu. split; [reflexivity|].
  split; [exact (prune_shape _ _ _ _ _ V PV)|]. split; [exact (prune_shape _ _ _ _ _ N PN)|]. split; [exact (prune_shape _ _ _ _ _ U PU)|].
  split; [exact (prune_trimmed _ _ _ _ PV)|]. split; [exact (prune_trimmed _ _ _ _ PN)|exact (prune_trimmed _ _ _ _ PU)].
Qed.
(** What was read: a whole mesh with a face. *)
Definition a_mesh (mn : mesh * list N) : Prop := (exists k, 0 < k /\ whole k (fst mn)) /\ one_word (snd mn).
Lemma line_sound ft tri line oi oi' o : ~ In 10%N line -> sound oi -> parse_line ft tri line oi = Ok (oi', o) ->
  sound oi' /\ forall mn, o = Some mn -> a_mesh mn.
Proof.
  intros NL [B W] H. unfold parse_line in H. destruct (utf8_valid line) eqn:U; [|discriminate H]. cbn [negb] in H.
  assert (WS : Forall one_word (split line)).
  { apply split_words; cbn [app]; auto; try (intros []). now apply utf8_valid_sound. }
  destruct (split line) as [|beg parts]; [discriminate H|]. cbn [next_part bind] in H. apply Forall_cons_iff in WS as [_ WS].
  destruct (list_eqb beg kw_v).
  { destruct (load_vec3 ft parts) as [x|e|]; try discriminate H. injection H as <- <-. split; [split; auto|discriminate]. }
  destruct (list_eqb beg kw_vn).
  { destruct (load_vec3 ft parts) as [x|e|]; try discriminate H. injection H as <- <-. split; [split; auto|discriminate]. }
  destruct (list_eqb beg kw_vt).
  { destruct (load_vec2 ft parts) as [x|e|]; try discriminate H. injection H as <- <-. split; [split; auto|discriminate]. }
  destruct (list_eqb beg kw_f).
  { unfold load_face in H. destruct (load_corners (length parts) parts [] [] []) as [[v u] n] eqn:LC.
    apply corners_fewer in LC as (V & UU & N); try (constructor; fail).
    destruct (push_face tri oi v u n) as [s|e|] eqn:P; try discriminate H. injection H as <- <-.
    apply push_face_amid in P as [A E]; auto; [|now apply amid_balanced]. split; [|discriminate]. split; [now apply amid_balanced|now rewrite E]. }
  destruct (list_eqb beg kw_o).
  { destruct parts as [|name parts]; [discriminate H|]. cbn [next_part bind] in H. apply Forall_cons_iff in WS as [WN _].
    unfold next_mesh in H. destruct B as (k & B1 & B2 & B3). destruct (i_vertex_triangles oi) as [|i t] eqn:T; injection H as <- <-.
    - split; [|discriminate]. split; [exists k; cbn; auto|exact WN].
    - split; [split; [exists 0; repeat split; constructor|exact WN]|]. intros mn [= <-]. split; [|exact W].
      exists k. split; [destruct B1 as [L _]; cbn in L; lia|]. apply imported_is; auto. now rewrite T. }
  injection H as <- <-. split; [split; auto|discriminate].
Qed.
Lemma lines_sound ft tri ls : forall oi acc oi' acc', Forall (fun line => ~ In 10%N line) ls -> sound oi -> Forall a_mesh acc ->
  read_lines ft tri ls oi acc = Ok (oi', acc') -> sound oi' /\ Forall a_mesh acc'.
Proof.
  induction ls as [|l ls IH]; intros oi acc oi' acc' NL S A H; cbn [read_lines] in H; [injection H as <- <-; auto|].
  apply Forall_cons_iff in NL as [N1 NL]. destruct (parse_line ft tri l oi) as [[oi1 o]|e|] eqn:P; try discriminate H. cbn [bind] in H.
  apply line_sound in P as [S1 M]; auto. apply IH in H; auto. destruct o; auto. apply Forall_app. split; auto.
Qed.

(** An array that is not changed by cutting unused data off. *)
Lemma front_cut_same {A} (d : list A) t d' t' : front_cut (Some d) (Some t) d' t' -> trimmed d t -> t <> [] -> MeshSpec.in_range d t ->
  (len d < 2 ^ 32)%N -> d' = Some d /\ t' = Some t.
Proof.
  intros (front & d1 & t1 & E1 & E2 & -> & ->) T NE R L. injection E1 as ->. injection E2 as ->.
  destruct T as [T|[T|[T|T]]]; [congruence| |destruct t1 as [|i t1]; [cbn in NE; congruence|inversion R; subst; rewrite T in *; unfold len in *; cbn in *; lia]|lia].
  apply in_map_iff in T as (i & Z & _). destruct front; [|unfold len in Z; cbn in Z; lia]. cbn [app len length].
  split; [reflexivity|]. f_equal. rewrite <- (map_id t1) at 1. apply map_ext. intros a. unfold len. cbn. lia.
Qed.
