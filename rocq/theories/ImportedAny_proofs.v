(** Lemmas about the result of importing any OBJ text, for all number types. *)
From Coq Require Import List NArith ZArith Arith Lia Bool ZifyN ZifyNat ZifyBool.
From Verif Require Import Base Floats Utilis Unify CustomData Mesh FileSpec MeshSpec File File_proofs Mesh_proofs Mesh2_proofs
  Importer Obj ObjSpec Obj_proofs Obj2_proofs PolygonSpec Polygon_proofs ImportedSpec Imported_proofs ObjAny ObjAnySpec ObjAny_proofs TriAny ImportedAnySpec.
Import ListNotations.
Open Scope res_scope.

Section Any.
Context {Fl : Type} (top : N) (TOP : index_type top).
Implicit Types (ft : any_text Fl) (g : angles Fl) (s oi : any_importer Fl) (tri : option (angles Fl)).
(** ** Faces *)
(** The importer got [k] more triangles in each array. *)
Definition fewer_a (l : list N) : Prop := Forall (fun i => (i + 1 < top)%N) l.
Definition balanced_a (s : any_importer Fl) : Prop :=
  exists k, any_triangle_indices top k (ai_vertex_triangles s) /\ any_triangle_indices top k (ai_normal_triangles s) /\ any_triangle_indices top k (ai_uv_triangles s).
(** [j] corners after [k] triangles. *)
Definition amid_a (j : nat) (s : any_importer Fl) : Prop :=
  exists k, length (ai_vertex_triangles s) = 3 * k + j /\ length (ai_normal_triangles s) = 3 * k + j /\ length (ai_uv_triangles s) = 3 * k + j /\
    fewer_a (ai_vertex_triangles s) /\ fewer_a (ai_normal_triangles s) /\ fewer_a (ai_uv_triangles s).
Lemma amid_balanced_a s : amid_a 0 s <-> balanced_a s.
Proof.
  unfold amid_a, balanced_a, any_triangle_indices, fewer_a. split; intros [k H]; exists k; rewrite ?Nat.add_0_r in *; tauto.
Qed.
Lemma amid_full_a s : amid_a 3 s -> amid_a 0 s.
Proof. intros (k & L1 & L2 & L3 & F). exists (S k). repeat split; try tauto; lia. Qed.
Lemma corner_amid_a {E} j s v n u i s' : fewer_a v -> fewer_a n -> fewer_a u -> amid_a j s -> any_push_corner (E:=E) s v n u i = Ok s' ->
  amid_a (S j) s' /\ ai_name s' = ai_name s.
Proof.
  intros V N U (k & L1 & L2 & L3 & F1 & F2 & F3) H. unfold any_push_corner in H.
  destruct (index v i) as [a|e|] eqn:A; try discriminate H. cbn [bind] in H.
  destruct (index n i) as [b|e|] eqn:B; try discriminate H. cbn [bind] in H.
  destruct (index u i) as [c|e|] eqn:C; try discriminate H. cbn [bind] in H. injection H as <-.
  apply index_in in A, B, C. unfold fewer_a in *. rewrite Forall_forall in V, N, U.
  split; [|reflexivity]. exists k. cbn. rewrite !app_length. cbn [length].
  repeat split; try lia; apply Forall_app; (split; [assumption|]); constructor; auto.
Qed.
Lemma fewer_remove_a l i : fewer_a l -> fewer_a (remove l i).
Proof. unfold fewer_a. rewrite !Forall_forall. intros F x X. apply F. eapply remove_incl; eauto. Qed.
Lemma cut_amid_a {E} g fuel : forall s v n u ears s' v' n' u', fewer_a v -> fewer_a n -> fewer_a u -> amid_a 0 s ->
  any_cut_ears (E:=E) g fuel s v n u ears = Ok (s', v', n', u') ->
  amid_a 0 s' /\ ai_name s' = ai_name s /\ fewer_a v' /\ fewer_a n' /\ fewer_a u'.
Proof.
  induction fuel as [|fuel IH]; intros s v n u ears s' v' n' u' V N U A H; cbn [any_cut_ears] in H; [injection H as <- <- <- <-; auto|].
  destruct (ulen v <=? 3)%N; [injection H as <- <- <- <-; auto|].
  destruct (any_best_ear g ears (length v) 0 0) as [best|e|]; try discriminate H. cbn [bind] in H.
  destruct (any_push_corner s v n u (pred64 best mod ulen v)%N) as [s1|e|] eqn:C1; try discriminate H. cbn [bind] in H.
  destruct (any_push_corner s1 v n u best) as [s2|e|] eqn:C2; try discriminate H. cbn [bind] in H.
  destruct (any_push_corner s2 v n u (succ64 best mod ulen v)%N) as [s3|e|] eqn:C3; try discriminate H. cbn [bind] in H.
  apply corner_amid_a with (j := 0) in C1 as [A1 E1]; auto. apply corner_amid_a with (j := 1) in C2 as [A2 E2]; auto.
  apply corner_amid_a with (j := 2) in C3 as [A3 E3]; auto.
  destruct (any_calc_ear _ _ _ _) as [e1|e|]; try discriminate H. cbn [bind] in H.
  destruct (any_calc_ear _ _ _ _) as [e2|e|]; try discriminate H. cbn [bind] in H.
  apply IH in H as (R1 & R2 & R3); auto using fewer_remove_a, amid_full_a. split; [exact R1|]. split; [congruence|exact R3].
Qed.
Lemma triangulate_amid_a {E} g s v n u s' : fewer_a v -> fewer_a n -> fewer_a u -> amid_a 0 s ->
  any_triangulate (E:=E) g s v n u = Ok s' -> amid_a 0 s' /\ ai_name s' = ai_name s.
Proof.
  intros V N U A H. unfold any_triangulate in H. destruct (any_all_ears _ _ _ _ _) as [ears|e|]; try discriminate H. cbn [bind] in H.
  destruct (any_cut_ears _ _ _ _ _ _ _) as [[[[s0 v0] n0] u0]|e|] eqn:C; try discriminate H. cbn [bind] in H.
  apply cut_amid_a in C as (A0 & E0 & V0 & N0 & U0); auto.
  destruct (any_push_corner s0 v0 n0 u0 0) as [s1|e|] eqn:C1; try discriminate H. cbn [bind] in H.
  destruct (any_push_corner s1 v0 n0 u0 1) as [s2|e|] eqn:C2; try discriminate H. cbn [bind] in H.
  apply corner_amid_a with (j := 0) in C1 as [A1 E1]; auto. apply corner_amid_a with (j := 1) in C2 as [A2 E2]; auto.
  apply corner_amid_a with (j := 2) in H as [A3 E3]; auto. split; [now apply amid_full_a|congruence].
Qed.
Lemma push_face_amid_a tri s v u n s' : fewer_a v -> fewer_a n -> fewer_a u -> amid_a 0 s -> any_push_face (polygons tri) s v u n = Ok s' ->
  amid_a 0 s' /\ ai_name s' = ai_name s.
Proof.
  intros V N U A H. unfold any_push_face in H. destruct (negb _) eqn:L; [discriminate H|].
  apply negb_false_iff, andb_prop in L as [L1 L2]. apply Nat.eqb_eq in L1, L2.
  destruct v as [|a [|b [|c [|d v]]]]; try discriminate H.
  - destruct u as [|u0 [|u1 [|u2 [|]]]]; try discriminate L1. destruct n as [|n0 [|n1 [|n2 [|]]]]; try discriminate L2.
    injection H as <-. cbn [fold_left]. split; [|reflexivity]. apply amid_full_a. destruct A as (k & A1 & A2 & A3 & F1 & F2 & F3).
    exists k. cbn. rewrite !app_length. cbn [length]. unfold fewer_a in *.
    repeat split; try lia; apply Forall_app; split; assumption.
  - destruct tri as [g|]; cbn [polygons option_map] in H; [|discriminate H]. eapply triangulate_amid_a in H; eauto.
Qed.

(** ** Lines *)
Lemma parse_digits_lt_a l : forall acc x, (acc < top)%N -> digits_any top l acc = Some x -> (x < top)%N.
Proof.
  induction l as [|c l IH]; intros acc x A H; cbn [digits_any] in H; [injection H as <-; exact A|].
  destruct ((48 <=? c) && (c <=? 57))%N; [|discriminate H]. destruct (acc * 10 + (c - 48) <? top)%N eqn:L; [|discriminate H].
  apply IH in H; auto. apply N.ltb_lt in L. exact L.
Qed.
Lemma parse_index_lt_a (s : list N) : (any_index top s < top)%N.
Proof using TOP.
  pose proof (top_range top TOP) as TR.
  unfold any_index. destruct (parse_any top s) as [x|] eqn:P; [|lia]. unfold parse_any in P.
  destruct s as [|c [|d t]]; [discriminate P|..].
  - destruct ((c =? 43) || (c =? 45))%N; [discriminate P|]. eapply parse_digits_lt_a; [|exact P]. lia.
  - destruct (c =? 43)%N; (eapply parse_digits_lt_a; [|exact P]; lia).
Qed.
Lemma corners_fewer_a fuel : forall parts v u n v' u' n', fewer_a v -> fewer_a u -> fewer_a n ->
  any_corners top fuel parts v u n = (v', u', n') -> fewer_a v' /\ fewer_a u' /\ fewer_a n'.
Proof.
  induction fuel as [|fuel IH]; intros parts v u n v' u' n' V U N H; cbn [any_corners] in H; [injection H as <- <- <-; auto|].
  destruct (any_indices top parts) as [[[[a b] c] rest]|e|] eqn:L; try (injection H as <- <- <-; auto).
  apply IH in H; auto; unfold fewer_a in *; apply Forall_app; (split; [assumption|]); constructor; auto;
    unfold any_indices in L;
    (destruct (next_part parts) as [[p0 parts0]|e|]; try discriminate L; cbn [bind] in L;
     destruct (next_part parts0) as [[p1 parts1]|e|]; try discriminate L; cbn [bind] in L;
     destruct (next_part parts1) as [[p2 parts2]|e|]; try discriminate L; cbn [bind] in L);
    pose proof (parse_index_lt_a p0); pose proof (parse_index_lt_a p1); pose proof (parse_index_lt_a p2);
    destruct ((any_index top p0 <? 1) || (any_index top p1 <? 1) || (any_index top p2 <? 1))%N eqn:Z; try discriminate L; injection L as <- <- <- <-; lia.
Qed.

(** What holds of the importer after any number of lines. *)
Definition sound_a (s : any_importer Fl) : Prop := balanced_a s /\ one_word (ai_name s).
Lemma new_sound_a : sound_a any_importer_new.
Proof.
  split; [exists 0; repeat split; constructor|]. repeat split; try (intros []). constructor.
Qed.
Lemma prune_shape_a {A} (d : list A) k t d' t' : any_triangle_indices top k t -> prune_any top d t = (d', t') -> any_triangle_indices top k t'.
Proof.
  intros [L F] H. unfold prune_any in H. destruct (prune_scan t _) as [m|]; injection H as <- <-; [|split; auto].
  split; [now rewrite map_length|]. apply Forall_forall. intros x X. apply in_map_iff in X as (y & <- & Y).
  rewrite Forall_forall in F. specialize (F y Y). lia.
Qed.
(** Nothing at the front is unused, except in the cases that do not matter. *)
Definition trimmed_a {A} (d : list A) (t : list N) : Prop := t = [] \/ In 0%N t \/ d = [] \/ (top <= len d)%N.
Lemma prune_trimmed_a {A} (d : list A) t d' t' : prune_any top d t = (d', t') -> trimmed_a d' t'.
Proof.
  intros H. unfold prune_any in H. destruct t as [|i t]; [cbn [prune_scan] in H; injection H as <- <-; now left|].
  destruct (prune_scan (i :: t) _) as [m|] eqn:P; injection H as <- <-; right.
  - apply prune_scan_some in P as (LE & Q & [M|M]).
    + right. subst m. pose proof (top_range top TOP) as TR. pose proof (N.div_mod (N.of_nat (length d)) top ltac:(lia)) as D.
      destruct (N.eq_dec (N.of_nat (length d) / top) 0) as [Z|Z].
      * left. apply length_zero_iff_nil. rewrite skipn_length. rewrite Z, N.mul_0_r in D. lia.
      * right. unfold len. rewrite skipn_length. assert (top * 1 <= top * (N.of_nat (length d) / top))%N by (apply N.mul_le_mono_l; revert Z; generalize (N.of_nat (length d) / top)%N; clear; lia).
        revert D H; generalize (N.of_nat (length d) mod top)%N (top * (N.of_nat (length d) / top))%N; clear; lia.
    + left. change ((i - m)%N :: map (fun i => (i - m)%N) t) with (map (fun i => (i - m)%N) (i :: t)).
      apply in_map_iff. exists m. split; auto. lia.
  - left. now apply prune_scan_none in P.
Qed.
Definition whole_a (k : nat) (m : any_mesh Fl) : Prop :=
  exists v tv n tn u tu, m = mk_any_mesh (Some n) (Some tn) (Some v) (Some tv) (Some u) (Some tu) /\
    any_triangle_indices top k tv /\ any_triangle_indices top k tn /\ any_triangle_indices top k tu /\ trimmed_a v tv /\ trimmed_a n tn /\ trimmed_a u tu.
Lemma whole_imported_a k m : whole_a k m -> any_imported top k m.
Proof. intros (v & tv & n & tn & u & tu & H). exists v, tv, n, tn, u, tu. tauto. Qed.
Lemma imported_is_a s k : any_triangle_indices top k (ai_vertex_triangles s) -> any_triangle_indices top k (ai_normal_triangles s) -> any_triangle_indices top k (ai_uv_triangles s) ->
  whole_a k (any_imported_mesh top s).
Proof.
  intros V N U. unfold any_imported_mesh. destruct (prune_any top (ai_vertices s) _) as [v tv] eqn:PV. destruct (prune_any top (ai_normals s) _) as [n tn] eqn:PN.
  destruct (prune_any top (ai_uvs s) _) as [u tu] eqn:PU. exists v, tv, n, tn, u, tu. split; [reflexivity|].
  split; [exact (prune_shape_a _ _ _ _ _ V PV)|]. split; [exact (prune_shape_a _ _ _ _ _ N PN)|]. split; [exact (prune_shape_a _ _ _ _ _ U PU)|].
  split; [exact (prune_trimmed_a _ _ _ _ PV)|]. split; [exact (prune_trimmed_a _ _ _ _ PN)|exact (prune_trimmed_a _ _ _ _ PU)].
Qed.
(** What was read: a whole mesh with a face. *)
Definition a_mesh_a (mn : any_mesh Fl * list N) : Prop := (exists k, 0 < k /\ whole_a k (fst mn)) /\ one_word (snd mn).
Lemma line_sound_a ft tri line oi oi' o : ~ In 10%N line -> sound_a oi -> any_line top ft (polygons tri) line oi = Ok (oi', o) ->
  sound_a oi' /\ forall mn, o = Some mn -> a_mesh_a mn.
Proof.
  intros NL [B W] H. unfold any_line in H. destruct (utf8_valid line) eqn:U; [|discriminate H]. cbn [negb] in H.
  assert (WS : Forall one_word (split line)).
  { apply split_words; cbn [app]; auto; try (intros []). now apply utf8_valid_sound. }
  destruct (split line) as [|beg parts]; [discriminate H|]. cbn [next_part bind] in H. apply Forall_cons_iff in WS as [_ WS].
  destruct (list_eqb beg kw_v).
  { destruct (any_vec3 ft parts) as [x|e|]; try discriminate H. injection H as <- <-. split; [split; auto|discriminate]. }
  destruct (list_eqb beg kw_vn).
  { destruct (any_vec3 ft parts) as [x|e|]; try discriminate H. injection H as <- <-. split; [split; auto|discriminate]. }
  destruct (list_eqb beg kw_vt).
  { destruct (any_vec2 ft parts) as [x|e|]; try discriminate H. injection H as <- <-. split; [split; auto|discriminate]. }
  destruct (list_eqb beg kw_f).
  { unfold any_face in H. destruct (any_corners top (length parts) parts [] [] []) as [[v u] n] eqn:LC.
    apply corners_fewer_a in LC as (V & UU & N); try (constructor; fail).
    destruct (any_push_face (polygons tri) oi v u n) as [s|e|] eqn:P; try discriminate H. injection H as <- <-.
    apply push_face_amid_a in P as [A E]; auto; [|now apply amid_balanced_a]. split; [|discriminate]. split; [now apply amid_balanced_a|now rewrite E]. }
  destruct (list_eqb beg kw_o).
  { destruct parts as [|name parts]; [discriminate H|]. cbn [next_part bind] in H. apply Forall_cons_iff in WS as [WN _].
    unfold any_next_mesh in H. destruct B as (k & B1 & B2 & B3). destruct (ai_vertex_triangles oi) as [|i t] eqn:T; injection H as <- <-.
    - split; [|discriminate]. split; [exists k; cbn; auto|exact WN].
    - split; [split; [exists 0; repeat split; constructor|exact WN]|]. intros mn [= <-]. split; [|exact W].
      exists k. split; [destruct B1 as [L _]; cbn in L; lia|]. apply imported_is_a; auto. now rewrite T. }
  injection H as <- <-. split; [split; auto|discriminate].
Qed.
Lemma lines_sound_a ft tri ls : forall oi acc oi' acc', Forall (fun line => ~ In 10%N line) ls -> sound_a oi -> Forall a_mesh_a acc ->
  any_lines top ft (polygons tri) ls oi acc = Ok (oi', acc') -> sound_a oi' /\ Forall a_mesh_a acc'.
Proof.
  induction ls as [|l ls IH]; intros oi acc oi' acc' NL S A H; cbn [any_lines] in H; [injection H as <- <-; auto|].
  apply Forall_cons_iff in NL as [N1 NL]. destruct (any_line top ft (polygons tri) l oi) as [[oi1 o]|e|] eqn:P; try discriminate H. cbn [bind] in H.
  apply line_sound_a in P as [S1 M]; auto. apply IH in H; auto. destruct o; auto. apply Forall_app. split; auto.
Qed.

(** An array that is not changed by cutting unused data off. *)
Lemma front_cut_same_a {A} (d : list A) t d' t' : front_cut (Some d) (Some t) d' t' -> trimmed_a d t -> t <> [] -> MeshSpec.in_range d t ->
  (len d < top)%N -> d' = Some d /\ t' = Some t.
Proof.
  intros (front & d1 & t1 & E1 & E2 & -> & ->) T NE R L. injection E1 as ->. injection E2 as ->.
  destruct T as [T|[T|[T|T]]]; [congruence| |destruct t1 as [|i t1]; [cbn in NE; congruence|inversion R; subst; rewrite T in *; unfold len in *; cbn in *; lia]|lia].
  apply in_map_iff in T as (i & Z & _). destruct front; [|unfold len in Z; cbn in Z; lia]. cbn [app len length].
  split; [reflexivity|]. f_equal. rewrite <- (map_id t1) at 1. apply map_ext. intros a. unfold len. cbn. lia.
Qed.
End Any.
