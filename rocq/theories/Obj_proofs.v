(** Lemmas about the .obj model. *)
From Coq Require Import List NArith ZArith Arith Lia Bool.
From Verif Require Import Base Floats Utilis Unify CustomData Mesh File FileSpec File_proofs MeshSpec Importer Obj ObjSpec P_Split.
Import ListNotations.
Open Scope res_scope.

(** ** Numbers *)
Definition grow (a c : N) : N := (10 * a + (c - 48))%N.
Lemma decimal_snoc d c : decimal (d ++ [c]) = (10 * decimal d + (c - 48))%N.
Proof. unfold decimal. now rewrite fold_left_app. Qed.
Lemma grow_ge d a : (a <= fold_left grow d a)%N.
Proof. revert a. induction d as [|c d IH]; intros a; cbn [fold_left]; [lia|]. specialize (IH (grow a c)). unfold grow in *. lia. Qed.

Lemma parse_digits_ok d a : Forall digit d -> (fold_left grow d a < 2 ^ 32)%N -> parse_digits d a = Some (fold_left grow d a).
Proof.
  revert a. induction d as [|c d IH]; intros a D L; cbn [parse_digits fold_left] in *; [reflexivity|].
  inversion D as [|? ? D1 D2]; subst. destruct D1. assert (((48 <=? c) && (c <=? 57))%N = true) as -> by (apply andb_true_intro; split; apply N.leb_le; lia).
  pose proof (grow_ge d (grow a c)) as G. assert (E : (a * 10 + (c - 48))%N = grow a c) by (unfold grow; lia). rewrite E.
  assert ((grow a c <? two32)%N = true) as -> by (apply N.ltb_lt; unfold two32; lia). auto.
Qed.
Lemma parse_digits_some d a n : (a < 2 ^ 32)%N -> parse_digits d a = Some n -> Forall digit d /\ fold_left grow d a = n /\ (n < 2 ^ 32)%N.
Proof.
  revert a. induction d as [|c d IH]; intros a A; cbn [parse_digits fold_left].
  - intros [= <-]. auto.
  - destruct ((48 <=? c) && (c <=? 57))%N eqn:B; [|discriminate]. destruct (N.ltb_spec (a * 10 + (c - 48)) two32) as [L|]; [|discriminate].
    intros H. apply IH in H as (H1 & H2 & H3); [|exact L]. apply andb_prop in B as [B1 B2]. apply N.leb_le in B1, B2.
    assert (E : (a * 10 + (c - 48))%N = grow a c) by (unfold grow; lia). rewrite E in H2. split; [|auto]. constructor; [split; lia|auto].
Qed.
Lemma digit_not_sign c : digit c -> (c =? 43)%N = false /\ (c =? 45)%N = false.
Proof. intros [A B]. split; apply N.eqb_neq; lia. Qed.
Lemma parse_u32_iff s n : parse_u32 s = Some n <-> numeral s n.
Proof.
  split.
  - destruct s as [|c t]; [discriminate|]. intros H. cbn [parse_u32] in H. destruct t as [|c' t].
    + destruct ((c =? 43) || (c =? 45))%N eqn:B; [discriminate|]. apply parse_digits_some in H as (H1 & H2 & H3); [|reflexivity].
      exists [c]. split; auto. split; [discriminate|]. auto.
    + destruct (N.eqb_spec c 43) as [->|].
      * apply parse_digits_some in H as (H1 & H2 & H3); [|reflexivity]. exists (c' :: t). split; auto. split; [discriminate|]. auto.
      * apply parse_digits_some in H as (H1 & H2 & H3); [|reflexivity]. exists (c :: c' :: t). split; auto. split; [discriminate|]. auto.
  - intros (d & S & NE & D & V & L). assert (P : parse_digits d 0 = Some n) by (rewrite <- V; apply parse_digits_ok; auto; now rewrite <- V in L).
    destruct d as [|c d]; [congruence|]. inversion D as [|? ? D1 D2]; subst. destruct (digit_not_sign c D1) as [N1 N2].
    destruct S as [->| ->].
    + unfold parse_u32. destruct d; rewrite N1, ?N2; cbn [orb]; exact P.
    + cbn [parse_u32]. exact P.
Qed.

Lemma show_digits_ok fuel : forall n acc, (n < 10 ^ N.of_nat fuel)%N -> (0 < fuel)%nat ->
  exists d, show_digits fuel n acc = d ++ acc /\ d <> [] /\ Forall digit d /\ decimal d = n.
Proof.
  induction fuel as [|fuel IH]; intros n acc L F; [lia|]. cbn [show_digits].
  assert (M : (n mod 10 < 10)%N) by (apply N.mod_lt; lia). assert (DM : n = (10 * (n / 10) + n mod 10)%N) by (apply N.div_mod; lia).
  destruct (N.ltb_spec n 10) as [B|B].
  - exists [(48 + n mod 10)%N]. split; [reflexivity|]. split; [discriminate|]. split; [constructor; [split; lia|constructor]|].
    unfold decimal. cbn [fold_left]. rewrite N.mod_small by lia. lia.
  - destruct fuel as [|fuel]; [cbn in L; lia|].
    destruct (IH (n / 10)%N ((48 + n mod 10)%N :: acc)) as (d & E & NE & D & V).
    { apply N.div_lt_upper_bound; [lia|]. rewrite Nat2N.inj_succ, N.pow_succ_r' in L. exact L. } { lia. }
    exists (d ++ [(48 + n mod 10)%N]). split; [rewrite E; now rewrite <- app_assoc|]. split; [destruct d; discriminate|].
    split; [apply Forall_app; split; auto; constructor; [split; lia|constructor]|]. rewrite decimal_snoc, V. lia.
Qed.
Lemma show_u32_numeral n : (n < 2 ^ 32)%N -> numeral (show_u32 n) n /\ Forall digit (show_u32 n).
Proof.
  intros L. destruct (show_digits_ok 10 n []) as (d & E & NE & D & V); [|lia|].
  { eapply N.lt_trans; [exact L|reflexivity]. }
  unfold show_u32. rewrite E, app_nil_r. split; auto. exists d. auto.
Qed.
Lemma parse_index_show n : (n < 2 ^ 32)%N -> parse_index (show_u32 n) = n.
Proof. intros L. unfold parse_index. destruct (show_u32_numeral n L) as [H _]. apply parse_u32_iff in H. now rewrite H. Qed.
Lemma parse_index_iff s n : parse_index s = n <-> stands_for s n.
Proof.
  unfold parse_index, stands_for. destruct (parse_u32 s) as [k|] eqn:P.
  - apply parse_u32_iff in P as P'. split.
    + intros ->. now left.
    + intros [H|[H _]]; [|destruct (H k); auto]. apply parse_u32_iff in H. congruence.
  - split.
    + intros <-. right. split; auto. intros k H. apply parse_u32_iff in H. congruence.
    + intros [H|[_ ->]]; auto. apply parse_u32_iff in H. congruence.
Qed.

(** ** Lines *)
Definition unlines (ls : list (list N)) : list N := concat (map (fun l => l ++ nl) ls).
Definition line_ok (l : list N) : Prop := ~ In 10%N l /\ last l 0%N <> 13%N.
Lemma drop_cr_same l : last l 0%N <> 13%N -> drop_cr l = l.
Proof.
  induction l as [|c l IH]; auto. intros H. cbn [drop_cr]. destruct l as [|c' l].
  - cbn in H. now destruct (N.eqb_spec c 13).
  - f_equal. apply IH. exact H.
Qed.
Lemma lines_from_line l : forall acc t, ~ In 10%N l -> lines_from acc (l ++ 10%N :: t) = drop_cr (acc ++ l) :: lines_from [] t.
Proof.
  induction l as [|c l IH]; intros acc t H; cbn [app lines_from].
  - now rewrite app_nil_r.
  - destruct (N.eqb_spec c 10) as [->|]; [destruct H; now left|]. rewrite IH by (intros I; apply H; now right). now rewrite <- app_assoc.
Qed.
Lemma lines_unlines ls : Forall line_ok ls -> lines (unlines ls) = ls.
Proof.
  unfold lines, unlines. induction ls as [|l ls IH]; intros F; [reflexivity|]. inversion F as [|? ? [L1 L2] F']; subst.
  cbn [map concat]. unfold nl at 1. rewrite <- app_assoc. cbn [app]. rewrite lines_from_line by auto. cbn [app]. rewrite drop_cr_same by auto.
  now rewrite IH.
Qed.
Lemma unlines_app a b : unlines (a ++ b) = unlines a ++ unlines b.
Proof. unfold unlines. now rewrite map_app, concat_app. Qed.

Definition no_sep (p : list N) : Prop := ~ In 32%N p /\ ~ In 47%N p.
Lemma split_from_part p : forall acc c t, no_sep p -> c = 32%N \/ c = 47%N ->
  split_from acc (p ++ c :: t) = (acc ++ p) :: split_from [] t.
Proof.
  induction p as [|x p IH]; intros acc c t [H1 H2] C; cbn [app split_from].
  - rewrite app_nil_r. destruct C as [->| ->]; reflexivity.
  - destruct (N.eqb_spec x 32) as [->|]; [destruct H1; now left|]. destruct (N.eqb_spec x 47) as [->|]; [destruct H2; now left|]. cbn [orb].
    rewrite IH; auto; [now rewrite <- app_assoc|]. split; intros I; [apply H1|apply H2]; now right.
Qed.
Lemma split_from_last p : forall acc, no_sep p -> split_from acc p = [acc ++ p].
Proof.
  induction p as [|x p IH]; intros acc [H1 H2]; cbn [split_from]; [now rewrite app_nil_r|].
  destruct (N.eqb_spec x 32) as [->|]; [destruct H1; now left|]. destruct (N.eqb_spec x 47) as [->|]; [destruct H2; now left|]. cbn [orb].
  rewrite IH; [now rewrite <- app_assoc|]. split; intros I; [apply H1|apply H2]; now right.
Qed.
Lemma split_part p c t : no_sep p -> c = 32%N \/ c = 47%N -> split (p ++ c :: t) = p :: split t.
Proof. intros. unfold split. now rewrite split_from_part. Qed.
Lemma split_last p : no_sep p -> split p = [p].
Proof. intros. unfold split. now rewrite split_from_last. Qed.

Lemma utf8_app a b : utf8 a -> utf8 b -> utf8 (a ++ b).
Proof. intros A B. induction A; cbn [app]; [auto|apply utf8_1|apply utf8_2|apply utf8_3|apply utf8_4]; auto. Qed.
Lemma utf8_ascii l : Forall (fun b => (b <= 127)%N) l -> utf8 l.
Proof. induction 1; [apply utf8_nil|apply utf8_1; auto]. Qed.
Lemma plain_ascii l : Forall plain l -> Forall (fun b => (b <= 127)%N) l.
Proof. apply Forall_impl. intros b [H _]. lia. Qed.
Lemma plain_no_sep l : Forall plain l -> no_sep l.
Proof. intros F. rewrite Forall_forall in F. split; intros I; destruct (F _ I) as [H1 H2]; [lia|congruence]. Qed.
Lemma plain_no_nl l : Forall plain l -> ~ In 10%N l.
Proof. intros F I. rewrite Forall_forall in F. destruct (F _ I) as [H1 _]. lia. Qed.
Lemma digits_plain l : Forall digit l -> Forall plain l.
Proof. apply Forall_impl. intros b [H1 H2]. split; lia. Qed.
Lemma last_app_ne {A} (a b : list A) d : b <> [] -> last (a ++ b) d = last b d.
Proof.
  intros H. induction a as [|x a IH]; [reflexivity|]. cbn [app]. rewrite <- IH. cbn [last].
  destruct (a ++ b) eqn:E; auto. destruct a; [cbn in E; subst b; congruence|discriminate].
Qed.
Lemma last_plain l : Forall plain l -> last l 0%N <> 13%N.
Proof.
  intros F. destruct l as [|c l]; [discriminate|]. rewrite Forall_forall in F.
  assert (I : In (last (c :: l) 0%N) (c :: l)). { rewrite (app_removelast_last 0%N) at 2 by discriminate. apply in_or_app. right. now left. }
  destruct (F _ I) as [H _]. lia.
Qed.

(** A line: a word and parts, each after a separator. *)
Definition join (p : list N) (rest : list (N * list N)) : list N := p ++ concat (map (fun cq => fst cq :: snd cq) rest).
Definition sep (c : N) : Prop := c = 32%N \/ c = 47%N.
Definition visible (b : N) : Prop := (32 <= b <= 126)%N.
Lemma split_join rest : forall p, no_sep p -> Forall (fun cq => sep (fst cq) /\ no_sep (snd cq)) rest ->
  split (join p rest) = p :: map snd rest.
Proof.
  induction rest as [|[c q] rest IH]; intros p P F; unfold join; cbn [map concat fst snd].
  - rewrite app_nil_r. now apply split_last.
  - inversion F as [|? ? [F1 F2] F']; subst. cbn [fst snd] in *. cbn [app]. rewrite split_part by auto. f_equal. now apply IH.
Qed.
Lemma join_visible p rest : Forall plain p -> Forall (fun cq => sep (fst cq) /\ Forall plain (snd cq)) rest -> Forall visible (join p rest).
Proof.
  intros P F. assert (Q : forall l, Forall plain l -> Forall visible l) by (intros l; apply Forall_impl; intros b [H _]; unfold visible; lia).
  unfold join. apply Forall_app. split; auto. induction F as [|[c q] rest [F1 F2] F IH]; cbn [map concat fst snd] in *; [constructor|].
  cbn [app]. constructor; [destruct F1; subst c; unfold visible; lia|]. apply Forall_app. auto.
Qed.
Lemma visible_line l : Forall visible l -> line_ok l.
Proof.
  intros F. rewrite Forall_forall in F. split; [intros I; destruct (F _ I); lia|]. destruct l as [|c l]; [discriminate|].
  assert (I : In (last (c :: l) 0%N) (c :: l)). { rewrite (app_removelast_last 0%N) at 2 by discriminate. apply in_or_app. right. now left. }
  destruct (F _ I) as [H1 H2]. lia.
Qed.
Lemma visible_utf8 l : Forall visible l -> utf8_valid l = true.
Proof. intros F. apply utf8_valid_complete, utf8_ascii. eapply Forall_impl; [|exact F]. intros b []. lia. Qed.
Definition parts_ok (rest : list (N * list N)) : Prop := Forall (fun cq => sep (fst cq) /\ Forall plain (snd cq)) rest.
Lemma parse_join ft tri p rest oi : Forall plain p -> parts_ok rest ->
  parse_line ft tri (join p rest) oi =
    (let parts := map snd rest in
    if list_eqb p kw_v then let* v := load_vec3 ft parts in Ok (push_vertex oi v, None)
    else if list_eqb p kw_vn then let* v := load_vec3 ft parts in Ok (push_normal oi v, None)
    else if list_eqb p kw_vt then let* v := load_vec2 ft parts in Ok (push_uv oi v, None)
    else if list_eqb p kw_f then let* oi := load_face tri parts oi in Ok (oi, None)
    else if list_eqb p kw_o then let* (name, _) := next_part parts in Ok (next_mesh oi name)
    else Ok (oi, None)).
Proof.
  intros P F. unfold parse_line. rewrite (visible_utf8 _ (join_visible _ _ P F)). cbn [negb].
  rewrite split_join; [reflexivity|now apply plain_no_sep|]. eapply Forall_impl; [|exact F]. intros cq [A B]. split; auto. now apply plain_no_sep.
Qed.

Lemma read_lines_app ft tri a : forall b oi acc,
  read_lines ft tri (a ++ b) oi acc = let* (oi, acc) := read_lines ft tri a oi acc in read_lines ft tri b oi acc.
Proof.
  induction a as [|l a IH]; intros b oi acc; [reflexivity|]. cbn [app read_lines].
  destruct (parse_line ft tri l oi) as [[oi' o]| |]; cbn [bind]; auto.
Qed.

(** ** Lines with floats *)
Definition vec3_text (ft : float_text) (word : list N) (v : vec3) : list N :=
  join word [(32%N, t_show ft (vx v)); (32%N, t_show ft (vy v)); (32%N, t_show ft (vz v))].
Definition vec2_text (ft : float_text) (v : vec2) : list N :=
  join kw_vt [(32%N, t_show ft (fst v)); (32%N, t_show ft (snd v))].
Lemma vec3_line_text ft word v : vec3_line ft word v = vec3_text ft word v ++ nl.
Proof. unfold vec3_line, vec3_text, join, sp. cbn [map concat fst snd]. rewrite !app_nil_r. repeat progress (rewrite <- ?app_assoc; cbn [app]). reflexivity. Qed.
Lemma vec2_line_text ft v : vec2_line ft v = vec2_text ft v ++ nl.
Proof. unfold vec2_line, vec2_text, join, sp. cbn [map concat fst snd]. rewrite !app_nil_r. repeat progress (rewrite <- ?app_assoc; cbn [app]). reflexivity. Qed.
Lemma vec3_parts ft v : text_ok ft ->
  parts_ok [(32%N, t_show ft (vx v)); (32%N, t_show ft (vy v)); (32%N, t_show ft (vz v))] /\
  load_vec3 ft (map snd [(32%N, t_show ft (vx v)); (32%N, t_show ft (vy v)); (32%N, t_show ft (vz v))]) = Ok v.
Proof.
  intros T. split.
  - repeat (constructor; [split; [now left|apply T]|]). constructor.
  - cbn [map snd]. unfold load_vec3, next_part, parse_float_type. cbn [bind].
    destruct (T (vx v)) as [-> _], (T (vy v)) as [-> _], (T (vz v)) as [-> _]. cbn [bind]. now destruct v as [[? ?] ?].
Qed.
Lemma vec2_parts ft v : text_ok ft ->
  parts_ok [(32%N, t_show ft (fst v)); (32%N, t_show ft (snd v))] /\
  load_vec2 ft (map snd [(32%N, t_show ft (fst v)); (32%N, t_show ft (snd v))]) = Ok v.
Proof.
  intros T. split.
  - repeat (constructor; [split; [now left|apply T]|]). constructor.
  - cbn [map snd]. unfold load_vec2, next_part, parse_float_type. cbn [bind].
    destruct (T (fst v)) as [-> _], (T (snd v)) as [-> _]. cbn [bind]. now destruct v.
Qed.
Lemma kw_plain : Forall plain kw_v /\ Forall plain kw_vn /\ Forall plain kw_vt /\ Forall plain kw_f /\ Forall plain kw_o.
Proof. repeat split; repeat constructor; unfold plain; try lia. Qed.

Definition with_data (s : importer) (v n : list vec3) (u : list vec2) : importer :=
  mk_importer (i_vertices s ++ v) (i_normals s ++ n) (i_uvs s ++ u) (i_vertex_triangles s) (i_normal_triangles s) (i_uv_triangles s) (i_name s).
Lemma with_data_none s : with_data s [] [] [] = s.
Proof. destruct s. unfold with_data. cbn. now rewrite !app_nil_r. Qed.
Lemma read_vertices ft tri l : text_ok ft -> forall s acc,
  read_lines ft tri (map (vec3_text ft kw_v) l) s acc = Ok (with_data s l [] [], acc).
Proof.
  intros T. induction l as [|v l IH]; intros s acc; cbn [map read_lines]; [now rewrite with_data_none|].
  destruct (vec3_parts ft v T) as [P L]. destruct kw_plain as (K & _).
  unfold vec3_text. rewrite parse_join by auto. cbv zeta. rewrite L. change (list_eqb kw_v kw_v) with true. cbn [bind].
  rewrite IH. unfold with_data, push_vertex. cbn. now rewrite <- app_assoc.
Qed.
Lemma read_normals ft tri l : text_ok ft -> forall s acc,
  read_lines ft tri (map (vec3_text ft kw_vn) l) s acc = Ok (with_data s [] l [], acc).
Proof.
  intros T. induction l as [|v l IH]; intros s acc; cbn [map read_lines]; [now rewrite with_data_none|].
  destruct (vec3_parts ft v T) as [P L]. destruct kw_plain as (_ & K & _).
  unfold vec3_text. rewrite parse_join by auto. cbv zeta. rewrite L.
  change (list_eqb kw_vn kw_v) with false. change (list_eqb kw_vn kw_vn) with true. cbn [bind].
  rewrite IH. unfold with_data, push_normal. cbn. now rewrite <- app_assoc.
Qed.
Lemma read_uvs ft tri l : text_ok ft -> forall s acc,
  read_lines ft tri (map (vec2_text ft) l) s acc = Ok (with_data s [] [] l, acc).
Proof.
  intros T. induction l as [|v l IH]; intros s acc; cbn [map read_lines]; [now rewrite with_data_none|].
  destruct (vec2_parts ft v T) as [P L]. destruct kw_plain as (_ & _ & K & _).
  unfold vec2_text. rewrite parse_join by auto. cbv zeta. rewrite L.
  change (list_eqb kw_vt kw_v) with false. change (list_eqb kw_vt kw_vn) with false. change (list_eqb kw_vt kw_vt) with true. cbn [bind].
  rewrite IH. unfold with_data, push_uv. cbn. now rewrite <- app_assoc.
Qed.
Definition name_text (name : list N) : list N := kw_o ++ sp ++ name.
(** The first word of a name. *)
Definition word (name : list N) : list N := hd [] (split name).
Lemma word_first name : first_word name (word name).
Proof.
  unfold word. assert (G : forall l acc, no_sep acc -> exists w rest, split_from acc l = w :: rest /\ no_sep w /\
    (acc ++ l = w \/ exists c t, acc ++ l = w ++ c :: t /\ sep c)).
  { induction l as [|c l IH]; intros acc A; cbn [split_from].
    - exists acc, []. rewrite app_nil_r. auto.
    - destruct ((c =? 32) || (c =? 47))%N eqn:C.
      + exists acc, (split_from [] l). split; auto. split; auto. right. exists c, l. split; auto.
        apply orb_true_iff in C as [C|C]; apply N.eqb_eq in C; [now left|now right].
      + apply orb_false_iff in C as [C1 C2]. apply N.eqb_neq in C1, C2. destruct A as [A1 A2].
        destruct (IH (acc ++ [c])) as (w & rest & E & W & D).
        { split; intros I; apply in_app_or in I as [I|[I|[]]]; auto. }
        exists w, rest. rewrite <- app_assoc in D. auto. }
  destruct (G name [] ltac:(split; intros [])) as (w & rest & E & [W1 W2] & D). unfold split. rewrite E. cbn [hd]. split; auto.
Qed.
Lemma split_word name : exists rest, split name = word name :: rest.
Proof.
  unfold word, split. assert (G : forall l acc, split_from acc l <> []).
  { induction l as [|c l IH]; intros acc; cbn [split_from]; [discriminate|]. destruct (_ || _); [discriminate|auto]. }
  destruct (split_from [] name) eqn:E; [now destruct (G name [])|]. eauto.
Qed.
Lemma read_name ft tri name s acc : line_name name ->
  read_lines ft tri [name_text name] s acc =
    Ok (fst (next_mesh s (word name)), match snd (next_mesh s (word name)) with Some m => acc ++ [m] | None => acc end).
Proof.
  intros (U & _ & _). cbn [read_lines]. unfold parse_line.
  assert (utf8 (name_text name)) as V. { unfold name_text, kw_o, sp. cbn [app]. repeat (apply utf8_1; [lia|]). exact U. }
  rewrite (utf8_valid_complete _ V). cbn [negb]. unfold name_text, sp. cbn [app].
  change (111%N :: 32%N :: name) with (kw_o ++ 32%N :: name).
  rewrite (split_part kw_o 32) by first [now left|apply plain_no_sep; apply kw_plain].
  cbn [next_part bind]. change (list_eqb kw_o kw_v) with false. change (list_eqb kw_o kw_vn) with false. change (list_eqb kw_o kw_vt) with false.
  change (list_eqb kw_o kw_f) with false. change (list_eqb kw_o kw_o) with true. cbn [bind].
  destruct (split_word name) as [rest ->]. cbn [next_part bind]. destruct (next_mesh s (word name)). reflexivity.
Qed.
Lemma name_line_ok name : line_name name -> line_ok (name_text name).
Proof.
  intros (_ & NL & CR). unfold name_text, kw_o, sp. split.
  - cbn [app]. intros [H|[H|H]]; [discriminate H..|auto].
  - cbn [app]. destruct name as [|c t]; [discriminate|]. exact CR.
Qed.

(** ** Lines with faces *)
(** A corner: 1-based vertex, uv (if any) and normal. *)
Definition corner_parts (v : N) (u : option N) (n : N) : list (N * list N) :=
  [(32%N, show_u32 v); (47%N, match u with Some u => show_u32 u | None => [] end); (47%N, show_u32 n)].
Definition corner (c : N * option N * N) : list (N * list N) := corner_parts (fst (fst c)) (snd (fst c)) (snd c).
Definition face_text (a b c : N * option N * N) : list N := join kw_f (corner a ++ corner b ++ corner c).
Fixpoint face_texts (vs : list N) (us : list (option N)) (ns : list N) : list (list N) :=
  match vs, us, ns with
  | v1 :: v2 :: v3 :: vs, u1 :: u2 :: u3 :: us, n1 :: n2 :: n3 :: ns =>
    face_text (v1, u1, n1) (v2, u2, n2) (v3, u3, n3) :: face_texts vs us ns
  | _, _, _ => []
  end.
Definition fits32 (n : N) : Prop := (n < 2 ^ 32)%N.
Definition fits32o (u : option N) : Prop := match u with Some u => fits32 u | None => True end.

Lemma add32_ok {E} oc a b : fits32 (a + b) -> add32 (E:=E) oc a b = Ok (a + b)%N.
Proof. intros H. unfold add32. assert ((a + b <? two32)%N = true) as ->; [apply N.ltb_lt; exact H|reflexivity]. Qed.
Lemma get_app_len {A} (p : list A) x t : get (p ++ x :: t) (len p) = Some x.
Proof.
  induction p as [|y p IH]; [reflexivity|]. cbn [app get]. replace (len (y :: p)) with (len p + 1)%N by (unfold len; cbn [length]; lia).
  destruct (N.eqb_spec (len p + 1) 0); [lia|]. now replace (len p + 1 - 1)%N with (len p) by lia.
Qed.
Lemma index_app_len {E A} (p : list A) x t i : i = len p -> index (E:=E) (p ++ x :: t) i = Ok x.
Proof. intros ->. unfold index. now rewrite get_app_len. Qed.

(** The uvs of the corners of a face line: given or not. *)
Definition uv_numbers (ut : option (list N)) (off : N) (k : nat) : list (option N) :=
  match ut with Some l => map (fun u => Some (u + off)%N) l | None => repeat None k end.
Lemma mod3 j : (3 * j mod 3 = 0 /\ (3 * j + 1) mod 3 = 1 /\ (3 * j + 1 + 1) mod 3 = 2)%N.
Proof.
  assert (H : forall r, (r < 3 -> (3 * j + r) mod 3 = r)%N).
  { intros r R. rewrite N.add_comm, N.mul_comm, N.mod_add by lia. now apply N.mod_small. }
  pose proof (H 0%N ltac:(lia)) as H0. rewrite N.add_0_r in H0.
  pose proof (H 2%N ltac:(lia)) as H2. replace (3 * j + 2)%N with (3 * j + 1 + 1)%N in H2 by lia. repeat split; auto. apply H. lia.
Qed.
Lemma face_loop_ok oc off_v off_u off_n k : forall vs (uo : option (list N)) ns pu pn,
  length vs = 3 * k -> (forall us, uo = Some us -> length us = 3 * k) -> length ns = 3 * k ->
  len pu = len pn -> (len pn mod 3 = 0)%N ->
  Forall (fun v => fits32 (v + off_v)) vs -> (forall us, uo = Some us -> Forall (fun u => fits32 (u + off_u)) us) ->
  Forall (fun n => fits32 (n + off_n)) ns ->
  face_loop oc (off_v, off_u, off_n) (len pn) vs (option_map (fun us => pu ++ us) uo) (Some (pn ++ ns)) =
    Ok (unlines (face_texts (map (fun v => v + off_v)%N vs) (uv_numbers uo off_u (3 * k)) (map (fun n => n + off_n)%N ns))).
Proof.
  induction k as [|k IH]; intros vs uo ns pu pn L1 L2 L3 LP M F1 F2 F3.
  - destruct vs; [|discriminate L1]. reflexivity.
  - replace (3 * S k) with (S (S (S (3 * k)))) in * by lia.
    destruct vs as [|v1 [|v2 [|v3 vs]]]; try discriminate L1. destruct ns as [|n1 [|n2 [|n3 ns]]]; try discriminate L3.
    cbn [length] in L1, L3.
    inversion F1 as [|? ? A1 F1']; subst. inversion F1' as [|? ? A2 F1'']; subst. inversion F1'' as [|? ? A3 F1v]; subst. clear F1 F1' F1''.
    inversion F3 as [|? ? C1 F3']; subst. inversion F3' as [|? ? C2 F3'']; subst. inversion F3'' as [|? ? C3 F3v]; subst. clear F3 F3' F3''.
    assert (exists j, len pn = (3 * j)%N) as [j J].
    { exists (len pn / 3)%N. rewrite (N.div_mod (len pn) 3) at 1 by lia. lia. }
    destruct (mod3 j) as (M0 & M1 & M2).
    cbn [face_loop]. rewrite J, M0, M1, M2. cbn [N.eqb Pos.eqb].
    rewrite !(add32_ok oc _ off_v) by auto. cbn [bind].
    rewrite (index_app_len pn n1) by lia. replace (pn ++ n1 :: n2 :: n3 :: ns) with ((pn ++ [n1]) ++ n2 :: n3 :: ns) by now rewrite <- app_assoc.
    rewrite (index_app_len (pn ++ [n1]) n2) by (unfold len in *; rewrite app_length; cbn [length]; lia).
    replace ((pn ++ [n1]) ++ n2 :: n3 :: ns) with ((pn ++ [n1; n2]) ++ n3 :: ns) by now rewrite <- !app_assoc.
    rewrite (index_app_len (pn ++ [n1; n2]) n3) by (unfold len in *; rewrite app_length; cbn [length]; lia). cbn [bind].
    rewrite !(add32_ok oc _ off_n) by auto. cbn [bind].
    replace ((pn ++ [n1; n2]) ++ n3 :: ns) with ((pn ++ [n1; n2; n3]) ++ ns) by now rewrite <- !app_assoc.
    assert (LN : (3 * j + 1 + 1 + 1)%N = len (pn ++ [n1; n2; n3])) by (unfold len in *; rewrite app_length; cbn [length]; lia).
    assert (MN : (len (pn ++ [n1; n2; n3]) mod 3 = 0)%N).
    { rewrite <- LN. replace (3 * j + 1 + 1 + 1)%N with (3 * (j + 1))%N by lia. apply mod3. }
    rewrite LN.
    destruct uo as [us|].
    + specialize (L2 us eq_refl). specialize (F2 us eq_refl). destruct us as [|u1 [|u2 [|u3 us]]]; try discriminate L2.
      inversion F2 as [|? ? B1 F2']; subst. inversion F2' as [|? ? B2 F2'']; subst. inversion F2'' as [|? ? B3 F2v]; subst. clear F2 F2' F2''.
      cbn [option_map].
      rewrite (index_app_len pu u1) by lia. replace (pu ++ u1 :: u2 :: u3 :: us) with ((pu ++ [u1]) ++ u2 :: u3 :: us) by now rewrite <- app_assoc.
      rewrite (index_app_len (pu ++ [u1]) u2) by (unfold len in *; rewrite app_length; cbn [length]; lia).
      replace ((pu ++ [u1]) ++ u2 :: u3 :: us) with ((pu ++ [u1; u2]) ++ u3 :: us) by now rewrite <- !app_assoc.
      rewrite (index_app_len (pu ++ [u1; u2]) u3) by (unfold len in *; rewrite app_length; cbn [length]; lia). cbn [bind].
      rewrite !(add32_ok oc _ off_u) by auto. cbn [bind].
      replace ((pu ++ [u1; u2]) ++ u3 :: us) with ((pu ++ [u1; u2; u3]) ++ us) by now rewrite <- !app_assoc.
      specialize (IH vs (Some us) ns (pu ++ [u1; u2; u3]) (pn ++ [n1; n2; n3])). cbn [option_map] in IH.
      rewrite IH; auto; try lia.
      * cbn [bind uv_numbers map face_texts]. f_equal. unfold unlines at 2. cbn [map concat]. fold (unlines (face_texts (map (fun v => (v + off_v)%N) vs) (map (fun u => Some (u + off_u)%N) us) (map (fun n => (n + off_n)%N) ns))).
        unfold face_text, join, corner, corner_parts, kw_f, sp, slash, nl. cbn [map concat fst snd app].
        repeat progress (rewrite <- ?app_assoc; cbn [app]). reflexivity.
      * intros us' E. injection E as <-. cbn [length] in L2. lia.
      * unfold len in *. rewrite !app_length. cbn [length]. lia.
      * intros us' E. injection E as <-. auto.
    + cbn [option_map bind].
      specialize (IH vs None ns (pu ++ [0; 0; 0]%N) (pn ++ [n1; n2; n3])). cbn [option_map] in IH.
      rewrite IH; auto; try lia; try discriminate.
      * cbn [bind uv_numbers map face_texts repeat]. f_equal. unfold unlines at 2. cbn [map concat]. fold (unlines (face_texts (map (fun v => (v + off_v)%N) vs) (repeat None (3 * k)) (map (fun n => (n + off_n)%N) ns))).
        unfold face_text, join, corner, corner_parts, kw_f, sp, slash, nl. cbn [map concat fst snd app].
        repeat progress (rewrite <- ?app_assoc; cbn [app]). reflexivity.
      * unfold len in *. rewrite !app_length. cbn [length]. lia.
Qed.

(** Reading them. *)
Definition with_faces (s : importer) (v n u : list N) : importer :=
  mk_importer (i_vertices s) (i_normals s) (i_uvs s) (i_vertex_triangles s ++ v) (i_normal_triangles s ++ n) (i_uv_triangles s ++ u) (i_name s).
Definition uv_index (u : option N) : N := match u with Some u => (u - 1)%N | None => 0%N end.
Definition positive (n : N) : Prop := (1 <= n < 2 ^ 32)%N.
Definition positive_o (u : option N) : Prop := match u with Some u => positive u | None => True end.
Lemma show_plain n : fits32 n -> Forall plain (show_u32 n).
Proof. intros H. apply digits_plain. now apply show_u32_numeral. Qed.
Lemma corner_ok v u n : positive v -> positive_o u -> positive n -> parts_ok (corner_parts v u n).
Proof.
  intros V U W. unfold corner_parts. constructor; [split; [now left|]|constructor; [split; [now right|]|constructor; [split; [now right|]|constructor]]]; cbn [snd].
  - apply show_plain. apply V.
  - destruct u; [apply show_plain; apply U|constructor].
  - apply show_plain. apply W.
Qed.
Lemma load_corner v u n rest : positive v -> positive_o u -> positive n ->
  load_indices (map snd (corner_parts v u n) ++ rest) = Ok (v - 1, uv_index u, n - 1, rest)%N.
Proof.
  intros V U W. unfold load_indices, corner_parts. cbn [map snd app next_part bind].
  rewrite !parse_index_show by (apply V || apply W).
  assert (PU : parse_index (match u with Some u => show_u32 u | None => [] end) = (uv_index u + 1)%N).
  { destruct u as [u|]; [|reflexivity]. rewrite parse_index_show by apply U. cbn [uv_index positive_o] in *. unfold positive in U. lia. }
  rewrite PU. unfold positive in *. destruct (N.ltb_spec v 1); [lia|]. destruct (N.ltb_spec (uv_index u + 1) 1); [lia|]. destruct (N.ltb_spec n 1); [lia|]. cbn [orb].
  now rewrite N.add_sub.
Qed.
Lemma load_corners_corner f v u n rest vs us ns : positive v -> positive_o u -> positive n ->
  load_corners (S f) (map snd (corner_parts v u n) ++ rest) vs us ns =
    load_corners f rest (vs ++ [v - 1]%N) (us ++ [uv_index u]) (ns ++ [n - 1]%N).
Proof. intros V U W. cbn [load_corners]. now rewrite load_corner. Qed.
Lemma load_corners_end f vs us ns : load_corners f [] vs us ns = (vs, us, ns).
Proof. now destruct f. Qed.
Lemma load_face3 f c1 c2 c3 vs us ns :
  Forall positive [fst (fst c1); fst (fst c2); fst (fst c3)] -> Forall positive_o [snd (fst c1); snd (fst c2); snd (fst c3)] ->
  Forall positive [snd c1; snd c2; snd c3] ->
  load_corners (S (S (S f))) (map snd (corner c1 ++ corner c2 ++ corner c3)) vs us ns =
    (vs ++ [fst (fst c1) - 1; fst (fst c2) - 1; fst (fst c3) - 1]%N, us ++ [uv_index (snd (fst c1)); uv_index (snd (fst c2)); uv_index (snd (fst c3))],
     ns ++ [snd c1 - 1; snd c2 - 1; snd c3 - 1]%N).
Proof.
  intros FV FU FN. unfold corner. rewrite !map_app.
  inversion FV as [|? ? V1 FV']; subst. inversion FV' as [|? ? V2 FV'']; subst. inversion FV'' as [|? ? V3 _]; subst.
  inversion FU as [|? ? U1 FU']; subst. inversion FU' as [|? ? U2 FU'']; subst. inversion FU'' as [|? ? U3 _]; subst.
  inversion FN as [|? ? N1 FN']; subst. inversion FN' as [|? ? N2 FN'']; subst. inversion FN'' as [|? ? N3 _]; subst.
  rewrite (load_corners_corner (S (S f))) by auto. rewrite (load_corners_corner (S f)) by auto.
  rewrite <- (app_nil_r (map snd (corner_parts (fst (fst c3)) (snd (fst c3)) (snd c3)))).
  rewrite (load_corners_corner f) by auto. rewrite load_corners_end. now rewrite <- !app_assoc.
Qed.
Lemma load_face_of tri parts s k v u n : length parts = k -> load_corners k parts [] [] [] = (v, u, n) ->
  load_face tri parts s = map_err (fun _ => OFace) (push_face tri s v u n).
Proof. intros K H. unfold load_face. rewrite K, H. reflexivity. Qed.
Lemma with_faces_app s a b c a' b' c' : with_faces (with_faces s a b c) a' b' c' = with_faces s (a ++ a') (b ++ b') (c ++ c').
Proof. unfold with_faces. cbn [i_vertices i_normals i_uvs i_vertex_triangles i_normal_triangles i_uv_triangles i_name]. now rewrite <- !app_assoc. Qed.
Lemma with_faces_none s : with_faces s [] [] [] = s.
Proof. unfold with_faces. rewrite !app_nil_r. now destruct s. Qed.
Lemma push_vertex_indices l : forall s, fold_left push_vertex_index l s = with_faces s l [] [].
Proof.
  induction l as [|i l IH]; intros s; cbn [fold_left]; [now rewrite with_faces_none|].
  rewrite IH. replace (push_vertex_index s i) with (with_faces s [i] [] []); [apply with_faces_app|].
  unfold with_faces, push_vertex_index. now rewrite !app_nil_r.
Qed.
Lemma push_normal_indices l : forall s, fold_left push_normal_index l s = with_faces s [] l [].
Proof.
  induction l as [|i l IH]; intros s; cbn [fold_left]; [now rewrite with_faces_none|].
  rewrite IH. replace (push_normal_index s i) with (with_faces s [] [i] []); [apply with_faces_app|].
  unfold with_faces, push_normal_index. now rewrite !app_nil_r.
Qed.
Lemma push_uv_indices l : forall s, fold_left push_uv_index l s = with_faces s [] [] l.
Proof.
  induction l as [|i l IH]; intros s; cbn [fold_left]; [now rewrite with_faces_none|].
  rewrite IH. replace (push_uv_index s i) with (with_faces s [] [] [i]); [apply with_faces_app|].
  unfold with_faces, push_uv_index. now rewrite !app_nil_r.
Qed.
Lemma push_face3 tri s a b c d e f g h i :
  push_face tri s [a; b; c] [d; e; f] [g; h; i] = Ok (with_faces s [a; b; c] [g; h; i] [d; e; f]).
Proof.
  unfold push_face. cbn [length Nat.eqb andb negb]. rewrite push_normal_indices, push_uv_indices, push_vertex_indices, !with_faces_app. reflexivity.
Qed.
Lemma corner_length c : length (corner c) = 3.
Proof. reflexivity. Qed.
Lemma load_face_3 tri c1 c2 c3 s :
  Forall positive [fst (fst c1); fst (fst c2); fst (fst c3)] -> Forall positive_o [snd (fst c1); snd (fst c2); snd (fst c3)] ->
  Forall positive [snd c1; snd c2; snd c3] ->
  load_face tri (map snd (corner c1 ++ corner c2 ++ corner c3)) s =
    Ok (with_faces s [fst (fst c1) - 1; fst (fst c2) - 1; fst (fst c3) - 1]%N [snd c1 - 1; snd c2 - 1; snd c3 - 1]%N
          [uv_index (snd (fst c1)); uv_index (snd (fst c2)); uv_index (snd (fst c3))]).
Proof.
  intros FV FU FN. erewrite load_face_of; [|rewrite map_length, !app_length, !corner_length; reflexivity|exact (load_face3 6 c1 c2 c3 [] [] [] FV FU FN)].
  cbn [app]. now rewrite push_face3.
Qed.
Lemma read_face ft tri c1 c2 c3 s acc :
  Forall positive [fst (fst c1); fst (fst c2); fst (fst c3)] -> Forall positive_o [snd (fst c1); snd (fst c2); snd (fst c3)] ->
  Forall positive [snd c1; snd c2; snd c3] ->
  read_lines ft tri [face_text c1 c2 c3] s acc =
    Ok (with_faces s [fst (fst c1) - 1; fst (fst c2) - 1; fst (fst c3) - 1]%N [snd c1 - 1; snd c2 - 1; snd c3 - 1]%N
          [uv_index (snd (fst c1)); uv_index (snd (fst c2)); uv_index (snd (fst c3))], acc).
Proof.
  intros FV FU FN. cbn [read_lines].
  unfold face_text. rewrite parse_join; [|apply kw_plain|].
  - cbv zeta. change (list_eqb kw_f kw_v) with false. change (list_eqb kw_f kw_vn) with false. change (list_eqb kw_f kw_vt) with false.
    change (list_eqb kw_f kw_f) with true. rewrite load_face_3 by auto. reflexivity.
  - inversion FV as [|? ? V1 FV']; subst. inversion FV' as [|? ? V2 FV'']; subst. inversion FV'' as [|? ? V3 _]; subst.
    inversion FU as [|? ? U1 FU']; subst. inversion FU' as [|? ? U2 FU'']; subst. inversion FU'' as [|? ? U3 _]; subst.
    inversion FN as [|? ? N1 FN']; subst. inversion FN' as [|? ? N2 FN'']; subst. inversion FN'' as [|? ? N3 _]; subst.
    apply Forall_app. split; [now apply corner_ok|]. apply Forall_app. split; now apply corner_ok.
Qed.
Lemma read_faces ft tri k : forall vs us ns s acc, length vs = 3 * k -> length us = 3 * k -> length ns = 3 * k ->
  Forall positive vs -> Forall positive_o us -> Forall positive ns ->
  read_lines ft tri (face_texts vs us ns) s acc =
    Ok (with_faces s (map (fun v => v - 1)%N vs) (map (fun n => n - 1)%N ns) (map uv_index us), acc).
Proof.
  induction k as [|k IH]; intros vs us ns s acc L1 L2 L3 FV FU FN.
  - destruct vs, us, ns; try discriminate. cbn. unfold with_faces. rewrite !app_nil_r. now destruct s.
  - replace (3 * S k) with (S (S (S (3 * k)))) in * by lia.
    destruct vs as [|v1 [|v2 [|v3 vs]]]; try discriminate L1. destruct ns as [|n1 [|n2 [|n3 ns]]]; try discriminate L3.
    cbn [length] in L1, L3.
    destruct us as [|u1 [|u2 [|u3 us]]]; try discriminate L2. cbn [face_texts].
    inversion FV as [|? ? V1 FV']; subst. inversion FV' as [|? ? V2 FV'']; subst. inversion FV'' as [|? ? V3 FVr]; subst.
    inversion FU as [|? ? U1 FU']; subst. inversion FU' as [|? ? U2 FU'']; subst. inversion FU'' as [|? ? U3 FUr]; subst.
    inversion FN as [|? ? N1 FN']; subst. inversion FN' as [|? ? N2 FN'']; subst. inversion FN'' as [|? ? N3 FNr]; subst.
    match goal with |- context [?x :: face_texts vs us ns] => change (x :: face_texts vs us ns) with ([x] ++ face_texts vs us ns) end.
    cbn [length] in L2. rewrite read_lines_app, read_face by (cbn [fst snd]; auto using Forall_cons, Forall_nil). cbn [bind fst snd]. rewrite IH by (auto; lia).
    rewrite with_faces_app. reflexivity.
Qed.
Lemma face_texts_ok k : forall vs us ns, length vs = 3 * k -> length us = 3 * k -> length ns = 3 * k ->
  Forall positive vs -> Forall positive_o us -> Forall positive ns -> Forall line_ok (face_texts vs us ns).
Proof.
  induction k as [|k IH]; intros vs us ns L1 L2 L3 FV FU FN.
  - destruct vs, us, ns; try discriminate. constructor.
  - replace (3 * S k) with (S (S (S (3 * k)))) in * by lia.
    destruct vs as [|v1 [|v2 [|v3 vs]]]; try discriminate L1. destruct ns as [|n1 [|n2 [|n3 ns]]]; try discriminate L3.
    cbn [length] in L1, L3.
    destruct us as [|u1 [|u2 [|u3 us]]]; try discriminate L2. cbn [face_texts].
    inversion FV as [|? ? V1 FV']; subst. inversion FV' as [|? ? V2 FV'']; subst. inversion FV'' as [|? ? V3 FVr]; subst.
    inversion FU as [|? ? U1 FU']; subst. inversion FU' as [|? ? U2 FU'']; subst. inversion FU'' as [|? ? U3 FUr]; subst.
    inversion FN as [|? ? N1 FN']; subst. inversion FN' as [|? ? N2 FN'']; subst. inversion FN'' as [|? ? N3 FNr]; subst.
    cbn [length] in L2. constructor; [|apply IH; auto; lia]. apply visible_line. apply join_visible; [apply kw_plain|].
    apply Forall_app. split; [now apply corner_ok|]. apply Forall_app. split; now apply corner_ok.
Qed.

(** ** Meshes *)
Definition body_texts (ft : float_text) (m : mesh) (name : list N) : list (list N) :=
  [name_text name] ++ map (vec3_text ft kw_v) (or_empty (vertices m)) ++ map (vec3_text ft kw_vn) (or_empty (normals m))
    ++ map (vec2_text ft) (or_empty (uvs m)).
Lemma unlines_map {A} (f : A -> list N) l : unlines (map f l) = concat (map (fun x => f x ++ nl) l).
Proof. unfold unlines. now rewrite map_map. Qed.
Lemma body_bytes ft m name :
  (kw_o ++ sp ++ name ++ nl) ++ concat (map (vec3_line ft kw_v) (or_empty (vertices m)))
    ++ concat (map (vec3_line ft kw_vn) (or_empty (normals m))) ++ concat (map (vec2_line ft) (or_empty (uvs m))) =
  unlines (body_texts ft m name).
Proof.
  unfold body_texts. rewrite !unlines_app, !unlines_map.
  rewrite (map_ext _ _ (vec3_line_text ft kw_v)), (map_ext _ _ (vec3_line_text ft kw_vn)), (map_ext _ _ (vec2_line_text ft)).
  unfold unlines at 1. cbn [map concat]. rewrite app_nil_r. unfold name_text. now rewrite <- !app_assoc.
Qed.
Lemma body_texts_ok ft m name : text_ok ft -> line_name name -> Forall line_ok (body_texts ft m name).
Proof.
  intros T W. unfold body_texts. apply Forall_app. split; [constructor; [now apply name_line_ok|constructor]|].
  destruct kw_plain as (K1 & K2 & K3 & _).
  apply Forall_app. split; [|apply Forall_app; split]; apply Forall_forall; intros l I; apply in_map_iff in I as (x & <- & _); apply visible_line, join_visible; auto.
  - apply vec3_parts, T.
  - apply vec3_parts, T.
  - apply vec2_parts, T.
Qed.
(** A mesh is emitted when faces were read. *)
Definition pending (s : importer) : list (mesh * list N) :=
  match i_vertex_triangles s with [] => [] | _ => [(imported_mesh s, i_name s)] end.
Definition tidy (s : importer) : Prop := i_vertex_triangles s = [] -> i_normal_triangles s = [] /\ i_uv_triangles s = [].
Definition after_body (s : importer) (m : mesh) (name : list N) : importer :=
  mk_importer (i_vertices s ++ or_empty (vertices m)) (i_normals s ++ or_empty (normals m)) (i_uvs s ++ or_empty (uvs m)) [] [] [] (word name).
Lemma read_body ft tri m name s acc : text_ok ft -> line_name name -> tidy s ->
  read_lines ft tri (body_texts ft m name) s acc = Ok (after_body s m name, acc ++ pending s).
Proof.
  intros T W Y. unfold body_texts. rewrite read_lines_app, read_name by auto. cbn [bind].
  rewrite read_lines_app, read_vertices by auto. cbn [bind]. rewrite read_lines_app, read_normals by auto. cbn [bind]. rewrite read_uvs by auto.
  unfold pending, next_mesh, tidy in *. destruct (i_vertex_triangles s) eqn:E; cbn [fst snd].
  - destruct (Y eq_refl) as [-> ->]. rewrite app_nil_r. f_equal. f_equal. unfold with_data, after_body. cbn. now rewrite !app_nil_r.
  - f_equal. f_equal. unfold with_data, after_body. cbn. now rewrite !app_nil_r.
Qed.

Definition uv_indices (m : mesh) (base : N) (k : nat) : list N :=
  match uv_triangles m with Some l => map (fun i => i + base)%N l | None => repeat 0%N k end.
Definition after_mesh (s : importer) (m : mesh) (name : list N) : importer :=
  mk_importer (i_vertices s ++ or_empty (vertices m)) (i_normals s ++ or_empty (normals m)) (i_uvs s ++ or_empty (uvs m))
    (map (fun i => i + len (i_vertices s))%N (or_empty (vertex_triangles m)))
    (map (fun i => i + len (i_normals s))%N (or_empty (normal_triangles m)))
    (uv_indices m (len (i_uvs s)) (length (or_empty (vertex_triangles m)))) (word name).
Definition face_lines (m : mesh) (off : N * N * N) : list (list N) :=
  face_texts (map (fun v => v + fst (fst off))%N (or_empty (vertex_triangles m)))
    (uv_numbers (uv_triangles m) (snd (fst off)) (length (or_empty (vertex_triangles m))))
    (map (fun n => n + snd off)%N (or_empty (normal_triangles m))).
Definition room (m : mesh) (off : N * N * N) : Prop :=
  (1 <= fst (fst off) /\ fst (fst off) + size (vertices m) < 2 ^ 32 /\ 1 <= snd (fst off) /\ snd (fst off) + size (uvs m) < 2 ^ 32 /\
   1 <= snd off /\ snd off + size (normals m) < 2 ^ 32)%N.
Lemma ulen_len {A} (l : list A) : ulen l = len l. Proof. reflexivity. Qed.
Lemma size_or_empty {A} (d : option (list A)) : len (or_empty d) = size d.
Proof. now destruct d. Qed.

Lemma save_obj_texts ft oc m off name : exportable m -> room m off ->
  save_obj ft oc m off name = Ok (unlines (body_texts ft m name ++ face_lines m off), (size (vertices m), size (uvs m), size (normals m))).
Proof.
  intros (k & K & (v & vt & V1 & V2 & V3 & V4) & (n & nt & N1 & N2 & N3 & N4) & U) (R1 & R2 & R3 & R4 & R5 & R6).
  unfold save_obj. rewrite V2, N2.
  assert (negb (length nt =? length vt) = false) as -> by (rewrite N3, V3, Nat.eqb_refl; reflexivity).
  assert (match uv_triangles m with Some l => negb (length l =? length vt) | None => false end = false) as ->.
  { destruct U as [(u & ut & U1 & U2 & U3 & U4)| ->]; [|reflexivity]. now rewrite U2, U3, V3, Nat.eqb_refl. }
  destruct off as [[ov ou] on]. cbn [fst snd] in *.
  pose proof (face_loop_ok oc ov ou on k vt (uv_triangles m) nt [] []) as FL. change (len (@nil N)) with 0%N in FL. cbn [app] in FL.
  replace (option_map (fun us => us) (uv_triangles m)) with (uv_triangles m) in FL by now destruct (uv_triangles m).
  rewrite FL; auto; clear FL.
  - cbn [bind]. rewrite unlines_app, <- body_bytes. rewrite <- !app_assoc. unfold face_lines. cbn [fst snd]. rewrite V2, N2. cbn [or_empty]. rewrite V3.
    rewrite !ulen_len, !size_or_empty. unfold two32. rewrite !N.mod_small by lia. reflexivity.
  - intros us E. destruct U as [(u & ut & U1 & U2 & U3 & U4)|U]; congruence.
  - eapply Forall_impl; [|exact V4]. intros a A. unfold fits32. rewrite V1 in R2. cbn [size] in R2. unfold len in *. lia.
  - intros us E. destruct U as [(u & ut & U1 & U2 & U3 & U4)|U]; [|congruence]. assert (us = ut) by congruence. subst us.
    eapply Forall_impl; [|exact U4]. intros a A. unfold fits32. rewrite U1 in R4. cbn [size] in R4. unfold len in *. lia.
  - eapply Forall_impl; [|exact N4]. intros a A. unfold fits32. rewrite N1 in R6. cbn [size] in R6. unfold len in *. lia.
Qed.

Lemma face_lines_conditions m off : exportable m -> room m off -> exists k, (0 < k)%nat /\
  let vs := map (fun v => v + fst (fst off))%N (or_empty (vertex_triangles m)) in
  let us := uv_numbers (uv_triangles m) (snd (fst off)) (length (or_empty (vertex_triangles m))) in
  let ns := map (fun n => n + snd off)%N (or_empty (normal_triangles m)) in
  length vs = 3 * k /\ length us = 3 * k /\ length ns = 3 * k /\ Forall positive vs /\ Forall positive_o us /\ Forall positive ns.
Proof.
  intros (k & K & (v & vt & V1 & V2 & V3 & V4) & (n & nt & N1 & N2 & N3 & N4) & U) (R1 & R2 & R3 & R4 & R5 & R6).
  exists k. split; auto. rewrite V2, N2. cbn [or_empty]. cbv zeta. rewrite !map_length.
  rewrite V1 in R2. rewrite N1 in R6. cbn [size] in R2, R6.
  split; auto. split.
  { destruct U as [(u & ut & U1 & U2 & U3 & U4)| ->]; [rewrite U2; cbn; now rewrite map_length|]. cbn. now rewrite repeat_length. }
  split; auto. split; [|split].
  - apply Forall_forall. intros x I. apply in_map_iff in I as (i & <- & I). unfold in_range in V4. rewrite Forall_forall in V4. specialize (V4 i I). unfold positive, len in *. lia.
  - destruct U as [(u & ut & U1 & U2 & U3 & U4)| ->].
    + rewrite U2. rewrite U1 in R4. cbn [size] in R4. cbn [uv_numbers]. apply Forall_forall. intros x I. apply in_map_iff in I as (i & <- & I).
      unfold in_range in U4. rewrite Forall_forall in U4. specialize (U4 i I). cbn. unfold positive, len in *. lia.
    + cbn [uv_numbers]. apply Forall_forall. intros x I. apply repeat_spec in I. subst x. exact Logic.I.
  - apply Forall_forall. intros x I. apply in_map_iff in I as (i & <- & I). unfold in_range in N4. rewrite Forall_forall in N4. specialize (N4 i I). unfold positive, len in *. lia.
Qed.
Lemma face_lines_ok m off : exportable m -> room m off -> Forall line_ok (face_lines m off).
Proof.
  intros X R. destruct (face_lines_conditions m off X R) as (k & K & C). cbv zeta in C. destruct C as (L1 & L2 & L3 & P1 & P2 & P3).
  unfold face_lines. eapply face_texts_ok; eauto.
Qed.
(** Reading the faces with numbers that start at [off], after a body. *)
Lemma read_face_lines ft tri m off s acc : exportable m -> room m off ->
  read_lines ft tri (face_lines m off) s acc =
    Ok (with_faces s (map (fun i => i + (fst (fst off) - 1))%N (or_empty (vertex_triangles m)))
          (map (fun i => i + (snd off - 1))%N (or_empty (normal_triangles m)))
          (uv_indices m (snd (fst off) - 1) (length (or_empty (vertex_triangles m)))), acc).
Proof.
  intros X R. destruct (face_lines_conditions m off X R) as (k & K & C). cbv zeta in C. destruct C as (L1 & L2 & L3 & P1 & P2 & P3).
  unfold face_lines. rewrite (read_faces ft tri k) by auto. destruct R as (R1 & R2 & R3 & R4 & R5 & R6). rewrite !map_map.
  assert (M : forall o, (1 <= o)%N -> forall l, map (fun x => x + o - 1)%N l = map (fun i => i + (o - 1))%N l) by (intros o O l; apply map_ext; intros; lia).
  rewrite !M by auto. do 3 f_equal. unfold uv_indices, uv_numbers. destruct (uv_triangles m) as [l|].
  - rewrite map_map. rewrite <- M by auto. apply map_ext. intros a. unfold uv_index. lia.
  - clear. induction (length (or_empty (vertex_triangles m))) as [|j IH]; [reflexivity|]. cbn. now rewrite IH.
Qed.
Lemma read_mesh ft tri m name s acc : text_ok ft -> line_name name -> tidy s -> exportable m ->
  let off := (len (i_vertices s) + 1, len (i_uvs s) + 1, len (i_normals s) + 1)%N in room m off ->
  read_lines ft tri (body_texts ft m name ++ face_lines m off) s acc = Ok (after_mesh s m name, acc ++ pending s).
Proof.
  intros T W Y X off R. rewrite read_lines_app, read_body by auto. cbn [bind]. rewrite read_face_lines by auto.
  unfold after_mesh, with_faces, after_body, off. cbn. rewrite !N.add_sub. reflexivity.
Qed.

Lemma prune_shift {A} (V v : list A) t d1 t1 : (len (V ++ v) < 2 ^ 32)%N -> t <> [] -> in_range v t ->
  fast_prune (V ++ v) (map (fun i => i + len V)%N t) = (d1, t1) ->
  exists front, v = front ++ d1 /\ t = map (fun i => (i + len front)%N) t1.
Proof.
  intros S T R P.
  assert (R' : in_range (V ++ v) (map (fun i => i + len V)%N t)).
  { apply Forall_forall. intros x I. apply in_map_iff in I as (i & <- & I). unfold in_range in R. rewrite Forall_forall in R. specialize (R i I).
    unfold len in *. rewrite app_length. lia. }
  destruct (C47_prune_suffix _ _ _ _ _ S R' P) as (_ & _ & f & F1 & F2).
  destruct (C47_prune_front _ _ _ _ _ S R' P) as [(E & _)|Z]. { destruct t; [congruence|discriminate E]. }
  assert (L : (len V <= len f)%N).
  { assert (I : In (0 + len f)%N (map (fun i => i + len f)%N t1)) by (apply (in_map (fun i => i + len f)%N), Z).
    rewrite <- F2 in I. apply in_map_iff in I as (i & E & _). lia. }
  assert (exists g, f = V ++ g /\ v = g ++ d1) as (g & -> & ->).
  { clear - F1 L. revert f F1 L. induction V as [|a V IH]; intros f F L. { exists f. auto. }
    destruct f as [|b f]; [unfold len in L; cbn in L; lia|]. injection F as <- F. destruct (IH f F) as (g & -> & E); [unfold len in *; cbn [length] in L; lia|].
    exists g. auto. }
  exists g. split; auto.
  assert (G : forall a b : list N, map (fun i => i + len V)%N a = map (fun i => i + len V)%N b -> a = b).
  { clear. induction a as [|x a IH]; intros [|y b] E; try discriminate; auto. injection E as E1 E2. f_equal; [lia|auto]. }
  apply G. rewrite F2, map_map. apply map_ext. intros i. unfold len. rewrite app_length. lia.
Qed.

Lemma after_mesh_becomes s m name : exportable m ->
  room m (len (i_vertices s) + 1, len (i_uvs s) + 1, len (i_normals s) + 1)%N ->
  reimported (m, name) (imported_mesh (after_mesh s m name), word name).
Proof.
  intros (k & K & (v & vt & V1 & V2 & V3 & V4) & (n & nt & N1 & N2 & N3 & N4) & U) (R1 & R2 & R3 & R4 & R5 & R6). cbn [fst snd] in *.
  unfold imported_mesh, after_mesh. cbn [i_vertices i_normals i_uvs i_vertex_triangles i_normal_triangles i_uv_triangles].
  destruct (fast_prune (i_vertices s ++ _) _) as [v1 vt1] eqn:PV. destruct (fast_prune (i_normals s ++ _) _) as [n1 nt1] eqn:PN.
  destruct (fast_prune (i_uvs s ++ _) _) as [u1 ut1] eqn:PU.
  rewrite V1, V2 in PV. rewrite N1, N2 in PN. rewrite V1 in R2. rewrite N1 in R6. cbn [or_empty size] in *.
  assert (NE : forall l : list N, length l = 3 * k -> l <> []) by (intros [|] E; [cbn in E; lia|discriminate]).
  unfold reimported. cbn [fst snd]. split; [apply word_first|]. split; [|split; [|split; [|split]]].
  - apply prune_shift in PV as (f & E1 & E2); auto; [|unfold len in *; rewrite app_length; lia].
    exists f, v1, vt1. rewrite V1, V2. split; [now rewrite E1|]. split; [now rewrite E2|]. split; reflexivity.
  - apply prune_shift in PN as (f & E1 & E2); auto; [|unfold len in *; rewrite app_length; lia].
    exists f, n1, nt1. rewrite N1, N2. split; [now rewrite E1|]. split; [now rewrite E2|]. split; reflexivity.
  - intros UN. destruct U as [(u & ut & U1 & U2 & U3 & U4)|U]; [|congruence].
    unfold uv_indices in PU. rewrite U1, U2 in PU. rewrite U1 in R4. cbn [or_empty size] in *.
    apply prune_shift in PU as (f & E1 & E2); auto; [|unfold len in *; rewrite app_length; lia].
    exists f, u1, ut1. rewrite U1, U2. split; [now rewrite E1|]. split; [now rewrite E2|]. split; reflexivity.
  - intros t UN E. assert (t = vt) by congruence. subst t. unfold uv_indices in PU. rewrite UN, V2 in PU. cbn [or_empty] in PU.
    destruct vt as [|x vt]; [cbn in V3; lia|]. cbn [length repeat] in PU. unfold fast_prune in PU. cbn [prune_scan N.eqb] in PU.
    injection PU as <- <-. cbn. do 2 f_equal. clear. induction vt; cbn; [reflexivity|]. now f_equal.
  - repeat split.
Qed.

(** ** Files *)
Definition next_off (off : N * N * N) (m : mesh) : N * N * N :=
  (fst (fst off) + size (vertices m), snd (fst off) + size (uvs m), snd off + size (normals m))%N.
Fixpoint file_texts (ft : float_text) (l : list (mesh * list N)) (off : N * N * N) : list (list N) :=
  match l with
  | [] => []
  | (m, name) :: t => (body_texts ft m name ++ face_lines m off) ++ file_texts ft t (next_off off m)
  end.
Definition fits_file (l : list (mesh * list N)) (off : N * N * N) : Prop :=
  (1 <= fst (fst off) /\ fst (fst off) + total vertices l < 2 ^ 32 /\ 1 <= snd (fst off) /\ snd (fst off) + total uvs l < 2 ^ 32 /\
   1 <= snd off /\ snd off + total normals l < 2 ^ 32)%N.
Lemma fits_file_cons m name l off : fits_file ((m, name) :: l) off -> room m off /\ fits_file l (next_off off m).
Proof. unfold fits_file, room, next_off. cbn [total fold_right fst snd]. fold (total vertices l) (total uvs l) (total normals l). lia. Qed.
Lemma save_objs_texts ft oc l : forall off, Forall (fun mn => exportable (fst mn)) l -> fits_file l off ->
  save_objs ft oc l off = Ok (unlines (file_texts ft l off)).
Proof.
  induction l as [|[m name] l IH]; intros off X F; [reflexivity|].
  inversion X as [|? ? X1 X2]; subst. apply fits_file_cons in F as [R F]. cbn [save_objs file_texts].
  rewrite save_obj_texts by auto. cbn [bind]. destruct R as (R1 & R2 & R3 & R4 & R5 & R6). destruct off as [[ov ou] on]. cbn [fst snd] in *.
  rewrite !add32_ok by (unfold fits32; lia). cbn [bind]. change (ov + size (vertices m), ou + size (uvs m), on + size (normals m))%N with (next_off (ov, ou, on) m).
  rewrite IH by auto. cbn [bind]. now rewrite (unlines_app (_ ++ _)).
Qed.
Lemma file_texts_ok ft l : text_ok ft -> forall off, Forall (fun mn => exportable (fst mn) /\ line_name (snd mn)) l -> fits_file l off ->
  Forall line_ok (file_texts ft l off).
Proof.
  intros T. induction l as [|[m name] l IH]; intros off X F; [constructor|].
  inversion X as [|? ? [X1 W] X2]; subst. apply fits_file_cons in F as [R F]. cbn [file_texts].
  cbn [fst snd] in *. apply Forall_app; split; [apply Forall_app; split|]; auto.
  - now apply body_texts_ok.
  - now apply face_lines_ok.
Qed.
Definition next_number (s : importer) : N * N * N := (len (i_vertices s) + 1, len (i_uvs s) + 1, len (i_normals s) + 1)%N.
Lemma next_number_after s m name : next_number (after_mesh s m name) = next_off (next_number s) m.
Proof.
  unfold next_number, after_mesh, next_off. cbn [i_vertices i_normals i_uvs fst snd].
  assert (E : forall A (a : list A) d, len (a ++ or_empty d) = (len a + size d)%N).
  { intros A a d. rewrite <- size_or_empty. unfold len. rewrite app_length. lia. }
  rewrite !E. f_equal; [f_equal|]; lia.
Qed.
Lemma after_mesh_triangles s m name : exportable m -> i_vertex_triangles (after_mesh s m name) <> [].
Proof.
  intros (k & K & (v & vt & V1 & V2 & V3 & V4) & _). cbn. rewrite V2. cbn. destruct vt; [cbn in V3; lia|discriminate].
Qed.
Lemma read_file ft tri l : text_ok ft -> forall s acc, i_vertex_triangles s <> [] ->
  Forall (fun mn => exportable (fst mn) /\ line_name (snd mn)) l -> fits_file l (next_number s) ->
  exists s' ms outs, read_lines ft tri (file_texts ft l (next_number s)) s acc = Ok (s', acc ++ ms) /\
    ms ++ [importer_finish s'] = importer_finish s :: outs /\ Forall2 reimported l outs.
Proof.
  intros T. induction l as [|[m name] l IH]; intros s acc P X F.
  - exists s, [], []. cbn. rewrite app_nil_r. repeat split. constructor.
  - inversion X as [|? ? [X1 W] X2]; subst. cbn [fst snd] in *. apply fits_file_cons in F as [R F]. cbn [file_texts].
    rewrite read_lines_app. unfold next_number at 1. rewrite read_mesh; auto; [|intro; contradiction]. cbn [bind].
    rewrite <- (next_number_after s m name) in *.
    destruct (IH (after_mesh s m name) (acc ++ pending s) (after_mesh_triangles s m name X1) X2 F) as (s' & ms & outs & E1 & E2 & E3).
    exists s', (pending s ++ ms), (importer_finish (after_mesh s m name) :: outs). rewrite E1, <- app_assoc. split; auto. split.
    + rewrite <- app_assoc, E2. unfold pending, importer_finish. now destruct (i_vertex_triangles s).
    + constructor; auto. apply (after_mesh_becomes s m name); auto.
Qed.
Definition smooth_text : list N := [115; 32; 49]%N.
Lemma read_smooth ft tri s acc : read_lines ft tri [smooth_text] s acc = Ok (s, acc).
Proof. reflexivity. Qed.
Lemma write_obj_texts ft oc l : Forall (fun mn => exportable (fst mn)) l -> fits_file l (1, 1, 1)%N ->
  write_obj ft oc l = Ok (unlines ([smooth_text] ++ file_texts ft l (1, 1, 1)%N)).
Proof.
  intros X F. unfold write_obj. rewrite save_objs_texts by auto. cbn [bind]. now rewrite unlines_app.
Qed.
Lemma read_written ft tri l : text_ok ft -> l <> [] -> Forall (fun mn => exportable (fst mn) /\ line_name (snd mn)) l -> fits_file l (1, 1, 1)%N ->
  exists outs, read_from_obj ft tri (unlines ([smooth_text] ++ file_texts ft l (1, 1, 1)%N)) = Ok outs /\ Forall2 reimported l outs.
Proof.
  intros T NE X F. destruct l as [|[m name] l]; [congruence|]. clear NE.
  assert (L : Forall line_ok ([smooth_text] ++ file_texts ft ((m, name) :: l) (1, 1, 1)%N)).
  { apply Forall_app. split; [|now apply file_texts_ok]. constructor; [|constructor]. split; [intros I; cbn in I; intuition discriminate|discriminate]. }
  unfold read_from_obj. rewrite lines_unlines by auto. rewrite read_lines_app, read_smooth. cbn [bind file_texts].
  inversion X as [|? ? [X1 W] X2]; subst. cbn [fst snd] in *. apply fits_file_cons in F as [R F].
  rewrite read_lines_app. change (1, 1, 1)%N with (next_number importer_new) at 1. unfold next_number at 1.
  rewrite read_mesh; auto; [|intro; auto]. cbn [bind app]. change (pending importer_new) with (@nil (mesh * list N)).
  change (1, 1, 1)%N with (next_number importer_new) in *. rewrite <- (next_number_after importer_new m name) in *.
  destruct (read_file ft tri l T (after_mesh importer_new m name) [] (after_mesh_triangles importer_new m name X1) X2 F) as (s' & ms & outs & E1 & E2 & E3).
  rewrite E1. cbn [bind app]. exists (importer_finish (after_mesh importer_new m name) :: outs). split; [now rewrite E2|].
  constructor; auto. apply (after_mesh_becomes importer_new m name); auto.
Qed.
