(** Property C67: line ends, ignored lines and surplus words in .obj text. *)
From Coq Require Import List NArith ZArith Arith Lia Bool.
From Flocq Require Import IEEE754.BinarySingleNaN.
From Verif Require Import Base Floats Utilis Unify CustomData Mesh File FileSpec File_proofs Importer Obj ObjSpec Obj_proofs Obj2_proofs ObjTextSpec.
Import ListNotations.
Open Scope res_scope.

Lemma drop_cr_end l : last l 0%N <> 13%N -> drop_cr (l ++ [13]%N) = l.
Proof.
  induction l as [|c l IH]; [reflexivity|]. intros H. cbn [app]. destruct l as [|c' l]; [reflexivity|].
  change (drop_cr (c :: (c' :: l) ++ [13]%N)) with (c :: drop_cr ((c' :: l) ++ [13]%N)). f_equal. apply IH. exact H.
Qed.
Lemma lines_line l e t : line l -> line_end e -> lines (l ++ e ++ t) = l :: lines t.
Proof.
  intros [L1 L2] [-> | ->]; unfold lines; cbn [app].
  - rewrite lines_from_line by auto. cbn [app]. now rewrite drop_cr_same.
  - change (13%N :: 10%N :: t) with ([13]%N ++ 10%N :: t). rewrite app_assoc, lines_from_line.
    + cbn [app]. now rewrite drop_cr_end.
    + intros I. apply in_app_iff in I as [I|[I|[]]]; [auto|discriminate].
Qed.
Lemma lines_text ls t : text_of ls t -> lines t = ls.
Proof. induction 1 as [|l e ls t L E T IH]; [reflexivity|]. rewrite lines_line by auto. now rewrite IH. Qed.
Lemma lines_from_app a : forall acc b, lines_from acc (a ++ 10%N :: b) = lines_from acc (a ++ [10]%N) ++ lines b.
Proof.
  induction a as [|c a IH]; intros acc b; cbn [app lines_from].
  - cbn [N.eqb Pos.eqb]. reflexivity.
  - destruct (c =? 10)%N; [cbn [app]; f_equal|]; apply IH.
Qed.
Lemma lines_app a b : whole a -> lines (a ++ b) = lines a ++ lines b.
Proof.
  intros [-> |[a' ->]]; [reflexivity|]. unfold lines. rewrite <- app_assoc. cbn [app]. apply lines_from_app.
Qed.
Lemma read_split ft tri a b : whole a ->
  read_from_obj ft tri (a ++ b) =
  (let* (oi, acc) := read_lines ft tri (lines a) importer_new [] in
   let* (oi, acc) := read_lines ft tri (lines b) oi acc in Ok (acc ++ [importer_finish oi])).
Proof.
  intros W. unfold read_from_obj. rewrite lines_app, read_lines_app by auto.
  destruct (read_lines ft tri (lines a) importer_new []) as [[oi acc]| |]; reflexivity.
Qed.

(** C67. Only the contents of the lines count, not how they end. *)
Theorem C67_line_ends : forall ft tri ls t t', text_of ls t -> text_of ls t' -> read_from_obj ft tri t = read_from_obj ft tri t'.
Proof. intros ft tri ls t t' A B. unfold read_from_obj. now rewrite (lines_text ls t A), (lines_text ls t' B). Qed.
Print Assumptions C67_line_ends.

Lemma words_skip w : ~ In w words -> list_eqb w kw_v = false /\ list_eqb w kw_vn = false /\ list_eqb w kw_vt = false /\
  list_eqb w kw_f = false /\ list_eqb w kw_o = false.
Proof.
  intros N. repeat split; match goal with |- list_eqb w ?k = false => destruct (list_eqb w k) eqn:E; auto; apply list_eqb_eq in E; subst w;
    destruct N; cbn; tauto end.
Qed.
Lemma first_split l w : first_word l w -> exists parts, split l = w :: parts.
Proof.
  intros (A & B & [-> |(c & rest & -> & C)]).
  - exists []. apply split_last. split; auto.
  - exists (split rest). apply split_part; [split; auto|auto].
Qed.
Lemma skip_line ft tri l oi : ignorable l -> parse_line ft tri l oi = Ok (oi, None).
Proof.
  intros (_ & U & w & F & N). destruct (first_split l w F) as [parts S]. destruct (words_skip w N) as (A & B & C & D & E).
  unfold parse_line. rewrite utf8_valid_complete by auto. cbn [negb]. rewrite S. cbn [next_part bind]. now rewrite A, B, C, D, E.
Qed.
(** Comments, blank lines and lines with other words can be put in or left out anywhere. *)
Theorem C67_ignored_lines : forall ft tri a l e b, whole a -> ignorable l -> line_end e ->
  read_from_obj ft tri (a ++ l ++ e ++ b) = read_from_obj ft tri (a ++ b).
Proof.
  intros ft tri a l e b W I E. rewrite !read_split, lines_line by (auto; apply I).
  destruct (read_lines ft tri (lines a) importer_new []) as [[oi acc]| |]; auto. cbn [bind read_lines]. now rewrite skip_line.
Qed.
Print Assumptions C67_ignored_lines.
(** The last line need not be ended. *)
Theorem C67_last_line : forall ft tri a l, whole a -> line l ->
  read_from_obj ft tri (a ++ l) = read_from_obj ft tri (a ++ l ++ [10]%N).
Proof.
  intros ft tri a l W L. rewrite !read_split by auto.
  destruct (read_lines ft tri (lines a) importer_new []) as [[oi acc]| |]; auto. cbn [bind].
  assert (K : lines (l ++ [10]%N) = [l]).
  { change (lines (l ++ [10]%N ++ []) = [l]). rewrite lines_line; auto. now left. }
  rewrite K. destruct l as [|c l]; [reflexivity|].
  assert (G : forall l acc, ~ In 10%N l -> lines_from acc l = match acc ++ l with [] => [] | _ => [acc ++ l] end).
  { clear. induction l as [|c l IH]; intros acc H; cbn [lines_from]; [now rewrite app_nil_r; destruct acc|].
    destruct (N.eqb_spec c 10) as [->|]; [destruct H; now left|]. rewrite IH by (intros I; apply H; now right). now rewrite <- app_assoc. }
  unfold lines. rewrite G by apply L. reflexivity.
Qed.
Print Assumptions C67_last_line.

Lemma spaced_split ws : forall w, Forall no_sep (w :: ws) -> split (spaced ws w) = w :: ws.
Proof.
  unfold spaced. induction ws as [|p ws IH]; intros w F; inversion F as [|? ? F1 F2]; subst; cbn [map concat].
  - rewrite app_nil_r. now apply split_last.
  - cbn [app]. rewrite split_part by auto. f_equal. now apply IH.
Qed.
Lemma spaced_extra ws extra : forall w, Forall no_sep (w :: ws) -> split (spaced ws w ++ 32%N :: extra) = w :: ws ++ split extra.
Proof.
  unfold spaced. induction ws as [|p ws IH]; intros w F; inversion F as [|? ? F1 F2]; subst; cbn [map concat app].
  - rewrite app_nil_r. now rewrite split_part by auto.
  - rewrite <- app_assoc. cbn [app]. rewrite split_part by auto. f_equal. rewrite <- IH by auto. reflexivity.
Qed.
Lemma utf8_space l : utf8 l -> utf8 (32%N :: l).
Proof. intros H. apply utf8_1; [lia|exact H]. Qed.
Lemma spaced_utf8 ws w : Forall utf8 (w :: ws) -> utf8 (spaced ws w).
Proof.
  intros F. inversion F as [|? ? F1 F2]; subst. apply utf8_app; auto. clear F F1. induction F2 as [|p ws P F IH]; cbn [map concat]; [constructor|].
  cbn [app]. apply utf8_space. now apply utf8_app.
Qed.
Lemma last_app_ne {A} (a b : list A) d : b <> [] -> last (a ++ b) d = last b d.
Proof.
  intros H. induction a as [|x a IH]; auto. cbn [app]. rewrite <- IH. destruct (a ++ b) eqn:E; [|reflexivity].
  apply app_eq_nil in E as [_ E]. contradiction.
Qed.
Lemma spaced_line ws w : Forall token (w :: ws) -> line (spaced ws w).
Proof.
  intros F. inversion F as [|? ? (A & B & C & D & E & U) F2]; subst. revert w A B C D E U F. induction F2 as [|p ws P F2 IH]; intros w A B C D E U F.
  - unfold spaced. cbn. rewrite app_nil_r. split; auto.
  - unfold spaced. cbn [map concat]. destruct P as (A' & B' & C' & D' & E' & U').
    destruct (IH p) as [L1 L2]; auto; [inversion F; auto|]. unfold spaced in L1, L2. split.
    + intros I. apply in_app_iff in I as [I|[I|I]]; [auto|discriminate|]. auto.
    + rewrite last_app_ne by discriminate.
      change ((32%N :: p) ++ concat (map (fun p0 => 32%N :: p0) ws)) with ([32]%N ++ p ++ concat (map (fun p0 => 32%N :: p0) ws)).
      rewrite last_app_ne; auto. intros H. apply app_eq_nil in H as [H _]. contradiction.
Qed.
(** What follows the third number of a vertex or normal, or the second of a texture coordinate
    (a weight, a colour, a third coordinate), is ignored. *)
Theorem C67_surplus : forall ft tri a b k ws extra e, whole a -> line_end e ->
  (In k [[118]; [118; 110]]%N /\ length ws = 3 \/ k = [118; 116]%N /\ length ws = 2) -> Forall token ws ->
  line (32%N :: extra) -> utf8 extra ->
  read_from_obj ft tri (a ++ (spaced ws k ++ [32]%N ++ extra) ++ e ++ b) = read_from_obj ft tri (a ++ spaced ws k ++ e ++ b).
Proof.
  intros ft tri a b k ws extra e W E K T [L1 L2] U.
  assert (TK : token k).
  { assert (I : In k [[118]; [118; 110]; [118; 116]]%N) by (cbn in *; intuition).
    destruct I as [<-|[<-|[<-|[]]]]; (repeat split); try (intros I; cbn in I; repeat destruct I as [I|I]; try discriminate I; contradiction);
      try discriminate; repeat (apply utf8_1; [lia|]); constructor. }
  assert (F : Forall token (k :: ws)) by (constructor; auto).
  assert (NS : Forall no_sep (k :: ws)) by (eapply Forall_impl; [|exact F]; intros p (A & B & _); split; auto).
  assert (U8 : utf8 (spaced ws k)) by (apply spaced_utf8; eapply Forall_impl; [|exact F]; intros p P; apply P).
  destruct (spaced_line ws k F) as [M1 M2].
  rewrite !read_split by auto. rewrite !lines_line; auto; [| split; auto |].
  - destruct (read_lines ft tri (lines a) importer_new []) as [[oi acc]| |]; auto. cbn [bind read_lines].
    assert (P : parse_line ft tri (spaced ws k ++ [32]%N ++ extra) oi = parse_line ft tri (spaced ws k) oi); [|now rewrite P].
    unfold parse_line. rewrite !utf8_valid_complete; [|exact U8|apply utf8_app; [exact U8|now apply utf8_space]].
    cbn [negb app]. rewrite spaced_extra, spaced_split by auto. cbn [next_part bind].
    destruct K as [[K L]|[-> L]].
    + destruct ws as [|x [|y [|z [|? ?]]]]; try discriminate L. cbn [app].
      destruct K as [<-|[<-|[]]]; reflexivity.
    + destruct ws as [|x [|y [|? ?]]]; try discriminate L. reflexivity.
  - split.
    + intros I. apply in_app_iff in I as [I|I]; auto.
    + cbn [app]. rewrite last_app_ne by discriminate. exact L2.
Qed.
Print Assumptions C67_surplus.

(** "v 1 2 3" and "# a" with both line ends; a comment; an indented vertex, which counts as a
    line with another word; a weight after a vertex. *)
Definition v123 : list N := [118; 32; 49; 32; 50; 32; 51]%N.
Example C67_case : forall ft tri,
  read_from_obj ft tri (v123 ++ [13; 10; 35; 32; 97; 10]%N) = read_from_obj ft tri (v123 ++ [10; 35; 32; 97; 13; 10]%N) /\
  read_from_obj ft tri (v123 ++ [13; 10; 35; 32; 97; 10]%N) = read_from_obj ft tri v123 /\
  read_from_obj ft tri (([32]%N ++ v123) ++ [10]%N ++ v123) = read_from_obj ft tri v123 /\
  read_from_obj ft tri ((v123 ++ [32]%N ++ [49; 46; 48]%N) ++ [10]%N ++ []) = read_from_obj ft tri (v123 ++ [10]%N ++ []).
Proof.
  intros ft tri.
  assert (LV : line v123). { split; [intros I; cbn in I; repeat destruct I as [I|I]; try discriminate I; contradiction|discriminate]. }
  assert (LC : line [35; 32; 97]%N). { split; [intros I; cbn in I; repeat destruct I as [I|I]; try discriminate I; contradiction|discriminate]. }
  assert (IC : ignorable [35; 32; 97]%N).
  { split; [exact LC|]. split; [repeat (apply utf8_1; [lia|]); constructor|]. exists [35]%N. split.
    - repeat split; try (intros [I|[]]; discriminate I). right. exists 32%N, [97]%N. auto.
    - intros I. cbn in I. repeat destruct I as [I|I]; try discriminate I; contradiction. }
  split; [|split; [|split]].
  - apply (C67_line_ends ft tri [v123; [35; 32; 97]%N]).
    + apply (text_cons v123 [13; 10]%N [[35; 32; 97]%N] [35; 32; 97; 10]%N); [exact LV|now right|].
      apply (text_cons [35; 32; 97]%N [10]%N [] []); [exact LC|now left|constructor].
    + apply (text_cons v123 [10]%N [[35; 32; 97]%N] [35; 32; 97; 13; 10]%N); [exact LV|now left|].
      apply (text_cons [35; 32; 97]%N [13; 10]%N [] []); [exact LC|now right|constructor].
  - transitivity (read_from_obj ft tri (v123 ++ [13; 10]%N)).
    + apply (C67_ignored_lines ft tri (v123 ++ [13; 10]%N) [35; 32; 97]%N [10]%N []); [right; now exists (v123 ++ [13]%N)|exact IC|now left].
    + transitivity (read_from_obj ft tri (v123 ++ [10]%N)); [|symmetry; apply (C67_last_line ft tri [] v123); [now left|exact LV]].
      apply (C67_line_ends ft tri [v123]).
      * apply (text_cons v123 [13; 10]%N [] []); [exact LV|now right|constructor].
      * apply (text_cons v123 [10]%N [] []); [exact LV|now left|constructor].
  - apply (C67_ignored_lines ft tri [] ([32]%N ++ v123) [10]%N v123); [now left| |now left].
    split; [split; [intros I; cbn in I; repeat destruct I as [I|I]; try discriminate I; contradiction|discriminate]|].
    split; [repeat (apply utf8_1; [lia|]); constructor|]. exists []. split.
    + repeat split; auto. right. exists 32%N, v123. auto.
    + intros I. cbn in I. repeat destruct I as [I|I]; try discriminate I; contradiction.
  - apply (C67_surplus ft tri [] [] [118]%N [[49]; [50]; [51]]%N [49; 46; 48]%N [10]%N); [now left|now left|left; cbn; auto| | |].
    + repeat constructor; try (intros I; cbn in I; repeat destruct I as [I|I]; try discriminate I; contradiction); try discriminate; lia.
    + split; [intros I; cbn in I; repeat destruct I as [I|I]; try discriminate I; contradiction|discriminate].
    + repeat (apply utf8_1; [lia|]). constructor.
Qed.
