(** The text of an integrity error determines the error. *)
From Coq Require Import List NArith ZArith Arith Lia Bool.
From Verif Require Import Base Floats Mesh Obj ObjSpec Obj_proofs VerifyText VerifyTextSpec FloatText FloatText_proofs.
Import ListNotations.

(** Without comma and closing brace. *)
Definition inside (c : N) : Prop := c <> 44%N /\ c <> 125%N.
Definition stop (r : list N) : Prop := match r with [] => True | c :: _ => c = 44%N \/ c = 125%N end.

Lemma cut_at (c : N) (a : list N) : forall b r r', ~ In c a -> ~ In c b -> a ++ c :: r = b ++ c :: r' -> a = b /\ r = r'.
Proof.
  induction a as [|x a IH]; intros [|y b] r r' A B E; cbn [app] in E.
  - injection E as E. auto.
  - injection E as E _. exfalso. apply B. left. auto.
  - injection E as E _. exfalso. apply A. left. auto.
  - injection E as -> E. apply IH in E as [-> ->]; auto; intros I; [apply A|apply B]; now right.
Qed.
Lemma inside_not l : Forall inside l -> ~ In 44%N l /\ ~ In 125%N l.
Proof. intros F. rewrite Forall_forall in F. split; intros I; apply F in I; destruct I; congruence. Qed.
Lemma shown_inside n : (n < 2 ^ 32)%N -> Forall inside (show_u32 n).
Proof. intros L. destruct (show_u32_numeral n L) as [_ D]. eapply Forall_impl; [|exact D]. unfold digit, inside. lia. Qed.
Lemma shown_same i j : (i < 2 ^ 32)%N -> (j < 2 ^ 32)%N -> show_u32 i = show_u32 j -> i = j.
Proof.
  intros I J E. destruct (show_u32_numeral i I) as [P _]. destruct (show_u32_numeral j J) as [Q _].
  apply parse_u32_iff in P, Q. congruence.
Qed.

Section Tells.
Variable ft : float_text.
Hypothesis FT : text_ok ft.
Hypothesis FI : forall x, Forall inside (t_show ft x).

Fixpoint depth (e : integrity) : nat :=
  match e with CompositeError l => S (fold_right (fun e k => Nat.max (depth e) k) 0 l) | _ => 0 end.

Lemma index_same w i n i' n' r r' : (i < 2 ^ 32)%N /\ (n < 2 ^ 32)%N -> (i' < 2 ^ 32)%N /\ (n' < 2 ^ 32)%N ->
  index_text w i n ++ r = index_text w i' n' ++ r' -> (i = i' /\ n = n') /\ r = r'.
Proof.
  intros [I N0] [I' N'] E. unfold index_text in E. rewrite <- !app_assoc in E. apply app_inv_head in E. apply app_inv_head in E. cbn [app] in E.
  apply cut_at in E as [E1 E]; [|apply inside_not; now apply shown_inside..]. injection E as E.
  apply cut_at in E as [E2 ->]; [|apply inside_not; now apply shown_inside..]. apply shown_same in E1, E2; auto.
Qed.
Lemma float_same x x' : t_show ft x = t_show ft x' -> x = x'.
Proof. intros E. destruct (FT x) as [P _], (FT x') as [Q _]. congruence. Qed.
Lemma tells_upto k : forall e e' r r', depth e <= k -> ranged e -> ranged e' -> stop r -> stop r' ->
  status_text ft e ++ r = status_text ft e' ++ r' -> e = e' /\ r = r'.
Proof.
  induction k as [k IH] using lt_wf_ind. intros e e' r r' D R R' S S' E.
  destruct e; destruct e'; try (exfalso; cbn [status_text index_text app] in E; unfold index_text in E; cbn [app] in E; discriminate E).
  all: try (cbn [status_text] in E; apply app_inv_head in E; split; [reflexivity|exact E]).
  1-2, 4: (cbn [status_text] in E; apply index_same in E as [[-> ->] ->]; auto).
  - cbn [status_text] in E. rewrite <- !app_assoc in E. apply app_inv_head in E. cbn [app] in E.
    apply cut_at in E as [E1 E]; [|apply inside_not, FI..]. injection E as E.
    apply cut_at in E as [E2 ->]; [|apply inside_not, FI..]. apply float_same in E1, E2. subst. auto.
  - cbn [status_text] in E. rewrite <- !app_assoc in E. apply app_inv_head in E. cbn [app depth ranged] in *.
    assert (G : forall l l0, fold_right (fun e k => Nat.max (depth e) k) 0 l < k -> fold_right (fun e p => ranged e /\ p) True l ->
      fold_right (fun e p => ranged e /\ p) True l0 ->
      flat_map (fun e => 44%N :: status_text ft e) l ++ 125%N :: r = flat_map (fun e => 44%N :: status_text ft e) l0 ++ 125%N :: r' -> l = l0 /\ r = r').
    { clear E R R' D l l0. induction l as [|e l IHl]; intros [|e' l'] D R R' E; cbn [flat_map app fold_right] in *; try discriminate E.
      - injection E as E. auto.
      - injection E as E. rewrite <- !app_assoc in E.
        apply (IH (depth e)) in E as [-> E]; [|lia|lia|apply R|apply R'|destruct l; cbn; auto|destruct l'; cbn; auto].
        destruct (IHl l') as [-> ->]; [lia|apply R|apply R'|exact E|]. auto. }
    destruct (G l l0) as [-> ->]; auto.
Qed.
Lemma tells e e' : ranged e -> ranged e' -> status_text ft e = status_text ft e' -> e = e'.
Proof.
  intros R R' E. apply (tells_upto (depth e) e e' [] []); cbn; auto. now rewrite E.
Qed.
End Tells.

Lemma std_inside x : Forall inside (t_show std_text x).
Proof.
  assert (SG : forall s, Forall inside (show_sign s)) by (intros [|]; repeat constructor; discriminate).
  assert (DI : forall l, Forall digit l -> Forall inside l) by (apply Forall_impl; unfold digit, inside; lia).
  cbn [t_show std_text]. destruct x as [s|s| |s m e H]; cbn [show_float].
  - apply Forall_app. split; [apply SG|]. repeat constructor; discriminate.
  - apply Forall_app. split; [apply SG|]. repeat constructor; discriminate.
  - repeat constructor; discriminate.
  - destruct (digits_of _ _ m e _) as [k j]. apply Forall_app. split; [apply SG|].
    destruct (show_decimal_text k j) as (i & p & f & -> & _ & I & Ff & PP & _). apply Forall_app. split; [auto|].
    apply Forall_app. split; [|auto]. destruct PP as [-> |[-> _]]; repeat constructor; discriminate.
Qed.
