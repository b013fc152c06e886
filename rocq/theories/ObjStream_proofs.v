(** OBJ sources and sinks. *)
From Coq Require Import List NArith ZArith Arith Lia Bool.
From Verif Require Import Base Floats Utilis Unify CustomData Mesh File Importer Obj StreamSpec Stream ObjStream.
Import ListNotations.
Open Scope res_scope.

Lemma lines_feed l : forall acc more, lines_from acc (l ++ more) = fst (feed acc l) ++ lines_from (snd (feed acc l)) more.
Proof.
  induction l as [|c l IH]; intros acc more; cbn [app lines_from feed]; [reflexivity|].
  destruct (c =? 10)%N.
  - rewrite IH. destruct (feed [] l). reflexivity.
  - apply IH.
Qed.
Lemma s_lines_end s : forall acc, lasting s -> ends s = AtEnd -> s_lines acc s = map Ok (lines_from acc (delivers s)).
Proof.
  induction s as [|[l| |e] t IH]; intros acc L E; cbn [s_lines delivers].
  - cbn [lines_from]. now destruct acc.
  - inversion L as [|? ? P L']; subst. destruct l as [|x l]; [congruence|]. cbn [ends delivers] in *. rewrite lines_feed.
    destruct (feed acc (x :: l)) as [ls acc']. cbn [fst snd]. rewrite map_app. f_equal. apply IH; auto.
  - inversion L; subst. apply IH; auto.
  - discriminate.
Qed.
(** A source that fails: the complete lines, then the error. *)
Lemma s_lines_fail s : forall acc e, ends s = Failed e -> exists ls acc', s_lines acc s = map Ok ls ++ [Err e] /\
  forall more, lines_from acc (delivers s ++ more) = ls ++ lines_from acc' more.
Proof.
  induction s as [|[l| |e'] t IH]; intros acc e E; cbn [s_lines delivers].
  - discriminate.
  - destruct l as [|x l]; [discriminate|]. cbn [ends delivers] in *. destruct (feed acc (x :: l)) as [ls acc'] eqn:F.
    destruct (IH acc' e E) as (ls' & acc'' & R & M). exists (ls ++ ls'), acc''. rewrite R, map_app, app_assoc. split; [reflexivity|].
    intros more. rewrite <- app_assoc, lines_feed, F. cbn [fst snd]. rewrite M. apply app_assoc.
  - apply IH. exact E.
  - injection E as ->. exists [], acc. split; reflexivity.
Qed.
Lemma read_lines_Ok ft tri ls : forall oi acc, s_read_lines ft tri (map Ok ls) oi acc = map_err OOwn (read_lines ft tri ls oi acc).
Proof.
  induction ls as [|l ls IH]; intros oi acc; cbn [map s_read_lines read_lines map_err bind]; [reflexivity|].
  destruct (parse_line ft tri l oi) as [[oi' o]| |]; cbn [map_err bind]; [apply IH|reflexivity|reflexivity].
Qed.
Lemma read_lines_fail ft tri e ls : forall oi acc, s_read_lines ft tri (map Ok ls ++ [Err e]) oi acc =
  match read_lines ft tri ls oi acc with Ok _ => Err (OSource e) | Err o => Err (OOwn o) | Panic => Panic end.
Proof.
  induction ls as [|l ls IH]; intros oi acc; cbn [map app s_read_lines read_lines map_err bind]; [reflexivity|].
  destruct (parse_line ft tri l oi) as [[oi' o]| |]; cbn [map_err bind]; [apply IH|reflexivity|reflexivity].
Qed.
Lemma read_lines_app ft tri a : forall b oi acc, read_lines ft tri (a ++ b) oi acc =
  let* (oi, acc) := read_lines ft tri a oi acc in read_lines ft tri b oi acc.
Proof.
  induction a as [|l a IH]; intros b oi acc; cbn [app read_lines bind]; [reflexivity|].
  destruct (parse_line ft tri l oi) as [[oi' o]| |]; cbn [bind]; [apply IH|reflexivity|reflexivity].
Qed.

(** *** Saving *)
Lemma flush_spec s : forall buf d, exists w q s0 s', buf = w ++ q /\ s = s0 ++ s' /\
  ((flush_loop buf d s = (q, mk_wsink (d ++ w) s', Ok tt) /\ q = []) \/
   (exists why, flush_loop buf d s = (q, mk_wsink (d ++ w) s', Err why) /\ refuses s0 why)).
Proof.
  induction s as [|e t IH]; intros buf d.
  - exists buf, [], [], []. rewrite app_nil_r. split; [reflexivity|]. split; [reflexivity|]. left. split; [|reflexivity].
    destruct buf; cbn [flush_loop]; [now rewrite app_nil_r|reflexivity].
  - destruct buf as [|x buf].
    { exists [], [], [], (e :: t). split; [reflexivity|]. split; [reflexivity|]. left. cbn [flush_loop]. rewrite app_nil_r. auto. }
    destruct e as [n| |e]; cbn [flush_loop].
    + destruct n as [|n].
      * exists [], (x :: buf), [Takes 0], t. split; [reflexivity|]. split; [reflexivity|]. right. exists None. rewrite app_nil_r. split; [reflexivity|cbn; auto].
      * set (k := N.to_nat (N.pos n)). set (l := x :: buf).
        destruct (IH (skipn k l) (d ++ firstn k l)) as (w & q & s0 & s' & E1 & E2 & H).
        exists (firstn k l ++ w), q, (Takes (N.pos n) :: s0), s'. rewrite <- app_assoc, <- E1, firstn_skipn, E2. split; [reflexivity|]. split; [reflexivity|].
        rewrite app_assoc, <- E2. destruct H as [[H1 H2]|(why & H1 & H2)]; [left; auto|right; exists why; split; [exact H1|]].
        destruct why; cbn [refuses] in *; right; auto.
    + destruct (IH (x :: buf) d) as (w & q & s0 & s' & E1 & E2 & H). exists w, q, (WInterrupted :: s0), s'. rewrite E1, E2. split; [reflexivity|]. split; [reflexivity|].
      rewrite <- E1, <- E2. destruct H as [[H1 H2]|(why & H1 & H2)]; [left; auto|right; exists why; split; [exact H1|]].
      destruct why; cbn [refuses] in *; right; auto.
    + exists [], (x :: buf), [WFails e], t. split; [reflexivity|]. split; [reflexivity|]. right. exists (Some e). rewrite app_nil_r. split; [reflexivity|cbn; auto].
Qed.
Lemma refuses_l a b why : refuses a why -> refuses (a ++ b) why.
Proof. destruct why; cbn [refuses]; intros; apply in_app_iff; auto. Qed.
Lemma refuses_r a b why : refuses b why -> refuses (a ++ b) why.
Proof. destruct why; cbn [refuses]; intros; apply in_app_iff; auto. Qed.

(** The sink and the buffer together hold what was written; after an error, a part of it. *)
Lemma buf_write_spec cap bytes buf d s : exists d' buf' s0 s', s = s0 ++ s' /\
  ((buf_write_all cap bytes buf (mk_wsink d s) = (buf', mk_wsink d' s', Ok tt) /\ d' ++ buf' = d ++ buf ++ bytes) \/
   (exists why rest, buf_write_all cap bytes buf (mk_wsink d s) = (buf', mk_wsink d' s', Err why) /\ refuses s0 why /\ d ++ buf ++ bytes = (d' ++ buf') ++ rest)).
Proof.
  unfold buf_write_all. destruct (length bytes <? cap - length buf).
  { exists d, (buf ++ bytes), [], s. split; [reflexivity|]. left. auto. }
  assert (exists d1 buf1 s0 s1 r, (if cap - length buf <? length bytes then flush_buf buf (mk_wsink d s) else (buf, mk_wsink d s, Ok tt)) = (buf1, mk_wsink d1 s1, r) /\ s = s0 ++ s1 /\
    d1 ++ buf1 = d ++ buf /\ ((r = Ok tt /\ (cap <= length bytes -> buf1 = [] \/ bytes = [])) \/ exists why, r = Err why /\ refuses s0 why)) as (d1 & buf1 & s0 & s1 & r & E & -> & D & R).
  { destruct (Nat.ltb_spec (cap - length buf) (length bytes)).
    - unfold flush_buf. cbn [ws_data ws_sched]. destruct (flush_spec s buf d) as (w & q & s0 & s' & -> & -> & [[F ->]|(why & F & R)]); rewrite F.
      + exists (d ++ w), [], s0, s', (Ok tt). repeat split; auto. now rewrite !app_nil_r.
      + exists (d ++ w), q, s0, s', (Err why). repeat split; eauto. now rewrite app_assoc.
    - exists d, buf, [], s, (Ok tt). repeat split; auto. left. split; [reflexivity|]. intros C. destruct buf; [auto|]. right. destruct bytes; [reflexivity|]. cbn [length] in *. lia. }
  rewrite E. destruct R as [[-> C]|(why & -> & R)].
  - destruct (Nat.leb_spec cap (length bytes)) as [L|L].
    + unfold flush_buf. cbn [ws_data ws_sched]. destruct (flush_spec s1 bytes d1) as (w & q & s2 & s' & E1 & -> & [[F ->]|(why & F & R)]); rewrite F;
        exists (d1 ++ w), buf1, (s0 ++ s2), s'; (split; [apply app_assoc|]).
      * left. split; [reflexivity|]. rewrite app_nil_r in E1. subst w. rewrite (app_assoc d), <- D.
        destruct (C L) as [-> | ->]; now rewrite ?app_nil_r.
      * right. exists why, q. split; [reflexivity|]. split; [now apply refuses_r|]. rewrite (app_assoc d), <- D, E1.
        destruct (C L) as [-> | ->]; [now rewrite !app_nil_r, app_assoc|]. destruct w; [|discriminate E1]. cbn [app] in E1. subst q. now rewrite !app_nil_r.
    + exists d1, (buf1 ++ bytes), s0, s1. split; [reflexivity|]. left. split; [reflexivity|]. now rewrite !app_assoc, D.
  - exists d1, buf1, s0, s1. split; [reflexivity|]. right. exists why, bytes. split; [reflexivity|]. split; [exact R|]. now rewrite D, app_assoc.
Qed.
Lemma buf_each_spec cap frs : forall buf d s, exists d' buf' s0 s', s = s0 ++ s' /\
  ((buf_write_each cap frs buf (mk_wsink d s) = (buf', mk_wsink d' s', Ok tt) /\ d' ++ buf' = d ++ buf ++ concat frs) \/
   (exists why rest, buf_write_each cap frs buf (mk_wsink d s) = (buf', mk_wsink d' s', Err why) /\ refuses s0 why /\ d ++ buf ++ concat frs = (d' ++ buf') ++ rest)).
Proof.
  induction frs as [|b frs IH]; intros buf d s; cbn [buf_write_each concat].
  { exists d, buf, [], s. split; [reflexivity|]. left. now rewrite app_nil_r. }
  destruct (buf_write_spec cap b buf d s) as (d1 & buf1 & s0 & s1 & -> & [[E D]|(why & rest & E & R & D)]); rewrite E.
  - destruct (IH buf1 d1 s1) as (d2 & buf2 & s2 & s3 & -> & [[E2 D2]|(why & rest & E2 & R & D2)]); rewrite E2; exists d2, buf2, (s0 ++ s2), s3; (split; [apply app_assoc|]).
    + left. split; [reflexivity|]. rewrite D2, (app_assoc d1), D. now rewrite <- !app_assoc.
    + right. exists why, rest. split; [reflexivity|]. split; [now apply refuses_r|]. rewrite <- D2, (app_assoc d1), D. now rewrite <- !app_assoc.
  - exists d1, buf1, s0, s1. split; [reflexivity|]. right. exists why, (rest ++ concat frs). split; [reflexivity|]. split; [exact R|].
    rewrite (app_assoc (d1 ++ buf1)), <- D. now rewrite <- !app_assoc.
Qed.
Lemma write_obj_spec cap frs s : exists got s0 s', s = s0 ++ s' /\
  ((s_write_obj cap frs (mk_wsink [] s) = (mk_wsink got s', Ok tt) /\ got = concat frs) \/
   (exists why rest, s_write_obj cap frs (mk_wsink [] s) = (mk_wsink got s', Err why) /\ refuses s0 why /\ concat frs = got ++ rest)).
Proof.
  unfold s_write_obj. destruct (buf_each_spec cap frs [] [] s) as (d1 & buf1 & s0 & s1 & -> & [[E D]|(why & rest & E & R & D)]); rewrite E; cbn [app] in D; unfold flush_buf; cbn [ws_data ws_sched].
  - destruct (flush_spec s1 buf1 d1) as (w & q & s2 & s' & -> & -> & [[F ->]|(why & F & R)]); rewrite F.
    + cbn [ws_data ws_sched flush_loop]. exists (d1 ++ w), (s0 ++ s2), s'. split; [apply app_assoc|]. left. rewrite app_nil_r in D. split; [|exact D]. destruct s'; reflexivity.
    + cbn [ws_data ws_sched]. destruct (flush_spec s' q (d1 ++ w)) as (w3 & q3 & s3 & s4 & -> & -> & [[F2 _]|(why2 & F2 & _)]); rewrite F2;
        exists ((d1 ++ w) ++ w3), ((s0 ++ s2) ++ s3), s4; (split; [now rewrite <- !app_assoc|]); right; exists why, q3; (split; [reflexivity|]);
        (split; [apply refuses_l, refuses_r, R|]); now rewrite <- D, <- !app_assoc.
  - cbn [ws_data ws_sched]. destruct (flush_spec s1 buf1 d1) as (w3 & q3 & s3 & s4 & -> & -> & [[F2 _]|(why2 & F2 & _)]); rewrite F2;
        exists (d1 ++ w3), (s0 ++ s3), s4; (split; [now rewrite <- !app_assoc|]); right; exists why, (q3 ++ rest); (split; [reflexivity|]);
        (split; [apply refuses_l, R|]); now rewrite D, <- !app_assoc.
Qed.
