(** Loading from any source and saving to any sink. *)
From Coq Require Import List NArith ZArith Arith Lia Bool.
From Verif Require Import Base UnalignedRW ReadExt Triangles Floats Utilis Unify CustomData Mesh Tmf File FileSpec StreamSpec Stream.
Import ListNotations.
Open Scope res_scope.

Definition stopped (en : ending) : lerr := match en with AtEnd => eof | Failed e => LSource e end.

(** [fs] does on a source what [f] does on the bytes it delivers. *)
Definition sim {A} (fs : stream -> res lerr (A * stream)) (f : list N -> res ierr (A * list N)) : Prop :=
  forall s,
  (exists a s' b', fs s = Ok (a, s') /\ delivers s' = b' /\ ends s' = ends s /\ forall more, f (delivers s ++ more) = Ok (a, b' ++ more)) \/
  (exists e, fs s = Err (LErr e) /\ forall more, f (delivers s ++ more) = Err e) \/
  (fs s = Panic /\ forall more, f (delivers s ++ more) = Panic) \/
  (f (delivers s) = Err (EIO UnexpectedEof) /\ fs s = Err (stopped (ends s))).

Lemma sim_bind {A B} fs (f : list N -> res ierr (A * list N)) gs (g : A -> list N -> res ierr (B * list N)) :
  sim fs f -> (forall a, sim (gs a) (g a)) ->
  sim (fun s => let* (a, s) := fs s in gs a s) (fun b => let* (a, b) := f b in g a b).
Proof.
  intros F G s. destruct (F s) as [(a & s' & b' & E & D & N & M)|[(e & E & M)|[(E & M)|(E & M)]]].
  - rewrite E. cbn [bind]. subst b'.
    destruct (G a s') as [(a' & s'' & b' & E' & D' & N' & M')|[(e & E' & M')|[(E' & M')|(E' & M')]]].
    + left. exists a', s'', b'. split; [exact E'|]. split; [exact D'|]. split; [congruence|]. intros more. rewrite M. cbn [bind]. apply M'.
    + right; left. exists e. split; [exact E'|]. intros more. rewrite M. apply M'.
    + right; right; left. split; [exact E'|]. intros more. rewrite M. apply M'.
    + right; right; right. pose proof (M []) as M0. rewrite !app_nil_r in M0. rewrite M0. cbn [bind]. split; [exact E'|]. congruence.
  - right; left. exists e. rewrite E. split; [reflexivity|]. intros more. now rewrite M.
  - right; right; left. rewrite E. split; [reflexivity|]. intros more. now rewrite M.
  - right; right; right. rewrite E, M. split; reflexivity.
Qed.
Lemma sim_ret {A} (a : A) : sim (fun s => Ok (a, s)) (fun b => Ok (a, b)).
Proof. intros s. left. exists a, s, (delivers s). auto. Qed.
Lemma sim_err {A} e : @sim A (fun _ => Err (LErr e)) (fun _ => Err e).
Proof. intros s. right; left. eauto. Qed.
Lemma sim_panic {A} : @sim A (fun _ => Panic) (fun _ => Panic).
Proof. intros s. right; right; left. auto. Qed.
Lemma sim_pure {A B} (r : res ierr B) gs (g : B -> list N -> res ierr (A * list N)) : (forall a, sim (gs a) (g a)) ->
  sim (fun s => let* a := map_err LErr r in gs a s) (fun b => let* a := r in g a b).
Proof. intros G. destruct r; cbn [map_err bind]; [apply G|apply sim_err|apply sim_panic]. Qed.
Lemma sim_ext {A} fs fs' (f f' : list N -> res ierr (A * list N)) : sim fs f -> (forall s, fs' s = fs s) -> (forall b, f' b = f b) -> sim fs' f'.
Proof. intros S E E' s. rewrite E. setoid_rewrite E'. apply S. Qed.

Lemma read_exact_more n a b : (n <= len a)%N -> read_exact n (a ++ b) = Ok (firstn (N.to_nat n) a, skipn (N.to_nat n) a ++ b).
Proof.
  intros H. unfold read_exact, len in *. rewrite app_length. replace (_ <? n)%N with false by (symmetry; apply N.ltb_ge; lia).
  rewrite firstn_app, skipn_app. replace (N.to_nat n - length a) with 0 by lia. cbn [firstn skipn]. now rewrite app_nil_r.
Qed.
Lemma s_exact s : forall n,
  ((n <= len (delivers s))%N /\ exists s', s_read_exact n s = Ok (firstn (N.to_nat n) (delivers s), s') /\
     delivers s' = skipn (N.to_nat n) (delivers s) /\ ends s' = ends s) \/
  ((len (delivers s) < n)%N /\ s_read_exact n s = Err (stopped (ends s))).
Proof.
  unfold len. induction s as [|[l| |e] t IH]; intros n; cbn [s_read_exact].
  - destruct (N.eqb_spec n 0) as [->|H]; [left|right; cbn; split; [lia|reflexivity]].
    split; [cbn; lia|]. exists []. cbn. auto.
  - destruct (N.eqb_spec n 0) as [->|H].
    { left. split; [lia|]. exists (Piece l :: t). auto. }
    destruct l as [|x l]; [right; cbn; split; [lia|reflexivity]|]. cbn [delivers ends].
    set (l1 := x :: l). rewrite app_length. destruct (N.leb_spec (N.of_nat (length l1)) n) as [L|L].
    + destruct (IH (n - N.of_nat (length l1))%N) as [(H1 & s' & E & D & N)|(H1 & E)].
      * left. split; [lia|]. exists s'. rewrite E. cbn [bind]. rewrite firstn_app, skipn_app.
        rewrite (firstn_all2 l1) by lia. rewrite (skipn_all2 l1) by lia. cbn [app].
        replace (N.to_nat (n - N.of_nat (length l1))) with (N.to_nat n - length l1) in * by lia. auto.
      * right. split; [lia|]. rewrite E. reflexivity.
    + left. split; [lia|]. eexists. rewrite firstn_app, skipn_app. replace (N.to_nat n - length l1) with 0 by lia. cbn [firstn skipn].
      rewrite app_nil_r. split; [reflexivity|]. destruct (skipn (N.to_nat n) l1) as [|y r] eqn:E.
      * exfalso. apply (f_equal (@length N)) in E. rewrite skipn_length in E. cbn [length] in E. lia.
      * cbn [delivers ends]. auto.
  - destruct (N.eqb_spec n 0) as [->|H].
    { left. split; [lia|]. exists (Interrupted :: t). auto. }
    cbn [delivers ends]. apply IH.
  - destruct (N.eqb_spec n 0) as [->|H].
    { left. split; [lia|]. exists (Fails e :: t). auto. }
    right. cbn. split; [lia|reflexivity].
Qed.
Lemma sim_exact n : sim (s_read_exact n) (fun b => io (read_exact n b)).
Proof.
  intros s. destruct (s_exact s n) as [(H & s' & E & D & N)|(H & E)].
  - left. do 3 eexists. split; [exact E|]. split; [exact D|]. split; [exact N|]. intros more. now rewrite read_exact_more by exact H.
  - right; right; right. split; [|exact E]. unfold read_exact. unfold len in H. now rewrite (proj2 (N.ltb_lt _ _) H).
Qed.
Lemma sim_le n : sim (s_read_le n) (fun b => io (read_le n b)).
Proof.
  eapply sim_ext; [apply (sim_bind _ _ (fun t s => Ok (of_le_bytes t, s)) (fun t b => Ok (of_le_bytes t, b)) (sim_exact n)); intros; apply sim_ret| |].
  - reflexivity.
  - intros b. unfold read_le. destruct (read_exact n b) as [[? ?]| |]; reflexivity.
Qed.
Lemma sim_if {A} (c : bool) fs gs (f g : list N -> res ierr (A * list N)) : sim fs f -> sim gs g ->
  sim (fun s => if c then fs s else gs s) (fun b => if c then f b else g b).
Proof. now destruct c. Qed.
Lemma sim_string : sim s_read_string (fun b => io (read_string b)).
Proof.
  eapply sim_ext.
  - apply (sim_bind _ _ (fun n s => let* (bytes, s) := s_read_exact n s in if utf8_valid bytes then Ok (bytes, s) else Err (LErr (EIO InvalidUtf8)))
             (fun n b => let* (bytes, b) := io (read_exact n b) in if utf8_valid bytes then Ok (bytes, b) else Err (EIO InvalidUtf8)) (sim_le 2)).
    intros n. apply sim_bind; [apply sim_exact|]. intros bytes. apply sim_if; [apply sim_ret|apply sim_err].
  - reflexivity.
  - intros b. unfold read_string, read_u16. destruct (read_le 2 b) as [[n b']| |]; cbn [io map_err bind]; try reflexivity.
    destruct (read_exact n b') as [[? ?]| |]; cbn [io map_err bind]; try reflexivity. now destruct (utf8_valid _).
Qed.
Lemma sim_header : sim s_read_tmf_header read_tmf_header.
Proof.
  unfold s_read_tmf_header, read_tmf_header. apply sim_bind; [apply sim_exact|]. intros m. apply sim_if; [apply sim_err|].
  apply sim_bind; [apply (sim_le 2)|]. intros v1. apply sim_bind; [apply (sim_le 2)|]. intros v2. apply sim_bind; [apply (sim_le 2)|]. intros v3.
  apply sim_bind; [apply (sim_le 2)|]. intros v4. apply sim_if; [apply sim_err|apply sim_ret].
Qed.
Lemma sim_eseg ctx : sim (s_eseg_read ctx) (eseg_read ctx).
Proof.
  unfold s_eseg_read, eseg_read. apply sim_bind.
  - assert (G : forall k (conv : N -> section), sim (fun s => let* (b, s) := s_read_le k s in Ok (conv b, s))
        (fun b => io (let* (n, b) := read_le k b in Ok (conv n, b)))).
    { intros k conv. eapply sim_ext; [apply (sim_bind _ _ (fun n s => Ok (conv n, s)) (fun n b => Ok (conv n, b)) (sim_le k)); intros a; apply sim_ret|reflexivity|].
      intros b. cbv beta. destruct (read_le k b) as [[? ?]| |]; reflexivity. }
    unfold s_seg_type_read, seg_type_read. destruct (segment_type_width ctx); apply G.
  - intros ty. apply sim_bind.
    + unfold s_seg_len_read, seg_len_read. destruct (segment_length_width ctx); apply sim_le.
    + intros n. apply sim_if; [apply sim_err|]. apply sim_bind; [apply (sim_le 1)|]. intros c. apply sim_pure. intros comp.
      apply sim_bind; [apply sim_exact|]. intros d. apply sim_ret.
Qed.
Lemma sim_segments ctx n : sim (s_read_segments ctx n) (read_segments ctx n).
Proof.
  induction n; cbn [s_read_segments read_segments]; [apply sim_ret|]. apply sim_bind; [apply sim_eseg|]. intros e.
  apply sim_bind; [exact IHn|]. intros l. apply sim_ret.
Qed.
Lemma sim_mesh lm oc ctx : sim (s_import_mesh lm oc ctx) (import_mesh lm oc ctx).
Proof.
  unfold s_import_mesh, import_mesh. apply sim_bind; [apply sim_string|]. intros name. apply sim_bind; [apply (sim_le 2)|]. intros n.
  apply sim_bind; [apply sim_segments|]. intros l. apply sim_pure. intros d. apply sim_ret.
Qed.
Lemma sim_meshes lm oc ctx n : sim (s_import_meshes lm oc ctx n) (import_meshes lm oc ctx n).
Proof.
  induction n; cbn [s_import_meshes import_meshes]; [apply sim_ret|]. apply sim_bind; [apply sim_mesh|]. intros e.
  apply sim_bind; [exact IHn|]. intros l. apply sim_ret.
Qed.
Lemma sim_import lm oc : sim (s_import lm oc) (import lm oc).
Proof.
  unfold s_import, import. apply sim_bind; [apply sim_header|]. intros h. apply sim_bind; [apply (sim_le 4)|]. intros n. apply sim_meshes.
Qed.

(** *** Saving *)

(** [aw] does on any sink what [a] does on one that takes everything, up to the point where
    the sink refuses. *)
Definition wsim {A} (aw : waction A) (a : action A) : Prop :=
  forall d s, exists w, fst (a (mk_sink d None)) = mk_sink (d ++ w) None /\
  ((exists s0 s', s = s0 ++ s' /\ aw (mk_wsink d s) = (mk_wsink (d ++ w) s', map_err WErr (snd (a (mk_sink d None))))) \/
   (exists w' q s0 s' why, w = w' ++ q /\ q <> [] /\ s = s0 ++ s' /\ refuses s0 why /\ aw (mk_wsink d s) = (mk_wsink (d ++ w') s', Err (WSink why)))).

Lemma wsim_bind {A B} aw (a : action A) gw (g : A -> action B) : wsim aw a -> (forall x, wsim (gw x) (g x)) -> wsim (wbind aw gw) (abind a g).
Proof.
  intros F G d s. unfold wbind, abind. destruct (F d s) as (w & D & [(s0 & s' & -> & E)|(w' & q & s0 & s' & why & -> & Q & -> & R & E)]); rewrite E; clear E.
  - destruct (a (mk_sink d None)) as [k r]. cbn [fst snd] in *. subst k. destruct r as [x|e|]; cbn [map_err].
    + destruct (G x (d ++ w) s') as (w2 & D2 & [(s1 & s2 & -> & E)|(w' & q & s1 & s2 & why & -> & Q & -> & R & E)]).
      * exists (w ++ w2). rewrite D2, E, app_assoc. split; [reflexivity|]. left. exists (s0 ++ s1), s2. rewrite !app_assoc. auto.
      * exists (w ++ w' ++ q). rewrite D2, E, <- !app_assoc. split; [reflexivity|]. right. exists (w ++ w'), q, (s0 ++ s1), s2, why. rewrite <- !app_assoc. repeat split; auto.
        destruct why; cbn [refuses] in *; apply in_app_iff; auto.
    + exists w. split; [reflexivity|]. left. exists s0, s'. auto.
    + exists w. split; [reflexivity|]. left. exists s0, s'. auto.
  - destruct (a (mk_sink d None)) as [k r]. cbn [fst snd] in *. subst k.
    assert (exists w2, fst (match r with Ok x => g x (mk_sink (d ++ w' ++ q) None) | Err e => (mk_sink (d ++ w' ++ q) None, Err e) | Panic => (mk_sink (d ++ w' ++ q) None, Panic) end)
             = mk_sink (d ++ w' ++ q ++ w2) None) as (w2 & E2).
    { destruct r as [x|e|].
      - destruct (G x (d ++ w' ++ q) []) as (w2 & D2 & _). exists w2. rewrite D2. now rewrite <- !app_assoc.
      - exists []. now rewrite app_nil_r.
      - exists []. now rewrite app_nil_r. }
    exists (w' ++ q ++ w2). split; [exact E2|]. right. exists w', (q ++ w2), s0, s', why. repeat split; auto.
    destruct q; [congruence|discriminate].
Qed.
Lemma wsim_pure {A} (r : res xerr A) : wsim (wpure r) (pure r).
Proof. intros d s. exists []. rewrite app_nil_r. split; [reflexivity|]. left. exists [], s. auto. Qed.
Lemma wsim_ret {A} (x : A) : wsim (wret x) (ret x).
Proof. intros d s. exists []. rewrite app_nil_r. split; [reflexivity|]. left. exists [], s. auto. Qed.
Lemma write_loop_spec s : forall bytes d,
  (exists s0 s', s = s0 ++ s' /\ write_loop bytes d s = (mk_wsink (d ++ bytes) s', Ok tt)) \/
  (exists w' q s0 s' why, bytes = w' ++ q /\ q <> [] /\ s = s0 ++ s' /\ refuses s0 why /\ write_loop bytes d s = (mk_wsink (d ++ w') s', Err (WSink why))).
Proof.
  induction s as [|e t IH]; intros bytes d.
  - left. exists [], []. split; [reflexivity|]. destruct bytes; cbn [write_loop]; [now rewrite app_nil_r|reflexivity].
  - destruct bytes as [|x bytes].
    { left. exists [], (e :: t). split; [reflexivity|]. cbn [write_loop]. now rewrite app_nil_r. }
    destruct e as [n| |e]; cbn [write_loop].
    + destruct n as [|n].
      * right. exists [], (x :: bytes), [Takes 0], t, None. rewrite app_nil_r. repeat split; auto; [discriminate|cbn; auto].
      * set (k := N.to_nat (N.pos n)). set (l := x :: bytes).
        destruct (IH (skipn k l) (d ++ firstn k l)) as [(s0 & s' & E & W)|(w' & q & s0 & s' & why & E1 & Q & E2 & R & W)]; rewrite W.
        -- left. exists (Takes (N.pos n) :: s0), s'. rewrite E. split; [reflexivity|]. rewrite <- app_assoc, firstn_skipn. reflexivity.
        -- right. exists (firstn k l ++ w'), q, (Takes (N.pos n) :: s0), s', why. rewrite E2, <- app_assoc, <- E1, firstn_skipn. repeat split; auto.
           ++ destruct why; cbn [refuses] in *; right; auto.
           ++ now rewrite <- app_assoc.
    + destruct (IH (x :: bytes) d) as [(s0 & s' & E & W)|(w' & q & s0 & s' & why & E1 & Q & E2 & R & W)]; rewrite W.
      * left. exists (WInterrupted :: s0), s'. rewrite E. auto.
      * right. exists w', q, (WInterrupted :: s0), s', why. rewrite E2. repeat split; auto. destruct why; cbn [refuses] in *; right; auto.
    + right. exists [], (x :: bytes), [WFails e], t, (Some e). rewrite app_nil_r. repeat split; auto; [discriminate|cbn; auto].
Qed.
Lemma wsim_all bytes : wsim (w_write_all bytes) (write_all bytes).
Proof.
  intros d s. exists bytes. split; [reflexivity|]. unfold w_write_all. cbn [ws_data ws_sched].
  destruct (write_loop_spec s bytes d) as [(s0 & s' & E & W)|H]; [left|right].
  - exists s0, s'. auto.
  - exact H.
Qed.
Lemma wsim_chunks l : wsim (w_write_chunks l) (write_chunks l).
Proof. induction l; [apply wsim_ret|]. cbn [w_write_chunks write_chunks]. apply wsim_bind; [apply wsim_all|auto]. Qed.
Lemma wsim_segments l : wsim (w_write_segments l) (write_segments l).
Proof.
  induction l; [apply wsim_ret|]. cbn [w_write_segments write_segments]. apply wsim_bind; [apply wsim_pure|]. intros s.
  apply wsim_bind; [apply wsim_chunks|auto].
Qed.
Lemma wsim_mesh lm oc p m name : wsim (w_write_mesh lm oc p m name) (write_mesh lm oc p m name).
Proof.
  unfold w_write_mesh, write_mesh. apply wsim_bind; [apply wsim_chunks|]. intros _. apply wsim_bind; [apply wsim_pure|]. intros se.
  apply wsim_bind; [apply wsim_pure|]. intros segs. apply wsim_bind; [apply wsim_pure|]. intros _. apply wsim_bind; [apply wsim_all|].
  intros _. apply wsim_segments.
Qed.
Lemma wsim_meshes lm oc p l : wsim (w_write_meshes lm oc p l) (write_meshes lm oc p l).
Proof.
  induction l as [|[m name] l IH]; [apply wsim_ret|]. cbn [w_write_meshes write_meshes]. apply wsim_bind; [apply wsim_mesh|auto].
Qed.
Lemma wsim_tmf lm oc p l : wsim (w_write_tmf lm oc p l) (write_tmf lm oc p l).
Proof. unfold w_write_tmf, write_tmf. apply wsim_bind; [apply wsim_chunks|]. intros _. apply wsim_meshes. Qed.
