(** Properties C70, C71 and C72: sources and sinks that work in pieces and may fail. *)
From Coq Require Import List NArith ZArith Arith Lia Bool.
From Flocq Require Import IEEE754.BinarySingleNaN.
From Verif Require Import Base UnalignedRW ReadExt Triangles Floats Utilis Unify Vertices Uv Normals CustomData Mesh Tmf File FileSpec SaveSpec StreamSpec Stream Stream_proofs P_File P_Platform P_Save Demo Importer Obj ObjStream ObjStream_proofs P_Obj.
Import ListNotations.
Open Scope res_scope.

(** C70. How a source divides its bytes into pieces, and interruptions, make no difference. *)
Theorem C70_pieces : forall lm oc s, ends s = AtEnd -> s_read_tmf lm oc s = map_err LErr (read_tmf lm oc (delivers s)).
Proof.
  intros lm oc s E. unfold s_read_tmf, read_tmf. destruct (sim_import lm oc s) as [(a & s' & b' & R & _ & _ & M)|[(e & R & M)|[(R & M)|(M & R)]]];
    try specialize (M []); rewrite ?app_nil_r in M; rewrite R, M; cbn [bind map_err]; try reflexivity. now rewrite E.
Qed.
Print Assumptions C70_pieces.
(** A source that fails with the error [e]: either its bytes end too early, and the load
    returns [e]; or the load never gets to the error, and gives what it gives for these bytes
    whatever follows them. *)
Theorem C70_failing_source : forall lm oc s e, ends s = Failed e ->
  (s_read_tmf lm oc s = Err (LSource e) /\ read_tmf lm oc (delivers s) = Err (EIO UnexpectedEof)) \/
  (forall more, s_read_tmf lm oc s = map_err LErr (read_tmf lm oc (delivers s ++ more))).
Proof.
  intros lm oc s e E. unfold s_read_tmf, read_tmf. destruct (sim_import lm oc s) as [(a & s' & b' & R & _ & _ & M)|[(e' & R & M)|[(R & M)|(M & R)]]]; rewrite R.
  - right. intros more. rewrite M. reflexivity.
  - right. intros more. rewrite M. reflexivity.
  - right. intros more. rewrite M. reflexivity.
  - left. rewrite M, E. split; reflexivity.
Qed.
Print Assumptions C70_failing_source.
(** No mesh comes from a source that fails inside the file: [file] loads and is read to its
    last byte; the source delivers only a part of it. *)
Theorem C70_no_half_file : forall lm oc s e file ms rest, ends s = Failed e -> import lm oc file = Ok (ms, []) ->
  file = delivers s ++ rest -> rest <> [] -> s_read_tmf lm oc s = Err (LSource e).
Proof.
  intros lm oc s e file ms rest E I -> Q. unfold s_read_tmf.
  destruct (sim_import lm oc s) as [(a & s' & b' & R & _ & _ & M)|[(e' & R & M)|[(R & M)|(M & R)]]].
  - specialize (M rest). rewrite I in M. injection M as _ M. symmetry in M. apply app_eq_nil in M as [_ M]. contradiction.
  - specialize (M rest). rewrite I in M. discriminate M.
  - specialize (M rest). rewrite I in M. discriminate M.
  - rewrite R, E. reflexivity.
Qed.
Print Assumptions C70_no_half_file.
(** A load takes no more from the source than the file: files stored one behind the other in
    one source load one after the other. *)
Theorem C70_back_to_back : forall lm oc s first second l, delivers s = first ++ second -> import lm oc first = Ok (l, []) ->
  exists s', s_import lm oc s = Ok (l, s') /\ delivers s' = second /\ ends s' = ends s.
Proof.
  intros lm oc s first second l D I.
  destruct (sim_import lm oc [Piece first]) as [(a & s1 & b1 & R1 & D1 & _ & M1)|[(e & R1 & M)|[(R1 & M)|(M & R1)]]];
    replace (delivers [Piece first]) with first in * by (destruct first; cbn [delivers app]; now rewrite ?app_nil_r);
    try (specialize (M []); rewrite app_nil_r in M); try congruence.
  pose proof (M1 []) as M0. rewrite !app_nil_r, I in M0. injection M0 as <- <-. specialize (M1 second). rewrite <- D in M1. cbn [app] in M1.
  destruct (sim_import lm oc s) as [(a & s2 & b2 & R2 & D2 & N2 & M)|[(e & R2 & M)|[(R2 & M)|(M & R2)]]];
    try (specialize (M []); rewrite ?app_nil_r in M); try congruence.
  rewrite M1 in M. injection M as <- E. exists s2. repeat split; congruence.
Qed.
Print Assumptions C70_back_to_back.
(** The single-mesh loader: pieces make no difference to it, a source that fails inside the file
    gives its error, and no mesh comes from it. *)
Theorem C70_one : forall lm oc s,
  (ends s = AtEnd -> s_read_tmf_one lm oc s = map_err LErr (read_tmf_one lm oc (delivers s))) /\
  (forall e, ends s = Failed e -> (s_read_tmf_one lm oc s = Err (LSource e) /\ read_tmf_one lm oc (delivers s) = Err (EIO UnexpectedEof)) \/
    (forall more, s_read_tmf_one lm oc s = map_err LErr (read_tmf_one lm oc (delivers s ++ more)))) /\
  (forall e file ms rest, ends s = Failed e -> import lm oc file = Ok (ms, []) -> file = delivers s ++ rest -> rest <> [] ->
    s_read_tmf_one lm oc s = Err (LSource e)).
Proof.
  intros lm oc s. unfold s_read_tmf_one, read_tmf_one. split; [|split].
  - intros E. rewrite (C70_pieces lm oc s E). destruct (read_tmf lm oc (delivers s)) as [[|m [|]]|e|]; reflexivity.
  - intros e E. destruct (C70_failing_source lm oc s e E) as [[-> ->]|H]; [left; split; reflexivity|right].
    intros more. rewrite (H more). destruct (read_tmf lm oc (delivers s ++ more)) as [[|m [|]]|e'|]; reflexivity.
  - intros e file ms rest E I F Q. rewrite (C70_no_half_file lm oc s e file ms rest E I F Q). reflexivity.
Qed.
Print Assumptions C70_one.

(** C71. A sink that takes the bytes in pieces, with interruptions, gets the file. *)
Theorem C71_patient_sink : forall lm oc p l out s, saved lm oc p l = Ok out -> patient s ->
  exists s', w_write_tmf lm oc p l (mk_wsink [] s) = (mk_wsink out s', Ok tt).
Proof.
  intros lm oc p l out s S P. unfold saved in S. destruct (wsim_tmf lm oc p l [] s) as (w & D & H).
  destruct (write_tmf lm oc p l (mk_sink [] None)) as [k r]. cbn [fst snd app] in *. subst k. destruct r as [[]|e|]; [|discriminate S|discriminate S].
  cbn [bind k_data] in S. injection S as ->. destruct H as [(s0 & s' & -> & E)|(w' & q & s0 & s' & why & _ & _ & -> & R & _)].
  - exists s'. exact E.
  - exfalso. unfold patient in P. apply Forall_app in P as [P _]. rewrite Forall_forall in P. destruct why as [e|]; cbn [refuses] in R; apply P in R; auto.
Qed.
Print Assumptions C71_patient_sink.
(** Any sink: it gets the whole file and the save succeeds, or it gets a part of the file and
    the save returns the sink's error. *)
Theorem C71_any_sink : forall lm oc p l out s, saved lm oc p l = Ok out ->
  exists got s' r, w_write_tmf lm oc p l (mk_wsink [] s) = (mk_wsink got s', r) /\
  ((r = Ok tt /\ got = out) \/ (exists why k, r = Err (WSink why) /\ refuses s why /\ got = firstn k out /\ k < length out)).
Proof.
  intros lm oc p l out s S. unfold saved in S. destruct (wsim_tmf lm oc p l [] s) as (w & D & H).
  destruct (write_tmf lm oc p l (mk_sink [] None)) as [k r]. cbn [fst snd app] in *. subst k. destruct r as [[]|e|]; [|discriminate S|discriminate S].
  cbn [bind k_data] in S. injection S as ->. destruct H as [(s0 & s' & -> & E)|(w' & q & s0 & s' & why & -> & Q & -> & R & E)].
  - exists out, s', (Ok tt). split; [exact E|]. left. auto.
  - exists w', s', (Err (WSink why)). split; [exact E|]. right. exists why, (length w'). split; [reflexivity|]. split.
    + destruct why; cbn [refuses] in *; apply in_app_iff; auto.
    + split; [rewrite firstn_app, Nat.sub_diag, firstn_all, app_nil_r; reflexivity|]. rewrite app_length. destruct q; [congruence|cbn; lia].
Qed.
Print Assumptions C71_any_sink.
(** What a sink that refused holds does not load. *)
Theorem C71_refused_never_loads : forall lm lm' oc' p l out s got s' why, precision_ok p -> list_ok lm l -> saved lm true p l = Ok out ->
  w_write_tmf lm true p l (mk_wsink [] s) = (mk_wsink got s', Err (WSink why)) -> read_tmf lm' oc' got = Err (EIO UnexpectedEof).
Proof.
  intros lm lm' oc' p l out s got s' why P L S W. destruct (C71_any_sink lm true p l out s S) as (got' & s'' & r & W' & [[-> ->]|(why' & k & -> & R & -> & K)]).
  - rewrite W in W'. discriminate W'.
  - rewrite W in W'. injection W' as -> -> ->. eapply C16_prefix_refused; eauto.
Qed.
Print Assumptions C71_refused_never_loads.
(** Also when the save itself fails or panics, the sink holds a part of what a sink that
    takes everything would hold. *)
Theorem C71_always_prefix : forall lm oc p l s,
  exists rest, k_data (fst (write_tmf lm oc p l (mk_sink [] None))) = ws_data (fst (w_write_tmf lm oc p l (mk_wsink [] s))) ++ rest.
Proof.
  intros lm oc p l s. destruct (wsim_tmf lm oc p l [] s) as (w & D & H). rewrite D. cbn [k_data app] in *.
  destruct H as [(s0 & s' & -> & E)|(w' & q & s0 & s' & why & -> & Q & -> & R & E)]; rewrite E; cbn [fst ws_data].
  - exists []. now rewrite app_nil_r.
  - eauto.
Qed.
Print Assumptions C71_always_prefix.

(** A file in pieces, with interruptions, and a failure behind or inside it. *)
Definition pieces_of (k : nat) (l : list N) (s : stream) : stream := [Piece (firstn k l); Interrupted; Piece (skipn k l)] ++ s.
Example C70_case : forall lm, exists m, s_read_tmf lm true (pieces_of 20 mixed_file []) = Ok [(m, [65]%N)] /\
  s_read_tmf lm true (pieces_of 20 mixed_file [Fails 5]) = Ok [(m, [65]%N)] /\
  s_read_tmf lm true [Piece (firstn 20 mixed_file); Fails 5] = Err (LSource 5) /\
  s_read_tmf lm true [Piece (firstn 20 mixed_file); Piece []; Piece (skipn 20 mixed_file)] = Err eof.
Proof.
  intros lm. destruct (mixed_loads lm) as (m & R & _). exists m.
  assert (D : forall s, delivers (pieces_of 20 mixed_file s) = mixed_file ++ delivers s /\ ends (pieces_of 20 mixed_file s) = ends s)
    by (intros s; split; reflexivity).
  split; [|split].
  - rewrite C70_pieces by (now rewrite (proj2 (D []))). rewrite (proj1 (D [])). cbn [delivers]. rewrite app_nil_r, R. reflexivity.
  - destruct (C70_failing_source lm true (pieces_of 20 mixed_file [Fails 5]) 5) as [[_ H]|H].
    + reflexivity.
    + rewrite (proj1 (D [Fails 5])) in H. cbn [delivers] in H. rewrite app_nil_r, R in H. discriminate H.
    + rewrite (H []), (proj1 (D [Fails 5])). cbn [delivers]. rewrite !app_nil_r, R. reflexivity.
  - split; vm_compute; reflexivity.
Qed.
Example C70_case_file : forall lm, exists m, import lm true mixed_file = Ok ([(m, [65]%N)], []).
Proof.
  intros lm. destruct (mixed_loads lm) as (m & R & _). exists m. unfold read_tmf in R.
  assert (exists r, import lm true mixed_file = Ok (r, [])) as [r E].
  { eexists. unfold mixed_file. lazy -[normal_from_encoding fdiv ddiv f32_of_N f64_of_N f32_of_f64 fmul f1 fneg f099999]. reflexivity. }
  rewrite E in *. cbn [bind] in R. congruence.
Qed.
(** A sink that takes five bytes at a time with interruptions, one that fails, one that stops. *)
Lemma five : patient [Takes 5; WInterrupted; Takes 5; Takes 1].
Proof. repeat constructor; discriminate. Qed.
Example C71_case : exists out s1, saved demo true demo_prec demo_list = Ok out /\ 200 < length out /\
  w_write_tmf demo true demo_prec demo_list (mk_wsink [] [Takes 5; WInterrupted; Takes 5; Takes 1]) = (mk_wsink out s1, Ok tt).
Proof.
  assert (exists out, saved demo true demo_prec demo_list = Ok out /\ 200 < length out) as (out & S & L).
  { eexists. split; [vm_compute; reflexivity|]. cbn [length]. lia. }
  destruct (C71_patient_sink _ _ _ _ _ _ S five) as [s' W]. exists out, s'. auto.
Qed.
Example C71_case_refused : 
  w_write_tmf demo true demo_prec demo_list (mk_wsink [] [Takes 2; WInterrupted; Takes 9; WFails 28; Takes 1]) = (mk_wsink [84; 77; 70]%N [Takes 1], Err (WSink (Some 28%N))) /\
  w_write_tmf demo true demo_prec demo_list (mk_wsink [] [Takes 2; Takes 0]) = (mk_wsink [84; 77]%N [], Err (WSink None)).
Proof. split; reflexivity. Qed.

(** C72. The same for .obj text. *)
Theorem C72_pieces : forall ft tri s, lasting s -> ends s = AtEnd -> s_read_from_obj ft tri s = map_err OOwn (read_from_obj ft tri (delivers s)).
Proof.
  intros ft tri s L E. unfold s_read_from_obj, read_from_obj, lines. rewrite s_lines_end by auto. rewrite read_lines_Ok.
  destruct (read_lines ft tri _ _ _) as [[oi acc]| |]; reflexivity.
Qed.
Print Assumptions C72_pieces.
(** A source that fails makes the import fail: with the error of the source, or with that of
    a line before it. *)
Theorem C72_failing_source : forall ft tri s e, ends s = Failed e ->
  s_read_from_obj ft tri s = Err (OSource e) \/
  (exists o, s_read_from_obj ft tri s = Err (OOwn o) /\ forall more, read_from_obj ft tri (delivers s ++ more) = Err o) \/
  (s_read_from_obj ft tri s = Panic /\ forall more, read_from_obj ft tri (delivers s ++ more) = Panic).
Proof.
  intros ft tri s e E. destruct (s_lines_fail s [] e E) as (ls & acc & R & M). unfold s_read_from_obj, read_from_obj, lines. rewrite R, read_lines_fail.
  destruct (read_lines ft tri ls importer_new []) as [[oi l]|o|] eqn:RL; [left; reflexivity|right; left; exists o|right; right];
    (split; [reflexivity|]); intros more; rewrite M, read_lines_app, RL; reflexivity.
Qed.
Print Assumptions C72_failing_source.
(** Saving through a buffer of any size, the text cut into any fragments: the sink gets all of
    it and the save succeeds, or it gets a beginning of it and the save returns its error. *)
Theorem C72_any_sink : forall ft oc l text cap frs s, write_obj ft oc l = Ok text -> concat frs = text ->
  exists got s' r, s_write_obj cap frs (mk_wsink [] s) = (mk_wsink got s', r) /\
  ((r = Ok tt /\ got = text) \/ (exists why k, r = Err why /\ refuses s why /\ got = firstn k text)).
Proof.
  intros ft oc l text cap frs s _ <-. destruct (write_obj_spec cap frs s) as (got & s0 & s' & -> & [[E ->]|(why & rest & E & R & D)]).
  - exists (concat frs), s', (Ok tt). auto.
  - exists got, s', (Err why). split; [exact E|]. right. exists why, (length got). split; [reflexivity|]. split; [now apply refuses_l|].
    rewrite D, firstn_app, Nat.sub_diag, firstn_all, app_nil_r. reflexivity.
Qed.
Print Assumptions C72_any_sink.
Theorem C72_patient_sink : forall ft oc l text cap frs s, write_obj ft oc l = Ok text -> concat frs = text -> patient s ->
  exists s', s_write_obj cap frs (mk_wsink [] s) = (mk_wsink text s', Ok tt).
Proof.
  intros ft oc l text cap frs s W C P. destruct (C72_any_sink ft oc l text cap frs s W C) as (got & s' & r & E & [[-> ->]|(why & k & -> & R & _)]); [eauto|].
  exfalso. unfold patient in P. rewrite Forall_forall in P. destruct why as [e|]; cbn [refuses] in R; apply P in R; auto.
Qed.
Print Assumptions C72_patient_sink.
(** A text in three pieces with an interruption; with a failure at its end; with a bad line
    before the failure; a save through a buffer of eight bytes, one of them refused. *)
Definition bad_line : list N := [118; 32; 48; 10]%N.
Example C72_case : exists l, s_read_from_obj demo_text None [Piece [111; 32]%N; Interrupted; Piece [97; 13]%N; Piece [10]%N] = Ok l /\ length l = 1 /\
  s_read_from_obj demo_text None [Piece [111; 32; 97]%N; Fails 5] = Err (OSource 5) /\
  s_read_from_obj demo_text None [Piece bad_line; Fails 5] = Err (OOwn OLine) /\
  (exists text, write_obj demo_text true demo_list = Ok text /\ 100 < length text /\ patient [Takes 5; WInterrupted; Takes 5; Takes 1] /\
   s_write_obj 8 [text] (mk_wsink [] [Takes 5; WInterrupted; Takes 5; Takes 1]) = (mk_wsink text [], Ok tt)) /\
  s_write_obj 8 [[1; 2; 3; 4; 5]; [6; 7; 8; 9]; [10]]%N (mk_wsink [] [Takes 2; WFails 28; Takes 1]) = (mk_wsink [1; 2; 3; 4; 5]%N [], Err (Some 28%N)).
Proof.
  eexists. split; [vm_compute; reflexivity|]. split; [reflexivity|]. split; [vm_compute; reflexivity|]. split; [vm_compute; reflexivity|].
  split; [|vm_compute; reflexivity]. eexists. split; [vm_compute; reflexivity|]. split; [cbn [length]; lia|]. split; [exact five|]. vm_compute. reflexivity.
Qed.
