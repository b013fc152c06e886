(** Too many segments, and repeated saving and loading. *)
From Coq Require Import List NArith ZArith Arith Bool Lia ZifyN ZifyNat ZifyBool.
From Verif Require Import Base BitSpec UnalignedRW UnalignedRW_proofs ReadExt ByteLemmas Triangles TriSpec
  Triangles_proofs OptTris OptTris_proofs Floats Utilis Unify Vertices Uv Normals CustomData Mesh
  OptVertices OptVertices_proofs Tmf File Parse_proofs Codec_proofs FileSpec File_proofs
  NoPanic_proofs Load_proofs SaveSpec Merge_proofs Save_proofs Save2_proofs Panic_proofs.
Import ListNotations.
Open Scope res_scope.
Ltac Zify.zify_post_hook ::= Z.div_mod_to_equations.

(** ** Few segments are empty *)
Definition z {A} (l : list A) : nat := match l with [] => 1 | _ => 0 end.
Definition emp (d : dseg) : nat :=
  match d with
  | DNothing => 0
  | DVertex l => z l | DNormal l => z l | DUV l => z l | DTangent l => z l
  | DTriVertex l | DTriNormal l | DTriUV l | DTriTangent l | DShared _ l => z l
  | DCustom _ => 0
  end.
Definition emps (l : list dseg) : nat := list_sum (map emp l).
Lemma emps_cons d l : emps (d :: l) = emp d + emps l. Proof. reflexivity. Qed.
Lemma emps_app a b : emps (a ++ b) = emps a + emps b.
Proof. unfold emps. now rewrite map_app, list_sum_app. Qed.
Lemma emps_rev l : emps (rev l) = emps l.
Proof. induction l as [|d l IH]; [reflexivity|]. cbn [rev]. rewrite emps_app, IH, !emps_cons. unfold emps. cbn. lia. Qed.
Lemma merge_emp a b a' b' : merge a b = (a', b') -> emp a' + emp b' <= emp a + emp b.
Proof.
  unfold merge. destruct (as_triangles b) as [[l k]|]; [|intros [= <- <-]; lia].
  destruct a; cbv beta iota zeta; try (intros H; apply pair_equal_spec in H as [<- <-]; lia);
  match goal with |- context [list_eqb ?x ?y] => destruct (list_eqb x y) end;
    intros H; apply pair_equal_spec in H as [<- <-]; cbn [emp]; lia.
Qed.
Lemma merge_all_emp others : forall d d' others', merge_all d others = (d', others') ->
  emp d' + emps others' <= emp d + emps others.
Proof.
  induction others as [|o others IH]; intros d d' others' E; cbn [merge_all] in E.
  - injection E as <- <-. lia.
  - destruct (merge d o) as [s1 o1] eqn:M. destruct (merge_all s1 others) as [s2 t2] eqn:MA.
    injection E as <- <-. rewrite !emps_cons. apply merge_emp in M. apply IH in MA. lia.
Qed.
Lemma merge_loop_emp fuel : forall st, emps (merge_loop fuel st) <= emps st.
Proof.
  induction fuel as [|fuel IH]; intros st; cbn [merge_loop]; [cbn; lia|].
  destruct st as [|d rest]; [reflexivity|]. destruct (is_something d).
  - destruct (merge_all d (rev rest)) as [s o] eqn:M. rewrite !emps_cons. apply merge_all_emp in M.
    specialize (IH (rev o)). rewrite !emps_rev in *. lia.
  - rewrite emps_cons. specialize (IH rest). lia.
Qed.
Lemma merged_emps m : emps (merge_segments (tmf_segs m)) <= 8.
Proof.
  unfold merge_segments. etransitivity; [apply merge_loop_emp|]. rewrite emps_rev.
  unfold tmf_segs. rewrite !emps_app.
  assert (O : forall A (f : list A -> dseg) o, (forall l, emp (f l) = z l) -> emps (opt_seg f o) <= 1).
  { intros A f [l|] H; unfold emps, opt_seg; cbn [map list_sum fold_right]; [|lia]. rewrite H. destruct l; cbn; lia. }
  assert (C : emps (map DCustom (custom_data m)) = 0).
  { induction (custom_data m) as [|s l IH]; [reflexivity|]. cbn [map]. rewrite emps_cons, IH. reflexivity. }
  rewrite C.
  pose proof (O _ DVertex (vertices m) (fun _ => eq_refl)). pose proof (O _ DNormal (normals m) (fun _ => eq_refl)).
  pose proof (O _ DUV (uvs m) (fun _ => eq_refl)). pose proof (O _ DTangent (tangents m) (fun _ => eq_refl)).
  pose proof (O _ DTriVertex (vertex_triangles m) (fun _ => eq_refl)).
  pose proof (O _ DTriNormal (normal_triangles m) (fun _ => eq_refl)).
  pose proof (O _ DTriUV (uv_triangles m) (fun _ => eq_refl)).
  pose proof (O _ DTriTangent (tangent_triangles m) (fun _ => eq_refl)). lia.
Qed.
Lemma emps_pieces {A} (f : list A -> dseg) (l : list A) (o : list (list A)) : (forall x, emp (f x) = z x) ->
  (l <> [] -> Forall (fun s => s <> []) o) -> (l = [] -> o = [[]]) -> emps (map f o) <= z l.
Proof.
  intros H NE E. destruct l as [|x l].
  - rewrite (E eq_refl). cbn [map]. rewrite emps_cons, H. cbn. lia.
  - assert (F := NE ltac:(discriminate)). cbn [z]. clear -F H. induction F as [|s o Hs _ IH]; [cbn; lia|].
    cbn [map]. rewrite emps_cons, H. destruct s; [congruence|]. cbn [z]. lia.
Qed.
Lemma optimize_emp lm oc d l : dval d -> optimize lm oc d = Ok l -> emps l <= emp d.
Proof.
  intros D E. destruct d; cbn [optimize dval emp] in *;
    try (apply Ok_inj in E; subst; unfold emps; cbn; lia).
  1: { destruct (opt_vertices lm oc l0) as [o| |] eqn:O; try discriminate. cbn [bind] in E.
       apply Ok_inj in E. subst. apply vertices_pieces in O as (_ & _ & H1 & H2). now apply emps_pieces. }
  all: first [destruct D as (_ & U & L) | destruct D as [U L]]; destruct (tris_pieces oc l0 U L) as (o & O & _ & _ & H1 & H2);
    rewrite O in E; cbn [bind] in E; apply Ok_inj in E; subst; apply emps_pieces; auto.
Qed.
Lemma optimize_all_emp lm oc segs : forall l, Forall dval segs -> optimize_all lm oc segs = Ok l -> emps l <= emps segs.
Proof.
  induction segs as [|d segs IH]; intros l D E; cbn [optimize_all] in E.
  - apply Ok_inj in E. subst. reflexivity.
  - apply Forall_cons_iff in D as [D1 D2].
    destruct (optimize lm oc d) as [a| |] eqn:O; try discriminate. cbn [map_err bind] in E.
    destruct (optimize_all lm oc segs) as [b| |] eqn:Q; try discriminate. cbn [bind] in E.
    apply Ok_inj in E. subst. rewrite emps_app, emps_cons. apply optimize_emp in O; auto. specialize (IH b D2 eq_refl). lia.
Qed.
Lemma emps_dsize l : Forall dok l -> Forall (fun d => is_something d = true) l -> length l <= emps l + list_sum (map dsize l).
Proof.
  induction l as [|d l IH]; intros D S; [cbn; lia|].
  apply Forall_cons_iff in D as [D1 D2]. apply Forall_cons_iff in S as [S1 S2]. specialize (IH D2 S2).
  rewrite emps_cons. cbn [length map list_sum fold_right]. fold (list_sum (map dsize l)).
  assert (1 <= emp d + dsize d); [|lia].
  destruct d as [|x|x|x|x|x|x|x|x|k x|x]; cbn [is_something emp dsize] in *; try discriminate; try lia; destruct x as [|y x]; cbn [z length]; try lia.
  cbn [dok] in D1. destruct D1 as [K _].
  assert (K' : (k = 1 \/ k = 2 \/ k = 3 \/ k = 4 \/ k = 5 \/ k = 6 \/ k = 7)%N) by lia.
  repeat destruct K' as [-> |K']; try subst k; cbn; lia.
Qed.

(** ** A file with a wrapped segment count *)
Lemma firstn_F2 {A B} (R : A -> B -> Prop) k : forall l l', Forall2 R l l' -> Forall2 R (firstn k l) (firstn k l').
Proof. induction k as [|k IH]; intros l l' [|]; cbn [firstn]; auto. Qed.
Lemma Forall_firstn {A} (P : A -> Prop) k l : Forall P l -> Forall P (firstn k l).
Proof. intros H. revert k. induction H; intros [|k]; cbn [firstn]; auto. Qed.
Lemma le_bytes2_mod v : le_bytes 2 (v mod 65536) = le_bytes 2 v.
Proof.
  cbn [le_bytes]. f_equal; [lia|]. f_equal. lia.
Qed.
Lemma same_len_osize {A} (a b : option (list A)) : same_len a b -> osize a = osize b.
Proof. destruct a, b; cbn; tauto. Qed.
Lemma same_shape_size a b : same_shape a b -> size a = size b.
Proof.
  intros [[E1 E2 E3 E4 S1 S2 S3 S4] C]. unfold size. apply F2_length in C.
  rewrite E1, E2, E3, E4, C, (same_len_osize _ _ S1), (same_len_osize _ _ S2), (same_len_osize _ _ S3), (same_len_osize _ _ S4).
  reflexivity.
Qed.

Lemma wrapped lm lm' oc' p m name out :
  prec_fine p -> storable m -> name_ok name -> (65536 <= segment_count lm true m)%N ->
  saved lm true p [(m, name)] = Ok out ->
  exists m', read_tmf lm' oc' out = Ok [(m', name)] /\ size m' < size m.
Proof.
  intros HP HS HN HC S. apply saved_inv in S as (outs & -> & F0).
  inversion F0 as [|? o ? outs' T F1]; subst. inversion F1; subst. clear F0 F1. cbn [fst snd] in T.
  apply mesh_inv in T as (edge & segs & es & E1 & E2 & E3 & ->).
  unfold segment_count, segment_list in HC. rewrite E2 in HC.
  destruct (dok_merged m HS) as [D1 D2].
  pose proof (optimize_all_all dok lm true _ _ dok_sub D1 E2) as D3.
  assert (D4 : Forall (fun d => is_something d = true) segs).
  { eapply (optimize_all_all (fun d => is_something d = true)); eauto. unfold sub_ok. cbn. tauto. }
  set (k := N.to_nat (len segs mod 65536)).
  assert (Le : length es = length segs) by (symmetry; exact (F2_length _ _ _ E3)).
  assert (Hk : k < length segs /\ 8 < length segs - k).
  { unfold len in *. unfold k. lia. }
  destruct Hk as [Hk1 Hk2].
  pose proof (firstn_F2 _ k _ _ E3) as E3k. pose proof (Forall_firstn _ k _ D3) as D3k. pose proof (Forall_firstn _ k _ D4) as D4k.
  assert (G : exists ds, Forall2 dsame (firstn k segs) ds /\ map (decode lm' oc' new_ctx) (firstn k es) = map Ok ds).
  { clear -E3k D3k D4k HP. revert D3k D4k. induction E3k as [|s e segs' es' H _ IH]; intros D3 D4; [exists []; split; auto|].
    apply Forall_cons_iff in D3 as [Da D3]. apply Forall_cons_iff in D4 as [Db D4].
    destruct (IH D3 D4) as (ds & F & M).
    destruct (encode_good lm lm' oc' p edge s e HP Da Db H) as (_ & _ & _ & d' & Dd & Ds).
    exists (d' :: ds). split; auto. cbn [map]. now rewrite Dd, M. }
  assert (F : Forall (fun e => (len (e_data e) <= 2 ^ 31)%N /\ bytes_ok (e_data e) /\ e_comp e = CNone) es).
  { clear -E3 D3 D4 HP. induction E3 as [|s e segs es H _ IH]; constructor.
    - apply Forall_cons_iff in D3 as [Da D3]. apply Forall_cons_iff in D4 as [Db D4].
      destruct (encode_good lm lm true p edge s e HP Da Db H) as (A & B & C & _). auto.
    - apply Forall_cons_iff in D3 as [Da D3]. apply Forall_cons_iff in D4 as [Db D4]. auto. }
  destruct G as (ds & G1 & G2).
  set (raw := (name, map raw_of (firstn k es)) : raw_mesh).
  assert (Lk : length (firstn k es) = k) by (rewrite firstn_length; lia).
  pose proof (Forall_firstn _ k _ F) as Fk.
  assert (OK : file_ok [raw]).
  { split; [reflexivity|]. apply Forall_cons; [|apply Forall_nil]. split; [exact HN|]. cbn [raw snd]. split.
    - unfold len. rewrite map_length, Lk. unfold k. clear. lia.
    - rewrite Forall_map. eapply Forall_impl; [|exact Fk]. intros e (H1 & H2 & H3).
      unfold frameable, raw_of. cbn [r_kind r_comp r_payload]. split; [apply section_code_ok|].
      split; [apply compression_code_ok|auto]. }
  set (rest := concat (map (fun s => concat (eseg_chunks s)) (skipn k es))).
  assert (EB : header_bytes 0 2 0 2 ++ lend 4 (len [(m, name)]) ++
     concat [le_bytes 2 (len name) ++ name ++ le_bytes 2 (len segs) ++
             concat (map (fun s => concat (eseg_chunks s)) es)] = file_bytes [raw] ++ rest).
  { unfold file_bytes. cbn [map concat]. rewrite !app_nil_r, <- !app_assoc. do 2 f_equal.
    unfold mesh_bytes. cbn [raw fst snd]. rewrite !lend_le, <- !app_assoc. do 2 f_equal.
    unfold len at 2. rewrite map_length, Lk. unfold k at 1. rewrite N2Nat.id, le_bytes2_mod. f_equal.
    unfold rest. rewrite <- (firstn_skipn k es) at 1. rewrite map_app, concat_app. f_equal.
    clear -Fk. rewrite !map_map. f_equal. induction Fk as [|e l (H & _) _ IH]; [reflexivity|]. cbn [map]. f_equal; auto.
    now apply segment_layout. }
  exists (build ds empty). split.
  - rewrite EB. unfold read_tmf. rewrite import_new by auto. cbn [map].
    assert (L : load_raw lm' oc' new_ctx raw = Ok (build ds empty, name)).
    { unfold load_raw. cbn [raw fst snd].
      assert (EM : map eseg_of (map raw_of (firstn k es)) = firstn k es).
      { clear. induction (firstn k es) as [|e l IH]; [reflexivity|]. cbn [map]. now rewrite eseg_of_raw, IH. }
      rewrite EM, (join_ok _ ds) by auto. reflexivity. }
    rewrite L. reflexivity.
  - assert (SS : same_shape (build (firstn k segs) empty) (build ds empty)).
    { apply build_same; auto. split; [constructor; cbn; auto|constructor]. }
    apply same_shape_size in SS. rewrite <- SS.
    assert (SM : size m = size (build segs empty)).
    { rewrite (build_optimize_all lm true _ _ _ E2), build_merged. destruct m. unfold size. cbn. now rewrite rev_length. }
    rewrite SM, !size_build.
    rewrite <- (firstn_skipn k segs) at 2. rewrite map_app, list_sum_app.
    pose proof (emps_dsize (skipn k segs)) as Q.
    assert (emps segs <= 8) as Q8.
    { etransitivity; [eapply optimize_all_emp; [|exact E2]|apply merged_emps].
      eapply Forall_impl; [|exact D1]. apply dok_dval. }
    rewrite <- (firstn_skipn k segs), emps_app in Q8.
    assert (Q1 : Forall dok (skipn k segs)) by (rewrite <- (firstn_skipn k segs), Forall_app in D3; tauto).
    assert (Q2 : Forall (fun d => is_something d = true) (skipn k segs)) by (rewrite <- (firstn_skipn k segs), Forall_app in D4; tauto).
    specialize (Q Q1 Q2). rewrite skipn_length in Q.
    clear -Q Q8 Hk2. lia.
Qed.

(** ** Repeated saving and loading *)
Definition step_shape (flip : bool) (a b : mesh * list N) : Prop :=
  snd a = snd b /\ (if flip then same_shape_rev else same_shape) (fst a) (fst b).
Lemma same_len_trans {A} (a b c : option (list A)) : same_len a b -> same_len b c -> same_len a c.
Proof. destruct a, b, c; cbn; try tauto. congruence. Qed.
Lemma same_arrays_trans a b c : same_arrays a b -> same_arrays b c -> same_arrays a c.
Proof. intros [] []. constructor; try congruence; eauto using same_len_trans. Qed.
Lemma same_custom_trans a b c : same_custom a b -> same_custom b c -> same_custom a c.
Proof.
  intros (A1 & A2 & A3) (B1 & B2 & B3). split; [congruence|]. split; [congruence|].
  unfold same_data in *. destruct (c_data a), (c_data b); try contradiction; destruct (c_data c); try contradiction; congruence.
Qed.
Lemma F2_trans {A} (R : A -> A -> Prop) : (forall a b c, R a b -> R b c -> R a c) ->
  forall l1 l2 l3, Forall2 R l1 l2 -> Forall2 R l2 l3 -> Forall2 R l1 l3.
Proof.
  intros T l1 l2 l3 H. revert l3. induction H; intros l3 H3; inversion H3; subst; constructor; eauto.
Qed.
Lemma F2_rev {A B} (R : A -> B -> Prop) l l' : Forall2 R l l' -> Forall2 R (rev l) (rev l').
Proof.
  induction 1; cbn [rev]; [constructor|]. apply Forall2_app; auto.
Qed.
Lemma step_shape_trans f g a b c : step_shape f a b -> step_shape g b c -> step_shape (xorb f g) a c.
Proof.
  intros [N1 S1] [N2 S2]. split; [congruence|].
  destruct f, g; cbn [xorb] in *; destruct S1 as [A1 C1], S2 as [A2 C2];
    (split; [exact (same_arrays_trans _ _ _ A1 A2)|]).
  - apply F2_rev in C1. rewrite rev_involutive in C1. eapply F2_trans; eauto using same_custom_trans.
  - eapply F2_trans; eauto using same_custom_trans.
  - apply F2_rev in C1. eapply F2_trans; eauto using same_custom_trans.
  - eapply F2_trans; eauto using same_custom_trans.
Qed.
Lemma F2_step f g l1 : forall l2 l3, Forall2 (step_shape f) l1 l2 -> Forall2 (step_shape g) l2 l3 ->
  Forall2 (step_shape (xorb f g)) l1 l3.
Proof.
  induction l1 as [|x l1 IH]; intros l2 l3 H1 H2; inversion H1; subst; inversion H2; subst; constructor; eauto using step_shape_trans.
Qed.
Lemma same_len_refl {A} (o : option (list A)) : same_len o o. Proof. destruct o; reflexivity || exact I. Qed.
Lemma step_refl l : Forall2 (step_shape false) l l.
Proof.
  induction l as [|a l IH]; constructor; auto. split; auto. split; [constructor; auto using same_len_refl|].
  induction (custom_data (fst a)) as [|s cs IHc]; constructor; auto. split; auto. split; auto.
  unfold same_data. destruct (c_data s); auto.
Qed.

(** One cycle: save with some precision, load what was saved. The environment
    (mathematical functions, overflow checks of the loading program) may differ
    every time. *)
Inductive cycles : nat -> list (mesh * list N) -> list (mesh * list N) -> Prop :=
| cycles_none l : cycles 0 l l
| cycles_one n lm lm' oc' p l out l1 l2 :
    prec_fine p -> Forall (fun mn => (segment_count lm true (fst mn) < 65536)%N) l ->
    saved lm true p l = Ok out -> read_tmf lm' oc' out = Ok l1 -> cycles n l1 l2 ->
    cycles (S n) l l2.
Lemma cycles_keep n l l2 : cycles n l l2 -> (len l < 2 ^ 32)%N ->
  Forall (fun mn => storable (fst mn) /\ name_ok (snd mn)) l ->
  Forall2 (step_shape (Nat.odd n)) l l2.
Proof.
  induction 1 as [l|n lm lm' oc' p l out l1 l2 HP HC S R _ IH]; intros HL HF; [apply step_refl|].
  assert (SV : savable lm l).
  { split; auto. rewrite Forall_forall in *. intros x X. specialize (HC x X). specialize (HF x X). tauto. }
  destruct (reload lm lm' oc' p l out l1 HP SV S R) as (F & HL1 & HF1).
  specialize (IH HL1 HF1). rewrite Nat.odd_succ, <- Nat.negb_odd.
  replace (negb (Nat.odd n)) with (xorb true (Nat.odd n)) by reflexivity.
  eapply F2_step; [|exact IH]. exact F.
Qed.

(** ** File sizes *)
Lemma sum_by_cons {A} (f : A -> N) a l : sum_by f (a :: l) = (f a + sum_by f l)%N. Proof. reflexivity. Qed.
Lemma file_length ms : len (file_bytes ms) = raw_size ms.
Proof.
  unfold file_bytes, raw_size, header_bytes, len. rewrite !app_length, !lend_length.
  assert (E : N.of_nat (length (concat (map (mesh_bytes seg_bytes) ms))) =
     sum_by (fun m : raw_mesh => (4 + N.of_nat (length (fst m)) + sum_by (fun s => 6 + N.of_nat (length (r_payload s))) (snd m))%N) ms).
  { induction ms as [|[name segs] ms IH]; [reflexivity|]. cbn [map concat]. rewrite sum_by_cons. cbn [fst snd]. rewrite app_length.
    rewrite Nat2N.inj_add, IH. f_equal. unfold mesh_bytes. cbn [fst snd]. rewrite !app_length, !lend_length.
    assert (G : N.of_nat (length (concat (map seg_bytes segs))) = sum_by (fun s => 6 + N.of_nat (length (r_payload s)))%N segs).
    { induction segs as [|s segs IHs]; [reflexivity|]. cbn [map concat]. rewrite sum_by_cons, app_length, Nat2N.inj_add, IHs.
      f_equal. unfold seg_bytes. rewrite !app_length, lend_length. cbn [length]. lia. }
    rewrite <- G. lia. }
  match type of E with _ = ?x => transitivity (15 + x)%N; [rewrite <- E; cbn [length]; lia|reflexivity] end.
Qed.

(** ** Looking up custom data *)
Definition named (name : list N) (l : list cseg) : list cseg :=
  filter (fun s => if list_eq_dec N.eq_dec (c_name s) name then true else false) l.
Lemma lookup_named {E} (l : list cseg) name :
  Forall (fun s => c_name_len s = len (c_name s)) l ->
  @lookup_loop E l name (len name) = Ok (option_map c_data (hd_error (named name l))).
Proof.
  induction 1 as [|s l H _ IH]; [reflexivity|]. cbn [lookup_loop named filter]. rewrite H.
  destruct (list_eq_dec N.eq_dec (c_name s) name) as [-> | NE].
  - unfold len. rewrite N.eqb_refl, N.ltb_irrefl, Nat2N.id, firstn_all.
    replace (list_eqb name name) with true by (symmetry; now apply list_eqb_eq). reflexivity.
  - fold (named name l). rewrite <- IH. destruct (N.eqb_spec (len (c_name s)) (len name)) as [L|L]; [|reflexivity].
    unfold len. rewrite N.ltb_irrefl, Nat2N.id, firstn_all.
    replace (list_eqb name (c_name s)) with false; [reflexivity|].
    symmetry. destruct (list_eqb name (c_name s)) eqn:Q; auto. apply list_eqb_eq in Q. congruence.
Qed.
Lemma filter_rev {A} (f : A -> bool) l : filter f (rev l) = rev (filter f l).
Proof.
  induction l as [|a l IH]; [reflexivity|]. cbn [rev filter]. rewrite filter_app, IH. cbn [filter].
  destruct (f a); [reflexivity|apply app_nil_r].
Qed.
Lemma F2_named name l l' : Forall2 same_custom l l' -> Forall2 same_custom (named name l) (named name l').
Proof.
  induction 1 as [|a b l l' (H1 & H2) _ IH]; [constructor|]. cbn [named filter]. rewrite <- H1.
  destruct (list_eq_dec N.eq_dec (c_name a) name); auto. constructor; auto. split; auto.
Qed.
Lemma lookup_after lm lm' oc' p l out l' : prec_fine p -> savable lm l ->
  saved lm true p l = Ok out -> read_tmf lm' oc' out = Ok l' ->
  Forall2 (fun a b => forall name, (len name <= 255)%N ->
    match hd_error (rev (named name (custom_data (fst a)))) with
    | None => @lookup_custom_data False (fst b) name = Ok None
    | Some s => exists d, @lookup_custom_data False (fst b) name = Ok (Some d) /\ same_data (c_data s) d
    end) l l'.
Proof.
  intros HP SV S R. destruct (reload lm lm' oc' p l out l' HP SV S R) as (F & _ & HF).
  clear -F HF. induction F as [|a b l l' [_ [_ C]] _ IH]; constructor; auto; [|apply Forall_cons_iff in HF; tauto].
  apply Forall_cons_iff in HF as [[ST _] _].
  intros name L. unfold lookup_custom_data. change (N.of_nat (length name)) with (len name).
  destruct (N.ltb_spec 255 (len name)); [lia|].
  rewrite lookup_named by (eapply Forall_impl; [|exact (st_custom _ ST)]; intros s (_ & H1 & _); exact H1).
  apply (F2_named name) in C. unfold named in C at 1. rewrite filter_rev in C. fold (named name (custom_data (fst a))) in C.
  destruct C as [|x y ? ? (_ & _ & H1)]; cbn [hd_error option_map]; eauto.
Qed.
(** ... and before. *)
Lemma lookup_before (m : mesh) name : storable m -> (len name <= 255)%N ->
  @lookup_custom_data False m name = Ok (option_map c_data (hd_error (named name (custom_data m)))).
Proof.
  intros ST L. unfold lookup_custom_data. change (N.of_nat (length name)) with (len name).
  destruct (N.ltb_spec 255 (len name)); [lia|].
  apply lookup_named. eapply Forall_impl; [|exact (st_custom _ ST)]; intros s (_ & H1 & _); exact H1.
Qed.

(** ** Equal index arrays are stored once *)
Definition is_index (d : dseg) : bool :=
  match d with DTriVertex _ | DTriNormal _ | DTriUV _ | DShared _ _ => true | _ => false end.
Lemma stored_once m l :
  vertex_triangles m = Some l -> normal_triangles m = Some l -> uv_triangles m = Some l ->
  filter is_index (merge_segments (tmf_segs m)) = [DShared 7 l].
Proof.
  intros E1 E2 E3. rewrite merge_segments_split, filter_app.
  assert (C : filter is_index (map DCustom (rev (custom_data m))) = []).
  { induction (rev (custom_data m)); auto. }
  rewrite C. cbn [app].
  assert (EQ : list_eqb l l = true) by now apply list_eqb_eq.
  unfold arrays. rewrite E1, E2, E3. cbn [opt_seg].
  destruct (vertices m), (normals m), (uvs m), (tangents m), (tangent_triangles m);
    cbn [opt_seg app]; unfold merge_segments; cbn [length rev app merge_loop is_something merge_all merge as_triangles filter is_index];
    repeat (rewrite EQ; cbn [length rev app merge_loop is_something merge_all merge as_triangles filter is_index]); reflexivity.
Qed.
