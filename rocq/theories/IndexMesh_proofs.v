(** Reordering and unifying with another index type. *)
From Coq Require Import List NArith ZArith Arith Bool Lia ZifyN ZifyNat ZifyBool.
From Verif Require Import Base Floats Utilis Unify CustomData Mesh FileSpec MeshSpec Mesh_proofs File_proofs Unify_proofs
  IndexWidth IndexSpec IndexMesh.
Import ListNotations.
Open Scope res_scope.

Lemma reorder_32 {E} m : reorder_data_w 32 (E:=E) m = reorder_data m. Proof. reflexivity. Qed.
Lemma unify_32 {E} m : unify_index_data_w 32 (E:=E) m = unify_index_data m. Proof. reflexivity. Qed.

(** ** Reordering *)
Lemma optimize_spec_w w {E A} t (data : list A) : fits_all w t -> t <> [] -> data <> [] ->
  (in_range data t /\ exists d', optimize_triangle_indices_w w (E:=E) t data =
     Ok (map (posN N.eq_dec (firsts N.eq_dec [] t)) t, d') /\ looks_up data (firsts N.eq_dec [] t) d') \/
  (~ in_range data t /\ optimize_triangle_indices_w w (E:=E) t data = Panic).
Proof.
  intros U T D. unfold optimize_triangle_indices_w. destruct t as [|i0 t0] eqn:ET; [congruence|]. destruct data as [|x0 data0] eqn:ED; [congruence|].
  rewrite <- ET, <- ED in *. clear T D.
  destruct (opt_loop_spec (E:=E) data t (map (fun _ => None) data) [] []) as [(R & imap & mapped & -> & L & RP & LU)|(R & ->)].
  - apply map_length.
  - apply none_represents.
  - constructor.
  - left. split; auto. cbn [bind]. exists mapped. split; auto.
    rewrite (map_res_map _ (posN N.eq_dec (firsts N.eq_dec [] t))); [reflexivity|].
    intros i I. unfold in_range in R. rewrite Forall_forall in R. specialize (R i I). unfold index.
    rewrite RP by (unfold len in *; lia). unfold posN.
    destruct (pos_in N.eq_dec i (firsts N.eq_dec [] t)) as [k K]; [apply firsts_in; auto|].
    rewrite K. cbn [option_map bind]. f_equal. apply N.mod_small. apply pos_lt in K.
    assert (H : (len (firsts N.eq_dec [] t) <= imod w)%N).
    { apply nodup_bound; [apply firsts_nodup; constructor|]. apply Forall_forall. intros j J. apply firsts_in in J as [[]|J].
      unfold fits_all in U. rewrite Forall_forall in U. unfold imod. auto. }
    unfold len in H. eapply N.lt_le_trans; [|exact H]. lia.
  - right. auto.
Qed.
Lemma optimize_same_w v w {E A} t (d : list A) : fits_all v t -> fits_all w t ->
  optimize_triangle_indices_w v (E:=E) t d = optimize_triangle_indices_w w t d.
Proof.
  intros V W. destruct t as [|i t]; [reflexivity|]. destruct d as [|x d]; [reflexivity|].
  destruct (optimize_spec_w v (E:=E) (i :: t) (x :: d) V) as [(R & d1 & -> & L1)|(R & ->)]; try discriminate;
  destruct (optimize_spec_w w (E:=E) (i :: t) (x :: d) W) as [(R' & d2 & -> & L2)|(R' & ->)]; try discriminate; try contradiction; auto.
  f_equal. f_equal. eapply looks_up_fun; eauto.
Qed.
Definition opt_pair_w w {E A} (d : option (list A)) (t : option (list N)) : res E (option (list A) * option (list N)) :=
  match d, t with
  | Some v, Some t => let* (t, v) := optimize_triangle_indices_w w t v in Ok (Some v, Some t)
  | _, _ => Ok (d, t)
  end.
Lemma reorder_pairs_w w {E} m : reorder_data_w w (E:=E) m =
  let* (v, vt) := opt_pair_w w (vertices m) (vertex_triangles m) in
  let* (n, nt) := opt_pair_w w (normals m) (normal_triangles m) in
  let* (u, ut) := opt_pair_w w (uvs m) (uv_triangles m) in
  Ok (mk_mesh n nt v vt u ut (tangents m) (tangent_triangles m) (custom_data m)).
Proof.
  destruct m as [n nt v vt u ut tg tt cd]. unfold reorder_data_w, opt_pair_w.
  cbn [vertices normals uvs vertex_triangles normal_triangles uv_triangles tangents tangent_triangles custom_data].
  Ltac one d t := destruct d as [d|], t as [t|];
    [destruct (optimize_triangle_indices_w _ t d) as [[? ?]| |] | | |]; cbn [bind]; try reflexivity;
    cbn [bind fst set_vertices set_vertex_triangles with_vertices with_vertex_triangles set_normals set_normal_triangles
      with_normals with_normal_triangles vertices normals uvs vertex_triangles normal_triangles uv_triangles tangents tangent_triangles custom_data].
  one v vt; one n nt; one u ut.
Qed.
Lemma opt_pair_same v w {E A} (d : option (list A)) t : fits_opt v t -> fits_opt w t -> opt_pair_w v (E:=E) d t = opt_pair_w w d t.
Proof.
  intros V W. destruct d as [d|]; [|reflexivity]. destruct t as [t|]; [|reflexivity]. cbn [opt_pair_w].
  now rewrite (optimize_same_w v w).
Qed.
Lemma reorder_same v w {E} m : indices_fit v m -> indices_fit w m -> reorder_data_w v (E:=E) m = reorder_data_w w m.
Proof.
  intros [V1 V2 V3 V4 _] [W1 W2 W3 W4 _]. rewrite !reorder_pairs_w.
  rewrite !(opt_pair_same v w) by auto. reflexivity.
Qed.
Lemma optimize_in_range_w w {E A} t (data : list A) d' t' : fits_all w t ->
  optimize_triangle_indices_w w (E:=E) t data = Ok (t', d') -> buffer (Some d') (Some t') = buffer (Some data) (Some t).
Proof.
  intros U H. destruct t as [|i t]; [injection H as <- <-; reflexivity|]. destruct data as [|x data]; [injection H as <- <-; reflexivity|].
  destruct (optimize_spec_w w (E:=E) (i :: t) (x :: data) U) as [(R & d1 & O & LU)|(R & O)]; try discriminate; rewrite O in H; [|discriminate H].
  injection H as <- <-. apply compacted_buffer; auto. now apply firsts_compacted.
Qed.
Lemma opt_pair_buffer w {E A} (d : option (list A)) t d' t' : fits_opt w t -> opt_pair_w w (E:=E) d t = Ok (d', t') ->
  buffer d' t' = buffer d t.
Proof.
  intros U H. destruct d as [d|]; [|injection H as <- <-; reflexivity]. destruct t as [t|]; [|injection H as <- <-; reflexivity].
  cbn [opt_pair_w] in H. destruct (optimize_triangle_indices_w w t d) as [[t1 d1]| |] eqn:O; cbn [bind] in H; try discriminate H.
  injection H as <- <-. eapply optimize_in_range_w; eauto.
Qed.
Lemma reorder_buffers w {E} m m' : indices_fit w m -> reorder_data_w w (E:=E) m = Ok m' ->
  get_vertex_buffer m' = get_vertex_buffer m /\ get_normal_buffer m' = get_normal_buffer m /\ get_uv_buffer m' = get_uv_buffer m /\
  tangents m' = tangents m /\ tangent_triangles m' = tangent_triangles m /\ custom_data m' = custom_data m.
Proof.
  intros [V1 V2 V3 _ _] H. rewrite reorder_pairs_w in H.
  destruct (opt_pair_w w (vertices m) (vertex_triangles m)) as [[v vt]| |] eqn:O1; cbn [bind] in H; try discriminate H.
  destruct (opt_pair_w w (normals m) (normal_triangles m)) as [[n nt]| |] eqn:O2; cbn [bind] in H; try discriminate H.
  destruct (opt_pair_w w (uvs m) (uv_triangles m)) as [[u ut]| |] eqn:O3; cbn [bind] in H; try discriminate H.
  injection H as <-. unfold get_vertex_buffer, get_normal_buffer, get_uv_buffer.
  cbn [vertices normals uvs vertex_triangles normal_triangles uv_triangles tangents tangent_triangles custom_data].
  rewrite (opt_pair_buffer w _ _ _ _ V1 O1), (opt_pair_buffer w _ _ _ _ V2 O2), (opt_pair_buffer w _ _ _ _ V3 O3). repeat split; reflexivity.
Qed.

(** ** Unifying *)
Lemma combo_loop_spec_w w rows : forall seen acc,
  combo_loop_w w rows seen acc =
    (acc ++ map (fun r => (posN ld (firsts ld seen rows) r mod imod w)%N) rows, firsts ld seen rows).
Proof.
  induction rows as [|r rows IH]; intros seen acc; cbn [combo_loop_w firsts map]; [now rewrite app_nil_r|].
  rewrite position_pos. destruct (in_dec ld r seen) as [I|I].
  - destruct (pos_in ld r seen I) as [k K]. rewrite K. cbn [option_map]. rewrite IH. f_equal. rewrite <- app_assoc. f_equal.
    cbn [app]. f_equal. destruct (firsts_prefix ld rows seen) as [more ->]. unfold posN. rewrite (pos_app _ _ _ _ _ K). reflexivity.
  - rewrite (pos_none _ _ _ I). cbn [option_map]. rewrite IH. f_equal. rewrite <- app_assoc. f_equal. cbn [app]. f_equal.
    destruct (firsts_prefix ld rows (seen ++ [r])) as [more ->]. unfold posN.
    rewrite (pos_app _ _ _ _ _ (pos_snoc ld r seen I)). reflexivity.
Qed.
Lemma numbered_mod_w w rows : (len rows <= imod w)%N ->
  map (fun r => (posN ld (firsts ld [] rows) r mod imod w)%N) rows = map (posN ld (firsts ld [] rows)) rows.
Proof.
  intros H. apply map_ext_in. intros r R. apply N.mod_small.
  assert (L : (posN ld (firsts ld [] rows) r < len (firsts ld [] rows))%N) by (apply posN_lt, firsts_in; auto).
  pose proof (firsts_length ld rows []) as F. eapply N.lt_le_trans; [exact L|]. etransitivity; [|exact H]. unfold len. cbn [length] in F. lia.
Qed.
Lemma common_same v w {E} a cols : (len a <= imod v)%N -> (len a <= imod w)%N ->
  unify_data_common_w v (E:=E) (a :: cols) = unify_data_common_w w (a :: cols).
Proof.
  intros V W. unfold unify_data_common_w. rewrite !combo_loop_spec_w.
  rewrite !numbered_mod_w by (unfold len in *; unfold rows; now rewrite map_length, seq_length). reflexivity.
Qed.
(** At most [2^w] entries. *)
Definition short_w (w : nat) (t : option (list N)) : Prop := forall i, t = Some i -> (len i <= 2 ^ N.of_nat w)%N.
Section Same.
Context (v w : nat).
Lemma smart2_same {E A B} (a : oarr A) (b : oarr B) ia ib : short_w v ia -> short_w w ia ->
  smart_merge_data_2_w v (E:=E) a b ia ib = smart_merge_data_2_w w a b ia ib.
Proof.
  intros V W. unfold smart_merge_data_2_w. destruct (negb _); auto. destruct a, ia as [ia|], b, ib; auto.
  unfold merge_data_2_w. rewrite (common_same v w); [reflexivity|apply V; reflexivity|apply W; reflexivity].
Qed.
Lemma smart3_same {E A B C} (a : oarr A) (b : oarr B) (c : oarr C) ia ib ic : short_w v ia -> short_w w ia -> short_w v ib -> short_w w ib ->
  smart_merge_data_3_w v (E:=E) a b c ia ib ic = smart_merge_data_3_w w a b c ia ib ic.
Proof.
  intros V W V2 W2. unfold smart_merge_data_3_w. destruct (negb _); auto. rewrite !smart2_same by auto.
  destruct (unusable a ia); auto. destruct (unusable b ib); auto. destruct (unusable c ic); auto.
  destruct a, ia as [ia|], b, ib, c, ic; auto. unfold merge_data_3_w. rewrite (common_same v w); [reflexivity|apply V; reflexivity|apply W; reflexivity].
Qed.
Lemma smart4_same {E A B C D} (a : oarr A) (b : oarr B) (c : oarr C) (d : oarr D) ia ib ic id :
  short_w v ia -> short_w w ia -> short_w v ib -> short_w w ib -> short_w v ic -> short_w w ic ->
  smart_merge_data_4_w v (E:=E) a b c d ia ib ic id = smart_merge_data_4_w w a b c d ia ib ic id.
Proof.
  intros V W V2 W2 V3 W3. unfold smart_merge_data_4_w. destruct (negb _); auto. rewrite !smart3_same by auto.
  destruct (unusable a ia); auto. destruct (unusable b ib); auto. destruct (unusable c ic); auto. destruct (unusable d id); auto.
  destruct a, ia as [ia|], b, ib, c, ic, d, id; auto. unfold merge_data_4_w. rewrite (common_same v w); [reflexivity|apply V; reflexivity|apply W; reflexivity].
Qed.
End Same.
Lemma unify_same v w {E} m :
  short_w v (vertex_triangles m) -> short_w v (normal_triangles m) -> short_w v (uv_triangles m) ->
  short_w w (vertex_triangles m) -> short_w w (normal_triangles m) -> short_w w (uv_triangles m) ->
  unify_index_data_w v (E:=E) m = unify_index_data_w w m.
Proof. intros. unfold unify_index_data_w. rewrite (smart4_same v w); auto. Qed.

(** ** One corner too many *)
Lemma firsts_id {A} eqd (l : list A) : forall seen, NoDup (seen ++ l) -> firsts eqd seen l = seen ++ l.
Proof.
  induction l as [|x l IH]; intros seen H; cbn [firsts]; [now rewrite app_nil_r|].
  destruct (in_dec eqd x seen) as [I|I].
  - exfalso. apply NoDup_remove_2 in H. apply H. apply in_or_app. auto.
  - rewrite IH; rewrite <- app_assoc; auto.
Qed.
Section Wrap.
Context (w n : nat) (Hn : imod w = N.of_nat n) (Hp : 2 < n).
Definition ia : list N := map N.of_nat (seq 0 (n - 1)) ++ [0; 1]%N.
Definition ib : list N := repeat 0%N (n - 1) ++ [1; 1]%N.
Lemma ia_len : length ia = n + 1. Proof. unfold ia. rewrite app_length, map_length, seq_length. cbn [length]. lia. Qed.
Lemma ib_len : length ib = n + 1. Proof. unfold ib. rewrite app_length, repeat_length. cbn [length]. lia. Qed.
Lemma ia_nth i : i < n - 1 -> nth i ia 0%N = N.of_nat i.
Proof.
  intros H. unfold ia. rewrite app_nth1 by (rewrite map_length, seq_length; auto).
  change 0%N with (N.of_nat 0) at 1. rewrite map_nth, seq_nth; auto.
Qed.
Lemma ia_last1 : nth (n - 1) ia 0%N = 0%N.
Proof. unfold ia. rewrite app_nth2 by (rewrite map_length, seq_length; auto). rewrite map_length, seq_length, Nat.sub_diag. reflexivity. Qed.
Lemma ia_last : nth n ia 0%N = 1%N.
Proof.
  unfold ia. rewrite app_nth2 by (rewrite map_length, seq_length; lia). rewrite map_length, seq_length.
  replace (n - (n - 1)) with 1 by lia. reflexivity.
Qed.
Lemma ib_nth i : i < n - 1 -> nth i ib 0%N = 0%N.
Proof. intros H. unfold ib. rewrite app_nth1 by (rewrite repeat_length; auto). apply nth_repeat. Qed.
Lemma ib_last1 : nth (n - 1) ib 0%N = 1%N.
Proof. unfold ib. rewrite app_nth2 by (rewrite repeat_length; auto). rewrite repeat_length, Nat.sub_diag. reflexivity. Qed.
Lemma ib_last : nth n ib 0%N = 1%N.
Proof.
  unfold ib. rewrite app_nth2 by (rewrite repeat_length; lia). rewrite repeat_length. replace (n - (n - 1)) with 1 by lia. reflexivity.
Qed.
Lemma split_pos i : i < n + 1 -> i < n - 1 \/ i = n - 1 \/ i = n.
Proof. lia. Qed.
Definition rws := rows [ia; ib] (n + 1).
Lemma rws_nth i : i < n + 1 -> nth_error rws i = Some [nth i ia 0%N; nth i ib 0%N].
Proof.
  intros H. unfold rws, rows. rewrite (map_nth_error (row [ia; ib]) i (seq 0 (n + 1)) (d := i)); [reflexivity|].
  rewrite nth_error_nth' with (d := 0) by (rewrite seq_length; auto). now rewrite seq_nth.
Qed.
Lemma rws_len : length rws = n + 1. Proof. unfold rws, rows. now rewrite map_length, seq_length. Qed.
Lemma rws_nodup : NoDup rws.
Proof.
  apply NoDup_nth_error. intros i j Hi E. rewrite rws_len in Hi.
  assert (Hj : j < n + 1).
  { rewrite <- rws_len. apply nth_error_Some. rewrite <- E. rewrite rws_nth by auto. discriminate. }
  rewrite !rws_nth in E by auto. injection E as E1 E2.
  destruct (split_pos i Hi) as [Ni|[-> | ->]], (split_pos j Hj) as [Nj|[-> | ->]]; auto;
    rewrite ?ia_last, ?ia_last1, ?ia_nth in E1 by auto; rewrite ?ib_last, ?ib_last1, ?ib_nth in E2 by auto; lia.
Qed.
Lemma rws_firsts : firsts ld [] rws = rws.
Proof. apply (firsts_id ld rws []). exact rws_nodup. Qed.
Lemma wrap_common {E} : unify_data_common_w w (E:=E) [ia; ib] =
  Ok (map (fun r => (posN ld rws r mod imod w)%N) rws, [map (fun c => nth 0 c 0%N) rws; map (fun c => nth 1 c 0%N) rws]).
Proof.
  unfold unify_data_common_w. cbn [forallb]. rewrite ia_len, ib_len, Nat.eqb_refl. cbn [andb].
  rewrite combo_loop_spec_w. fold rws. rewrite rws_firsts. reflexivity.
Qed.
Definition wrapped_index := map (fun r => (posN ld rws r mod imod w)%N) rws.
Lemma wrapped_last : nth_error wrapped_index n = Some 0%N.
Proof.
  unfold wrapped_index. erewrite map_nth_error; [|apply rws_nth; lia]. f_equal. unfold posN.
  rewrite (pos_nodup ld _ _ n rws_nodup (rws_nth n ltac:(lia))). rewrite Hn. apply N.mod_same. lia.
Qed.
Lemma wrap_unify {E} (vs : list vec3) n0 n1 : length vs = n - 1 ->
  exists vs' ns', unify_index_data_w w (E:=E) (mk_mesh (Some [n0; n1]) (Some ib) (Some vs) (Some ia) None None None None []) =
    Ok (mk_mesh (Some ns') (Some wrapped_index) (Some vs') (Some wrapped_index) None None None None []) /\
    nth_error ns' 0 = Some n0.
Proof.
  intros L. unfold unify_index_data_w.
  cbn [vertices normals uvs tangents vertex_triangles normal_triangles uv_triangles tangent_triangles].
  assert (R1 : in_range vs (map (fun c => nth 0 c 0%N) rws)).
  { apply Forall_forall. intros i I. apply in_map_iff in I as (r & <- & I). apply In_nth_error in I as [k K].
    assert (Hk : k < n + 1) by (rewrite <- rws_len; apply nth_error_Some; congruence).
    rewrite rws_nth in K by auto. injection K as <-. cbn [nth]. unfold len. rewrite L.
    destruct (split_pos k Hk) as [Nk|[-> | ->]]; rewrite ?ia_last, ?ia_last1, ?ia_nth by auto; lia. }
  assert (R2 : in_range [n0; n1] (map (fun c => nth 1 c 0%N) rws)).
  { apply Forall_forall. intros i I. apply in_map_iff in I as (r & <- & I). apply In_nth_error in I as [k K].
    assert (Hk : k < n + 1) by (rewrite <- rws_len; apply nth_error_Some; congruence).
    rewrite rws_nth in K by auto. injection K as <-. cbn [nth]. 
    destruct (split_pos k Hk) as [Nk|[-> | ->]]; rewrite ?ib_last, ?ib_last1, ?ib_nth by auto; reflexivity. }
  destruct (gather_spec (E:=E) vs (map (fun c => nth 0 c 0%N) rws)) as [(vs' & G1 & L1)|[_ X]]; [|contradiction].
  destruct (gather_spec (E:=E) [n0; n1] (map (fun c => nth 1 c 0%N) rws)) as [(ns' & G2 & L2)|[_ X]]; [|contradiction].
  exists vs', ns'. split.
  - assert (NB : forall l, is_merge_needed ([Some ia; Some ib] ++ l) = true).
    { intros l. apply not_false_iff_true. intros F. rewrite needed_false in F.
      assert (Q : ib = ia) by (apply F; apply in_or_app; left; cbn; auto). pose proof ib_last1 as B. rewrite Q, ia_last1 in B. discriminate B. }
    assert (S2 : smart_merge_data_2_w w (E:=E) (Some vs) (Some [n0; n1]) (Some ia) (Some ib) = Ok (Some vs', Some ns', Some wrapped_index)).
    { unfold smart_merge_data_2_w. destruct (is_merge_needed _) eqn:Q.
      - cbn [negb]. unfold merge_data_2_w. rewrite wrap_common. cbn [bind]. unfold gather. cbn [nth]. rewrite G1, G2. reflexivity.
      - pose proof (NB []) as N2. cbn [app] in N2. exact (False_ind _ (diff_true_false (eq_trans (eq_sym N2) Q))). }
    unfold smart_merge_data_4_w. pose proof (NB [None; None]) as N4. cbn [app] in N4. destruct (is_merge_needed _) eqn:Q4; [|discriminate N4]. cbn [negb].
    assert (UV : unusable (Some vs) (Some ia) = false). { destruct vs; [cbn in L; lia|reflexivity]. }
    rewrite UV. cbn [unusable].
    unfold smart_merge_data_3_w. pose proof (NB [None]) as N3. cbn [app] in N3. destruct (is_merge_needed _) eqn:Q3; [|discriminate N3]. cbn [negb]. rewrite UV. cbn [unusable].
    rewrite S2. reflexivity.
  - pose proof (rws_nth 0 ltac:(lia)) as Z. destruct rws as [|r0 rs]; [discriminate Z|]. cbn [nth_error] in Z. injection Z as ->.
    cbn [map nth] in L2. rewrite ib_nth in L2 by lia. inversion L2 as [|? y ? ns2 H0 _]; subst. cbn [nth_error N.to_nat] in *. congruence.
Qed.
Lemma buffer_nth {A} (d : list A) t b k i : buffer (Some d) (Some t) = Some b -> nth_error t k = Some i ->
  nth_error b k = nth_error d (N.to_nat i).
Proof.
  intros B K. apply buffer_iff in B as (d0 & t0 & [= <-] & [= <-] & L). unfold looks_up in L. revert k K.
  induction L as [|j x t b H _ IH]; intros k K; [destruct k; discriminate K|]. destruct k; cbn [nth_error] in *; [congruence|auto].
Qed.
Lemma wrap_changes {E} (vs : list vec3) n0 n1 : length vs = n - 1 -> n0 <> n1 ->
  exists m', unify_index_data_w w (E:=E) (mk_mesh (Some [n0; n1]) (Some ib) (Some vs) (Some ia) None None None None []) = Ok m' /\
    get_normal_buffer m' <> get_normal_buffer (mk_mesh (Some [n0; n1]) (Some ib) (Some vs) (Some ia) None None None None []) /\
    exists b, get_normal_buffer (mk_mesh (Some [n0; n1]) (Some ib) (Some vs) (Some ia) None None None None []) = Some b.
Proof.
  intros L D. destruct (wrap_unify (E:=E) vs n0 n1 L) as (vs' & ns' & U & N0). eexists. split; [exact U|].
  assert (B : exists b, get_normal_buffer (mk_mesh (Some [n0; n1]) (Some ib) (Some vs) (Some ia) None None None None []) = Some b).
  { unfold get_normal_buffer. cbn [normals normal_triangles]. destruct (in_range_looks_up [n0; n1] ib) as [b B].
    - unfold ib. apply Forall_app. split; [|repeat constructor]. apply Forall_forall. intros i I. apply repeat_spec in I. subst i. reflexivity.
    - exists b. apply buffer_iff. eauto. }
  split; [|exact B]. destruct B as [b B]. rewrite B. intros B'. unfold get_normal_buffer in *. cbn [normals normal_triangles] in *.
  assert (K : nth_error ib n = Some 1%N).
  { rewrite nth_error_nth' with (d := 0%N) by (rewrite ib_len; lia). now rewrite ib_last. }
  pose proof (buffer_nth _ _ _ _ _ B K) as E1. pose proof (buffer_nth _ _ _ _ _ B' wrapped_last) as E2.
  rewrite E1 in E2. change (Some n1 = nth_error ns' 0) in E2. rewrite N0 in E2. congruence.
Qed.
Lemma wrap_fits : 1 <= w -> fits_all w ia /\ fits_all w ib.
Proof.
  intros W. unfold fits_all, ia, ib. unfold imod in Hn. rewrite Hn.
  assert (N2 : (1 < N.of_nat n)%N).
  { rewrite <- Hn. apply (N.lt_le_trans _ (2 ^ 1)%N); [reflexivity|]. apply N.pow_le_mono_r; [discriminate|lia]. }
  split; apply Forall_app; split.
  - apply Forall_forall. intros i I. apply in_map_iff in I as (k & <- & I). apply in_seq in I. lia.
  - repeat constructor; lia.
  - apply Forall_forall. intros i I. apply repeat_spec in I. lia.
  - repeat constructor; lia.
Qed.
Lemma ia_range : Forall (fun i => (i < N.of_nat (n - 1))%N) ia.
Proof.
  unfold ia. apply Forall_app. split.
  - apply Forall_forall. intros i I. apply in_map_iff in I as (k & <- & I). apply in_seq in I. lia.
  - repeat constructor; lia.
Qed.
End Wrap.
