(** Saving: number of segments, crashes, repeated saves, panics. *)
From Coq Require Import List NArith ZArith Arith Bool Lia ZifyN ZifyNat ZifyBool.
From Flocq Require Import IEEE754.BinarySingleNaN.
From Verif Require Import Base BitSpec UnalignedRW UnalignedRW_proofs ReadExt ByteLemmas Triangles TriSpec
  Triangles_proofs OptTris OptTris_proofs Floats Utilis Unify Vertices Uv Normals CustomData Mesh
  OptVertices OptVertices_proofs Tmf File Parse_proofs Codec_proofs FileSpec File_proofs
  NoPanic_proofs Load_proofs SaveSpec Merge_proofs Save_proofs.
Import ListNotations.
Open Scope res_scope.
Ltac Zify.zify_post_hook ::= Z.div_mod_to_equations.

(** ** How many segments *)

Definition wt (d : dseg) : nat :=
  match d with
  | DNothing => 0
  | DVertex l => Nat.max 1 (length l)
  | DTriVertex l | DTriNormal l | DTriUV l | DTriTangent l | DShared _ l => Nat.max 1 (length l)
  | _ => 1
  end.
Definition wts (l : list dseg) : nat := list_sum (map wt l).
Lemma wts_cons d l : wts (d :: l) = wt d + wts l. Proof. reflexivity. Qed.
Lemma wts_app a b : wts (a ++ b) = wts a + wts b.
Proof. unfold wts. now rewrite map_app, list_sum_app. Qed.
Lemma wts_rev l : wts (rev l) = wts l.
Proof. induction l as [|d l IH]; [reflexivity|]. cbn [rev]. rewrite wts_app, IH, !wts_cons. unfold wts. cbn. lia. Qed.

Lemma merge_wt a b a' b' : merge a b = (a', b') -> wt a' + wt b' <= wt a + wt b.
Proof.
  unfold merge. destruct (as_triangles b) as [[l k]|]; [|intros [= <- <-]; lia].
  destruct a; cbv beta iota zeta; try (intros H; apply pair_equal_spec in H as [<- <-]; lia);
  match goal with |- context [list_eqb ?x ?y] => destruct (list_eqb x y) end;
    intros H; apply pair_equal_spec in H as [<- <-]; cbn [wt]; lia.
Qed.
Lemma merge_all_wt others : forall d d' others', merge_all d others = (d', others') ->
  wt d' + wts others' <= wt d + wts others.
Proof.
  induction others as [|o others IH]; intros d d' others' E; cbn [merge_all] in E.
  - injection E as <- <-. lia.
  - destruct (merge d o) as [s1 o1] eqn:M. destruct (merge_all s1 others) as [s2 t2] eqn:MA.
    injection E as <- <-. rewrite !wts_cons. apply merge_wt in M. apply IH in MA. lia.
Qed.
Lemma merge_loop_wt fuel : forall st, wts (merge_loop fuel st) <= wts st.
Proof.
  induction fuel as [|fuel IH]; intros st; cbn [merge_loop]; [cbn; lia|].
  destruct st as [|d rest]; [reflexivity|]. destruct (is_something d).
  - destruct (merge_all d (rev rest)) as [s o] eqn:M. rewrite !wts_cons. apply merge_all_wt in M.
    specialize (IH (rev o)). rewrite !wts_rev in *. lia.
  - rewrite wts_cons. specialize (IH rest). lia.
Qed.

(** Index arrays as any program holds them: u32 entries, less than 2^57 of them. *)
Definition dval (d : dseg) : Prop :=
  match d with
  | DTriVertex l | DTriNormal l | DTriUV l | DTriTangent l => u32s l /\ (len l < 2 ^ 57)%N
  | DShared k l => (0 < k < 8)%N /\ u32s l /\ (len l < 2 ^ 57)%N
  | _ => True
  end.
Lemma dok_dval d : dok d -> dval d.
Proof.
  assert (I : forall l, idx_ok l -> u32s l /\ (len l < 2 ^ 57)%N).
  { intros l [H1 H2]. split; [eapply Forall_impl; [|exact H2]; cbv beta; lia|lia]. }
  destruct d; cbn [dok dval]; auto. intros [H1 H2]. auto.
Qed.

Lemma concat_ge {A} (l : list (list A)) : Forall (fun s => s <> []) l -> length l <= length (concat l).
Proof.
  induction 1 as [|s l H _ IH]; [cbn; lia|]. cbn [concat]. rewrite app_length. destruct s; [congruence|]. cbn [length]. lia.
Qed.
Lemma opt_tris_nil oc : opt_tris oc [] = Ok [[]].
Proof. destruct oc; vm_compute; reflexivity. Qed.
Lemma opt_vertices_nil lm oc l : opt_vertices lm oc [] = Ok l -> l = [[]].
Proof.
  unfold opt_vertices. cbn [opt_vertices_fuel length]. unfold find_best_vertex_split. cbn [vertex_scan fold_left length].
  cbv zeta. destruct (range_to_vertex_bit_count lm oc zero_span split_edge); cbn [bind]; try discriminate.
  cbn [fst]. change (0 <? isize_min)%Z with false. cbn [bind]. congruence.
Qed.
(** Splitting an index array or a vertex array: never out of fuel, at most as many pieces as elements. *)
Lemma tris_pieces oc l : u32s l -> (len l < 2 ^ 57)%N ->
  exists o, opt_tris oc l = Ok o /\ concat o = l /\ length o <= Nat.max 1 (length l) /\
    (l <> [] -> Forall (fun s => s <> []) o) /\ (l = [] -> o = [[]]).
Proof.
  intros U L. destruct l as [|x l].
  - exists [[]]. rewrite opt_tris_nil. repeat split; auto; cbn; try lia; congruence.
  - destruct (opt_tris_ok oc (x :: l) L U) as (o & O & C & NE & F). exists o. split; auto. split; auto.
    assert (HF : Forall (fun s => s <> []) o) by (apply F; discriminate).
    split; [|split; [auto|discriminate]]. apply concat_ge in HF. rewrite C in HF. lia.
Qed.
Lemma vertices_pieces lm oc l o : opt_vertices lm oc l = Ok o ->
  concat o = l /\ length o <= Nat.max 1 (length l) /\
    (l <> [] -> Forall (fun s => s <> []) o) /\ (l = [] -> o = [[]]).
Proof.
  intros O. destruct l as [|x l].
  - apply opt_vertices_nil in O as ->. repeat split; auto; cbn; try lia; congruence.
  - destruct (opt_vertices_total lm oc (x :: l)) as [P|(o' & O' & C & NE & F)]; [congruence|].
    rewrite O in O'. injection O' as <-. split; auto.
    assert (HF : Forall (fun s => s <> []) o) by (apply F; discriminate).
    split; [|split; [auto|discriminate]]. apply concat_ge in HF. rewrite C in HF. lia.
Qed.

Lemma optimize_wt lm oc d : dval d ->
  optimize lm oc d = Panic \/ exists l, optimize lm oc d = Ok l /\ length l <= Nat.max 1 (wt d).
Proof.
  intros D. destruct d; cbn [optimize dval wt] in *; try (right; eexists; split; [reflexivity|cbn; lia]).
  - destruct (opt_vertices_total lm oc l) as [->|(o & O & _)]; [now left|]. right. rewrite O. cbn [bind].
    eexists. split; [reflexivity|]. rewrite map_length. apply vertices_pieces in O. lia.
  - destruct D as [U L]. destruct (tris_pieces oc l U L) as (o & -> & _ & C & _). right. eexists. split; [reflexivity|].
    rewrite map_length. lia.
  - destruct D as [U L]. destruct (tris_pieces oc l U L) as (o & -> & _ & C & _). right. eexists. split; [reflexivity|].
    rewrite map_length. lia.
  - destruct D as [U L]. destruct (tris_pieces oc l U L) as (o & -> & _ & C & _). right. eexists. split; [reflexivity|].
    rewrite map_length. lia.
  - destruct D as [U L]. destruct (tris_pieces oc l U L) as (o & -> & _ & C & _). right. eexists. split; [reflexivity|].
    rewrite map_length. lia.
  - destruct D as (_ & U & L). destruct (tris_pieces oc l U L) as (o & -> & _ & C & _). right. eexists. split; [reflexivity|].
    rewrite map_length. lia.
Qed.
Lemma optimize_all_wt lm oc segs : Forall dval segs -> Forall (fun d => is_something d = true) segs ->
  optimize_all lm oc segs = Panic \/ exists l, optimize_all lm oc segs = Ok l /\ length l <= wts segs.
Proof.
  induction segs as [|d segs IH]; intros D S; cbn [optimize_all].
  - right. exists []. split; auto.
  - apply Forall_cons_iff in D as [D1 D2]. apply Forall_cons_iff in S as [S1 S2].
    destruct (optimize_wt lm oc d D1) as [->|(a & -> & La)]; [now left|]. cbn [map_err bind].
    destruct (IH D2 S2) as [->|(b & -> & Lb)]; [now left|]. cbn [bind]. right. eexists. split; [reflexivity|].
    rewrite app_length, wts_cons. destruct d; cbn [wt is_something] in *; try discriminate; lia.
Qed.

(** What any program can hold in a mesh. *)
Definition u32_array (o : option (list N)) : Prop := forall l, o = Some l -> u32s l /\ (len l < 2 ^ 57)%N.
Definition holdable (m : mesh) : Prop :=
  u32_array (vertex_triangles m) /\ u32_array (normal_triangles m) /\
  u32_array (uv_triangles m) /\ u32_array (tangent_triangles m).
Lemma storable_holdable m : storable m -> holdable m.
Proof.
  assert (I : forall o, indices_ok o -> u32_array o).
  { intros o H l E. destruct (H l E) as [H1 H2]. split; [|lia].
    eapply Forall_impl; [|exact H2]. cbv beta. lia. }
  intros []. unfold holdable. auto.
Qed.
Lemma merged_dval m : holdable m -> Forall dval (merge_segments (tmf_segs m)) /\
  Forall (fun d => is_something d = true) (merge_segments (tmf_segs m)).
Proof.
  intros (H1 & H2 & H3 & H4).
  assert (F : Forall (fun d => dval d /\ is_something d = true) (merge_segments (tmf_segs m))).
  { apply merge_loop_keeps.
    - exact I.
    - cbn [dval]. intros l H k Hk. split; auto. destruct H as [H|[H|[H|[? [_ H]]]]]; auto.
    - cbn [dval]. tauto.
    - apply Forall_rev. unfold tmf_segs. rewrite !Forall_app.
      assert (O : forall A (f : A -> dseg) (o : option A), (forall x, o = Some x -> dval (f x)) -> Forall dval (opt_seg f o)).
      { intros A f [x|] HH; constructor; auto. }
      do 8 (split; [apply O; intros x HX; cbn [dval]; solve [exact I|auto]|]).
      rewrite Forall_map. apply Forall_forall. intros. exact I. }
  split; (eapply Forall_impl; [|exact F]); cbv beta; tauto.
Qed.

(** The number of elements of an array that splitting could tear apart. *)
Definition count {A} (o : option (list A)) : N := match o with Some l => len l | None => 0%N end.
Definition elements (m : mesh) : N :=
  (count (vertices m) + count (vertex_triangles m) + count (normal_triangles m) +
   count (uv_triangles m) + count (tangent_triangles m) + len (custom_data m))%N.
Lemma tmf_segs_wt m : (N.of_nat (wts (tmf_segs m)) <= elements m + 8)%N.
Proof.
  unfold tmf_segs. rewrite !wts_app.
  assert (O : forall A (f : list A -> dseg) o, (forall l, wt (f l) <= S (length l)) ->
    (N.of_nat (wts (opt_seg f o)) <= count o + 1)%N).
  { intros A f [l|] H; unfold wts, opt_seg, count, len; cbn [map list_sum fold_right]; [|lia].
    specialize (H l). lia. }
  assert (O1 : forall A (f : list A -> dseg) o, (forall l, wt (f l) = 1) ->
    (N.of_nat (wts (opt_seg f o)) <= 1)%N).
  { intros A f [l|] H; unfold wts, opt_seg; cbn [map list_sum fold_right]; [|lia]. rewrite H. lia. }
  assert (C : wts (map DCustom (custom_data m)) = length (custom_data m)).
  { induction (custom_data m) as [|s l IH]; [reflexivity|]. cbn [map]. rewrite wts_cons, IH. reflexivity. }
  rewrite C. unfold elements. unfold len at 1.
  pose proof (O _ DVertex (vertices m) ltac:(intros; cbn [wt]; lia)).
  pose proof (O _ DTriVertex (vertex_triangles m) ltac:(intros; cbn [wt]; lia)).
  pose proof (O _ DTriNormal (normal_triangles m) ltac:(intros; cbn [wt]; lia)).
  pose proof (O _ DTriUV (uv_triangles m) ltac:(intros; cbn [wt]; lia)).
  pose proof (O _ DTriTangent (tangent_triangles m) ltac:(intros; cbn [wt]; lia)).
  pose proof (O1 _ DNormal (normals m) ltac:(intros; reflexivity)).
  pose proof (O1 _ DUV (uvs m) ltac:(intros; reflexivity)).
  pose proof (O1 _ DTangent (tangents m) ltac:(intros; reflexivity)).
  lia.
Qed.
Lemma segment_count_le lm oc m : holdable m -> (segment_count lm oc m <= elements m + 8)%N.
Proof.
  intros H. unfold segment_count, segment_list. destruct (merged_dval m H) as [D S].
  destruct (optimize_all_wt lm oc _ D S) as [->|(l & -> & L)]; [lia|]. unfold len.
  pose proof (tmf_segs_wt m). pose proof (merge_loop_wt (length (tmf_segs m)) (rev (tmf_segs m))) as W.
  rewrite wts_rev in W. unfold merge_segments in *. lia.
Qed.

(** The model never runs out of fuel. *)
Lemma traced_bind_inv {A B} (m : action A) (f : A -> action B) o r :
  has_trace m -> (forall a, has_trace (f a)) -> traced (abind m f) o r ->
  (exists a o1 o2, traced m o1 (Ok a) /\ traced (f a) o2 r /\ o = o1 ++ o2) \/
  (exists e, traced m o (Err e) /\ r = Err e) \/ (traced m o Panic /\ r = Panic).
Proof.
  intros (o1 & r1 & T1) F T. destruct r1 as [a|e|].
  - left. destruct (F a) as (o2 & r2 & T2).
    destruct (traced_det _ _ _ _ _ T (traced_bind m f _ _ _ _ T1 T2)) as [-> ->]. eauto 8.
  - destruct (traced_det _ _ _ _ _ T (traced_bind_err m f _ _ T1)) as [-> ->]. eauto.
  - destruct (traced_det _ _ _ _ _ T (traced_bind_panic m f _ T1)) as [-> ->]. eauto.
Qed.
Definition no_err {A} (P : xerr -> Prop) (a : action A) : Prop :=
  has_trace a /\ forall o e, traced a o (Err e) -> P e.
Lemma no_err_pure {A} (P : xerr -> Prop) (r : res xerr A) : (forall e, r = Err e -> P e) -> no_err P (pure r).
Proof.
  intros H. split; [eexists _, _; apply traced_pure|]. intros o e T.
  destruct (traced_det _ _ _ _ _ T (traced_pure r)) as [_ E]. auto.
Qed.
Lemma no_err_chunks P l : no_err P (write_chunks l).
Proof.
  split; [eexists _, _; apply traced_chunks|]. intros o e T.
  destruct (traced_det _ _ _ _ _ T (traced_chunks l)) as [_ E]. discriminate.
Qed.
Lemma no_err_write P l : no_err P (write_all l).
Proof.
  split; [eexists _, _; apply traced_write|]. intros o e T.
  destruct (traced_det _ _ _ _ _ T (traced_write l)) as [_ E]. discriminate.
Qed.
Lemma no_err_bind {A B} (P : xerr -> Prop) (m : action A) (f : A -> action B) :
  no_err P m -> (forall a, no_err P (f a)) -> no_err P (abind m f).
Proof.
  intros [H1 H2] F. split; [apply has_trace_bind; auto; intros; apply F|].
  intros o e T. apply traced_bind_inv in T as [(a & o1 & o2 & T1 & T2 & _)|[(e' & T1 & [= <-])|(T1 & E)]]; auto.
  - exact (proj2 (F a) _ _ T2).
  - eauto.
  - discriminate.
  - intros; apply F.
Qed.
Lemma save_no_fuel lm oc p l : Forall (fun mn => holdable (fst mn)) l -> saved lm oc p l <> Err XFuel.
Proof.
  intros H.
  assert (N : no_err (fun e => e <> XFuel) (write_tmf lm oc p l)).
  { apply no_err_bind; [apply no_err_chunks|intros _].
    induction H as [|[m name] l Hm _ IH]; cbn [write_meshes].
    - apply (no_err_pure _ (Ok tt)). discriminate.
    - apply no_err_bind; [|auto]. unfold write_mesh.
      apply no_err_bind; [apply no_err_chunks|intros _].
      apply no_err_bind.
      { apply no_err_pure. unfold calc_shortest_edge. destruct (vertex_triangles m) as [[|i t]|]; try discriminate.
        destruct (vertices m) as [v|]; try discriminate. intros e.
        assert (S : forall k tt s, length tt <= k -> forall e, shortest_loop v tt s <> Err e).
        { induction k as [|k IHk]; intros [|a [|b [|c ll]]] s L e'; cbn [shortest_loop length] in *; try discriminate; try lia.
          unfold index. destruct (get v a), (get v b), (get v c); cbn [bind]; try discriminate. apply IHk. lia. }
        destruct (shortest_loop v (i :: t) f32_inf) eqn:E; cbn [bind]; [destruct (is_finite a); discriminate| |discriminate].
        exfalso. eapply (S _ _ _ (le_n _)); eauto. }
      intros edge. apply no_err_bind.
      { apply no_err_pure. intros e E. exfalso. cbn [fst] in Hm. destruct (merged_dval m Hm) as [D S].
        destruct (optimize_all_wt lm oc _ D S) as [P|(x & P & _)]; rewrite P in E; discriminate. }
      intros segs. cbv zeta. apply no_err_bind.
      { apply no_err_pure. destruct (existsb _ _); discriminate. }
      intros _. apply no_err_bind; [apply no_err_write|intros _].
      induction segs as [|s segs IHs]; cbn [map write_segments].
      + apply (no_err_pure _ (Ok tt)). discriminate.
      + apply no_err_bind; [|intros a; apply no_err_bind; [apply no_err_chunks|auto]].
        apply no_err_pure. intros e. destruct (encode lm oc p edge s); cbn [map_err]; try discriminate. intros [= <-]. discriminate. }
  unfold saved. destruct (has_trace_tmf lm oc p l) as (o & r & T). pose proof (proj1 T []) as T1. rewrite T1.
  destruct r as [x|e|]; cbn [bind]; try discriminate. intros [= ->]. now apply (proj2 N _ _ T).
Qed.

(** ** Crashes *)

Lemma crash lm oc p l out k : saved lm oc p l = Ok out -> k < length out ->
  write_tmf lm oc p l (mk_sink [] (Some (N.of_nat k)))
  = (mk_sink (firstn k out) (Some 0%N), Err (XIo WriteFailed)).
Proof.
  intros S K. apply saved_traced in S as [_ S]. rewrite S. unfold len.
  destruct (N.leb_spec (N.of_nat (length out)) (N.of_nat k)); [lia|]. now rewrite Nat2N.id.
Qed.
Lemma no_crash lm oc p l out k : saved lm oc p l = Ok out -> (len out <= k)%N ->
  write_tmf lm oc p l (mk_sink [] (Some k)) = (mk_sink out (Some (k - len out)%N), Ok tt).
Proof.
  intros S K. apply saved_traced in S as [_ S]. rewrite S. apply N.leb_le in K. now rewrite K.
Qed.
(** Whatever the outcome of the save, a sink that fails holds a prefix of what an
    unlimited one would hold. *)
Lemma crash_prefix lm oc p l k s r :
  write_tmf lm oc p l (mk_sink [] (Some k)) = (s, r) ->
  exists rest, k_data (fst (write_tmf lm oc p l (mk_sink [] None))) = k_data s ++ rest.
Proof.
  destruct (has_trace_tmf lm oc p l) as (o & r' & T1 & T2). rewrite T1, T2. cbn [fst k_data app].
  destruct (len o <=? k)%N; intros [= <- <-]; cbn [k_data].
  - exists []. now rewrite app_nil_r.
  - exists (skipn (N.to_nat k) o). now rewrite firstn_skipn.
Qed.

Definition savable (lm : libm) (l : list (mesh * list N)) : Prop :=
  (len l < 2 ^ 32)%N /\
  Forall (fun mn => storable (fst mn) /\ name_ok (snd mn) /\ (segment_count lm true (fst mn) < 65536)%N) l.

Lemma prefix_refused lm lm' oc' p l out k : prec_fine p -> savable lm l ->
  saved lm true p l = Ok out -> k < length out ->
  read_tmf lm' oc' (firstn k out) = Err (EIO UnexpectedEof).
Proof.
  intros HP [HL HF] S K.
  destruct (saved_loads lm lm' oc' p l out HP HL HF S) as (raws & l' & _ & _ & _ & _ & I & _).
  destruct (streams_import lm' oc' _ _ _ I) as (u & E & _ & B). rewrite app_nil_r in E. subst u.
  unfold read_tmf. rewrite (B (firstn k out) (skipn k out)); auto.
  - symmetry. apply firstn_skipn.
  - intros H. apply (f_equal (@length _)) in H. rewrite skipn_length in H. cbn in H. lia.
Qed.

Lemma loads lm lm' oc' p l out : prec_fine p -> savable lm l -> saved lm true p l = Ok out ->
  exists l', read_tmf lm' oc' out = Ok l' /\
    Forall2 (fun a b => snd a = snd b /\ same_shape_rev (fst a) (fst b)) l l'.
Proof.
  intros HP [HL HF] S. destruct (saved_loads lm lm' oc' p l out HP HL HF S) as (raws & l' & _ & _ & _ & _ & I & F).
  exists l'. unfold read_tmf. now rewrite I.
Qed.

(** ** What a loaded file can contain *)

Lemma bind_ok {E A B} (m : res E A) (k : A -> res E B) x :
  bind m k = Ok x -> exists a, m = Ok a /\ k a = Ok x.
Proof. destruct m; try discriminate. eauto. Qed.
Lemma io_ok {A} (m : res ioerr A) x : io m = Ok x -> m = Ok x.
Proof. destruct m; try discriminate. cbn. congruence. Qed.
Lemma streams_rest {E A} (eof : E) (P : list N -> res E (A * list N)) src a rest :
  streams eof P -> P src = Ok (a, rest) -> bytes_ok src -> bytes_ok rest.
Proof. intros S H B. destruct (S _ _ _ H) as (u & -> & _). now apply bytes_ok_app in B. Qed.
Lemma read_le_lt n src v rest : read_le n src = Ok (v, rest) -> bytes_ok src -> (v < 256 ^ n)%N /\ bytes_ok rest.
Proof.
  intros H B. apply read_le_inv in H as (a & -> & <- & ->). apply bytes_ok_app in B as [B1 B2].
  split; auto. now apply of_le_bytes_lt.
Qed.
(** Custom data as the loader makes it: integer data declares its own maximum. *)
Definition fresh (s : cseg) : Prop :=
  match c_data s with
  | CIndex l m | CInteger l m => m = max_or 0 l
  | _ => True
  end.
Lemma cseg_read_fresh oc ctx k src s : cseg_read oc ctx k src = Ok s -> fresh s.
Proof.
  unfold cseg_read. intros H. apply bind_ok in H as ([nl s1] & _ & H). apply bind_ok in H as ([nm s2] & _ & H).
  apply bind_ok in H as (d & D & H). injection H as <-. unfold fresh, new_raw. cbn [c_data].
  destruct k.
  - apply bind_ok in D as (l & _ & [= <-]). reflexivity.
  - apply bind_ok in D as (l & _ & [= <-]). reflexivity.
  - unfold read_custom_float in D. apply bind_ok in D as ([n s3] & _ & D).
    destruct (MAX_SEG_SIZE <? n)%N; [discriminate|]. apply bind_ok in D as ([mn s4] & _ & D).
    apply bind_ok in D as ([mx s5] & _ & D). apply bind_ok in D as ([pr s6] & _ & D). cbv zeta in D.
    apply bind_ok in D as (l & _ & [= <-]). exact I.
  - unfold read_custom_color in D. apply bind_ok in D as ([n s3] & _ & D).
    apply bind_ok in D as ([pr s4] & _ & D). destruct (negb (color_alloc_ok n)); [discriminate|]. cbv zeta in D.
    apply bind_ok in D as (one & _ & D). apply bind_ok in D as (l & _ & [= <-]). exact I.
Qed.
Definition dfresh (d : dseg) : Prop := match d with DCustom s => fresh s | _ => True end.
Lemma decode_fresh lm oc ctx e d : decode lm oc ctx e = Ok d -> dfresh d.
Proof.
  unfold decode. destruct (e_type e);
    try (intros H; first [injection H as <- | apply bind_ok in H as (x & _ & H); injection H as <-]; exact I).
  - intros H. apply bind_ok in H as (s & S & H). injection H as <-. cbn [dfresh]. eapply cseg_read_fresh; eauto.
  - destruct (e_data e); [discriminate|]. destruct (e_comp e); try discriminate.
    intros H. apply bind_ok in H as (x & _ & H). injection H as <-. exact I.
Qed.
Lemma apply_customs m d : Forall fresh (custom_data m) -> dfresh d ->
  Forall fresh (custom_data (apply m d)) /\
  length (custom_data (apply m d)) <= S (length (custom_data m)).
Proof.
  intros H D. 
  assert (Q : (exists s, d = DCustom s) \/ custom_data (apply m d) = custom_data m).
  { destruct d; [right|right|right|right|right|right|right|right|right|right|left; eauto]; cbn [apply];
    unfold append_vertices, append_normals, append_uvs, append_tangents, append_vertex_triangles,
      append_normal_triangles, append_uv_triangles, append_tangent_triangles;
    repeat match goal with |- context [match ?x with _ => _ end] => destruct x end; reflexivity. }
  destruct Q as [[s ->]| ->]; [|auto]. cbn [apply]. unfold add_custom_data_seg, with_custom_data. cbn [custom_data].
  rewrite app_length. cbn [length]. split; [|lia]. apply Forall_app. auto.
Qed.
Lemma build_customs_fresh l : forall m, Forall fresh (custom_data m) -> Forall dfresh l ->
  Forall fresh (custom_data (build l m)) /\
  length (custom_data (build l m)) <= length l + length (custom_data m).
Proof.
  induction l as [|d l IH]; intros m H D; cbn [build fold_left length]; [auto|].
  apply Forall_cons_iff in D as [D1 D2]. destruct (apply_customs m d H D1) as [A B].
  destruct (IH (apply m d) A D2) as [C E]. fold (build l (apply m d)). split; auto. lia.
Qed.
Lemma collect_inv {E A} (l : list (res E A)) r : collect l = Ok r -> l = map Ok r.
Proof.
  revert r. induction l as [|x l IH]; cbn [collect]; intros r H; [injection H as <-; reflexivity|].
  apply bind_ok in H as (a & -> & H). apply bind_ok in H as (t & T & H). injection H as <-.
  cbn [map]. now rewrite (IH _ T).
Qed.
Lemma read_segments_length ctx n : forall src l rest, read_segments ctx n src = Ok (l, rest) -> length l = n.
Proof.
  induction n as [|n IH]; cbn [read_segments]; intros src l rest H; [injection H as <- <-; reflexivity|].
  apply bind_ok in H as ([s s1] & _ & H). apply bind_ok in H as ([t s2] & T & H). injection H as <- <-.
  cbn [length]. f_equal. eauto.
Qed.
Definition loaded_ok (mn : mesh * list N) : Prop :=
  (len (snd mn) < 65536)%N /\ (len (custom_data (fst mn)) < 65536)%N /\ Forall fresh (custom_data (fst mn)).
Lemma import_mesh_ok lm oc ctx src mn rest : bytes_ok src -> import_mesh lm oc ctx src = Ok (mn, rest) -> loaded_ok mn.
Proof.
  unfold import_mesh. intros B H. apply bind_ok in H as ([name s1] & R1 & H). apply io_ok in R1.
  apply bind_ok in H as ([k s2] & R2 & H). apply io_ok in R2.
  apply bind_ok in H as ([enc s3] & R3 & H). apply bind_ok in H as (dec & R4 & H). injection H as <- <-.
  pose proof (streams_rest _ _ _ _ _ streams_read_string R1 B) as B1.
  destruct (read_le_lt _ _ _ _ R2 B1) as [K _]. change (256 ^ 2)%N with 65536%N in K.
  apply read_segments_length in R3. unfold join_collect in R4. destruct (existsb _ _); [discriminate|].
  apply collect_inv in R4.
  assert (D : Forall dfresh dec /\ length dec = length enc).
  { clear -R4. revert dec R4. induction enc as [|e enc IH]; intros [|d dec] E; try discriminate; [auto|].
    cbn [map] in E. injection E as E1 E2. destruct (IH _ E2). split; [|cbn; auto].
    constructor; auto. eapply decode_fresh; eauto. }
  destruct D as [D1 D2]. destruct (build_customs_fresh dec empty (Forall_nil _) D1) as [C1 C2].
  split; [|split]; cbn [fst snd].
  - unfold read_string in R1. apply bind_ok in R1 as ([bl s4] & L & R1). destruct (read_le_lt _ _ _ _ L B) as [K' _].
    change (256 ^ 2)%N with 65536%N in K'. apply bind_ok in R1 as ([by_ s5] & X & R1).
    destruct (utf8_valid by_); [|discriminate]. injection R1 as <- <-. apply read_exact_inv in X as [_ X].
    unfold len. lia.
  - fold (build dec empty). unfold len. cbn [custom_data empty length] in C2. lia.
  - exact C1.
Qed.
Lemma import_meshes_ok' lm oc ctx n : forall src l rest, bytes_ok src ->
  import_meshes lm oc ctx n src = Ok (l, rest) -> Forall loaded_ok l /\ length l = n.
Proof.
  induction n as [|n IH]; cbn [import_meshes]; intros src l rest B H; [injection H as <- <-; auto|].
  apply bind_ok in H as ([m s1] & R1 & H). apply bind_ok in H as ([t s2] & R2 & H). injection H as <- <-.
  pose proof (streams_rest _ _ _ _ _ (streams_import_mesh lm oc ctx) R1 B) as B1.
  apply import_mesh_ok in R1; auto. destruct (IH _ _ _ B1 R2). cbn [length]. auto.
Qed.
Lemma read_tmf_loaded lm oc src l : bytes_ok src -> read_tmf lm oc src = Ok l ->
  Forall loaded_ok l /\ (len l < 2 ^ 32)%N.
Proof.
  unfold read_tmf, import. intros B H. apply bind_ok in H as ([l' r] & H & [= <-]).
  apply bind_ok in H as ([h s1] & R1 & H). apply bind_ok in H as ([n s2] & R2 & H). apply io_ok in R2.
  pose proof (streams_rest _ _ _ _ _ streams_header R1 B) as B1.
  destruct (read_le_lt _ _ _ _ R2 B1) as [K B2]. change (256 ^ 4)%N with (2 ^ 32)%N in K.
  apply import_meshes_ok' in H as [F L]; auto. split; auto. unfold len. lia.
Qed.

Lemma file_bytes_ok raws : file_ok raws ->
  Forall (fun raw => Forall (fun s => bytes_ok (r_payload s)) (snd raw)) raws -> bytes_ok (file_bytes raws).
Proof.
  intros [_ F] P. unfold file_bytes, header_bytes.
  assert (LB : forall n v, bytes_ok (lend n v)) by (intros; rewrite lend_le; apply le_bytes_ok).
  rewrite !bytes_ok_app. repeat split; auto; try (repeat constructor; unfold byte_ok; lia).
  induction F as [|[name segs] raws (HN & _ & HS) _ IH]; [constructor|].
  apply Forall_cons_iff in P as [P1 P2]. cbn [map concat]. rewrite bytes_ok_app. split; auto.
  unfold mesh_bytes. cbn [fst snd] in *. rewrite !bytes_ok_app. repeat split; auto.
  - destruct HN as [HN _]. clear -HN. unfold bytes_ok, byte_ok.
    induction HN; repeat (apply Forall_cons; [lia|]); auto.
  - clear -P1 HS LB. induction HS as [|s segs (H1 & H2 & H3) _ IH]; [constructor|].
    apply Forall_cons_iff in P1 as [P1 P2]. cbn [map concat]. rewrite bytes_ok_app. split; auto.
    unfold seg_bytes. rewrite !bytes_ok_app. repeat split; auto.
    + constructor; [unfold byte_ok; lia|constructor].
    + constructor; [|constructor]. unfold byte_ok, comp_codes in *. cbn [In] in H2. lia.
Qed.

(** ** Repeated saves *)

Lemma reload lm lm' oc' p l out l' : prec_fine p -> savable lm l ->
  saved lm true p l = Ok out -> read_tmf lm' oc' out = Ok l' ->
  Forall2 (fun a b => snd a = snd b /\ same_shape_rev (fst a) (fst b)) l l' /\
  (len l' < 2 ^ 32)%N /\ Forall (fun mn => storable (fst mn) /\ name_ok (snd mn)) l'.
Proof.
  intros HP HS S R. destruct (loads lm lm' oc' p l out HP HS S) as (l2 & R2 & F).
  rewrite R in R2. injection R2 as <-. split; auto. destruct HS as [HL HF].
  destruct (saved_loads lm lm' oc' p l out HP HL HF S) as (raws & l2 & E & FO & _ & FB & _ & _).
  assert (B : bytes_ok out) by (rewrite E; now apply file_bytes_ok).
  destruct (read_tmf_loaded lm' oc' out l' B R) as [LO LL]. split; auto.
  clear -F HF LO. revert HF LO. induction F as [|[m n] [m' n'] l l' [H1 H2] _ IH]; intros HF LO; constructor.
  - apply Forall_cons_iff in HF as [(ST & NO & _) _]. apply Forall_cons_iff in LO as [(_ & _ & FR) _].
    cbn [fst snd] in *. subst n'. split; auto. destruct H2 as [[] C]. destruct ST.
    assert (SL : forall A (a b : option (list A)), same_len a b -> small a -> small b).
    { intros A [a|] [b|] HH HS x HX; try discriminate; [|destruct HH]. injection HX as <-.
      specialize (HS a eq_refl). unfold len in *. cbn in HH. lia. }
    constructor; try solve [eapply SL; eauto | now rewrite <- ?sa_vertex_triangles, <- ?sa_normal_triangles, <- ?sa_uv_triangles, <- ?sa_tangent_triangles].
    apply Forall_rev in st_custom. revert st_custom FR. generalize (custom_data m'), (rev (custom_data m)), C.
    clear. intros l' l C. induction C as [|s s' l l' (N1 & N2 & SD) _ IH]; intros SC FR; constructor.
    + apply Forall_cons_iff in SC as [(A & B & D & E) _]. apply Forall_cons_iff in FR as [FR _].
      unfold custom_ok. rewrite <- N1, <- N2. split; auto. split; auto. split; auto.
      unfold fresh in FR. destruct (c_data s) as [x mx|x mx|x mx|x mx], (c_data s') as [y my|y my|y my|y my]; cbn [same_data] in SD; try contradiction.
      * subst my y. destruct E as (E1 & E2 & E3). split; auto. split.
        -- apply Forall_forall. intros i Hi. split; [|now apply max_or_ge].
           rewrite Forall_forall in E2. now apply E2.
        -- left. apply max_or_lt; [reflexivity|]. eapply Forall_impl; [|exact E2]. cbv beta. tauto.
      * subst my y. destruct E as (E1 & E2 & E3). split; auto. split.
        -- apply Forall_forall. intros i Hi. split; [|now apply max_or_ge].
           rewrite Forall_forall in E2. now apply E2.
        -- left. apply max_or_lt; [reflexivity|]. eapply Forall_impl; [|exact E2]. cbv beta. tauto.
      * unfold len in *. lia.
      * unfold len in *. lia.
    + apply Forall_cons_iff in SC as [_ SC]. apply Forall_cons_iff in FR as [_ FR]. auto.
  - apply IH; [now apply Forall_cons_iff in HF|now apply Forall_cons_iff in LO].
Qed.
