(** Which saves panic and which succeed. *)
From Coq Require Import List NArith ZArith Arith Bool Lia ZifyN ZifyNat ZifyBool.
From Flocq Require Import IEEE754.BinarySingleNaN.
From Verif Require Import Base BitSpec UnalignedRW UnalignedRW_proofs ReadExt ByteLemmas Triangles TriSpec
  Triangles_proofs OptTris OptTris_proofs Floats Utilis Unify Vertices Uv Normals CustomData Mesh
  OptVertices OptVertices_proofs Tmf File Parse_proofs Codec_proofs FileSpec File_proofs
  NoPanic_proofs Load_proofs SaveSpec Merge_proofs Save_proofs Save2_proofs.
Import ListNotations.
Open Scope res_scope.
Ltac Zify.zify_post_hook ::= Z.div_mod_to_equations.

(** ** Never an error *)
Definition noerr {E A} (r : res E A) : Prop := forall e, r <> Err e.
Lemma noerr_bind {E A B} (m : res E A) (k : A -> res E B) :
  noerr m -> (forall a, noerr (k a)) -> noerr (bind m k).
Proof. intros H K. destruct m as [a|e|]; cbn [bind]; [apply K|now specialize (H e)|discriminate]. Qed.
Lemma noerr_ok {E A} (a : A) : noerr (@Ok E A a). Proof. discriminate. Qed.
Lemma noerr_write_loop fuel : forall w n d, noerr (write_loop fuel w n d).
Proof.
  induction fuel as [|fuel IH]; intros w n d; cbn [write_loop]; destruct (n =? 0); try discriminate.
  apply IH.
Qed.
Lemma noerr_shl64 {E} oc x k : noerr (@shl64 E oc x k).
Proof. unfold shl64. destruct (k <? 64); [|destruct oc]; discriminate. Qed.
Lemma noerr_sub8 {E} oc x k : noerr (@sub8 E oc x k).
Proof. unfold sub8. destruct (k <=? x); [|destruct oc]; discriminate. Qed.
Lemma noerr_write oc w n v : noerr (write_unaligned oc w n v).
Proof.
  unfold write_unaligned. destruct (n =? 0); try discriminate.
  apply noerr_bind; [apply noerr_sub8|]. intros. apply noerr_bind; [apply noerr_shl64|]. intros. apply noerr_write_loop.
Qed.
Lemma noerr_fields oc fs : forall w, noerr (write_fields oc w fs).
Proof.
  induction fs as [|[n v] fs IH]; intros w; cbn [write_fields]; [discriminate|].
  apply noerr_bind; [apply noerr_write|auto].
Qed.
Lemma noerr_mask {E} oc p : noerr (@mask_f32 E oc p).
Proof.
  unfold mask_f32, mask_i32. repeat first [apply noerr_ok | apply noerr_bind; [|intros] | discriminate
    | match goal with |- noerr (if ?c then _ else _) => destruct c end].
Qed.
Lemma noerr_map {E A B} (f : A -> res E B) l : (forall a, noerr (f a)) -> noerr (map_res f l).
Proof.
  intros H. induction l as [|a l IH]; cbn [map_res]; [discriminate|].
  apply noerr_bind; auto. intros. apply noerr_bind; auto. intros. discriminate.
Qed.
Lemma noerr_code {E} lm oc n p : noerr (@normal_to_encoding E lm oc n p).
Proof. unfold normal_to_encoding. apply noerr_bind; [apply noerr_mask|discriminate]. Qed.
Lemma noerr_tris oc l m s : noerr (save_triangles oc l m s).
Proof.
  unfold save_triangles. repeat first [apply noerr_ok | apply noerr_fields | apply noerr_bind; [|intros] | discriminate
    | cbv zeta | match goal with |- noerr (if ?c then _ else _) => destruct c end
    | match goal with |- noerr (map_res _ _) => apply noerr_map; intros end
    | match goal with |- noerr (sub64 _ _ _) => unfold sub64 end].
Qed.
Lemma noerr_encode lm oc p e d : noerr (encode lm oc p e d).
Proof.
  unfold encode. apply noerr_bind; [|intros [? ?]; discriminate]. destruct d; try discriminate.
  - apply noerr_bind; [|discriminate]. unfold save_tmf_vertices. apply noerr_bind.
    { unfold bounding_box. destruct l; discriminate. }
    intros b. cbv zeta. repeat (apply noerr_bind; [first [apply noerr_mask|apply noerr_fields]|intros]). discriminate.
  - apply noerr_bind; [|discriminate]. unfold save_normal_array. cbv zeta.
    apply noerr_bind; [apply noerr_map; intros; apply noerr_code|]. intros.
    apply noerr_bind; [apply noerr_fields|discriminate].
  - apply noerr_bind; [|discriminate]. unfold save_uvs. apply noerr_bind; [apply noerr_mask|]. intros. cbv zeta.
    apply noerr_bind; [apply noerr_fields|discriminate].
  - apply noerr_bind; [|discriminate]. unfold save_tangents. cbv zeta.
    apply noerr_bind; [apply noerr_map; intros; apply noerr_bind; [apply noerr_code|discriminate]|]. intros.
    apply noerr_bind; [apply noerr_fields|discriminate].
  - apply noerr_bind; [apply noerr_tris|discriminate].
  - apply noerr_bind; [apply noerr_tris|discriminate].
  - apply noerr_bind; [apply noerr_tris|discriminate].
  - apply noerr_bind; [apply noerr_tris|discriminate].
  - apply noerr_bind; [apply noerr_tris|discriminate].
  - apply noerr_bind; [|discriminate]. unfold cseg_encode. destruct (_ <? _)%N; [discriminate|].
    destruct (c_data s); cbn [cdata_write]; try apply noerr_tris.
    + destruct (float_range l). cbv zeta. apply noerr_bind; [apply noerr_mask|]. intros.
      apply noerr_bind; [apply noerr_fields|discriminate].
    + apply noerr_bind; [apply noerr_mask|]. intros. cbv zeta. apply noerr_bind; [apply noerr_fields|discriminate].
Qed.
Lemma calc_noerr t v : noerr (calc_shortest_edge t v).
Proof.
  unfold calc_shortest_edge. destruct t as [[|i t]|]; try discriminate.
  destruct v as [v|]; try discriminate. apply noerr_bind; [|intros a; destruct (is_finite a); discriminate].
  assert (S : forall k tt s, length tt <= k -> noerr (shortest_loop v tt s)).
  { induction k as [|k IHk]; intros [|a [|b [|c ll]]] s L; cbn [shortest_loop length] in *; try discriminate; try lia.
    unfold index. destruct (get v a), (get v b), (get v c); cbn [bind]; try discriminate. apply IHk. lia. }
  apply (S _ _ _ (le_n _)).
Qed.
(** Saving to a sink that never fails succeeds or panics. *)
Lemma saved_noerr lm oc p l : Forall (fun mn => holdable (fst mn)) l -> noerr (saved lm oc p l).
Proof.
  intros H.
  assert (N : no_err (fun _ => False) (write_tmf lm oc p l)).
  { apply no_err_bind; [apply no_err_chunks|intros _].
    induction H as [|[m name] l Hm _ IH]; cbn [write_meshes].
    - apply (no_err_pure _ (Ok tt)). discriminate.
    - apply no_err_bind; [|auto]. unfold write_mesh.
      apply no_err_bind; [apply no_err_chunks|intros _].
      apply no_err_bind.
      { apply no_err_pure. intros e E. now apply (calc_noerr _ _ e) in E. }
      intros edge. apply no_err_bind.
      { apply no_err_pure. intros e E. cbn [fst] in Hm. destruct (merged_dval m Hm) as [D S].
        destruct (optimize_all_wt lm oc _ D S) as [P|(x & P & _)]; rewrite P in E; discriminate. }
      intros segs. cbv zeta. apply no_err_bind.
      { apply no_err_pure. destruct (existsb _ _); discriminate. }
      intros _. apply no_err_bind; [apply no_err_write|intros _].
      induction segs as [|s segs IHs]; cbn [map write_segments].
      + apply (no_err_pure _ (Ok tt)). discriminate.
      + apply no_err_bind; [|intros a; apply no_err_bind; [apply no_err_chunks|auto]].
        apply no_err_pure. intros e. pose proof (noerr_encode lm oc p edge s).
        destruct (encode lm oc p edge s) as [|x|]; cbn [map_err]; try discriminate. now specialize (H x). }
  unfold saved, noerr. destruct (has_trace_tmf lm oc p l) as (o & r & T). pose proof (proj1 T []) as T1. rewrite T1.
  destruct r as [x|e|]; cbn [bind]; try discriminate. intros e0 _. exact (proj2 N _ _ T).
Qed.
(** ... so when no result is possible it panics. *)
Lemma saved_panic lm oc p l : Forall (fun mn => holdable (fst mn)) l ->
  (forall out, saved lm oc p l <> Ok out) -> saved lm oc p l = Panic.
Proof.
  intros H N. pose proof (saved_noerr lm oc p l H) as E. destruct (saved lm oc p l) as [o|e|]; auto.
  - now specialize (N o).
  - now specialize (E e).
Qed.
(** One mesh that cannot be written is enough. *)
Lemma saved_mesh lm oc p l out m name : saved lm oc p l = Ok out -> In (m, name) l ->
  exists o, traced (write_mesh lm oc p m name) o (Ok tt).
Proof.
  intros S I. apply saved_inv in S as (outs & _ & F). clear out.
  induction F as [|a o l outs T _ IH]; [destruct I|]. destruct I as [-> | I]; eauto.
Qed.

(** ** The shortest edge *)
Definition ninf (x : f32) : Prop := x <> B754_infinity true.
Lemma fmin_fin x y : ninf x -> ninf y ->
  is_finite (fmin x y) = (is_finite x || is_finite y)%bool /\ ninf (fmin x y).
Proof.
  intros X Y. unfold fmin. destruct (is_nan x) eqn:NX.
  - destruct x; try discriminate. cbn [is_finite orb]. auto.
  - destruct (is_nan y) eqn:NY.
    + destruct y; try discriminate. cbn [is_finite]. rewrite orb_false_r. auto.
    + unfold flt, Bltb, SpecFloat.SFltb. unfold ninf in *.
      destruct x as [sx|[]| |sx mx ex hx], y as [sy|[]| |sy my ey hy]; try discriminate; try congruence;
        cbn [B2SF SpecFloat.SFcompare is_finite orb];
        repeat match goal with |- context [if ?c then _ else _] => destruct c
                             | |- context [match ?c with _ => _ end] => destruct c end; cbn; split; auto; discriminate.
Qed.
Lemma fsqrt_ninf x : ninf (fsqrt x).
Proof.
  unfold ninf, fsqrt. destruct x as [s|s| |s m e h]; try (cbn; congruence).
  - destruct s; discriminate.
  - pose proof (Bsqrt_correct 24 128 gt0_24 lt_24_128 mode_NE (B754_finite s m e h)) as (_ & F & _).
    destruct s; [discriminate|]. intros E. rewrite E in F. discriminate.
Qed.
Lemma distance_ninf a b : ninf (distance a b).
Proof. apply fsqrt_ninf. Qed.
Lemma get_nth {A} (l : list A) : forall i, get l i = nth_error l (N.to_nat i).
Proof.
  induction l as [|x l IH]; intros i; cbn [get].
  - now rewrite nth_error_nil || (destruct (N.to_nat i); reflexivity).
  - destruct (N.eqb_spec i 0) as [->|E]; [reflexivity|]. rewrite IH.
    replace (N.to_nat i) with (S (N.to_nat (i - 1))) by lia. reflexivity.
Qed.
Lemma shortest_spec v : forall k t s, length t <= k -> ninf s ->
  (corners_exist v t /\ exists r, shortest_loop v t s = Ok r /\ ninf r /\
     (is_finite r = true <-> is_finite s = true \/ finite_edge distance v t)) \/
  (~ corners_exist v t /\ shortest_loop v t s = Panic).
Proof.
  assert (Base : forall t s, triples t = [] -> shortest_loop v t s = Ok s -> ninf s ->
    corners_exist v t /\ exists r, shortest_loop v t s = Ok r /\ ninf r /\
     (is_finite r = true <-> is_finite s = true \/ finite_edge distance v t)).
  { intros t s T E N. unfold corners_exist, finite_edge. rewrite T. split; [constructor|].
    exists s. split; auto. split; auto. split; auto. intros [H|H]; auto. inversion H. }
  induction k as [|k IH]; intros [|a [|b [|c t]]] s L N; cbn [length] in L; try lia;
    try (left; apply Base; auto; reflexivity).
  cbn [shortest_loop]. unfold index. rewrite !get_nth.
  assert (C : corners_exist v (a :: b :: c :: t) <-> (a < len v /\ b < len v /\ c < len v)%N /\ corners_exist v t).
  { unfold corners_exist. cbn [triples]. rewrite Forall_cons_iff. tauto. }
  assert (R : forall i, (i < len v)%N <-> nth_error v (N.to_nat i) <> None).
  { intros i. rewrite nth_error_Some. unfold len. lia. }
  destruct (nth_error v (N.to_nat a)) as [va|] eqn:A; cbn [bind].
  2:{ right. split; auto. rewrite C, !R. intros [[H _] _]. congruence. }
  destruct (nth_error v (N.to_nat b)) as [vb|] eqn:B; cbn [bind].
  2:{ right. split; auto. rewrite C, !R. intros [[_ [H _]] _]. congruence. }
  destruct (nth_error v (N.to_nat c)) as [vc|] eqn:D; cbn [bind].
  2:{ right. split; auto. rewrite C, !R. intros [[_ [_ H]] _]. congruence. }
  cbv zeta. pose proof (distance_ninf va vb) as N1. pose proof (distance_ninf vb vc) as N2.
  pose proof (distance_ninf vc va) as N3.
  destruct (fmin_fin _ _ N2 N3) as [F1 N4]. destruct (fmin_fin _ _ N1 N4) as [F2 N5]. destruct (fmin_fin _ _ N N5) as [F3 N6].
  destruct (IH t (fmin s (fmin (distance va vb) (fmin (distance vb vc) (distance vc va)))) ltac:(lia) N6)
    as [(CE & r & E & NR & F)|[CE E]].
  - left. split.
    + rewrite C. split; auto. rewrite !R, A, B, D. repeat split; discriminate.
    + exists r. split; auto. split; auto. rewrite F, F3, F2, F1, !orb_true_iff.
      unfold finite_edge. cbn [triples]. rewrite Exists_cons. unfold corner.
      split.
      * intros [[H|H]|H]; auto. right. left. exists va, vb, vc. auto.
      * intros [H|[(va' & vb' & vc' & A' & B' & D' & H)|H]]; auto.
        rewrite A in A'. rewrite B in B'. rewrite D in D'. injection A' as <-. injection B' as <-. injection D' as <-. auto.
  - right. split; auto. rewrite C. tauto.
Qed.
Lemma edge_spec v t : t <> [] ->
  (corners_exist v t /\ finite_edge distance v t /\ exists e, calc_shortest_edge (Some t) (Some v) = Ok e) \/
  (~ (corners_exist v t /\ finite_edge distance v t) /\ calc_shortest_edge (Some t) (Some v) = Panic).
Proof.
  intros H. unfold calc_shortest_edge. destruct t as [|i t]; [congruence|].
  destruct (shortest_spec v _ (i :: t) f32_inf (le_n _)) as [(C & r & E & NR & F)|[C E]].
  - discriminate.
  - rewrite E. cbn [bind]. destruct (is_finite r) eqn:IR.
    + left. split; auto. assert (is_finite f32_inf = true \/ finite_edge distance v (i :: t)) as [X|X] by tauto; [discriminate|].
      split; eauto.
    + right. split; auto. intros [_ X]. assert (false = true) by tauto. discriminate.
  - right. rewrite E. split; auto. tauto.
Qed.

(** Vertex segments are never merged away. *)
Lemma merge_all_vertex l others : forall d d' others', merge_all d others = (d', others') ->
  (d = DVertex l -> d' = DVertex l) /\ (In (DVertex l) others -> In (DVertex l) others') /\
  length others' = length others.
Proof.
  induction others as [|o others IH]; intros d d' others' E; cbn [merge_all] in E.
  - injection E as <- <-. auto.
  - destruct (merge d o) as [s1 o1] eqn:M. destruct (merge_all s1 others) as [s2 t2] eqn:MA. injection E as <- <-.
    destruct (IH _ _ _ MA) as (A & B & C). split; [|split; [|cbn [length]; auto]].
    + intros ->. apply A. unfold merge in M. destruct (as_triangles o) as [[? ?]|]; now injection M as <- <-.
    + intros [-> | I]; [|right; auto]. left. unfold merge in M. cbn [as_triangles] in M. now injection M as <- <-.
Qed.
Lemma merge_loop_vertex l fuel : forall st, length st <= fuel -> In (DVertex l) st -> In (DVertex l) (merge_loop fuel st).
Proof.
  induction fuel as [|fuel IH]; intros st L I; [destruct st; [destruct I|cbn in L; lia]|].
  cbn [merge_loop]. destruct st as [|d rest]; [destruct I|]. cbn [length] in L.
  destruct (is_something d) eqn:D.
  - destruct (merge_all d (rev rest)) as [d' o] eqn:M. destruct (merge_all_vertex l _ _ _ _ M) as (A & B & C).
    rewrite rev_length in C. destruct I as [-> | I]; [left; auto|right]. apply IH; [rewrite rev_length; lia|].
    apply -> in_rev. apply B. now apply -> in_rev.
  - destruct I as [-> | I]; [discriminate|]. apply IH; auto. lia.
Qed.
Lemma optimize_all_in lm oc d l segs : forall o, optimize_all lm oc segs = Ok o -> In d segs ->
  optimize lm oc d = Ok l -> incl l o.
Proof.
  induction segs as [|s segs IH]; intros o H I D; [destruct I|]. cbn [optimize_all] in H.
  apply bind_ok in H as (a & A & H). apply bind_ok in H as (b & B & H). injection H as <-.
  destruct I as [-> | I].
  - rewrite D in A. injection A as <-. apply incl_appl, incl_refl.
  - apply incl_appr. eauto.
Qed.
Lemma optimize_all_each lm oc d segs : forall o, optimize_all lm oc segs = Ok o -> In d segs ->
  exists l, optimize lm oc d = Ok l.
Proof.
  induction segs as [|s segs IH]; intros o H I; [destruct I|]. cbn [optimize_all] in H.
  apply bind_ok in H as (a & A & H). apply bind_ok in H as (b & B & H).
  destruct I as [-> | I]; [|eauto]. destruct (optimize lm oc d); try discriminate. eauto.
Qed.

(** A mesh that panics on saving. *)
Definition bad_vertices (m : mesh) : Prop :=
  vertices m = Some [] \/
  exists v t, vertices m = Some v /\ vertex_triangles m = Some t /\ t <> [] /\
    ~ (corners_exist v t /\ finite_edge distance v t).
Lemma bad_vertices_panic lm oc p l m name :
  Forall (fun mn => holdable (fst mn)) l -> In (m, name) l -> bad_vertices m -> saved lm oc p l = Panic.
Proof.
  intros H I B. apply saved_panic; auto. intros out S.
  destruct (saved_mesh _ _ _ _ _ _ _ S I) as (o & T). apply mesh_inv in T as (edge & segs & es & E1 & E2 & E3 & _).
  destruct B as [V|(v & t & V & T & NT & BE)].
  - assert (VI : In (DVertex []) segs).
    { assert (VM : In (DVertex []) (merge_segments (tmf_segs m))).
      { apply merge_loop_vertex; [now rewrite rev_length|]. apply -> in_rev. unfold tmf_segs. rewrite V. left. reflexivity. }
      destruct (optimize_all_each _ _ _ _ _ E2 VM) as (x & X). apply (optimize_all_in _ _ _ _ _ _ E2 VM X).
      cbn [optimize] in X. apply bind_ok in X as (y & Y & X). apply opt_vertices_nil in Y as ->. injection X as <-. left. reflexivity. }
    clear -E3 VI. induction E3 as [|s e segs es X _ IH]; [destruct VI|]. destruct VI as [-> | VI]; auto.
    discriminate X.
  - destruct (edge_spec v t NT) as [(A & B & _)|[_ X]]; [tauto|]. rewrite V, T, X in E1. discriminate.
Qed.

(** ** Saves that succeed *)
Lemma mask_ok {E} oc p : p <= 30 -> exists m, mask_f32 (E:=E) oc p = Ok m.
Proof.
  intros H. unfold mask_f32, mask_i32. destruct (p <? 32) eqn:L; [|lia]. cbn [bind].
  assert (X : (2 ^ Z.of_nat p <= 2 ^ 30)%Z) by (apply Z.pow_le_mono_r; lia).
  assert (0 < 2 ^ Z.of_nat p)%Z by (apply Z.pow_pos_nonneg; lia).
  unfold wrap_i32. rewrite Z.mod_small by lia.
  replace (2 ^ Z.of_nat p + 2 ^ 31 - 2 ^ 31)%Z with (2 ^ Z.of_nat p)%Z by lia.
  destruct (- 2 ^ 31 <=? 2 ^ Z.of_nat p - 1)%Z eqn:C; [|lia]. cbn [bind]. eauto.
Qed.

Lemma map_res_ok {E A B} (f : A -> res E B) l : (forall a, exists b, f a = Ok b) -> exists r, map_res f l = Ok r.
Proof.
  intros H. induction l as [|a l [r IH]]; cbn [map_res]; [eauto|]. destruct (H a) as [b ->]. cbn [bind]. rewrite IH. cbn [bind]. eauto.
Qed.
Definition custom_fits (lm : libm) (s : cseg) : Prop :=
  Forall (fun b => (b < 256)%N) (c_name s) /\ c_name_len s = len (c_name s) /\ (c_name_len s <= 255)%N /\
  match c_data s with
  | CIndex l m | CInteger l m => u32s l /\ (m < 2 ^ 64)%N
  | CFloat l p => float_width lm l p <= 30
  | CColor l p => color_width lm p <= 30
  end.
Definition dfits (lm : libm) (d : dseg) : Prop :=
  match d with
  | DVertex _ => False
  | DCustom s => custom_fits lm s
  | _ => dval d
  end.
Lemma encode_fits lm p edge d :
  normal_precision p <= 30 -> uv_prec p <= 30 -> tangent_prec p <= 30 ->
  dfits lm d -> exists e, encode lm true p edge d = Ok e.
Proof.
  intros Hn Hu Ht F.
  assert (T : forall l m sink, u32s l -> (m < 2 ^ 64)%N -> bytes_ok sink -> exists b, save_triangles true l m sink = Ok b).
  { intros l m sink U M B. destruct (save_triangles_spec true l m sink B U M) as (x & X & _). eauto. }
  assert (MX : forall l, u32s l -> (max_or 0 l < 2 ^ 64)%N).
  { intros l U. apply (N.lt_trans _ (2 ^ 32)); [|reflexivity]. apply max_or_lt; auto. reflexivity. }
  assert (NC : forall p n, p <= 30 -> exists c, normal_to_encoding (E:=ioerr) lm true n p = Ok c).
  { intros q n Hq. unfold normal_to_encoding. destruct (mask_ok (E:=ioerr) true q Hq) as [mk ->]. cbn [bind]. eauto. }
  unfold encode. destruct d as [|l|l|l|l|l|l|l|l|k l|s]; cbn [dfits dval] in F; try contradiction.
  - eexists. reflexivity.
  - destruct (map_res_ok (fun n => normal_to_encoding (E:=ioerr) lm true n (normal_precision p)) l) as [codes C]; [intros; now apply NC|].
    destruct (save_normals_spec lm true l (normal_precision p) codes []) as (pl & -> & _); auto; try lia; [constructor| |].
    { eapply map_res_Forall; [|exact C]. intros a c. apply normal_to_encoding_range. }
    eexists. reflexivity.
  - destruct (mask_ok (E:=ioerr) true _ Hu) as [mk M].
    destruct (save_uvs_spec true l (uv_prec p) mk []) as (pl & -> & _); auto; try lia; [constructor|]. eexists. reflexivity.
  - destruct (map_res_ok (tangent_code lm true (tangent_prec p)) l) as [codes C].
    { intros [a h]. unfold tangent_code. destruct (NC (tangent_prec p) a Ht) as [c EC]. cbn [fst]. rewrite EC. cbn [bind]. eauto. }
    destruct (save_tangents_spec lm true l (tangent_prec p) codes []) as (pl & -> & _); auto; try lia; [constructor| |].
    { eapply map_res_Forall; [|exact C]. intros a c. unfold tangent_code.
      destruct (normal_to_encoding lm true (fst a) (tangent_prec p)) eqn:EN; try discriminate. intros [= <-].
      eapply normal_to_encoding_range. exact EN. }
    eexists. reflexivity.
  - destruct F as [U _]. destruct (T l (max_or 0 l) [] U (MX l U) (Forall_nil _)) as [b ->]. eexists. reflexivity.
  - destruct F as [U _]. destruct (T l (max_or 0 l) [] U (MX l U) (Forall_nil _)) as [b ->]. eexists. reflexivity.
  - destruct F as [U _]. destruct (T l (max_or 0 l) [] U (MX l U) (Forall_nil _)) as [b ->]. eexists. reflexivity.
  - destruct F as [U _]. destruct (T l (max_or 0 l) [] U (MX l U) (Forall_nil _)) as [b ->]. eexists. reflexivity.
  - destruct F as (K & U & _). destruct (T l (max_or 0 l) [k] U (MX l U)) as [b ->]; [|eexists; reflexivity].
    constructor; [unfold byte_ok; lia|constructor].
  - destruct F as (F1 & F2 & F3 & F4). unfold cseg_encode. unfold len in F2.
    destruct (N.of_nat (length (c_name s)) <? c_name_len s)%N eqn:C; [lia|].
    assert (B : bytes_ok ([] ++ le_bytes 1 (c_name_len s) ++ firstn (N.to_nat (c_name_len s)) (c_name s))).
    { cbn [app]. apply bytes_ok_app. split; [apply le_bytes_ok|]. apply Forall_firstn. exact F1. }
    destruct (c_data s) as [l m|l m|l q|l q]; cbn [cdata_kind].
    + destruct F4 as [U M]. destruct (T l m _ U M B) as [b E]. cbn [cdata_write]. rewrite E. eexists. reflexivity.
    + destruct F4 as [U M]. destruct (T l m _ U M B) as [b E]. cbn [cdata_write]. rewrite E. eexists. reflexivity.
    + destruct (mask_ok (E:=ioerr) true _ F4) as [mk M].
      destruct (save_float_spec lm true l q mk _ B) as (pl & -> & _); auto; [lia|]. eexists. reflexivity.
    + destruct (mask_ok (E:=ioerr) true _ F4) as [mk M].
      destruct (save_color_spec lm true l q mk _ B) as (pl & -> & _); auto; [lia|]. eexists. reflexivity.
Qed.
Lemma dfits_sub lm : sub_ok (dfits lm).
Proof.
  assert (I : forall a b : list N, u32s (a ++ b) /\ (len (a ++ b) < 2 ^ 57)%N ->
    (u32s a /\ (len a < 2 ^ 57)%N) /\ (u32s b /\ (len b < 2 ^ 57)%N)).
  { intros a b [U L]. unfold u32s in *. apply Forall_app in U as [U1 U2]. unfold len in *. rewrite app_length in L.
    repeat split; auto; lia. }
  unfold sub_ok. cbn [dfits dval]. repeat split; intros; try tauto; try (now apply I in H).
  - destruct H as [_ H]. now apply I in H.
  - destruct H as [_ H]. apply I in H. tauto.
  - destruct H as [_ H]. now apply I in H.
  - destruct H as [_ H]. apply I in H. tauto.
Qed.
Lemma optimize_fits lm segs : Forall (dfits lm) segs -> exists o, optimize_all lm true segs = Ok o.
Proof.
  induction 1 as [|d segs F _ [o IH]]; cbn [optimize_all]; [eauto|].
  assert (exists a, optimize lm true d = Ok a) as [a ->].
  { destruct d; cbn [optimize dfits dval] in *; try contradiction; eauto;
      first [destruct F as (_ & U & L) | destruct F as [U L]]; destruct (tris_pieces true l U L) as (x & -> & _); cbn [bind]; eauto. }
  cbn [map_err bind]. rewrite IH. cbn [bind]. eauto.
Qed.
Lemma merged_dfits lm m : vertices m = None -> holdable m -> Forall (custom_fits lm) (custom_data m) ->
  Forall (dfits lm) (merge_segments (tmf_segs m)).
Proof.
  intros V (H1 & H2 & H3 & H4) C.
  assert (F : Forall (fun d => dfits lm d /\ is_something d = true) (merge_segments (tmf_segs m))).
  { apply merge_loop_keeps.
    - exact I.
    - cbn [dfits dval]. intros l H k Hk. split; auto. destruct H as [H|[H|[H|[? [_ H]]]]]; auto.
    - cbn [dfits dval]. tauto.
    - apply Forall_rev. unfold tmf_segs. rewrite !Forall_app.
      assert (O : forall A (f : A -> dseg) (o : option A), (forall x, o = Some x -> dfits lm (f x)) -> Forall (dfits lm) (opt_seg f o)).
      { intros A f [x|] HH; constructor; auto. }
      split; [rewrite V; constructor|].
      do 7 (split; [apply O; intros x HX; cbn [dfits dval]; solve [exact I|auto]|]).
      rewrite Forall_map. exact C. }
  eapply Forall_impl; [|exact F]. cbv beta. tauto.
Qed.
Lemma write_segments_ok es : traced (write_segments (map Ok es)) (concat (map (fun s => concat (eseg_chunks s)) es)) (Ok tt).
Proof.
  induction es as [|e es IH]; [apply traced_ret|].
  change (concat (map (fun s => concat (eseg_chunks s)) (e :: es)))
    with ([] ++ (concat (eseg_chunks e) ++ concat (map (fun s => concat (eseg_chunks s)) es))).
  cbn [map write_segments].
  eapply traced_bind; [apply traced_pure|]. eapply traced_bind; [apply traced_chunks|exact IH].
Qed.
Lemma write_mesh_ok lm p m name edge segs es :
  calc_shortest_edge (vertex_triangles m) (vertices m) = Ok edge ->
  optimize_all lm true (merge_segments (tmf_segs m)) = Ok segs ->
  Forall2 (fun s e => encode lm true p edge s = Ok e) segs es ->
  exists o, traced (write_mesh lm true p m name) o (Ok tt).
Proof.
  intros E1 E2 E3. eexists. unfold write_mesh. eapply traced_bind; [apply traced_chunks|].
  rewrite E1. eapply traced_bind; [apply traced_pure|]. rewrite E2. eapply traced_bind; [apply traced_pure|]. cbv zeta.
  assert (M : map (fun s => map_err XIo (encode lm true p edge s)) segs = map Ok es).
  { clear -E3. induction E3 as [|s e segs es H _ IH]; [reflexivity|]. cbn [map]. rewrite H, IH. reflexivity. }
  rewrite M.
  assert (P : existsb is_panic (map (@Ok xerr eseg) es) = false).
  { clear. induction es; auto. }
  rewrite P. eapply traced_bind; [apply traced_pure|]. eapply traced_bind; [apply traced_write|]. apply write_segments_ok.
Qed.
Lemma plain_saves lm p l :
  normal_precision p <= 30 -> uv_prec p <= 30 -> tangent_prec p <= 30 ->
  Forall (fun mn => vertices (fst mn) = None /\ holdable (fst mn) /\ Forall (custom_fits lm) (custom_data (fst mn))) l ->
  exists out, saved lm true p l = Ok out.
Proof.
  intros Hn Hu Ht F.
  assert (W : exists o, traced (write_meshes lm true p l) o (Ok tt)).
  { induction F as [|[m name] l (V & H & C) _ [o IH]]; cbn [write_meshes fst] in *; [eexists; apply traced_ret|].
    pose proof (merged_dfits lm m V H C) as D. destruct (optimize_fits lm _ D) as [segs E2].
    pose proof (optimize_all_all (dfits lm) lm true _ _ (dfits_sub lm) D E2) as D2.
    assert (exists es, Forall2 (fun s e => encode lm true p default_edge s = Ok e) segs es) as [es E3].
    { clear -D2 Hn Hu Ht. induction D2 as [|d segs F _ [es IH]]; [exists []; constructor|].
      destruct (encode_fits lm p default_edge d Hn Hu Ht F) as [e E]. exists (e :: es). auto. }
    assert (E1 : calc_shortest_edge (vertex_triangles m) (vertices m) = Ok default_edge).
    { rewrite V. destruct (vertex_triangles m) as [[|]|]; reflexivity. }
    destruct (write_mesh_ok lm p m name _ _ _ E1 E2 E3) as [o1 T]. eexists. eapply traced_bind; [exact T|exact IH]. }
  destruct W as [o W]. eexists. apply saved_traced. eapply traced_bind; [apply traced_chunks|exact W].
Qed.

(** ** More than 65535 segments *)
(** Number of elements in a segment. *)
Definition dsize (d : dseg) : nat :=
  match d with
  | DNothing => 0
  | DVertex l => length l | DNormal l => length l | DUV l => length l | DTangent l => length l
  | DTriVertex l | DTriNormal l | DTriUV l | DTriTangent l => length l
  | DShared k l => (if has_mask k MASK_VERTEX then length l else 0) +
                   (if has_mask k MASK_NORMAL then length l else 0) + (if has_mask k MASK_UV then length l else 0)
  | DCustom _ => 1
  end.
Lemma osize_some {A} (o : option (list A)) l : o = Some l -> osize o = length l. Proof. now intros ->. Qed.
Lemma size_vt m l : size (append_vertex_triangles m l) = size m + length l.
Proof.
  unfold append_vertex_triangles. destruct (vertex_triangles m) eqn:E; unfold size; cbn; rewrite E; cbn; rewrite ?app_length; lia.
Qed.
Lemma size_nt m l : size (append_normal_triangles m l) = size m + length l.
Proof.
  unfold append_normal_triangles. destruct (normal_triangles m) eqn:E; unfold size; cbn; rewrite E; cbn; rewrite ?app_length; lia.
Qed.
Lemma size_ut m l : size (append_uv_triangles m l) = size m + length l.
Proof.
  unfold append_uv_triangles. destruct (uv_triangles m) eqn:E; unfold size; cbn; rewrite E; cbn; rewrite ?app_length; lia.
Qed.
Lemma size_apply m d : size (apply m d) = size m + dsize d.
Proof.
  destruct d; cbn [apply dsize]; auto using size_vt, size_nt, size_ut.
  - unfold append_vertices. destruct (vertices m) eqn:E; unfold size; cbn; rewrite E; cbn; rewrite ?app_length; lia.
  - unfold append_normals. destruct (normals m) eqn:E; unfold size; cbn; rewrite E; cbn; rewrite ?app_length; lia.
  - unfold append_uvs. destruct (uvs m) eqn:E; unfold size; cbn; rewrite E; cbn; rewrite ?app_length; lia.
  - unfold append_tangents. destruct (tangents m) eqn:E; unfold size; cbn; rewrite E; cbn; rewrite ?app_length; lia.
  - unfold append_tangent_triangles. destruct (tangent_triangles m) eqn:E; unfold size; cbn; rewrite E; cbn; rewrite ?app_length; lia.
  - cbv zeta. repeat match goal with |- context [has_mask ?a ?b] => destruct (has_mask a b) end; rewrite ?size_vt, ?size_nt, ?size_ut, ?size_vt, ?size_nt, ?size_vt; lia.
  - unfold add_custom_data_seg, size. cbn. rewrite app_length. cbn. lia.
Qed.
Lemma size_build l : forall m, size (build l m) = size m + list_sum (map dsize l).
Proof.
  induction l as [|d l IH]; intros m; cbn [build fold_left map list_sum fold_right]; [lia|].
  fold (build l (apply m d)). rewrite IH, size_apply. unfold list_sum. lia.
Qed.
