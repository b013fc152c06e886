(** Property C53 for meshes with vertices in builds with overflow checks. *)
From Coq Require Import List NArith ZArith Arith Lia Bool Reals Lra ZifyN ZifyNat ZifyBool.
From Flocq Require Import Core IEEE754.BinarySingleNaN.
From Verif Require Import Base UnalignedRW ReadExt Floats Floats_proofs FloatReal_proofs Utilis Vertices TriSpec Triangles_proofs OptTris OptTris_proofs OptVertices CustomData Mesh Tmf File FileSpec SaveSpec
  File_proofs ValueSpec VertexSpec CheckedSpec Demo Split_proofs Merge_proofs Save_proofs Save2_proofs Codec_proofs Quant_proofs NormalReal_proofs Log2_proofs VertexReal_proofs
  Panic_proofs Save4_proofs VSave_proofs P_Save P_Vertices.
Import ListNotations.
Open Scope res_scope.
Local Open Scope R_scope.

(** Widths of 1 to 24 bits, as in the proof of C40. *)
Lemma width_small lm prec edge B s lo hi :
  log2_ok lm -> B <= 2 ^ 50 -> edge_near s edge -> / 2 ^ 20 <= s <= 2 ^ 52 ->
  fin prec -> 0 < R32 prec <= 1 -> B + 0.000001 <= 2 ^ 20 * (s * R32 prec) ->
  fin lo -> fin hi -> Rabs (R32 lo) <= B -> Rabs (R32 hi) <= B ->
  (1 <= axis_precision lm edge (fmax (fsub hi lo) min_extent) prec <= 24)%nat.
Proof.
  intros LG HB [Fe Ne] Hs Fp Hp HBs Fl Fh Bl Bh. pose proof u32_small as U.
  assert (HB6 : B <= 2 ^ 60) by (eapply Rle_trans; [exact HB|apply pow2_le; lia]).
  set (t := s * R32 prec) in *. destruct min_extent_R as [E1 E2].
  assert (p20 : 0 < / 2 ^ 20 <= 0.000001) by (split; [apply Rinv_0_lt_compat, pow_lt; lra|simpl pow; lra]).
  assert (t0 : 0 < t) by (apply Rmult_lt_0_compat; lra).
  apply Rabs_le_iff in Ne.
  assert (s20 : / 2 ^ 20 * s <= 0.000001 * s) by (apply Rmult_le_compat_r; lra).
  assert (EP : 0.999999 * t <= R32 edge * R32 prec <= 1.000001 * t).
  { unfold t. rewrite <- !Rmult_assoc. split; apply Rmult_le_compat_r; lra. }
  set (sx := fmax (fsub hi lo) min_extent). set (p := axis_precision lm edge sx prec).
  apply Rabs_le_iff in Bl, Bh.
  destruct (fsub_R hi lo Fh Fl) as [D1 D2]; [apply (fits_B B); auto; apply Rabs_le_iff; lra|].
  pose proof (rnd32_diff hi lo) as DE. rewrite <- D1 in DE.
  destruct (fmax_R (fsub hi lo) min_extent D2 E1) as [X1 X2]. fold sx in X1, X2.
  assert (s2 : R32 min_extent <= R32 sx) by (rewrite X1; apply Rmax_r).
  assert (AB : Rabs (R32 hi - R32 lo) <= 2 * B) by (apply Rabs_le_iff; lra).
  assert (u32 * Rabs (R32 hi - R32 lo) <= 0.0001 * (2 * B)) by (apply mul_le; try lra; apply Rabs_pos).
  assert (SU : R32 sx <= 2.001 * B + 0.0000010001).
  { rewrite X1. apply Rmax_lub; [|lra]. apply Rabs_le_iff in DE. lra. }
  assert (HS : R32 sx <= 2 ^ 22 * (R32 edge * R32 prec)).
  { replace (2 ^ 22) with (4 * 2 ^ 20) by (simpl; lra). assert (0 < 2 ^ 20) by (apply pow_lt; lra).
    assert (2 ^ 20 * (0.999999 * t) <= 2 ^ 20 * (R32 edge * R32 prec)) by (apply Rmult_le_compat_l; lra). lra. }
  assert (E60 : 0 < R32 edge <= 2 ^ 60).
  { split; [lra|]. apply Rle_trans with (2 * 2 ^ 52); [lra|]. change (2 * 2 ^ 52) with (2 ^ 53). apply pow2_le. lia. }
  destruct (axis_width lm edge sx prec LG Fe X2 Fp E60) as [P1 P2]; auto. lra.
Qed.
Lemma vertices_encode lm vs prec edge B s :
  log2_ok lm -> vs <> [] -> Forall (bounded B) vs -> B <= 2 ^ 50 -> edge_near s edge -> / 2 ^ 20 <= s <= 2 ^ 52 ->
  fin prec -> 0 < R32 prec <= 1 -> B + 0.000001 <= 2 ^ 20 * (s * R32 prec) ->
  exists b, save_tmf_vertices lm true vs prec edge [] = Ok b.
Proof.
  intros LG NE F HB EN Hs Fp Hp HBs.
  destruct (bounding_box (E:=ioerr) vs) as [b| |] eqn:EB; [|destruct vs; [congruence|discriminate EB]..].
  assert (FF : Forall finite3 vs) by (eapply Forall_impl; [|exact F]; now intros v [? _]).
  pose proof (box_is vs b FF EB) as BX. pose proof (box_bounded B vs _ _ _ _ _ _ F BX) as BB.
  destruct (box_finite _ _ _ _ _ _ _ BX) as (F1 & F2 & F3 & F4 & F5 & F6).
  repeat (apply Forall_cons_iff in BB as [? BB]). change val with R32 in *. unfold finite in *.
  assert (Px := width_small lm prec edge B s (min_x b) (max_x b) LG HB EN Hs Fp Hp HBs F1 F2 ltac:(assumption) ltac:(assumption)).
  assert (Py := width_small lm prec edge B s (min_y b) (max_y b) LG HB EN Hs Fp Hp HBs F3 F4 ltac:(assumption) ltac:(assumption)).
  assert (V : exists q, vertex_params lm vs prec edge = Some q) by (unfold vertex_params; rewrite EB; eexists; reflexivity).
  destruct V as [q V]. pose proof V as V'. unfold vertex_params in V'. rewrite EB in V'. injection V' as V'.
  destruct (mask_ok (E:=ioerr) true (vp_px q)) as [mx Mx]; [subst q; cbn [vp_px]; lia|].
  destruct (mask_ok (E:=ioerr) true (vp_py q)) as [my My]; [subst q; cbn [vp_py]; lia|].
  destruct (save_vertices_spec lm true vs prec edge [] q mx my my (Forall_nil _) V) as (pl & E & _); auto;
    try (subst q; cbn [vp_px vp_py vp_pz]; lia); [subst q; exact My|]. eauto.
Qed.

(** ** Segments *)
Definition pfits (lm : libm) (B : R) (d : dseg) : Prop :=
  match d with
  | DVertex l => l <> [] /\ Forall (bounded B) l /\ (len l < 2 ^ 50)%N
  | _ => dfits lm d
  end.
Lemma encode_pfits lm p edge B s d :
  log2_ok lm -> (normal_precision p <= 30)%nat -> (uv_prec p <= 30)%nat -> (tangent_prec p <= 30)%nat ->
  B <= 2 ^ 50 -> edge_near s edge -> / 2 ^ 20 <= s <= 2 ^ 52 ->
  fin (vertex_precision p) -> 0 < R32 (vertex_precision p) <= 1 -> B + 0.000001 <= 2 ^ 20 * (s * R32 (vertex_precision p)) ->
  pfits lm B d -> exists e, encode lm true p edge d = Ok e.
Proof.
  intros LG Hn Hu Ht HB EN Hs Fp Hp HBs F.
  destruct d as [|l|l|l|l|l|l|l|l|k l|c]; try (apply encode_fits; assumption).
  destruct F as (NE & F & _). destruct (vertices_encode lm l _ edge B s LG NE F HB EN Hs Fp Hp HBs) as [b E].
  unfold encode. rewrite E. eexists. reflexivity.
Qed.
Lemma optimize_pfits lm B segs : log2_ok lm -> log2_standard lm -> 0 <= B <= 2 ^ 60 -> Forall (pfits lm B) segs ->
  exists o, optimize_all lm true segs = Ok o /\ Forall (pfits lm B) o.
Proof.
  intros LG LS HB. induction 1 as [|d segs F _ (o & O1 & O2)]; cbn [optimize_all]; [eauto|].
  assert (exists a, optimize lm true d = Ok a /\ Forall (pfits lm B) a) as (a & -> & A).
  { assert (T : forall (l : list N) (mk : list N -> dseg), (forall x, u32s x -> (len x < 2 ^ 57)%N -> pfits lm B (mk x)) -> u32s l -> (len l < 2 ^ 57)%N ->
      exists a, (let* o := opt_tris true l in Ok (map mk o)) = Ok a /\ Forall (pfits lm B) a).
    { intros l mk M U L. destruct (tris_pieces true l U L) as (x & -> & C & _). cbn [bind]. eexists. split; [reflexivity|].
      apply Forall_map, Forall_forall. intros y Y. apply in_split in Y as (y1 & y2 & ->). subst l.
      rewrite concat_app in U, L. cbn [concat] in U, L. unfold u32s, len in *. rewrite !app_length in L. rewrite !Forall_app in U.
      apply M; [apply U|unfold len; lia]. }
    destruct d; cbn [optimize pfits dfits dval] in *; try (eexists; split; [reflexivity|]; apply Forall_cons; [exact F|apply Forall_nil]);
      try solve [destruct F as [U L]; apply T; auto; intros; cbn [pfits dfits dval]; auto].
    - destruct F as (NE & FB & L). destruct (opt_vertices_checked lm B l LG LS HB FB L) as [x X]. rewrite X. cbn [bind]. eexists. split; [reflexivity|].
      apply vertices_pieces in X as (C & _ & G & _). specialize (G NE). apply Forall_map, Forall_forall. intros y Y.
      rewrite Forall_forall in G. split; [now apply G|]. apply in_split in Y as (y1 & y2 & ->). subst l.
      rewrite concat_app in FB, L. cbn [concat] in FB, L. unfold len in *. rewrite !app_length in L. rewrite !Forall_app in FB. split; [apply FB|lia].
    - destruct F as (K & U & L). match goal with |- context [DShared ?k] => apply (T l (DShared k)) end; auto. cbn [pfits dfits dval]. auto. }
  cbn [map_err bind]. rewrite O1. cbn [bind]. eexists. split; [reflexivity|]. apply Forall_app. auto.
Qed.
Lemma merged_pfits lm B m : (forall v, vertices m = Some v -> v <> [] /\ Forall (bounded B) v /\ (len v < 2 ^ 50)%N) ->
  holdable m -> Forall (custom_fits lm) (custom_data m) -> Forall (pfits lm B) (merge_segments (tmf_segs m)).
Proof.
  intros V (H1 & H2 & H3 & H4) C.
  assert (F : Forall (fun d => pfits lm B d /\ is_something d = true) (merge_segments (tmf_segs m))).
  { apply merge_loop_keeps.
    - exact I.
    - cbn [pfits dfits dval]. intros l H k Hk. split; auto. destruct H as [H|[H|[H|[? [_ H]]]]]; auto.
    - cbn [pfits dfits dval]. tauto.
    - apply Forall_rev. unfold tmf_segs. rewrite !Forall_app.
      assert (O : forall A (f : A -> dseg) (o : option A), (forall x, o = Some x -> pfits lm B (f x)) -> Forall (pfits lm B) (opt_seg f o)).
      { intros A f [x|] HH; constructor; auto. }
      do 8 (split; [apply O; intros x HX; cbn [pfits dfits dval]; solve [exact I|auto]|]).
      rewrite Forall_map. exact C. }
  eapply Forall_impl; [|exact F]. cbv beta. tauto.
Qed.

(** A mesh of bounded extent: its coordinates are at most [B], and its triangles name
    existing vertices and have a shortest edge of length [s]. *)
Lemma side_finite v t d : Forall (bounded (2 ^ 50)) v -> side_of v t d -> (forall d, side_of v t d -> / 2 ^ 20 <= d) -> finite_edge distance v t.
Proof.
  intros F. rewrite Forall_forall in F. induction 1 as [a b c t va vb vc d G1 G2 G3 D|a b c t d S IH]; intros H.
  - apply Exists_cons_hd. exists va, vb, vc. repeat split; auto. left.
    apply distance_R; [apply F; eapply nth_error_In; eauto..|]. apply H. eapply side_first; eauto.
  - cbn [triples]. apply Exists_cons_tl. apply IH. intros e E. apply H. now apply side_later.
Qed.

(** C53. With overflow checks a mesh with vertices is saved if no coordinate exceeds
    about a million times the precision asked for, that is the shortest edge times the
    vertex precision. *)
Theorem C53_with_vertices_saved : forall lm p l,
  log2_ok lm -> log2_standard lm ->
  (normal_precision p <= 30)%nat -> (uv_prec p <= 30)%nat -> (tangent_prec p <= 30)%nat ->
  finite (vertex_precision p) -> 0 < val (vertex_precision p) <= 1 ->
  Forall (fun mn => any_mesh (fst mn) /\ Forall (custom_widths_ok lm) (custom_data (fst mn)) /\
    forall v, vertices (fst mn) = Some v ->
      v <> [] /\ (len v < 2 ^ 50)%N /\ (forall t, vertex_triangles (fst mn) = Some t -> corners_exist v t) /\
      exists B s, Forall (bounded B) v /\ B <= 2 ^ 50 /\
        shortest_edge (Some v) (vertex_triangles (fst mn)) s /\ / 2 ^ 20 <= s /\
        B + 0.000001 <= 2 ^ 20 * (s * val (vertex_precision p))) l ->
  exists out, saved lm true p l = Ok out.
Proof.
  intros lm p l LG LS Hn Hu Ht Fp Hp F. change val with R32 in *. unfold finite in *.
  assert (W : exists o, traced (write_meshes lm true p l) o (Ok tt)).
  { induction F as [|[m name] l (H & C & V) _ [o IH]]; cbn [write_meshes fst] in *; [eexists; apply traced_ret|].
    apply any_mesh_holdable in H.
    destruct (vertices m) as [v|] eqn:EV.
    - destruct (V v eq_refl) as (NE & L & CE & B & s & FB & HB & SE & Hs & HBs).
      assert (B0 : 0 <= B).
      { destruct FB as [|u v (_ & U & _) _]; [congruence|]. eapply Rle_trans; [apply Rabs_pos|exact U]. }
      assert (FB' : Forall (bounded (2 ^ 50)) v).
      { eapply Forall_impl; [|exact FB]. intros u (A1 & A2 & A3 & A4). repeat split; try apply A1; lra. }
      assert (exists edge, calc_shortest_edge (vertex_triangles m) (vertices m) = Ok edge) as [edge EE].
      { apply edge_good. intros [Z|(v' & t & Z & T & NT & BE)]; [congruence|]. rewrite EV in Z. injection Z as <-.
        apply BE. split; [now apply CE|]. rewrite T in SE. destruct t as [|i t]; [congruence|]. destruct SE as [S1 S2].
        eapply side_finite; [exact FB'|exact S1|]. intros d D. apply S2 in D. lra. }
      assert (EN : edge_near s edge) by (apply (shortest_edge_R (vertex_triangles m) (Some v)); auto; now rewrite <- EV).
      pose proof (edge_bound (Some v) (vertex_triangles m) s FB' SE) as SB.
      assert (D : Forall (pfits lm B) (merge_segments (tmf_segs m))).
      { apply merged_pfits; auto. intros u U. rewrite EV in U. injection U as <-. auto. }
      assert (HB6 : 0 <= B <= 2 ^ 60) by (split; [exact B0|eapply Rle_trans; [exact HB|apply pow2_le; lia]]).
      destruct (optimize_pfits lm B _ LG LS HB6 D) as (segs & E2 & D2).
      assert (exists es, Forall2 (fun s e => encode lm true p edge s = Ok e) segs es) as [es E3].
      { clear E2 D. induction D2 as [|d segs G _ [es IH2]]; [exists []; constructor|].
        destruct (encode_pfits lm p edge B s d) as [e E]; auto. exists (e :: es). auto. }
      destruct (write_mesh_ok lm p m name _ _ _ EE E2 E3) as [o1 T]. eexists. eapply traced_bind; [exact T|exact IH].
    - pose proof (merged_dfits lm m EV H C) as D. destruct (optimize_fits lm _ D) as [segs E2].
      pose proof (optimize_all_all (dfits lm) lm true _ _ (dfits_sub lm) D E2) as D2.
      assert (exists es, Forall2 (fun s e => encode lm true p default_edge s = Ok e) segs es) as [es E3].
      { clear -D2 Hn Hu Ht. induction D2 as [|d segs F _ [es IH]]; [exists []; constructor|].
        destruct (encode_fits lm p default_edge d Hn Hu Ht F) as [e E]. exists (e :: es). auto. }
      assert (E1 : calc_shortest_edge (vertex_triangles m) (vertices m) = Ok default_edge).
      { rewrite EV. destruct (vertex_triangles m) as [[|]|]; reflexivity. }
      destruct (write_mesh_ok lm p m name _ _ _ E1 E2 E3) as [o1 T]. eexists. eapply traced_bind; [exact T|exact IH]. }
  destruct W as [o W]. eexists. apply saved_traced. eapply traced_bind; [apply traced_chunks|exact W].
Qed.
Print Assumptions C53_with_vertices_saved.

(** A library that meets both hypotheses: the nearest f32, and minus infinity for zero. *)
Definition ieee_libm : libm :=
  mk_libm (fun x => if feq x f0 then B754_infinity true else m_log2 exact_libm x) (m_asin exact_libm) (m_sin_cos exact_libm).
Lemma feq_zero x : finite x -> feq x f0 = Req_bool (val x) 0.
Proof. intros F. unfold feq. rewrite Beqb_correct by (auto; reflexivity). reflexivity. Qed.
Lemma ieee_log2_ok : log2_ok ieee_libm.
Proof.
  intros x F P. unfold ieee_libm. cbn [m_log2]. rewrite (feq_zero x F), Req_bool_false by lra. now apply exact_log2_ok.
Qed.
Lemma ieee_log2_standard : log2_standard ieee_libm.
Proof.
  split; unfold ieee_libm; cbn [m_log2 exact_libm].
  - intros x F Z. now rewrite (feq_zero x F), Req_bool_true.
  - intros x y Fx Fy [P L]. rewrite (feq_zero x Fx), (feq_zero y Fy), !Req_bool_false by lra.
    assert (R : forall z : f32, 0 < R32 z -> R32 (f32_of_R (log2 (R32 z))) = rnd32 (log2 (R32 z))).
    { intros z Z. apply f32_of_R_R. pose proof (float_log2_bound z Z). pose proof big32_ge.
      assert (149 <= IZR (2 ^ 100)) by (apply IZR_le; lia). lra. }
    change val with R32 in *. rewrite !R by lra. apply rnd32_le. now apply log2_le.
Qed.
Lemma tri_edge : shortest_edge (vertices tri_mesh) (vertex_triangles tri_mesh) (val leg).
Proof. apply C40_case. Qed.
Example C53_with_vertices_case : log2_ok ieee_libm /\ log2_standard ieee_libm /\
  finite (vertex_precision sixteenth) /\ 0 < val (vertex_precision sixteenth) <= 1 /\
  Forall (fun mn => any_mesh (fst mn) /\ Forall (custom_widths_ok ieee_libm) (custom_data (fst mn)) /\
    forall v, vertices (fst mn) = Some v ->
      v <> [] /\ (len v < 2 ^ 50)%N /\ (forall t, vertex_triangles (fst mn) = Some t -> corners_exist v t) /\
      exists B s, Forall (bounded B) v /\ B <= 2 ^ 50 /\
        shortest_edge (Some v) (vertex_triangles (fst mn)) s /\ / 2 ^ 20 <= s /\
        B + 0.000001 <= 2 ^ 20 * (s * val (vertex_precision sixteenth))) [(tri_mesh, @nil N)].
Proof.
  destruct C40_case as (_ & _ & _ & _ & A1 & A2 & A3 & A4 & A5 & A6).
  split; [apply ieee_log2_ok|]. split; [apply ieee_log2_standard|]. split; [exact A1|]. split; [exact A2|].
  apply Forall_cons; [|apply Forall_nil]. cbn [fst]. split; [|split; [apply Forall_nil|]].
  - intros l [I|[I|[I|[I|[]]]]]; inversion I; subst. split; [|reflexivity]. repeat (apply Forall_cons; [reflexivity|]). apply Forall_nil.
  - intros v V. split; [intros ->; discriminate V|]. split; [injection V as <-; reflexivity|].
    split; [intros t T; injection V as <-; injection T as <-; apply Forall_cons; [repeat split|apply Forall_nil]|].
    exists 1, (val leg). rewrite <- V. split; [|split; [|split; [exact A4|split; [exact A5|exact A6]]]].
    + unfold vlist in A3. rewrite V in A3. exact A3.
    + apply Rle_trans with (2 ^ 0); [simpl; lra|apply pow2_le; lia].
Qed.
