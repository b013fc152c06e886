(** Saves by a program built with [double_precision] and the files they produce. *)
From Coq Require Import List NArith ZArith Arith Lia Bool ZifyN ZifyNat ZifyBool.
From Verif Require Import Base BitSpec UnalignedRW BitIOSpec UnalignedRW_proofs ReadExt ByteLemmas Triangles TriSpec
  Triangles_proofs Floats Floats_proofs CustomData Mesh Tmf File FileSpec Codec_proofs Parse_proofs File_proofs Load_proofs
  SaveSpec Merge_proofs Save_proofs Image_proofs Double DoubleSave DoubleSaveSpec DMerge_proofs DCodec_proofs.
Import ListNotations.
Open Scope res_scope.

(** ** Images of segments and meshes *)
Record drels := mk_drels {
  dv : list dvec3 -> list dvec3 -> Prop; dn : dvec3 -> dvec3 -> Prop; du : dvec2 -> dvec2 -> Prop;
  dt : dtangent -> dtangent -> Prop; ds : dcseg -> dcseg -> Prop }.
Definition xrel (r : drels) (a b : xseg) : Prop :=
  match a, b with
  | XNothing, XNothing => True
  | XVertex l, XVertex l' => dv r l l'
  | XNormal l, XNormal l' => Forall2 (dn r) l l'
  | XUV l, XUV l' => Forall2 (du r) l l'
  | XTangent l, XTangent l' => Forall2 (dt r) l l'
  | XTriVertex l, XTriVertex l' => l = l'
  | XTriNormal l, XTriNormal l' => l = l'
  | XTriUV l, XTriUV l' => l = l'
  | XTriTangent l, XTriTangent l' => l = l'
  | XShared k l, XShared k' l' => k = k' /\ l = l'
  | XCustom s, XCustom s' => ds r s s'
  | _, _ => False
  end.
Record dmesh_rel (r : drels) (a b : dmesh) : Prop := {
  dr_vt : d_vertex_triangles a = d_vertex_triangles b;
  dr_nt : d_normal_triangles a = d_normal_triangles b;
  dr_ut : d_uv_triangles a = d_uv_triangles b;
  dr_tt : d_tangent_triangles a = d_tangent_triangles b;
  dr_v : olift (pieces (dv r)) (d_vertices a) (d_vertices b);
  dr_n : orel (dn r) (d_normals a) (d_normals b);
  dr_u : orel (du r) (d_uvs a) (d_uvs b);
  dr_t : orel (dt r) (d_tangents a) (d_tangents b);
  dr_s : Forall2 (ds r) (d_custom_data a) (d_custom_data b) }.
Lemma apply_rel_d r m m' d d' : dmesh_rel r m m' -> xrel r d d' -> dmesh_rel r (apply_d m d) (apply_d m' d').
Proof.
  destruct m as [n nt v vt u ut t tt cd], m' as [n' nt' v' vt' u' ut' t' tt' cd'].
  intros [B1 B2 B3 B4 A1 A2 A3 A4 A5] H. cbn in *. subst.
  destruct d, d'; cbn [xrel] in H; try contradiction.
  - constructor; auto.
  - pose proof (pieces_append _ _ _ _ _ A1 H). constructor; auto.
  - pose proof (orel_append _ _ _ _ _ A2 H). constructor; auto.
  - pose proof (orel_append _ _ _ _ _ A3 H). constructor; auto.
  - pose proof (orel_append _ _ _ _ _ A4 H). constructor; auto.
  - subst. constructor; auto.
  - subst. constructor; auto.
  - subst. constructor; auto.
  - subst. constructor; auto.
  - destruct H as [-> ->]. cbn [apply_d].
    destruct (has_mask mask0 MASK_VERTEX), (has_mask mask0 MASK_NORMAL), (has_mask mask0 MASK_UV); constructor; auto.
  - constructor; auto. cbn [apply_d d_custom_data]. apply Forall2_app; auto.
Qed.
Lemma build_rel_d r l l' : Forall2 (xrel r) l l' -> forall m m', dmesh_rel r m m' -> dmesh_rel r (build_d l m) (build_d l' m').
Proof.
  induction 1 as [|d d' l l' H _ IH]; intros m m' S; auto. cbn [build_d fold_left].
  apply IH. now apply apply_rel_d.
Qed.
Definition image_rels_d (lm : libm64) (sc : f64 -> f64 * f64) (p : dprec_info) (edge : f64) : drels :=
  mk_drels (vertex_rel_d lm (d_vertex_precision p) edge) (normal_rel_d lm sc (d_normal_precision p))
           (uv_rel_d (d_uv_prec p)) (tangent_rel_d lm sc (d_tangent_prec p)) (custom_rel_d lm).

(** ** Storable segments *)
Definition dok_d (d : xseg) : Prop :=
  match d with
  | XNothing => True
  | XVertex l => (len l <= 2 ^ 27)%N
  | XNormal l => (len l <= 2 ^ 27)%N
  | XUV l => (len l <= 2 ^ 27)%N
  | XTangent l => (len l <= 2 ^ 27)%N
  | XTriVertex l | XTriNormal l | XTriUV l | XTriTangent l => idx_ok l
  | XShared k l => (0 < k < 8)%N /\ idx_ok l
  | XCustom s => custom_ok_d s
  end.
Lemma dok_sub_d : sub_ok_d dok_d.
Proof.
  unfold sub_ok_d. cbn [dok_d]. split; [|split; [|split; [|split; [|split]]]]; intros.
  - unfold len in *. rewrite app_length in H. lia.
  - now apply idx_ok_app.
  - now apply idx_ok_app.
  - now apply idx_ok_app.
  - now apply idx_ok_app.
  - destruct H as [H1 H2]. apply idx_ok_app in H2. tauto.
Qed.
Lemma dok_merged_d m : storable_d m -> Forall dok_d (merge_segments_d (tmf_segs_d m)) /\
  Forall (fun d => is_something_d d = true) (merge_segments_d (tmf_segs_d m)).
Proof.
  intros S.
  assert (F : Forall (fun d => dok_d d /\ is_something_d d = true) (merge_segments_d (tmf_segs_d m))).
  { apply merge_loop_keeps_d.
    - exact I.
    - cbn [dok_d]. intros l H k Hk. split; auto. destruct H as [H|[H|[H|[? [_ H]]]]]; auto.
    - cbn [dok_d]. tauto.
    - apply Forall_rev. destruct S. unfold tmf_segs_d. rewrite !Forall_app.
      assert (O : forall A (f : A -> xseg) (o : option A), (forall x, o = Some x -> dok_d (f x)) -> Forall dok_d (opt_seg_d f o)).
      { intros A f [x|] HH; constructor; auto. }
      do 8 (split; [apply O; intros x HX; cbn [dok_d]; first [exact (sd_vertices _ HX)|exact (sd_normals _ HX)|exact (sd_uvs _ HX)|exact (sd_tangents _ HX)
        |exact (sd_vertex_triangles _ HX)|exact (sd_normal_triangles _ HX)|exact (sd_uv_triangles _ HX)
        |exact (sd_tangent_triangles _ HX)]|]).
      rewrite Forall_map. exact sd_custom. }
  split; (eapply Forall_impl; [|exact F]); cbv beta; tauto.
Qed.

(** ** Segments *)
Definition good_d (sc : f64 -> f64 * f64) (oc : bool) (r : drels) (e : eseg) (d : xseg) : Prop :=
  (len (e_data e) <= 2 ^ 31)%N /\ bytes_ok (e_data e) /\ e_comp e = CNone /\
  exists d', decode_d sc oc new_ctx e = Ok d' /\ xrel r d d'.

Lemma name_header_d s : custom_ok_d s ->
  (N.of_nat (length (x_name s)) <? x_name_len s)%N = false /\
  le_bytes 1 (x_name_len s) ++ firstn (N.to_nat (x_name_len s)) (x_name s) = x_name_len s :: x_name s /\
  bytes_ok (x_name_len s :: x_name s) /\
  firstn (N.to_nat (x_name_len s)) (x_name s ++ repeat 0%N (255 - length (x_name s))) = x_name s /\
  (forall rest, read_u8 (x_name_len s :: x_name s ++ rest) = Ok (x_name_len s, x_name s ++ rest)) /\
  (forall rest, read_exact (x_name_len s) (x_name s ++ rest) = Ok (x_name s, rest)).
Proof.
  intros (H1 & H2 & H3 & _). unfold len in H2.
  assert (T : N.to_nat (x_name_len s) = length (x_name s)) by lia.
  split; [lia|]. split; [|split; [|split; [|split]]].
  - rewrite T, firstn_all. cbn [le_bytes app]. now rewrite N.mod_small by lia.
  - constructor; [unfold byte_ok; lia|exact H1].
  - rewrite T, firstn_app, Nat.sub_diag, firstn_O, app_nil_r. apply firstn_all.
  - intros rest. apply read_u8_byte. lia.
  - intros rest. apply read_exact_app. auto.
Qed.

Lemma good_custom_d lm sc oc' r s b :
  ds r = custom_rel_d lm -> custom_ok_d s -> cseg_encode_d lm true s [] = Ok b ->
  good_d sc oc' r (mk_eseg (SCustom (dcdata_kind (x_data s))) CNone b) (XCustom s).
Proof.
  intros Hr C S. pose proof (name_header_d s C) as (N1 & N2 & N3 & N4 & N5 & N6).
  unfold cseg_encode_d in S. rewrite N1 in S. cbn [app] in S. rewrite N2 in S.
  pose proof C as (C1 & C2 & C3 & C4). unfold len in *.
  assert (Main : exists body d', b = (x_name_len s :: x_name s) ++ body /\ (len body + 300 <= 2 ^ 31)%N /\ bytes_ok body /\
    data_rel_d lm (x_data s) d' /\
    match dcdata_kind (x_data s) with
    | KIndex => let* l := read_triangles oc' new_ctx body in Ok (XIndex l (max_or 0 l))
    | KInteger => let* l := read_triangles oc' new_ctx body in Ok (XInteger l (max_or 0 l))
    | KFloat => read_custom_float_d body
    | KColor => read_custom_color_d oc' body
    end = Ok d').
  { set (hd := x_name_len s :: x_name s) in *.
    destruct (x_data s) as [l m|l m|l p|l p]; cbn [dcdata_kind] in *.
    - cbn [cdata_write_d] in S. assert (U : u32s l). { eapply Forall_impl; [|exact (proj1 (proj2 C4))]. cbv beta. lia. }
      assert (M : (m < 2 ^ 64)%N) by (destruct C4 as (_ & _ & ?); lia).
      destruct (save_triangles_spec true l m [] (Forall_nil _) U M) as (p & S1 & _).
      rewrite (save_triangles_sink true l m hd _ U M N3 S1) in S. apply Ok_inj in S. symmetry in S.
      destruct (good_integers true oc' l m _ C4 S1) as (G1 & G2 & G3).
      eexists. exists (XIndex l (max_or 0 l)). split; [exact S|]. split; auto. split; auto. split; [split; reflexivity|].
      now rewrite G3.
    - cbn [cdata_write_d] in S. assert (U : u32s l). { eapply Forall_impl; [|exact (proj1 (proj2 C4))]. cbv beta. lia. }
      assert (M : (m < 2 ^ 64)%N) by (destruct C4 as (_ & _ & ?); lia).
      destruct (save_triangles_spec true l m [] (Forall_nil _) U M) as (p & S1 & _).
      rewrite (save_triangles_sink true l m hd _ U M N3 S1) in S. apply Ok_inj in S. symmetry in S.
      destruct (good_integers true oc' l m _ C4 S1) as (G1 & G2 & G3).
      eexists. exists (XInteger l (max_or 0 l)). split; [exact S|]. split; auto. split; auto. split; [split; reflexivity|].
      now rewrite G3.
    - exact (float_d lm l p hd b C4 N3 S).
    - exact (color_d lm oc' l p hd b C4 N3 S). }
  destruct Main as (body & d' & -> & L & B & SD & R).
  split; [|split; [|split; [reflexivity|]]].
  - cbn [e_data]. unfold len in *. rewrite app_length. cbn [length]. lia.
  - cbn [e_data]. apply bytes_ok_app. auto.
  - exists (XCustom (mk_dcseg (x_name s) (x_name_len s) d')). split.
    + unfold decode_d. cbn [e_type e_data]. unfold cseg_read_d. cbn [app]. rewrite N5. cbn [io map_err bind].
      rewrite N6. cbn [io map_err bind].
      match goal with |- bind (bind ?x _) _ = _ => replace x with (@Ok ierr _ d') end.
      cbn [bind]. now rewrite N4.
    + cbn [xrel]. rewrite Hr. split; [reflexivity|]. split; [reflexivity|]. exact SD.
Qed.

Definition prec_fine_d (p : dprec_info) : Prop := d_normal_precision p <= 30 /\ d_tangent_prec p <= 30.

Lemma good_index_d sc oc' r l sec mk e :
  (forall b, decode_d sc oc' new_ctx (mk_eseg sec CNone b) = (let* l := read_default_triangles oc' new_ctx b in Ok (mk l))) ->
  xrel r (mk l) (mk l) -> idx_ok l ->
  (let* b := save_triangles true l (max_or 0 l) [] in Ok (mk_eseg sec CNone b)) = Ok e -> good_d sc oc' r e (mk l).
Proof.
  intros Dc X D E. destruct (save_index_ok true oc' l D) as (b & S & L & B & R). rewrite S in E. cbn [bind] in E.
  apply Ok_inj in E. subst e. split; [cbn [e_data]; unfold len in *; lia|]. split; [exact B|]. split; [reflexivity|].
  exists (mk l). split; [|exact X]. rewrite Dc, R. reflexivity.
Qed.

Lemma encode_good_d lm sc oc' p edge d e :
  prec_fine_d p -> dok_d d -> is_something_d d = true -> encode_d lm true p edge d = Ok e ->
  good_d sc oc' (image_rels_d lm sc p edge) e d.
Proof.
  intros [Hn Ht] D Sm E. unfold encode_d in E.
  destruct d as [|l|l|l|l|l|l|l|l|k l|s]; [discriminate Sm| | | | | | | | | |]; cbn [dok_d] in D.
  - destruct (save_tmf_vertices_d lm true l _ edge []) as [b| |] eqn:S; try discriminate E. apply Ok_inj in E. subst e.
    destruct (vertices_d lm l _ edge b D S) as (A & B & l' & R & X).
    split; [exact A|]. split; [exact B|]. split; [reflexivity|]. exists (XVertex l'). split; [|exact X].
    unfold decode_d. cbn [e_type e_data]. now rewrite R.
  - destruct (save_normal_array_d lm true l _ []) as [b| |] eqn:S; try discriminate E. apply Ok_inj in E. subst e.
    destruct (normals_d lm sc oc' l _ b D Hn S) as (A & B & l' & R & X).
    split; [exact A|]. split; [exact B|]. split; [reflexivity|]. exists (XNormal l'). split; [|exact X].
    unfold decode_d. cbn [e_type e_data]. now rewrite R.
  - destruct (save_uvs_d true l _ []) as [b| |] eqn:S; try discriminate E. apply Ok_inj in E. subst e.
    destruct (uvs_d oc' l _ b D S) as (A & B & l' & R & X).
    split; [exact A|]. split; [exact B|]. split; [reflexivity|]. exists (XUV l'). split; [|exact X].
    unfold decode_d. cbn [e_type e_data]. now rewrite R.
  - destruct (save_tangents_d lm true l _ []) as [b| |] eqn:S; try discriminate E. apply Ok_inj in E. subst e.
    destruct (tangents_d lm sc l _ b D Ht S) as (A & B & l' & R & X).
    split; [exact A|]. split; [exact B|]. split; [reflexivity|]. exists (XTangent l'). split; [|exact X].
    unfold decode_d. cbn [e_type e_data]. now rewrite R.
  - apply (good_index_d sc oc' _ l SVertexTri XTriVertex); auto; [reflexivity|].
    destruct (save_triangles true l (max_or 0 l) []); exact E.
  - apply (good_index_d sc oc' _ l SNormalTri XTriNormal); auto; [reflexivity|].
    destruct (save_triangles true l (max_or 0 l) []); exact E.
  - apply (good_index_d sc oc' _ l SUvTri XTriUV); auto; [reflexivity|].
    destruct (save_triangles true l (max_or 0 l) []); exact E.
  - apply (good_index_d sc oc' _ l STangentTri XTriTangent); auto; [reflexivity|].
    destruct (save_triangles true l (max_or 0 l) []); exact E.
  - destruct D as [Hk D]. pose proof D as [D1 D2].
    destruct (save_index_ok true oc' l D) as (b & S & L & B & R).
    assert (U : u32s l). { eapply Forall_impl; [|exact D2]. cbv beta. lia. }
    assert (M : (max_or 0 l < 2 ^ 64)%N).
    { apply (N.lt_trans _ (2 ^ 31)); [|reflexivity]. apply max_or_lt; auto. lia. }
    rewrite (save_triangles_sink true l (max_or 0 l) [k] b U M) in E; [|constructor; [unfold byte_ok; lia|constructor]|exact S].
    cbn [bind app] in E. apply Ok_inj in E. subst e. split; [|split; [|split; [reflexivity|]]].
    + cbn [e_data]. unfold len in *. cbn [length]. lia.
    + cbn [e_data]. constructor; auto. unfold byte_ok. lia.
    + exists (XShared k l). split; [|cbn; auto]. unfold decode_d. cbn [e_type e_data e_comp]. now rewrite R.
  - destruct (cseg_encode_d lm true s []) as [b| |] eqn:S; try discriminate E. apply Ok_inj in E. subst e.
    apply (good_custom_d lm); auto.
Qed.

(** ** Files *)
Lemma has_trace_mesh_d lm oc p m name : has_trace (write_mesh_d lm oc p m name).
Proof.
  unfold write_mesh_d.
  apply has_trace_bind; [eexists _, _; apply traced_chunks|]. intros _.
  apply has_trace_bind; [eexists _, _; apply traced_pure|]. intros edge.
  apply has_trace_bind; [eexists _, _; apply traced_pure|]. intros segs. cbv zeta.
  apply has_trace_bind; [eexists _, _; apply traced_pure|]. intros _.
  apply has_trace_bind; [eexists _, _; apply traced_write|]. intros _.
  apply has_trace_segments.
Qed.
Lemma has_trace_meshes_d lm oc p l : has_trace (write_meshes_d lm oc p l).
Proof.
  induction l as [|[m name] l IH]; cbn [write_meshes_d]; [eexists _, _; apply traced_ret|].
  apply has_trace_bind; [apply has_trace_mesh_d|]. auto.
Qed.
Lemma has_trace_tmf_d lm oc p l : has_trace (write_tmf_d lm oc p l).
Proof.
  apply has_trace_bind; [eexists _, _; apply traced_chunks|]. intros _. apply has_trace_meshes_d.
Qed.
Lemma saved_traced_d lm oc p l b : saved_d lm oc p l = Ok b <-> traced (write_tmf_d lm oc p l) b (Ok tt).
Proof.
  unfold saved_d. split.
  - destruct (has_trace_tmf_d lm oc p l) as (o & r & T). pose proof T as [T1 _]. rewrite T1.
    destruct r as [[]|e|]; try discriminate. cbn. intros [= <-]. exact T.
  - intros [T _]. rewrite T. reflexivity.
Qed.
Lemma mesh_inv_d lm oc p m name out :
  traced (write_mesh_d lm oc p m name) out (Ok tt) ->
  exists edge segs es, calc_shortest_edge_d (d_vertex_triangles m) (d_vertices m) = Ok edge /\
    optimize_all_d lm oc (merge_segments_d (tmf_segs_d m)) = Ok segs /\
    Forall2 (fun s e => encode_d lm oc p edge s = Ok e) segs es /\
    out = le_bytes 2 (len name) ++ name ++ le_bytes 2 (len segs) ++
          concat (map (fun s => concat (eseg_chunks s)) es).
Proof.
  unfold write_mesh_d. intros T.
  apply traced_ok_inv in T as (o1 & x & o2 & T1 & T2 & ->); [|eexists _, _; apply traced_chunks|].
  2:{ intros _. apply has_trace_bind; [eexists _, _; apply traced_pure|]. intros edge.
      apply has_trace_bind; [eexists _, _; apply traced_pure|]. intros segs. cbv zeta.
      apply has_trace_bind; [eexists _, _; apply traced_pure|]. intros _.
      apply has_trace_bind; [eexists _, _; apply traced_write|]. intros _. apply has_trace_segments. }
  destruct (traced_det _ _ _ _ _ T1 (traced_chunks _)) as [-> _]. clear T1 x.
  apply traced_ok_inv in T2 as (o1 & edge & o3 & T1 & T2 & ->); [|eexists _, _; apply traced_pure|].
  2:{ intros edge. apply has_trace_bind; [eexists _, _; apply traced_pure|]. intros segs. cbv zeta.
      apply has_trace_bind; [eexists _, _; apply traced_pure|]. intros _.
      apply has_trace_bind; [eexists _, _; apply traced_write|]. intros _. apply has_trace_segments. }
  destruct (traced_det _ _ _ _ _ T1 (traced_pure _)) as [-> E]. clear T1.
  apply traced_ok_inv in T2 as (o1 & segs & o4 & T1 & T2 & ->); [|eexists _, _; apply traced_pure|].
  2:{ intros segs. cbv zeta. apply has_trace_bind; [eexists _, _; apply traced_pure|]. intros _.
      apply has_trace_bind; [eexists _, _; apply traced_write|]. intros _. apply has_trace_segments. }
  destruct (traced_det _ _ _ _ _ T1 (traced_pure _)) as [-> O]. clear T1. cbv zeta in T2.
  apply traced_ok_inv in T2 as (o1 & x & o5 & T1 & T2 & ->); [|eexists _, _; apply traced_pure|].
  2:{ intros _. apply has_trace_bind; [eexists _, _; apply traced_write|]. intros _. apply has_trace_segments. }
  destruct (traced_det _ _ _ _ _ T1 (traced_pure _)) as [-> _]. clear T1 x.
  apply traced_ok_inv in T2 as (o1 & x & o6 & T1 & T2 & ->);
    [|eexists _, _; apply traced_write|intros _; apply has_trace_segments].
  destruct (traced_det _ _ _ _ _ T1 (traced_write _)) as [-> _]. clear T1 x.
  apply segments_inv in T2 as (es & M & ->). exists edge, segs, es. split; auto. split; auto. split.
  - clear -M. revert es M. induction segs as [|s segs IH]; intros [|e es] M; try discriminate M; constructor.
    + cbn [map] in M. apply (f_equal (@hd_error _)) in M. cbn [hd_error] in M. injection M as M.
      destruct (encode_d lm oc p edge s) as [a| |]; try discriminate M. now injection M as ->.
    + cbn [map] in M. apply (f_equal (@tl _)) in M. cbn [tl] in M. auto.
  - cbn [concat app]. rewrite app_nil_r, <- !app_assoc. unfold len. now rewrite map_length.
Qed.
Lemma meshes_inv_d lm oc p l : forall out,
  traced (write_meshes_d lm oc p l) out (Ok tt) ->
  exists outs, out = concat outs /\
    Forall2 (fun mn o => traced (write_mesh_d lm oc p (fst mn) (snd mn)) o (Ok tt)) l outs.
Proof.
  induction l as [|[m name] l IH]; cbn [write_meshes_d]; intros out T.
  - destruct (traced_det _ _ _ _ _ T (traced_ret tt)) as [-> _]. exists []. auto.
  - apply traced_ok_inv in T as (o1 & x & o2 & T1 & T2 & ->);
      [|apply has_trace_mesh_d|intros _; apply has_trace_meshes_d].
    destruct x. destruct (IH _ T2) as (outs & -> & F). exists (o1 :: outs). auto.
Qed.
Lemma saved_inv_d lm oc p l out :
  saved_d lm oc p l = Ok out ->
  exists outs, out = header_bytes 0 2 0 2 ++ lend 4 (len l) ++ concat outs /\
    Forall2 (fun mn o => traced (write_mesh_d lm oc p (fst mn) (snd mn)) o (Ok tt)) l outs.
Proof.
  intros S. apply saved_traced_d in S. unfold write_tmf_d in S.
  apply traced_ok_inv in S as (o1 & x & o2 & T1 & T2 & ->);
    [|eexists _, _; apply traced_chunks|intros _; apply has_trace_meshes_d].
  destruct (traced_det _ _ _ _ _ T1 (traced_chunks _)) as [-> _].
  apply meshes_inv_d in T2 as (outs & -> & F). exists outs. split; auto.
  unfold header_bytes. rewrite !lend_le. unfold len. cbn [concat].
  rewrite app_nil_r, <- !app_assoc. reflexivity.
Qed.

(** The number of segments a mesh is stored in. *)
Definition segment_count_d (lm : libm64) (oc : bool) (m : dmesh) : N :=
  match optimize_all_d lm oc (merge_segments_d (tmf_segs_d m)) with Ok l => len l | _ => 0%N end.

(** Loading a laid out file. *)
Definition load_raw_d (sc : f64 -> f64 * f64) (oc : bool) (ctx : import_ctx) (m : raw_mesh) : res ierr (dmesh * list N) :=
  let* d := join_collect (map (decode_d sc oc ctx) (map eseg_of (snd m))) in
  Ok (fold_left apply_d d d_empty, fst m).
Lemma import_mesh_ok_d sc oc ctx frame m rest :
  frame_ok ctx frame -> mesh_ok m ->
  import_mesh_d sc oc ctx (mesh_bytes frame m ++ rest) = let* x := load_raw_d sc oc ctx m in Ok (x, rest).
Proof.
  intros HF (H1 & H2 & H3). unfold import_mesh_d, mesh_bytes. rewrite <- !app_assoc.
  rewrite read_string_w by auto. cbn [io map_err bind].
  rewrite lend_le, read_u16_w by auto. cbn [io map_err bind].
  unfold len. rewrite Nat2N.id. rewrite (read_segments_ok ctx frame) by auto. cbn [bind].
  unfold load_raw_d. destruct (join_collect _); reflexivity.
Qed.
Lemma import_meshes_ok_d sc oc ctx frame ms rest :
  frame_ok ctx frame -> Forall mesh_ok ms ->
  import_meshes_d sc oc ctx (length ms) (concat (map (mesh_bytes frame) ms) ++ rest)
    = let* l := collect (map (load_raw_d sc oc ctx) ms) in Ok (l, rest).
Proof.
  intros HF. induction 1 as [|m ms Hm _ IH]; [reflexivity|].
  cbn [length import_meshes_d map concat collect]. rewrite <- app_assoc.
  rewrite (import_mesh_ok_d sc oc ctx frame) by auto.
  destruct (load_raw_d sc oc ctx m); cbn [bind]; auto.
  rewrite IH. destruct (collect _); reflexivity.
Qed.
Lemma read_tmf_new_d sc oc ms : file_ok ms ->
  read_tmf_d sc oc (file_bytes ms) = collect (map (load_raw_d sc oc new_ctx) ms).
Proof.
  intros [H1 H2]. unfold read_tmf_d, file_bytes.
  rewrite read_header_w by lia. cbn [bind N.ltb N.eqb N.compare orb andb Pos.compare Pos.compare_cont].
  rewrite lend_le, read_u32_w by auto. cbn [io map_err bind]. unfold len. rewrite Nat2N.id.
  pose proof (import_meshes_ok_d sc oc new_ctx seg_bytes ms [] frame_new H2) as E. rewrite app_nil_r in E.
  change (init_header (mk_header 0 2 0 2)) with new_ctx. rewrite E. destruct (collect _); reflexivity.
Qed.

Definition loaded_as_d (lm : libm64) (sc : f64 -> f64 * f64) (p : dprec_info) (m m' : dmesh) : Prop :=
  exists edge, calc_shortest_edge_d (d_vertex_triangles m) (d_vertices m) = Ok edge /\
    dmesh_rel (image_rels_d lm sc p edge) (with_custom_data_d m (rev (d_custom_data m))) m'.

Lemma mesh_loads_d lm sc oc' p m name out :
  prec_fine_d p -> storable_d m -> name_ok name -> (segment_count_d lm true m < 65536)%N ->
  traced (write_mesh_d lm true p m name) out (Ok tt) ->
  exists raw m', out = mesh_bytes seg_bytes raw /\ mesh_ok raw /\ fst raw = name /\
    Forall (fun s => bytes_ok (r_payload s)) (snd raw) /\
    load_raw_d sc oc' new_ctx raw = Ok (m', name) /\ loaded_as_d lm sc p m m'.
Proof.
  intros HP HS HN HC T. apply mesh_inv_d in T as (edge & segs & es & E1 & E2 & E3 & ->).
  unfold segment_count_d in HC. rewrite E2 in HC.
  destruct (dok_merged_d m HS) as [D1 D2].
  pose proof (optimize_all_all_d dok_d lm true _ _ dok_sub_d D1 E2) as D3.
  assert (D4 : Forall (fun d => is_something_d d = true) segs).
  { eapply (optimize_all_all_d (fun d => is_something_d d = true)); eauto. unfold sub_ok_d. cbn. tauto. }
  assert (G : exists xs, Forall2 (xrel (image_rels_d lm sc p edge)) segs xs /\
                         map (decode_d sc oc' new_ctx) es = map Ok xs /\
              Forall (fun e => (len (e_data e) <= 2 ^ 31)%N /\ bytes_ok (e_data e) /\ e_comp e = CNone) es).
  { clear -E3 D3 D4 HP. induction E3 as [|s e segs es H _ IH]; [exists []; repeat split; auto|].
    apply Forall_cons_iff in D3 as [Da D3]. apply Forall_cons_iff in D4 as [Db D4].
    destruct (IH D3 D4) as (xs & F & M & O).
    destruct (encode_good_d lm sc oc' p edge s e HP Da Db H) as (A & B & C & d' & Dd & Ds).
    exists (d' :: xs). split; [constructor; auto|]. split; [|constructor; auto]. cbn [map]. now rewrite Dd, M. }
  destruct G as (xs & G1 & G2 & F).
  assert (Le : length es = length segs) by (symmetry; exact (F2_length _ _ _ E3)).
  exists (name, map raw_of es), (build_d xs d_empty).
  split; [|split; [|split; [|split; [|split]]]].
  - unfold mesh_bytes. cbn [fst snd]. rewrite !lend_le. unfold len. rewrite map_length, Le.
    do 3 f_equal. rewrite !map_map. f_equal.
    clear -F. induction F as [|e es (H & _) _ IH]; [reflexivity|]. cbn [map]. f_equal; auto.
    now apply segment_layout.
  - split; [exact HN|]. cbn [snd]. split.
    + unfold len in *. rewrite map_length, Le. auto.
    + rewrite Forall_map. eapply Forall_impl; [|exact F]. intros e (H1 & H2 & H3).
      unfold frameable, raw_of. cbn [r_kind r_comp r_payload]. split; [apply section_code_ok|].
      split; [apply compression_code_ok|auto].
  - reflexivity.
  - cbn [snd]. rewrite Forall_map. eapply Forall_impl; [|exact F]. intros e (H1 & H2 & H3). exact H2.
  - unfold load_raw_d. cbn [fst snd].
    assert (EM : map eseg_of (map raw_of es) = es).
    { clear. induction es as [|e es IH]; [reflexivity|]. cbn [map]. now rewrite eseg_of_raw, IH. }
    rewrite EM. rewrite (join_ok _ xs) by auto. reflexivity.
  - exists edge. split; auto. rewrite <- build_merged_d, <- (build_optimize_all_d lm true _ _ _ E2).
    apply build_rel_d; auto. constructor; cbn; auto.
Qed.

Lemma saved_loads_d lm sc oc' p l out :
  prec_fine_d p -> (len l < 2 ^ 32)%N ->
  Forall (fun mn => storable_d (fst mn) /\ name_ok (snd mn) /\ (segment_count_d lm true (fst mn) < 65536)%N) l ->
  saved_d lm true p l = Ok out ->
  exists raws l', out = file_bytes raws /\ file_ok raws /\
    Forall2 (fun mn raw => fst raw = snd mn) l raws /\
    Forall (fun raw => Forall (fun s => bytes_ok (r_payload s)) (snd raw)) raws /\
    read_tmf_d sc oc' out = Ok l' /\
    Forall2 (fun a b => snd a = snd b /\ loaded_as_d lm sc p (fst a) (fst b)) l l'.
Proof.
  intros HP HL HF S. apply saved_inv_d in S as (outs & -> & F).
  assert (G : exists raws l', concat outs = concat (map (mesh_bytes seg_bytes) raws) /\ Forall mesh_ok raws /\
    length raws = length l /\ Forall2 (fun mn raw => fst raw = snd mn) l raws /\
    Forall (fun raw => Forall (fun s => bytes_ok (r_payload s)) (snd raw)) raws /\
    map (load_raw_d sc oc' new_ctx) raws = map Ok l' /\
    Forall2 (fun a b => snd a = snd b /\ loaded_as_d lm sc p (fst a) (fst b)) l l').
  { clear HL. induction F as [|[m name] o l outs H _ IH].
    - exists [], []. repeat split; constructor.
    - apply Forall_cons_iff in HF as [(A & B & C) HF]. destruct (IH HF) as (raws & l' & E1 & E2 & E3 & E4 & E5 & E6 & E7).
      destruct (mesh_loads_d lm sc oc' p m name o) as (raw & m' & R1 & R2 & R3 & R4 & R5 & R6); auto.
      exists (raw :: raws), ((m', name) :: l'). cbn [concat map length]. rewrite R1, E1, E3, R5, E6.
      repeat split; auto. }
  destruct G as (raws & l' & E1 & E2 & E3 & E4 & E5 & E6 & E7).
  assert (FO : file_ok raws). { split; auto. unfold len in *. lia. }
  exists raws, l'.
  assert (EB : header_bytes 0 2 0 2 ++ lend 4 (len l) ++ concat outs = file_bytes raws).
  { unfold file_bytes. rewrite E1. unfold len. now rewrite E3. }
  rewrite EB. repeat split; auto; try apply FO.
  rewrite read_tmf_new_d by auto. apply collect_ok. auto.
Qed.

(** ** Shapes *)
Lemma orel_len {A} (R : A -> A -> Prop) a b : orel R a b -> same_len a b.
Proof. destruct a, b; cbn; auto. apply F2_length. Qed.
Lemma pieces_len {A} (R : list A -> list A -> Prop) a b :
  (forall x y, R x y -> length x = length y) -> olift (pieces R) a b -> same_len a b.
Proof.
  intros H. destruct a, b; cbn; auto. intros (ps & -> & -> & F).
  induction F as [|p ps HP _ IH]; [reflexivity|]. cbn [map concat]. rewrite !app_length, IH. f_equal. auto.
Qed.
Lemma loaded_shape lm sc p m m' : loaded_as_d lm sc p m m' -> same_shape_rev_d m m'.
Proof.
  intros (edge & _ & [B1 B2 B3 B4 A1 A2 A3 A4 A5]). destruct m as [n nt v vt u ut t tt cd]. cbn in *.
  constructor; cbn; auto.
  - eapply pieces_len; [|exact A1]. intros x y (q & mx & my & mz & _ & _ & _ & _ & ->). symmetry. apply map_length.
  - eapply orel_len. exact A2.
  - eapply orel_len. exact A3.
  - eapply orel_len. exact A4.
  - eapply F2_impl; [|exact A5]. intros a b (H1 & H2 & H3). split; [auto|]. split; [auto|].
    destruct (x_data a), (x_data b); cbn [data_rel_d same_data_d] in *; try tauto.
    + now destruct H3.
    + now destruct H3.
    + destruct H3 as (_ & mul & _ & ->). symmetry. apply map_length.
    + destruct H3 as (_ & mul & _ & ->). symmetry. apply map_length.
Qed.
