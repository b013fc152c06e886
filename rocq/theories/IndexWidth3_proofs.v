(** A saved file loads the same with 64-bit indices as with 32-bit ones. *)
From Coq Require Import List NArith ZArith Arith Lia Bool ZifyN ZifyNat ZifyBool.
From Verif Require Import Base BitSpec BitLemmas UnalignedRW UnalignedRW_proofs ReadExt ByteLemmas Triangles
  TriSpec Triangles_proofs OptTris OptTris_proofs Floats Utilis Unify Vertices Uv Normals CustomData Mesh Tmf File FileSpec SaveSpec
  Parse_proofs File_proofs Load_proofs Merge_proofs Save_proofs Save2_proofs PlatformSpec Platform_proofs IndexWidth IndexSpec IndexWidth_proofs IndexWidth2_proofs.
Import ListNotations.
Open Scope res_scope.

Lemma roundtrip_any w oc oc' tris m rest : w <= 64 -> fits_all w tris -> (len tris <= 2 ^ 31)%N ->
  (m < 2 ^ 31 \/ 2 ^ 32 <= m < 2 ^ 63)%N -> all_le m tris -> bytes_ok rest ->
  exists bytes,
    save_triangles oc tris m [] = Ok bytes /\
    read_triangles_w w oc' new_ctx (bytes ++ rest) = Ok tris /\
    read_default_triangles_w w oc' new_ctx (bytes ++ rest) = Ok tris.
Proof.
  intros W F L M A B. assert (M' : (m < 2 ^ 63)%N) by lia. assert (M2 : (m < two64)%N) by (unfold two64; lia).
  pose proof (calc_prec_le m 63 M' ltac:(lia)) as P63.
  assert (F64 : Forall (fun i => (i < two64)%N) tris).
  { eapply Forall_impl; [|exact F]. intros i I. cbv beta in I. eapply N.lt_le_trans; [exact I|].
    change two64 with (2 ^ N.of_nat 64)%N. apply N.pow_le_mono_r; [discriminate|lia]. }
  destruct (triangles_roundtrip64 oc oc' tris m rest) as (bytes & S & R1 & R2); auto.
  - destruct M as [M|M].
    + pose proof (calc_prec_small m M). lia.
    + pose proof (calc_prec_ge m 32 M2 (proj1 M)). lia.
  - lia.
  - eapply Forall_impl; [|exact A]. cbv beta. intros. lia.
  - exists bytes. split; auto.
    assert (R2' : read_default_triangles_w 64 oc' new_ctx (bytes ++ rest) = Ok tris).
    { apply R2. destruct (N.eq_dec m 0) as [->|]; auto. right.
      eapply Forall_impl; [|exact A]. cbv beta. intros. lia. }
    pose proof (so_triangles 64 w W oc' new_ctx (bytes ++ rest)) as T1.
    pose proof (so_default 64 w W oc' new_ctx (bytes ++ rest)) as T2.
    rewrite R1 in T1. rewrite R2' in T2. split.
    + destruct (read_triangles_w w _ _ _) as [x|e|]; cbn in T1; try contradiction. unfold cutl in T1. subst x. now rewrite cut_fits.
    + destruct (read_default_triangles_w w _ _ _) as [x|e|]; cbn in T2; try contradiction. unfold cutl in T2. subst x. now rewrite cut_fits.
Qed.

Lemma fits31 w l : 31 <= w -> Forall (fun i => (i < 2 ^ 31)%N) l -> fits_all w l.
Proof.
  intros W. apply Forall_impl. intros i I. eapply N.lt_le_trans; [exact I|]. apply N.pow_le_mono_r; [discriminate|lia].
Qed.
Lemma index64 oc oc' l b : idx_ok l -> save_triangles oc l (max_or 0 l) [] = Ok b ->
  read_default_triangles_w 64 oc' new_ctx b = read_default_triangles oc' new_ctx b.
Proof.
  intros D S. destruct (save_index_ok oc oc' l D) as (b' & S' & _ & _ & R). rewrite S in S'. apply Ok_inj in S'. subst b'. rewrite R.
  destruct D as [D1 D2]. unfold len in *.
  destruct (roundtrip_any 64 oc oc' l (max_or 0 l) []) as (b2 & S2 & _ & R2).
  - lia.
  - apply fits31; [lia|auto].
  - unfold len. lia.
  - left. apply max_or_lt; auto. lia.
  - apply Forall_forall. intros. now apply max_or_ge.
  - constructor.
  - rewrite S in S2. apply Ok_inj in S2. subst b2. now rewrite app_nil_r in R2.
Qed.
Lemma integers64 oc oc' l m b : integers_ok l m -> save_triangles oc l m [] = Ok b ->
  read_triangles_w 64 oc' new_ctx b = read_triangles oc' new_ctx b.
Proof.
  intros D S. destruct (good_integers oc oc' l m b D S) as (_ & _ & R). rewrite R.
  destruct D as (D1 & D2 & D3). unfold len in *.
  destruct (roundtrip_any 64 oc oc' l m []) as (b2 & S2 & R2 & _).
  - lia.
  - apply fits31; [lia|]. eapply Forall_impl; [|exact D2]. cbv beta. tauto.
  - unfold len. lia.
  - auto.
  - eapply Forall_impl; [|exact D2]. cbv beta. tauto.
  - constructor.
  - rewrite S in S2. apply Ok_inj in S2. subst b2. now rewrite app_nil_r in R2.
Qed.
Lemma encode64 lm lm' oc' p edge d e : dok d -> encode lm true p edge d = Ok e ->
  decode_w 64 lm' oc' new_ctx e = decode lm' oc' new_ctx e.
Proof.
  intros D E. unfold encode in E.
  destruct d as [|l|l|l|l|l|l|l|l|k l|s]; cbn [dok] in D.
  - injection E as <-. reflexivity.
  - destruct (save_tmf_vertices lm true l _ edge []) as [b| |]; try discriminate. injection E as <-. reflexivity.
  - destruct (save_normal_array lm true l _ []) as [b| |]; try discriminate. injection E as <-. reflexivity.
  - destruct (save_uvs true l _ []) as [b| |]; try discriminate. injection E as <-. reflexivity.
  - destruct (save_tangents lm true l _ []) as [b| |]; try discriminate. injection E as <-. reflexivity.
  - destruct (save_triangles true l _ []) as [b| |] eqn:S; try discriminate. injection E as <-.
    cbn [decode_w decode e_type decode_triangle_data_w decode_triangle_data e_comp e_data]. now rewrite (index64 true oc' l).
  - destruct (save_triangles true l _ []) as [b| |] eqn:S; try discriminate. injection E as <-.
    cbn [decode_w decode e_type decode_triangle_data_w decode_triangle_data e_comp e_data]. now rewrite (index64 true oc' l).
  - destruct (save_triangles true l _ []) as [b| |] eqn:S; try discriminate. injection E as <-.
    cbn [decode_w decode e_type decode_triangle_data_w decode_triangle_data e_comp e_data]. now rewrite (index64 true oc' l).
  - destruct (save_triangles true l _ []) as [b| |] eqn:S; try discriminate. injection E as <-.
    cbn [decode_w decode e_type decode_triangle_data_w decode_triangle_data e_comp e_data]. now rewrite (index64 true oc' l).
  - destruct D as [Hk D]. pose proof D as [D1 D2].
    destruct (save_index_ok true oc' l D) as (b & S & L & B & R).
    assert (U : u32s l). { eapply Forall_impl; [|exact D2]. cbv beta. lia. }
    assert (M : (max_or 0 l < 2 ^ 64)%N).
    { apply (N.lt_trans _ (2 ^ 31)); [|reflexivity]. apply max_or_lt; auto. lia. }
    rewrite (save_triangles_sink true l (max_or 0 l) [k] b U M) in E; [|constructor; [unfold byte_ok; lia|constructor]|exact S].
    cbn [bind app] in E. injection E as <-.
    cbn [decode_w decode e_type e_comp e_data]. now rewrite (index64 true oc' l).
  - destruct (cseg_encode lm true s []) as [b| |] eqn:S; try discriminate. injection E as <-.
    pose proof (name_header s D) as (N1 & N2 & N3 & N4 & N5 & N6).
    unfold cseg_encode in S. rewrite N1 in S. cbn [app] in S. rewrite N2 in S.
    pose proof D as (C1 & C2 & C3 & C4). unfold decode_w, decode. cbn [e_type e_data]. f_equal. unfold cseg_read_w, cseg_read.
    destruct (c_data s) as [l m|l m|l q|l q]; cbn [cdata_write cdata_kind] in *; try reflexivity.
    + assert (U : u32s l). { eapply Forall_impl; [|exact (proj1 (proj2 C4))]. cbv beta. lia. }
      assert (M : (m < 2 ^ 64)%N) by (destruct C4 as (_ & _ & ?); lia).
      destruct (save_triangles_spec true l m [] (Forall_nil _) U M) as (pl & S1 & _). cbn [app] in S1.
      rewrite (save_triangles_sink true l m _ _ U M N3 S1) in S. apply Ok_inj in S. subst b.
      cbn [app]. rewrite N5. cbn [io map_err bind]. rewrite N6. cbn [io map_err bind].
      now rewrite (integers64 true oc' l m _ C4 S1).
    + assert (U : u32s l). { eapply Forall_impl; [|exact (proj1 (proj2 C4))]. cbv beta. lia. }
      assert (M : (m < 2 ^ 64)%N) by (destruct C4 as (_ & _ & ?); lia).
      destruct (save_triangles_spec true l m [] (Forall_nil _) U M) as (pl & S1 & _). cbn [app] in S1.
      rewrite (save_triangles_sink true l m _ _ U M N3 S1) in S. apply Ok_inj in S. subst b.
      cbn [app]. rewrite N5. cbn [io map_err bind]. rewrite N6. cbn [io map_err bind].
      now rewrite (integers64 true oc' l m _ C4 S1).
Qed.

Lemma mesh64 lm lm' oc' p m name out rest :
  prec_fine p -> storable m -> name_ok name -> (segment_count lm true m < 65536)%N ->
  traced (write_mesh lm true p m name) out (Ok tt) ->
  import_mesh_w 64 lm' oc' new_ctx (out ++ rest) = import_mesh lm' oc' new_ctx (out ++ rest) /\
  exists x, import_mesh lm' oc' new_ctx (out ++ rest) = Ok (x, rest).
Proof.
  intros HP HS HN HC T. split.
  2:{ destruct (mesh_loads lm lm' oc' p m name out HP HS HN HC T) as (raw & m' & R1 & R2 & R3 & R4 & R5 & R6).
      exists (m', name). rewrite R1, (File_proofs.import_mesh_ok lm' oc' new_ctx seg_bytes) by (auto using frame_new). now rewrite R5. }
  apply mesh_inv in T as (edge & segs & es & E1 & E2 & E3 & ->).
  unfold segment_count, segment_list in HC. rewrite E2 in HC.
  destruct (dok_merged m HS) as [D1 D2].
  pose proof (optimize_all_all dok lm true _ _ dok_sub D1 E2) as D3.
  assert (D4 : Forall (fun d => is_something d = true) segs).
  { eapply (optimize_all_all (fun d => is_something d = true)); eauto. unfold sub_ok. cbn. tauto. }
  assert (F : Forall (fun e => (len (e_data e) <= 2 ^ 31)%N /\ bytes_ok (e_data e) /\ e_comp e = CNone) es).
  { clear -E3 D3 D4 HP. induction E3 as [|s e segs es H _ IH]; constructor.
    - apply Forall_cons_iff in D3 as [Da D3]. apply Forall_cons_iff in D4 as [Db D4].
      destruct (encode_good lm lm true p edge s e HP Da Db H) as (A & B & C & _). auto.
    - apply Forall_cons_iff in D3 as [Da D3]. apply Forall_cons_iff in D4 as [Db D4]. auto. }
  assert (Le : length es = length segs) by (symmetry; exact (F2_length _ _ _ E3)).
  assert (EQ : concat (map (fun s => concat (eseg_chunks s)) es) = concat (map seg_bytes (map raw_of es))).
  { rewrite map_map. f_equal. clear -F. induction F as [|e es (H & _) _ IH]; [reflexivity|]. cbn [map]. f_equal; auto.
    now apply segment_layout. }
  assert (FR : Forall frameable (map raw_of es)).
  { rewrite Forall_map. eapply Forall_impl; [|exact F]. intros e (H1 & H2 & H3).
    unfold frameable, raw_of. cbn [r_kind r_comp r_payload]. split; [apply section_code_ok|]. split; [apply compression_code_ok|auto]. }
  assert (EM : map eseg_of (map raw_of es) = es).
  { clear. induction es as [|e es IH]; [reflexivity|]. cbn [map]. now rewrite eseg_of_raw, IH. }
  rewrite EQ, <- !app_assoc, <- lend_le. unfold import_mesh_w, import_mesh. rewrite read_string_w by auto. cbn [io map_err bind].
  rewrite read_u16_w by auto. cbn [io map_err bind]. unfold len. rewrite Nat2N.id, <- Le, <- (map_length raw_of es).
  rewrite (read_segments_ok new_ctx seg_bytes) by auto using frame_new. cbn [bind]. rewrite EM.
  replace (map (decode_w 64 lm' oc' new_ctx) es) with (map (decode lm' oc' new_ctx) es); [reflexivity|].
  clear -E3 D3. induction E3 as [|s e segs es H _ IH]; [reflexivity|]. apply Forall_cons_iff in D3 as [Da D3]. cbn [map].
  rewrite (encode64 lm lm' oc' p edge s e Da H). now rewrite IH.
Qed.
Lemma read64 lm lm' oc' p l out : prec_fine p -> savable lm l -> saved lm true p l = Ok out ->
  read_tmf_w 64 lm' oc' out = read_tmf lm' oc' out.
Proof.
  intros HP [HL HF] S. apply saved_inv in S as (outs & -> & F). unfold read_tmf_w, read_tmf, import_w, import.
  rewrite read_header_w by lia. cbn [bind N.ltb N.eqb N.compare orb andb Pos.compare Pos.compare_cont].
  rewrite lend_le, read_u32_w by auto. cbn [io map_err bind]. unfold len. rewrite Nat2N.id.
  replace (import_meshes_w 64 lm' oc' (init_header (mk_header 0 2 0 2)) (length l) (concat outs))
    with (import_meshes lm' oc' (init_header (mk_header 0 2 0 2)) (length l) (concat outs)); [reflexivity|].
  clear HL. induction F as [|[m name] o l outs H _ IH]; [reflexivity|].
  apply Forall_cons_iff in HF as [(A & B & C) HF]. cbn [length import_meshes import_meshes_w concat].
  change (init_header (mk_header 0 2 0 2)) with new_ctx in *.
  destruct (mesh64 lm lm' oc' p m name o (concat outs) HP A B C H) as [E [x X]]. rewrite E, X. cbn [bind]. now rewrite IH.
Qed.

(** ** Equal meshes *)
Lemma cut_eq v w a b : cut_mesh w a b -> cut_mesh v a a -> indices_fit w (fst a) -> b = a.
Proof.
  intros [N1 V1 N2 U1 TT1 T1 T2 T3 T4 C] R [F1 F2 F3 F4 F5]. destruct R as [_ _ _ _ _ _ _ _ _ R].
  destruct a as [[] na], b as [[] nb]. cbn [fst snd Mesh.normals Mesh.normal_triangles Mesh.vertices Mesh.vertex_triangles Mesh.uvs Mesh.uv_triangles Mesh.tangents
    Mesh.tangent_triangles Mesh.custom_data] in *. subst.
  rewrite !cut_fits_opt by auto. f_equal. f_equal.
  clear -C R F5. revert R F5.
  match goal with H : Forall2 _ ?x ?y |- _ => induction H as [|s s' l l' S _ IH] end; intros R F; [reflexivity|].
  inversion R as [|? ? ? ? R1 R2]; subst. apply Forall_cons_iff in F as [Fa Fb]. rewrite IH by auto. f_equal.
  destruct S as (S1 & S2 & S3), R1 as (_ & _ & R3). unfold fits_custom in Fa. destruct s as [n k d], s' as [n' k' d'].
  cbn [c_name c_name_len c_data] in *. subst n' k'. f_equal. destruct d as [x m|x m|x q|x q]; auto.
  - rewrite cut_fits in S3 by auto. injection R3 as R3 R4. rewrite <- R3 in R4. now rewrite S3, <- R4.
  - rewrite cut_fits in S3 by auto. injection R3 as R3 R4. rewrite <- R3 in R4. now rewrite S3, <- R4.
Qed.
Lemma lossless v w lm oc src l : w <= v -> read_tmf_w v lm oc src = Ok l -> Forall (fun mn => indices_fit w (fst mn)) l ->
  read_tmf_w w lm oc src = Ok l.
Proof.
  intros W R F. pose proof (so_read_w v w W lm oc src) as A. pose proof (so_read_w v v (le_n v) lm oc src) as B.
  rewrite R in A, B. cbn in B. destruct (read_tmf_w w lm oc src) as [l'|e|]; cbn in A; try contradiction. f_equal.
  clear R. revert B F. induction A as [|a b l l' A _ IH]; intros B F; [reflexivity|].
  inversion B as [|? ? ? ? B1 B2]; subst. apply Forall_cons_iff in F as [F1 F2].
  rewrite (IH B2 F2). f_equal. exact (cut_eq v w a b A B1 F1).
Qed.
