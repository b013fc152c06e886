(** A build with [double_precision] and overflow checks saves as one without the checks does,
    unless it panics. *)
From Coq Require Import List NArith ZArith Arith Bool Lia.
From Verif Require Import Base UnalignedRW ReadExt Triangles OptTris Floats Utilis Unify Vertices Uv
  Normals CustomData OptVertices Mesh Tmf File Agree_proofs Double DoubleSave.
Import ListNotations.
Open Scope res_scope.

Lemma ag_mask_d {E} p : agree (@mask_f64 E true p) (mask_f64 false p).
Proof.
  unfold mask_f64. apply agree_bind; [|intros; apply agree_refl]. unfold mask_i32.
  apply agree_bind.
  - destruct (p <? 32); [apply agree_refl|now left].
  - intros s. destruct (- 2 ^ 31 <=? s - 1)%Z; [apply agree_refl|now left].
Qed.
#[local] Hint Resolve agree_refl ag_shl64 ag_shr64 ag_add8 ag_sub8 ag_add64 ag_sub64 ag_mul64 ag_sub_isize ag_mask_d
  ag_write_fields ag_add_min ag_save_triangles ag_split_score : agr.
Lemma ag_bit_count_d {E} lm s e :
  agree (@range_to_vertex_bit_count_d E lm true s e) (range_to_vertex_bit_count_d lm false s e).
Proof. unfold range_to_vertex_bit_count_d. ag. Qed.
#[local] Hint Resolve ag_opt_tris ag_bit_count_d : agr.
Lemma ag_vertex_scan_d {E} lm e total vs : forall i sp pv b,
  agree (@vertex_scan_d E lm true e total vs i sp pv b) (vertex_scan_d lm false e total vs i sp pv b).
Proof. induction vs as [|v vs IH]; intros; cbn [vertex_scan_d]; ag. Qed.
#[local] Hint Resolve ag_vertex_scan_d : agr.
Lemma ag_find_split_d {E} lm vs e :
  agree (@find_best_vertex_split_d E lm true vs e) (find_best_vertex_split_d lm false vs e).
Proof. unfold find_best_vertex_split_d. ag. Qed.
#[local] Hint Resolve ag_find_split_d : agr.
Lemma ag_opt_vertices_fuel_d lm fuel : forall vs,
  agree (opt_vertices_fuel_d lm true fuel vs) (opt_vertices_fuel_d lm false fuel vs).
Proof. induction fuel as [|fuel IH]; intros vs; cbn [opt_vertices_fuel_d]; ag. Qed.
Lemma ag_opt_vertices_d lm vs : agree (opt_vertices_d lm true vs) (opt_vertices_d lm false vs).
Proof. apply ag_opt_vertices_fuel_d. Qed.
#[local] Hint Resolve ag_opt_vertices_d : agr.
Lemma ag_optimize_d lm d : agree (optimize_d lm true d) (optimize_d lm false d).
Proof. unfold optimize_d. destruct d; ag. Qed.
#[local] Hint Resolve ag_optimize_d : agr.
Lemma ag_optimize_all_d lm l : agree (optimize_all_d lm true l) (optimize_all_d lm false l).
Proof. induction l as [|d l IH]; cbn [optimize_all_d]; ag. Qed.

Lemma ag_normal_to_encoding_d {E} lm n p :
  agree (@normal_to_encoding_d E lm true n p) (normal_to_encoding_d lm false n p).
Proof. unfold normal_to_encoding_d. ag. Qed.
#[local] Hint Resolve ag_normal_to_encoding_d : agr.
Lemma ag_save_vertices_d lm vs p e s : agree (save_tmf_vertices_d lm true vs p e s) (save_tmf_vertices_d lm false vs p e s).
Proof. unfold save_tmf_vertices_d. ag. Qed.
Lemma ag_save_normals_d lm l p s : agree (save_normal_array_d lm true l p s) (save_normal_array_d lm false l p s).
Proof.
  unfold save_normal_array_d. cbv zeta. apply agree_bind; [apply ag_map_res; intros; ag|]. intros. ag.
Qed.
Lemma ag_save_tangents_d lm l p s : agree (save_tangents_d lm true l p s) (save_tangents_d lm false l p s).
Proof.
  unfold save_tangents_d. cbv zeta. apply agree_bind; [apply ag_map_res; intros; ag|]. intros. ag.
Qed.
Lemma ag_save_uvs_d l p s : agree (save_uvs_d true l p s) (save_uvs_d false l p s).
Proof. unfold save_uvs_d. ag. Qed.
Lemma ag_cseg_encode_d lm c s : agree (cseg_encode_d lm true c s) (cseg_encode_d lm false c s).
Proof. unfold cseg_encode_d. destruct (_ <? _)%N; [apply agree_refl|]. destruct (x_data c); cbn [cdata_write_d]; ag. Qed.
#[local] Hint Resolve ag_save_vertices_d ag_save_normals_d ag_save_tangents_d ag_save_uvs_d ag_cseg_encode_d : agr.
Lemma ag_encode_d lm p e d : agree (encode_d lm true p e d) (encode_d lm false p e d).
Proof. unfold encode_d. destruct d; ag. Qed.

Lemma aag_write_mesh_d lm p m name : aagree (write_mesh_d lm true p m name) (write_mesh_d lm false p m name).
Proof.
  unfold write_mesh_d. apply aag_bind; [apply aag_refl|intros _].
  apply aag_bind; [apply aag_refl|intros edge].
  apply aag_bind; [apply aag_pure, ag_optimize_all_d|intros segs]. cbv zeta.
  set (l := map (fun s => map_err XIo (encode_d lm true p edge s)) segs).
  set (l' := map (fun s => map_err XIo (encode_d lm false p edge s)) segs).
  assert (existsb is_panic l = true \/ l = l') as [E|E].
  { subst l l'. induction segs as [|d segs IH]; [now right|]. cbn [map existsb].
    destruct (agree_map_err XIo _ _ (ag_encode_d lm p edge d)) as [E|E].
    - left. now rewrite E.
    - destruct IH as [E'|E']; [left; now rewrite E', orb_true_r|right; now rewrite E, E']. }
  - rewrite E. intros s. now left.
  - rewrite E. apply aag_refl.
Qed.
Lemma aag_write_meshes_d lm p l : aagree (write_meshes_d lm true p l) (write_meshes_d lm false p l).
Proof.
  induction l as [|[m name] l IH]; cbn [write_meshes_d]; [apply aag_refl|].
  apply aag_bind; [apply aag_write_mesh_d|auto].
Qed.
Lemma aag_write_tmf_d lm p l : aagree (write_tmf_d lm true p l) (write_tmf_d lm false p l).
Proof. apply aag_bind; [apply aag_refl|intros _; apply aag_write_meshes_d]. Qed.

Lemma saved_agree_d lm p l : agree (saved_d lm true p l) (saved_d lm false p l).
Proof.
  unfold saved_d. destruct (aag_write_tmf_d lm p l (mk_sink [] None)) as [E|E].
  - left. destruct (write_tmf_d lm true p l (mk_sink [] None)) as [s r]. cbn in E. now subst r.
  - right. now rewrite E.
Qed.

