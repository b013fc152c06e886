(** A build with overflow checks and one without do the same unless the first
    panics. *)
From Coq Require Import List NArith ZArith Arith Bool Lia.
From Verif Require Import Base UnalignedRW ReadExt Triangles OptTris Floats Utilis Unify Vertices Uv
  Normals CustomData OptVertices Mesh Tmf File.
Import ListNotations.
Open Scope res_scope.

Definition agree {E A} (a b : res E A) : Prop := a = Panic \/ a = b.

Lemma agree_refl {E A} (a : res E A) : agree a a. Proof. right. reflexivity. Qed.
Lemma agree_bind {E A B} (m m' : res E A) (k k' : A -> res E B) :
  agree m m' -> (forall a, agree (k a) (k' a)) -> agree (bind m k) (bind m' k').
Proof. intros [-> | ->] H; [now left|]. destruct m' as [a|e|]; cbn [bind]; auto using agree_refl. Qed.
Lemma agree_map_err {E F A} (g : E -> F) (m m' : res E A) : agree m m' -> agree (map_err g m) (map_err g m').
Proof. intros [-> | ->]; [now left|apply agree_refl]. Qed.

Create HintDb agr.
#[local] Hint Resolve agree_refl : agr.
Ltac ag := repeat (cbv zeta; first
  [ apply agree_refl
  | solve [auto with agr]
  | apply agree_bind; [|let a := fresh in intros a; try (destruct a as [? ?])]
  | apply agree_map_err
  | match goal with |- agree (if ?x then _ else _) _ => destruct x end
  | match goal with |- agree (match ?x with _ => _ end) _ => destruct x end ]).

Lemma ag_shl64 {E} x k : agree (@shl64 E true x k) (shl64 false x k).
Proof. unfold shl64. destruct (k <? 64); [apply agree_refl|now left]. Qed.
Lemma ag_shr64 {E} x k : agree (@shr64 E true x k) (shr64 false x k).
Proof. unfold shr64. destruct (k <? 64); [apply agree_refl|now left]. Qed.
Lemma ag_add8 {E} x k : agree (@add8 E true x k) (add8 false x k).
Proof. unfold add8. destruct (x + k <? 256); [apply agree_refl|now left]. Qed.
Lemma ag_sub8 {E} x k : agree (@sub8 E true x k) (sub8 false x k).
Proof. unfold sub8. destruct (k <=? x); [apply agree_refl|now left]. Qed.
Lemma ag_add64 {E} x k : agree (@add64 E true x k) (add64 false x k).
Proof. unfold add64. destruct (x + k <? two64)%N; [apply agree_refl|now left]. Qed.
Lemma ag_sub64 {E} x k : agree (@sub64 E true x k) (sub64 false x k).
Proof. unfold sub64. destruct (k <=? x)%N; [apply agree_refl|now left]. Qed.
Lemma ag_mul64 {E} x k : agree (@mul64 E true x k) (mul64 false x k).
Proof. unfold mul64. destruct (x * k <? two64)%N; [apply agree_refl|now left]. Qed.
Lemma ag_sub_isize {E} x k : agree (@sub_isize E true x k) (sub_isize false x k).
Proof. unfold sub_isize. destruct (_ && _); [apply agree_refl|now left]. Qed.
Lemma ag_mask {E} p : agree (@mask_f32 E true p) (mask_f32 false p).
Proof.
  unfold mask_f32. apply agree_bind; [|intros; apply agree_refl]. unfold mask_i32.
  apply agree_bind.
  - destruct (p <? 32); [apply agree_refl|now left].
  - intros s. destruct (- 2 ^ 31 <=? s - 1)%Z; [apply agree_refl|now left].
Qed.
#[local] Hint Resolve ag_shl64 ag_shr64 ag_add8 ag_sub8 ag_add64 ag_sub64 ag_mul64 ag_sub_isize ag_mask : agr.

Lemma ag_read2 r m : agree (read2_unaligned true r m) (read2_unaligned false r m).
Proof. unfold read2_unaligned. ag. Qed.
Lemma ag_write_unaligned w n v : agree (write_unaligned true w n v) (write_unaligned false w n v).
Proof. unfold write_unaligned. ag. Qed.
#[local] Hint Resolve ag_read2 ag_write_unaligned : agr.
Lemma ag_write_fields fs : forall w, agree (write_fields true w fs) (write_fields false w fs).
Proof. induction fs as [|[n v] fs IH]; intros w; cbn [write_fields]; ag. Qed.
#[local] Hint Resolve ag_write_fields : agr.
Lemma ag_add_min a b : agree (add_min true a b) (add_min false a b).
Proof. unfold add_min. ag. Qed.
#[local] Hint Resolve ag_add_min : agr.
Lemma ag_save_triangles l m s : agree (save_triangles true l m s) (save_triangles false l m s).
Proof. unfold save_triangles. ag. Qed.
Lemma ag_tri_pairs n : forall r p m acc, agree (read_tri_pairs true n r p m acc) (read_tri_pairs false n r p m acc).
Proof. induction n as [|n IH]; intros; cbn [read_tri_pairs]; unfold io; ag. Qed.
Lemma ag_default_pairs n : forall i r p m buf,
  agree (default_tri_pairs true n i r p m buf) (default_tri_pairs false n i r p m buf).
Proof. induction n as [|n IH]; intros; cbn [default_tri_pairs]; unfold io; ag. Qed.
#[local] Hint Resolve ag_save_triangles ag_tri_pairs ag_default_pairs : agr.
Lemma ag_read_triangles ctx s : agree (read_triangles true ctx s) (read_triangles false ctx s).
Proof. unfold read_triangles, io. ag. Qed.
Lemma ag_read_default ctx s : agree (read_default_triangles true ctx s) (read_default_triangles false ctx s).
Proof. unfold read_default_triangles, read_default_cells, io. ag. Qed.
#[local] Hint Resolve ag_read_triangles ag_read_default : agr.

Lemma ag_split_score {E} len d0 d1 : agree (@calc_split_score E true len d0 d1) (calc_split_score false len d0 d1).
Proof. unfold calc_split_score. ag. Qed.
#[local] Hint Resolve ag_split_score : agr.
Lemma ag_scan_max {E} tris : forall i mx t b, agree (@scan_max E true tris i mx t b) (scan_max false tris i mx t b).
Proof. induction tris as [|x tris IH]; intros; cbn [scan_max]; ag. Qed.
Lemma ag_scan_min {E} tris : forall i mx t b, agree (@scan_min E true tris i mx t b) (scan_min false tris i mx t b).
Proof. induction tris as [|x tris IH]; intros; cbn [scan_min]; ag. Qed.
#[local] Hint Resolve ag_scan_max ag_scan_min : agr.
Lemma ag_opt_tris_fuel fuel : forall tris, agree (opt_tris_fuel true fuel tris) (opt_tris_fuel false fuel tris).
Proof. induction fuel as [|fuel IH]; intros tris; cbn [opt_tris_fuel]; ag. Qed.
Lemma ag_opt_tris tris : agree (opt_tris true tris) (opt_tris false tris).
Proof. apply ag_opt_tris_fuel. Qed.
Lemma ag_bit_count {E} lm s e :
  agree (@range_to_vertex_bit_count E lm true s e) (range_to_vertex_bit_count lm false s e).
Proof. unfold range_to_vertex_bit_count. ag. Qed.
#[local] Hint Resolve ag_opt_tris ag_bit_count : agr.
Lemma ag_vertex_scan {E} lm e total vs : forall i sp pv b,
  agree (@vertex_scan E lm true e total vs i sp pv b) (vertex_scan lm false e total vs i sp pv b).
Proof. induction vs as [|v vs IH]; intros; cbn [vertex_scan]; ag. Qed.
#[local] Hint Resolve ag_vertex_scan : agr.
Lemma ag_find_split {E} lm vs e :
  agree (@find_best_vertex_split E lm true vs e) (find_best_vertex_split lm false vs e).
Proof. unfold find_best_vertex_split. ag. Qed.
#[local] Hint Resolve ag_find_split : agr.
Lemma ag_opt_vertices_fuel lm fuel : forall vs,
  agree (opt_vertices_fuel lm true fuel vs) (opt_vertices_fuel lm false fuel vs).
Proof. induction fuel as [|fuel IH]; intros vs; cbn [opt_vertices_fuel]; ag. Qed.
Lemma ag_opt_vertices lm vs : agree (opt_vertices lm true vs) (opt_vertices lm false vs).
Proof. apply ag_opt_vertices_fuel. Qed.
#[local] Hint Resolve ag_opt_vertices : agr.
Lemma ag_optimize lm d : agree (optimize lm true d) (optimize lm false d).
Proof. unfold optimize. destruct d; ag. Qed.
#[local] Hint Resolve ag_optimize : agr.
Lemma ag_optimize_all lm l : agree (optimize_all lm true l) (optimize_all lm false l).
Proof. induction l as [|d l IH]; cbn [optimize_all]; ag. Qed.

Lemma ag_map_res {E A B} (f g : A -> res E B) l :
  (forall a, agree (f a) (g a)) -> agree (map_res f l) (map_res g l).
Proof. intros H. induction l as [|a l IH]; cbn [map_res]; ag. Qed.
Lemma ag_normal_to_encoding {E} lm n p :
  agree (@normal_to_encoding E lm true n p) (normal_to_encoding lm false n p).
Proof. unfold normal_to_encoding. ag. Qed.
#[local] Hint Resolve ag_normal_to_encoding : agr.
Lemma ag_save_vertices lm vs p e s : agree (save_tmf_vertices lm true vs p e s) (save_tmf_vertices lm false vs p e s).
Proof. unfold save_tmf_vertices. ag. Qed.
Lemma ag_save_normals lm l p s : agree (save_normal_array lm true l p s) (save_normal_array lm false l p s).
Proof.
  unfold save_normal_array. cbv zeta. apply agree_bind; [apply ag_map_res; intros; ag|]. intros. ag.
Qed.
Lemma ag_save_tangents lm l p s : agree (save_tangents lm true l p s) (save_tangents lm false l p s).
Proof.
  unfold save_tangents. cbv zeta. apply agree_bind; [apply ag_map_res; intros; ag|]. intros. ag.
Qed.
Lemma ag_save_uvs l p s : agree (save_uvs true l p s) (save_uvs false l p s).
Proof. unfold save_uvs. ag. Qed.
Lemma ag_cseg_encode lm c s : agree (cseg_encode lm true c s) (cseg_encode lm false c s).
Proof. unfold cseg_encode. destruct (_ <? _)%N; [apply agree_refl|]. destruct (c_data c); cbn [cdata_write]; ag. Qed.
#[local] Hint Resolve ag_save_vertices ag_save_normals ag_save_tangents ag_save_uvs ag_cseg_encode : agr.
Lemma ag_encode lm p e d : agree (encode lm true p e d) (encode lm false p e d).
Proof. unfold encode. destruct d; ag. Qed.

(** Actions. *)
Definition aagree {A} (a b : action A) : Prop := forall s, snd (a s) = Panic \/ a s = b s.
Lemma aag_refl {A} (a : action A) : aagree a a. Proof. intros s. now right. Qed.
Lemma aag_pure {A} (a b : res xerr A) : agree a b -> aagree (pure a) (pure b).
Proof. intros [-> | ->] s; [now left|now right]. Qed.
Lemma aag_bind {A B} (m m' : action A) (k k' : A -> action B) :
  aagree m m' -> (forall a, aagree (k a) (k' a)) -> aagree (abind m k) (abind m' k').
Proof.
  intros H K s. unfold abind. destruct (H s) as [E|E].
  - left. destruct (m s) as [s1 r]. cbn in E. now subst r.
  - rewrite E. destruct (m' s) as [s1 [a|e|]]; auto. apply K.
Qed.

Lemma aag_write_mesh lm p m name : aagree (write_mesh lm true p m name) (write_mesh lm false p m name).
Proof.
  unfold write_mesh. apply aag_bind; [apply aag_refl|intros _].
  apply aag_bind; [apply aag_refl|intros edge].
  apply aag_bind; [apply aag_pure, ag_optimize_all|intros segs]. cbv zeta.
  set (l := map (fun s => map_err XIo (encode lm true p edge s)) segs).
  set (l' := map (fun s => map_err XIo (encode lm false p edge s)) segs).
  assert (existsb is_panic l = true \/ l = l') as [E|E].
  { subst l l'. induction segs as [|d segs IH]; [now right|]. cbn [map existsb].
    destruct (agree_map_err XIo _ _ (ag_encode lm p edge d)) as [E|E].
    - left. now rewrite E.
    - destruct IH as [E'|E']; [left; now rewrite E', orb_true_r|right; now rewrite E, E']. }
  - rewrite E. intros s. now left.
  - rewrite E. apply aag_refl.
Qed.
Lemma aag_write_meshes lm p l : aagree (write_meshes lm true p l) (write_meshes lm false p l).
Proof.
  induction l as [|[m name] l IH]; cbn [write_meshes]; [apply aag_refl|].
  apply aag_bind; [apply aag_write_mesh|auto].
Qed.
Lemma aag_write_tmf lm p l : aagree (write_tmf lm true p l) (write_tmf lm false p l).
Proof. apply aag_bind; [apply aag_refl|intros _; apply aag_write_meshes]. Qed.

Lemma saved_agree lm p l : agree (saved lm true p l) (saved lm false p l).
Proof.
  unfold saved. destruct (aag_write_tmf lm p l (mk_sink [] None)) as [E|E].
  - left. destruct (write_tmf lm true p l (mk_sink [] None)) as [s r]. cbn in E. now subst r.
  - right. now rewrite E.
Qed.

(** Loading. *)
Lemma ag_read_normal_loop lm n : forall p r acc, agree (read_normal_loop lm true n p r acc) (read_normal_loop lm false n p r acc).
Proof. induction n as [|n IH]; intros; cbn [read_normal_loop]; unfold read_normal, io; ag. Qed.
Lemma ag_read_uv_loop n : forall r p d acc, agree (read_uv_loop true n r p d acc) (read_uv_loop false n r p d acc).
Proof. induction n as [|n IH]; intros; cbn [read_uv_loop]; unfold io; ag. Qed.
Lemma ag_read_color_loop n : forall r p mk acc, agree (read_color_loop true n r p mk acc) (read_color_loop false n r p mk acc).
Proof. induction n as [|n IH]; intros; cbn [read_color_loop]; unfold io; ag. Qed.
#[local] Hint Resolve ag_read_normal_loop ag_read_uv_loop ag_read_color_loop : agr.
Lemma ag_read_normals lm s : agree (read_normal_array lm true s) (read_normal_array lm false s).
Proof. unfold read_normal_array. ag. Qed.
Lemma ag_read_uvs s : agree (read_uvs true s) (read_uvs false s).
Proof. unfold read_uvs. ag. Qed.
Lemma ag_read_color s : agree (read_custom_color true s) (read_custom_color false s).
Proof. unfold read_custom_color. ag. Qed.
#[local] Hint Resolve ag_read_normals ag_read_uvs ag_read_color : agr.
Lemma ag_cseg_read ctx k s : agree (cseg_read true ctx k s) (cseg_read false ctx k s).
Proof. unfold cseg_read. ag. Qed.
Lemma ag_decode_tri ctx s : agree (decode_triangle_data true ctx s) (decode_triangle_data false ctx s).
Proof. unfold decode_triangle_data. ag. Qed.
#[local] Hint Resolve ag_cseg_read ag_decode_tri : agr.
Lemma ag_decode lm ctx s : agree (decode lm true ctx s) (decode lm false ctx s).
Proof. unfold decode. destruct (e_type s); ag. Qed.
Lemma ag_join lm ctx l : agree (join_collect (map (decode lm true ctx) l)) (join_collect (map (decode lm false ctx) l)).
Proof.
  assert (existsb is_panic (map (decode lm true ctx) l) = true \/
          map (decode lm true ctx) l = map (decode lm false ctx) l) as [E|E].
  { induction l as [|d l IH]; [now right|]. cbn [map existsb].
    destruct (ag_decode lm ctx d) as [E|E].
    - left. now rewrite E.
    - destruct IH as [E'|E']; [left; now rewrite E', orb_true_r|right; now rewrite E, E']. }
  - left. unfold join_collect. now rewrite E.
  - rewrite E. apply agree_refl.
Qed.
#[local] Hint Resolve ag_join : agr.
Lemma ag_import_mesh lm ctx s : agree (import_mesh lm true ctx s) (import_mesh lm false ctx s).
Proof. unfold import_mesh. ag. Qed.
#[local] Hint Resolve ag_import_mesh : agr.
Lemma ag_import_meshes lm ctx n : forall s, agree (import_meshes lm true ctx n s) (import_meshes lm false ctx n s).
Proof. induction n as [|n IH]; intros; cbn [import_meshes]; ag. Qed.
#[local] Hint Resolve ag_import_meshes : agr.
Lemma ag_import lm s : agree (import lm true s) (import lm false s).
Proof. unfold import. ag. Qed.
Lemma loaded_agree lm s : agree (read_tmf lm true s) (read_tmf lm false s).
Proof. unfold read_tmf. apply agree_bind; [apply ag_import|]. intros. apply agree_refl. Qed.
