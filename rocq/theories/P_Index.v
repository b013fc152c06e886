(** Property C64: programs built with another index type (features [short_indices] and
    [long_indices]) exchange files with ordinary ones. *)
From Coq Require Import List NArith ZArith Arith Lia Bool ZifyN ZifyNat ZifyBool.
From Flocq Require Import IEEE754.BinarySingleNaN.
From Verif Require Import Base BitSpec UnalignedRW UnalignedRW_proofs ReadExt ByteLemmas Triangles
  TriSpec Triangles_proofs OptTris Floats Utilis Unify Vertices Normals CustomData Mesh Tmf File FileSpec Parse_proofs File_proofs
  Demo SaveSpec Merge_proofs Save_proofs Agree_proofs Save2_proofs PlatformSpec Platform_proofs P_Save
  IndexWidth IndexSpec IndexWidth_proofs IndexWidth2_proofs IndexWidth3_proofs.
Import ListNotations.
Open Scope res_scope.

(** [w] and [v] are the widths in bits of the index type: 16 with the feature
    [short_indices], 32 without a feature, 64 with [long_indices].

    C64. Width 32 is the program of the other theorems. *)
Theorem C64_default : forall lm oc p l src m,
  read_tmf_w 32 lm oc src = read_tmf lm oc src /\ read_tmf_one_w 32 lm oc src = read_tmf_one lm oc src /\
  saved_w 32 lm oc p l = saved lm oc p l /\ verify_tmf_mesh_w 32 m = verify_tmf_mesh m.
Proof. intros. repeat split; reflexivity. Qed.
Print Assumptions C64_default.

(** C64. Any bytes, loaded with a wide and with a narrow index type: the same error, or
    both a panic, or the same meshes with the indices cut to the narrow type. *)
Theorem C64_same_file : forall v w lm oc src, w <= v ->
  same_outcome (Forall2 (cut_mesh w)) (read_tmf_w v lm oc src) (read_tmf_w w lm oc src).
Proof. intros v w lm oc src W. now apply so_read_w. Qed.
Print Assumptions C64_same_file.
Theorem C64_same_file_one : forall v w lm oc src, w <= v ->
  same_outcome (cut_mesh w) (read_tmf_one_w v lm oc src) (read_tmf_one_w w lm oc src).
Proof. intros v w lm oc src W. now apply so_read_one_w. Qed.
Print Assumptions C64_same_file_one.
(** So nothing is lost if the indices fit. *)
Theorem C64_lossless : forall v w lm oc src l, w <= v -> read_tmf_w v lm oc src = Ok l ->
  Forall (fun mn => indices_fit w (fst mn)) l -> read_tmf_w w lm oc src = Ok l.
Proof. exact lossless. Qed.
Print Assumptions C64_lossless.

(** C64. Two programs save a mesh whose indices fit both index types as the same bytes,
    with the same success, error or panic. *)
Theorem C64_same_bytes : forall v w lm oc p l,
  Forall (fun mn => indices_fit v (fst mn)) l -> Forall (fun mn => indices_fit w (fst mn)) l ->
  saved_w v lm oc p l = saved_w w lm oc p l.
Proof. intros v w lm oc p l V W. unfold saved_w. now rewrite (write_same v w). Qed.
Print Assumptions C64_same_bytes.

(** C64. What a program with one index type saved, a program with another one loads: names,
    index arrays and custom data exact, the other arrays of the same lengths. *)
Lemma fit_shape w a b : same_shape_rev a b -> indices_fit w a -> indices_fit w b.
Proof.
  intros [[E1 E2 E3 E4 _ _ _ _] C] [F1 F2 F3 F4 F5]. constructor; try congruence.
  assert (G : Forall (fits_custom w) (rev (custom_data a))) by now apply Forall_rev.
  revert G. induction C as [|s t l l' (_ & _ & S) _ IH]; intros G; constructor; apply Forall_cons_iff in G as [G1 G2]; auto.
  unfold fits_custom, same_data in *. destruct (c_data s), (c_data t); try contradiction; auto; now subst.
Qed.
Lemma storable_fit w m : 31 <= w -> storable m -> indices_fit w m.
Proof.
  intros W [_ _ _ _ S1 S2 S3 S4 S5].
  assert (G : forall o, indices_ok o -> fits_opt w o).
  { intros [l|] H; cbn; auto. destruct (H l eq_refl) as [_ F]. now apply fits31. }
  constructor; auto. eapply Forall_impl; [|exact S5]. intros s (_ & _ & _ & C). unfold fits_custom.
  destruct (c_data s); auto; destruct C as (_ & C & _); apply fits31; auto; (eapply Forall_impl; [|exact C]); cbv beta; tauto.
Qed.
Theorem C64_exchange : forall v w lm lm' oc' p l out, w <= 64 ->
  precision_ok p -> list_ok lm l ->
  Forall (fun mn => indices_fit v (fst mn)) l -> Forall (fun mn => indices_fit w (fst mn)) l ->
  saved_w v lm true p l = Ok out ->
  exists l', read_tmf_w w lm' oc' out = Ok l' /\
    Forall2 (fun a b => snd a = snd b /\ same_shape_rev (fst a) (fst b)) l l'.
Proof.
  intros v w lm lm' oc' p l out W HP HL FV FW S.
  assert (F32 : Forall (fun mn => indices_fit 32 (fst mn)) l).
  { eapply Forall_impl; [|exact (proj2 HL)]. intros mn (H & _). apply storable_fit; [lia|auto]. }
  rewrite (C64_same_bytes v 32) in S by auto. change (saved lm true p l = Ok out) in S.
  destruct (loads lm lm' oc' p l out HP HL S) as (l' & R & F). exists l'. split; [|exact F].
  apply (lossless 64); [exact W| |].
  - rewrite (read64 lm lm' oc' p l out HP HL S). exact R.
  - clear -F FW. induction F as [|a b l l' [_ H] _ IH]; constructor; apply Forall_cons_iff in FW as [F1 F2]; auto.
    eapply fit_shape; eauto.
Qed.
Print Assumptions C64_exchange.

(** C64. Index arrays of wide types. The result of saving an array, with any declared
    maximum [m] that it respects, reads back in the same index type. *)
Theorem C64_wide_indices : forall w oc oc' tris m rest, w <= 64 -> fits_all w tris ->
  (len tris <= 2 ^ 31)%N -> (m < 2 ^ 31 \/ 2 ^ 32 <= m < 2 ^ 63)%N -> all_le m tris -> bytes_ok rest ->
  exists bytes, save_triangles oc tris m [] = Ok bytes /\
    read_triangles_w w oc' new_ctx (bytes ++ rest) = Ok tris /\
    read_default_triangles_w w oc' new_ctx (bytes ++ rest) = Ok tris.
Proof. exact roundtrip_any. Qed.
Print Assumptions C64_wide_indices.

(** C64. Verification gives the same verdict when the lengths of the arrays fit both index
    types; otherwise a mesh accepted with the narrower type is accepted with the wider. *)
Definition length_fits {A} (w : nat) (o : option (list A)) : Prop :=
  forall l, o = Some l -> (len l < 2 ^ N.of_nat w)%N.
Theorem C64_verify_same : forall v w m,
  length_fits v (vertices m) -> length_fits v (normals m) -> length_fits v (uvs m) ->
  length_fits w (vertices m) -> length_fits w (normals m) -> length_fits w (uvs m) ->
  verify_tmf_mesh_w v m = verify_tmf_mesh_w w m.
Proof.
  assert (G : forall A w (l : list A), (len l < 2 ^ N.of_nat w)%N -> len_w w l = len l).
  { intros A w l H. unfold len_w, imod. now rewrite N.mod_small. }
  intros v w m A1 A2 A3 B1 B2 B3. unfold verify_tmf_mesh_w.
  replace (verify_vertices_w v m) with (verify_vertices_w w m).
  2:{ unfold verify_vertices_w. destruct (vertices m) as [l|]; auto. now rewrite !G by auto. }
  replace (verify_normals_w v m) with (verify_normals_w w m).
  2:{ unfold verify_normals_w. destruct (normals m) as [l|]; auto. now rewrite !G by auto. }
  replace (verify_uvs_w v m) with (verify_uvs_w w m); auto.
  unfold verify_uvs_w. destruct (uvs m) as [l|]; auto. now rewrite !G by auto.
Qed.
Print Assumptions C64_verify_same.
Lemma len_le {A} v w (l : list A) : w <= v -> (len_w w l <= len_w v l)%N.
Proof.
  intros W. unfold len_w, imod. set (n := N.of_nat (length l)).
  replace (2 ^ N.of_nat v)%N with (2 ^ N.of_nat w * 2 ^ N.of_nat (v - w))%N.
  - rewrite N.mod_mul_r; try (apply N.pow_nonzero; discriminate). apply N.le_add_r.
  - rewrite <- N.pow_add_r. f_equal. lia.
Qed.
Lemma inside_mono t : forall a b, (a <= b)%N -> indices_inside_array t a = None -> indices_inside_array t b = None.
Proof.
  induction t as [|i t IH]; intros a b L H; [reflexivity|]. cbn [indices_inside_array] in *.
  destruct (a <? i)%N eqn:A; [discriminate H|]. destruct (b <? i)%N eqn:B; [lia|]. eauto.
Qed.
Theorem C64_verify_sound : forall v w m, w <= v -> verify_tmf_mesh_w w m = Ok tt -> verify_tmf_mesh_w v m = Ok tt.
Proof.
  intros v w m W H. unfold verify_tmf_mesh_w in *.
  assert (G : verify_vertices_w w m = None /\ verify_normals_w w m = None /\ verify_uvs_w w m = None).
  { destruct (verify_vertices_w w m), (verify_normals_w w m), (verify_uvs_w w m); cbn [somes] in H; try discriminate H; auto. }
  destruct G as (G1 & G2 & G3).
  assert (verify_vertices_w v m = None) as ->.
  { unfold verify_vertices_w in *. destruct (vertices m) as [l|]; auto. destruct (vertex_triangles m) as [t|]; auto.
    destruct (indices_inside_array t (len_w w l)) eqn:E; [discriminate G1|]. now rewrite (inside_mono t _ _ (len_le v w l W) E). }
  assert (verify_normals_w v m = None) as ->.
  { unfold verify_normals_w in *. destruct (normals m) as [l|]; auto. destruct (existsb _ _); auto. destruct (normal_triangles m) as [t|]; auto.
    destruct (indices_inside_array t (len_w w l)) eqn:E; [discriminate G2|]. now rewrite (inside_mono t _ _ (len_le v w l W) E). }
  assert (verify_uvs_w v m = None) as ->; [|reflexivity].
  unfold verify_uvs_w in *. destruct (uvs m) as [l|]; auto. destruct (uv_range_loop l); auto. destruct (uv_triangles m) as [t|]; auto.
  destruct (indices_inside_array t (len_w w l)) eqn:E; [discriminate G3|]. now rewrite (inside_mono t _ _ (len_le v w l W) E).
Qed.
Print Assumptions C64_verify_sound.

(** The hypotheses are met: the meshes of P_Save, saved with 16-bit indices, load with 64-bit
    ones, and the other way round. *)
Lemma demo_fits : Forall (fun mn => indices_fit 16 (fst mn)) demo_list /\ Forall (fun mn => indices_fit 64 (fst mn)) demo_list.
Proof.
  split; (apply Forall_cons; [|apply Forall_cons; [|apply Forall_nil]]); constructor; cbn; auto;
    repeat (apply Forall_cons; [cbn; first [reflexivity | repeat (apply Forall_cons; [reflexivity|]); apply Forall_nil | exact I]|]); apply Forall_nil.
Qed.
Example C64_case : forall oc', exists out l1 l2,
  saved_w 16 demo true demo_prec demo_list = Ok out /\ saved_w 64 demo true demo_prec demo_list = Ok out /\
  read_tmf_w 64 demo oc' out = Ok l1 /\ read_tmf_w 16 demo oc' out = Ok l2 /\
  map (fun mn => vertex_triangles (fst mn)) l1 = [Some cube_triangles; None] /\
  map (fun mn => vertex_triangles (fst mn)) l2 = [Some cube_triangles; None].
Proof.
  intros oc'. assert (exists out, saved_w 16 demo true demo_prec demo_list = Ok out) as [out S].
  { eexists. vm_compute. reflexivity. }
  destruct demo_ok as [D1 D2]. destruct demo_fits as [F1 F2].
  assert (S2 : saved_w 64 demo true demo_prec demo_list = Ok out) by (rewrite (C64_same_bytes 64 16 _ _ _ _ F2 F1); exact S).
  assert (G : forall l', Forall2 (fun a b => snd a = snd b /\ same_shape_rev (fst a) (fst b)) demo_list l' ->
              map (fun mn => vertex_triangles (fst mn)) l' = [Some cube_triangles; None]).
  { intros l' F. inversion F as [|a b ? ? [_ [[E1] _]] H]; subst. inversion H as [|c d ? ? [_ [[E2] _]] H2]; subst. inversion H2; subst.
    cbn [map fst vertex_triangles demo_mesh empty] in *. congruence. }
  destruct (C64_exchange 16 64 demo demo oc' demo_prec demo_list out (le_n 64) D1 D2 F1 F2 S) as (l1 & R1 & Q1).
  destruct (C64_exchange 64 16 demo demo oc' demo_prec demo_list out ltac:(lia) D1 D2 F2 F1 S2) as (l2 & R2 & Q2).
  exists out, l1, l2. split; [exact S|]. split; [exact S2|]. split; [exact R1|]. split; [exact R2|]. split; [exact (G l1 Q1)|exact (G l2 Q2)].
Qed.
Example C64_wide_case : exists bytes,
  save_triangles true [8589934592; 7; 4294967296]%N 8589934592 [] = Ok bytes /\
  read_triangles_w 64 true new_ctx bytes = Ok [8589934592; 7; 4294967296]%N.
Proof.
  destruct (C64_wide_indices 64 true true [8589934592; 7; 4294967296]%N 8589934592 []) as (b & S & R & _).
  - lia.
  - repeat (apply Forall_cons; [reflexivity|]); apply Forall_nil.
  - vm_compute. discriminate.
  - right. split; [vm_compute; discriminate|reflexivity].
  - repeat (apply Forall_cons; [vm_compute; discriminate|]); apply Forall_nil.
  - apply Forall_nil.
  - exists b. rewrite app_nil_r in R. auto.
Qed.

(** An index that does not fit is not an error: it wraps. An ordinary program saves the
    triangle (0,1,65536); the short_indices program loads it as (0,1,0). *)
Definition wide_mesh : mesh := with_vertex_triangles empty (Some [0; 1; 65536]%N).
Theorem C64_wrap_refuted : exists out l l16,
  saved_w 32 demo true demo_prec [(wide_mesh, [])] = Ok out /\
  read_tmf_w 32 demo true out = Ok l /\ map (fun mn => vertex_triangles (fst mn)) l = [Some [0; 1; 65536]%N] /\
  read_tmf_w 16 demo true out = Ok l16 /\ map (fun mn => vertex_triangles (fst mn)) l16 = [Some [0; 1; 0]%N].
Proof. do 3 eexists. split; [vm_compute; reflexivity|]. repeat split; vm_compute; reflexivity. Qed.
Print Assumptions C64_wrap_refuted.
(** With long_indices the largest indices are lost, like those of 2^31 and more that have 32
    bits. *)
Theorem C64_long_refuted :
  (exists out l, saved_w 64 demo true demo_prec [(with_vertex_triangles empty (Some [0; 1; 2 ^ 63]%N), [])] = Ok out /\
    read_tmf_w 64 demo true out = Ok l /\ map (fun mn => vertex_triangles (fst mn)) l = [Some [0; 0; 0]%N]) /\
  (exists out l, saved_w 64 demo true demo_prec [(with_vertex_triangles empty (Some [0; 1; 2 ^ 31]%N), [])] = Ok out /\
    read_tmf_w 64 demo true out = Ok l /\ map (fun mn => vertex_triangles (fst mn)) l = [Some [0; 0; 0]%N]).
Proof. split; do 2 eexists; (split; [vm_compute; reflexivity|]; split; vm_compute; reflexivity). Qed.
Print Assumptions C64_long_refuted.
(** With short_indices a mesh of 65536 vertices is rejected although all its indices are
    inside the array. *)
Lemma verify_wrapped vs : len vs = 65536%N ->
  let m := mk_mesh None None (Some vs) (Some [0; 1; 2]%N) None None None None [] in
  length_fits 32 (vertices m) /\ indices_fit 16 m /\
  verify_tmf_mesh_w 32 m = Ok tt /\ verify_tmf_mesh_w 16 m = Err (IndexOutsideVertexArray 1 0).
Proof.
  intros L m. unfold len in L. split; [|split; [|split]].
  - intros l E. injection E as <-. unfold len. rewrite L. reflexivity.
  - constructor; cbn; auto. repeat (apply Forall_cons; [reflexivity|]); apply Forall_nil.
  - unfold verify_tmf_mesh_w, verify_vertices_w, verify_normals_w, verify_uvs_w. cbn [m vertices normals uvs vertex_triangles normal_triangles uv_triangles].
    unfold len_w. rewrite L. reflexivity.
  - unfold verify_tmf_mesh_w, verify_vertices_w, verify_normals_w, verify_uvs_w. cbn [m vertices normals uvs vertex_triangles normal_triangles uv_triangles].
    unfold len_w. rewrite L. reflexivity.
Qed.
Theorem C64_verify_refuted : exists m, length_fits 32 (vertices m) /\ indices_fit 16 m /\
  verify_tmf_mesh_w 32 m = Ok tt /\ verify_tmf_mesh_w 16 m = Err (IndexOutsideVertexArray 1 0).
Proof.
  assert (E : exists vs : list vec3, len vs = 65536%N).
  { exists (repeat (f0, f0, f0) (N.to_nat 65536)). unfold len. rewrite repeat_length. apply N2Nat.id. }
  destruct E as [vs E]. eexists. exact (verify_wrapped vs E).
Qed.
Print Assumptions C64_verify_refuted.
(** The verdict is the same on a mesh of a few vertices. *)
Example C64_verify_case : verify_tmf_mesh_w 16 demo_mesh = Ok tt /\ verify_tmf_mesh_w 64 demo_mesh = verify_tmf_mesh_w 16 demo_mesh.
Proof.
  split; [vm_compute; reflexivity|]. apply C64_verify_same; intros l E; injection E as <-; reflexivity.
Qed.
