(** C51: normalising the normals. *)
From Coq Require Import List NArith ZArith Arith Lia Bool Reals Lra.
From Flocq Require Import Core IEEE754.BinarySingleNaN.
From Verif Require Import Base Floats Floats_proofs FloatReal_proofs ValueSpec Utilis CustomData Mesh FileSpec MeshSpec Mesh2_proofs NormalReal_proofs Normalize_proofs P_Mesh.
Import ListNotations.
Local Open Scope R_scope.

(** Nothing but the normals changes. The array of normals keeps its length and order,
    and every normal of ordinary size becomes a vector of length 1 up to rounding, in
    the same direction up to 2^-21 in each component. *)
Theorem C51_normalize : forall m, let m' := mesh_normalize m in
  arrays (fun n n' => ordinary n -> unit_vector n' /\ same_direction (/ 2 ^ 21) n n') (normals m) (normals m') /\
  vertices m' = vertices m /\ vertex_triangles m' = vertex_triangles m /\ normal_triangles m' = normal_triangles m /\
  uvs m' = uvs m /\ uv_triangles m' = uv_triangles m /\ tangents m' = tangents m /\ tangent_triangles m' = tangent_triangles m /\
  custom_data m' = custom_data m.
Proof.
  intros m. cbv zeta. unfold mesh_normalize. destruct (normals m) as [l|] eqn:E; [|rewrite E; cbn; auto 20].
  split; [|cbn; auto 20]. cbn [normals with_normals arrays].
  clear E. induction l as [|n l IH]; cbn [map]; constructor; [|exact IH].
  intros O. destruct (normalize_R n O) as (A & B & _). split; auto. replace (/ 2 ^ 21) with (8 * u32) by (unfold u32; simpl pow; lra). exact B.
Qed.

Lemma normalize_others m : vertices (mesh_normalize m) = vertices m /\ uvs (mesh_normalize m) = uvs m /\
  vertex_triangles (mesh_normalize m) = vertex_triangles m /\ uv_triangles (mesh_normalize m) = uv_triangles m /\ normal_triangles (mesh_normalize m) = normal_triangles m.
Proof. unfold mesh_normalize. destruct (normals m); cbn; auto. Qed.
(** The normals of the result pass the verification, and their computed lengths lie
    between 0.99999 and 1.00001, as documented. *)
Theorem C51_verified : forall m l, normals m = Some l -> Forall ordinary l ->
  u32_length (vertices m) -> u32_length (normals m) -> u32_length (uvs m) ->
  (verify_tmf_mesh (mesh_normalize m) = Ok tt <->
   indices_at_most (vertices m) (vertex_triangles m) /\ indices_at_most (normals m) (normal_triangles m) /\ indices_at_most (uvs m) (uv_triangles m)) /\
  forall l' n, normals (mesh_normalize m) = Some l' -> In n l' -> finite (magnitude n) /\ 0.99999 < val (magnitude n) < 1.00001.
Proof.
  intros m l E O S1 S2 S3. pose proof (normalize_others m) as (N1 & N2 & N3 & N4 & N5).
  assert (EN : normals (mesh_normalize m) = Some (map normalize l)) by (unfold mesh_normalize; rewrite E; reflexivity).
  assert (U : forall n, In n (map normalize l) -> unit_vector n).
  { intros n I. apply in_map_iff in I as (a & <- & I). rewrite Forall_forall in O. apply normalize_R. auto. }
  split.
  - rewrite C29_verify_ok, N1, N2, N3, N4, N5, EN; rewrite ?N1, ?N2; auto.
    + assert (IM : indices_at_most (Some (map normalize l)) (normal_triangles m) <-> indices_at_most (normals m) (normal_triangles m)).
      { rewrite E. unfold indices_at_most. destruct (normal_triangles m) as [t|]; [|tauto].
        split; intros (x & X & I); injection X as <-; eexists; (split; [reflexivity|]); unfold len in *; rewrite map_length in *; exact I. }
      rewrite IM. split; [tauto|]. intros (A & B & C). split; auto. split; auto. split; auto.
      intros l' n El I. injection El as <-. unfold length_off. destruct (one_ok n (U n I)) as [G _]. unfold not_normalized in G. rewrite G. discriminate.
    + rewrite EN. intros l' El. injection El as <-. unfold len. rewrite map_length. exact (S2 l E).
  - intros l' n El I. rewrite EN in El. injection El as <-. destruct (one_ok n (U n I)) as (_ & G1 & G2). split; [exact G1|exact G2].
Qed.

(** What happens to other vectors. Too small: the components become infinite, or NaN
    where they are zero. *)
Definition infinite (x : f32) : Prop := exists s, x = B754_infinity s.
Definition zero (x : f32) : Prop := exists s, x = B754_zero s.
Definition each (P : f32 -> Prop) (n : vec3) : Prop := P (fst (fst n)) /\ P (snd (fst n)) /\ P (snd n).
Theorem C51_too_small : forall x y z, each (fun c => finite c /\ Rabs (val c) <= / 2 ^ 76) (x, y, z) ->
  exists x' y' z', normalize (x, y, z) = (x', y', z') /\
  (val x = 0 -> x' = B754_nan) /\ (val x <> 0 -> infinite x') /\ (val y = 0 -> y' = B754_nan) /\ (val y <> 0 -> infinite y') /\
  (val z = 0 -> z' = B754_nan) /\ (val z <> 0 -> infinite z').
Proof.
  intros x y z ((Fx & Bx) & (Fy & By) & (Fz & Bz)). cbn [fst snd] in *.
  destruct (fmul_small x Fx Bx) as [X1 X2]. destruct (fmul_small y Fy By) as [Y1 Y2]. destruct (fmul_small z Fz Bz) as [Z1 Z2].
  destruct (zeros_magnitude x y z) as [s E]; try now apply zero_or.
  rewrite (normalize_by x y z _ E eq_refl). do 3 eexists. split; [reflexivity|].
  destruct (div_zero x s Fx), (div_zero y s Fy), (div_zero z s Fz). unfold infinite. auto 10.
Qed.
(** Too large: all components become zero, and the verification reports it. *)
Theorem C51_too_large : forall x y z, each finite (x, y, z) -> 2 ^ 64 <= Rabs (val x) \/ 2 ^ 64 <= Rabs (val y) \/ 2 ^ 64 <= Rabs (val z) ->
  each zero (normalize (x, y, z)) /\ length_off (normalize (x, y, z)).
Proof.
  intros x y z (Fx & Fy & Fz) D. cbn [fst snd] in *. rewrite (normalize_by x y z _ (huge_magnitude x y z Fx Fy Fz D) eq_refl).
  destruct (div_inf x Fx) as [a A], (div_inf y Fy) as [b B], (div_inf z Fz) as [c C]. rewrite A, B, C. split; [repeat split; eexists; reflexivity|]. apply zeros_off.
Qed.
(** Not a number: the zero vector, and the verification reports it. *)
Theorem C51_nan : forall x y z, x = B754_nan \/ y = B754_nan \/ z = B754_nan ->
  normalize (x, y, z) = (f0, f0, f0) /\ length_off (normalize (x, y, z)).
Proof.
  intros x y z D. assert (E : magnitude (x, y, z) = B754_nan) by (apply nan_magnitude; destruct D as [->|[->| ->]]; auto).
  assert (N : normalize (x, y, z) = (f0, f0, f0)).
  { unfold normalize, vx, vy, vz. cbn [fst snd]. change (fsqrt (fadd (fadd (fmul x x) (fmul y y)) (fmul z z))) with (magnitude (x, y, z)). now rewrite E. }
  rewrite N. split; auto. apply zeros_off.
Qed.
(** A normal that is zero becomes NaN, and the verification accepts the mesh: the
    property does not hold for it. Nor does it for some normals that are not zero. *)
Definition one_normal (n : vec3) : mesh := with_normals empty (Some [n]).
Theorem C51_zero_refuted : exists m, normals m = Some [(f0, f0, f0)] /\
  normals (mesh_normalize m) = Some [(B754_nan, B754_nan, B754_nan)] /\ verify_tmf_mesh (mesh_normalize m) = Ok tt.
Proof. exists (one_normal (f0, f0, f0)). repeat split. Qed.
Definition tiny : f32 := flit 1 (2 ^ 80).
Definition huge : f32 := f32_of_Z (2 ^ 70).
Theorem C51_nonzero_refuted : each finite (tiny, f0, f0) /\ val tiny <> 0 /\ each finite (huge, f0, f0) /\ val huge <> 0 /\
  normals (mesh_normalize (one_normal (tiny, f0, f0))) = Some [(f32_inf, B754_nan, B754_nan)] /\
  normals (mesh_normalize (one_normal (huge, f0, f0))) = Some [(f0, f0, f0)].
Proof.
  split; [repeat split|]. split.
  { intros Z. destruct (zero_or tiny eq_refl Z) as [s E]. apply (f_equal (fun v => B2SF v)) in E. vm_compute in E. discriminate E. }
  split; [repeat split|]. split.
  { intros Z. destruct (zero_or huge eq_refl Z) as [s E]. apply (f_equal (fun v => B2SF v)) in E. vm_compute in E. discriminate E. }
  assert (G : forall a b : f32, B2SF a = B2SF b -> a = b) by (intros a b; apply B2SF_inj).
  cbn [mesh_normalize one_normal normals with_normals empty map]. split; f_equal; f_equal;
    rewrite (normalize_by _ _ _ _ eq_refl eq_refl); (f_equal; [f_equal|]); apply G; vm_compute; reflexivity.
Qed.
(** (3, 0, -4) meets the hypotheses. *)
Example C51_case : ordinary (f32_of_Z 3, f0, f32_of_Z (-4)) /\ u32_length (normals (one_normal (f32_of_Z 3, f0, f32_of_Z (-4)))).
Proof.
  destruct (f32_of_Z_exact 3 ltac:(lia)) as [A1 A2]. destruct (f32_of_Z_exact (-4) ltac:(lia)) as [B1 B2].
  assert (P : 4 <= 2 ^ 50) by (rewrite p50; apply IZR_le; lia). assert (Q : / 2 ^ 50 <= 3) by (rewrite p50; cbn; lra).
  split.
  - split; [repeat split; auto|]. cbn [fst snd]. change val with R32. rewrite A1, B1. change (R32 f0) with 0.
    rewrite Rabs_R0, (Rabs_pos_eq 3), (Rabs_left (-4)) by lra. split; [repeat split; lra|left; lra].
  - intros l E. injection E as <-. reflexivity.
Qed.
Print Assumptions C51_normalize.
Print Assumptions C51_verified.
Print Assumptions C51_too_small.
Print Assumptions C51_too_large.
Print Assumptions C51_nan.
Print Assumptions C51_zero_refuted.
Print Assumptions C51_nonzero_refuted.
