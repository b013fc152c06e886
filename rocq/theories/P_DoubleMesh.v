(** C82: normalising and verifying with [double_precision]. *)
From Coq Require Import List NArith ZArith Arith Lia Bool Reals Lra.
From Flocq Require Import Core IEEE754.BinarySingleNaN.
From Verif Require Import Base Floats Floats_proofs FloatReal_proofs ValueSpec Log2_proofs Trig_proofs NormalReal_proofs Unify CustomData Mesh FileSpec MeshSpec Mesh2_proofs
  Double DoubleSpec DoubleSave DoubleValueSpec DoubleNormalSpec DoubleMesh DoubleMeshSpec Double2_proofs DQuant_proofs DNormal_proofs DNormalize_proofs DMesh_proofs DVerify_proofs.
Import ListNotations.
Local Open Scope R_scope.

(** C82. A mesh passes exactly if absent data has no indices, every index is at most the
    number of elements, and no computed length of a normal is off by more than 0.001. *)
Theorem C82_verify_ok : forall m, u32_length (d_vertices m) -> u32_length (d_normals m) -> u32_length (d_uvs m) ->
  (verify_tmf_mesh_d m = Ok tt <->
   indices_at_most (d_vertices m) (d_vertex_triangles m) /\
   indices_at_most (d_normals m) (d_normal_triangles m) /\
   indices_at_most (d_uvs m) (d_uv_triangles m) /\
   forall l n, d_normals m = Some l -> In n l -> ~ length_off_d n).
Proof.
  intros m S1 S2 S3. rewrite verify_ok_iff_d.
  assert (D : reported_d (verify_tmf_mesh_d m) = [] <-> forall e, ~ In e (reported_d (verify_tmf_mesh_d m))).
  { split; [intros -> e []|]. destruct (reported_d _); auto. intros H. exfalso. eapply H. left. reflexivity. }
  rewrite D.
  assert (O : ~ off_normal_d m <-> forall l n, d_normals m = Some l -> In n l -> ~ length_off_d n).
  { unfold off_normal_d, length_off_d. split; [intros H l n E I L; apply H; exists l, n; auto|]. intros H (l & n & E & I & L). exact (H l n E I L). }
  rewrite <- O.
  assert (P : forall A (d : option (list A)) t (mi : dintegrity) o, indices_at_most d t <-> forall e, ~ index_problem mi o d t e).
  { intros A d t mi o. pose proof (index_problem_iff_d d t mi o) as Q. split.
    - intros H e I. apply Q in H; eauto.
    - intros H. unfold indices_at_most in *. destruct t as [i|]; auto. destruct d as [l|].
      + destruct (indices_inside_array i (len l)) as [k|] eqn:E; [|exists l; split; auto; now apply inside_none].
        exfalso. apply inside_some in E. apply (H (o k (len l))). exists i. split; auto. right. eauto.
      + exfalso. apply (H mi). exists i. auto. }
  split.
  - intros H. assert (NO : ~ off_normal_d m). { intros X. apply (H DNormalsNotNormalized). apply reported_in_d; auto. }
    split; [|split; [|split]]; auto; (eapply P; intros e I; apply (H e); apply reported_in_d; eauto).
  - intros (A & B & C & NO) e I. apply reported_in_d in I; auto. destruct I as [I|[(I & _)|[(_ & I)|I]]]; auto.
    + eapply P in A; eauto.
    + eapply P in B; eauto.
    + eapply P in C; eauto.
Qed.
(** C82. The errors reported, one or several ([reported] flattens the verdict): per
    attribute the missing array or the first index beyond the array with the array's
    length; for normals only if none is off, else that some normal is off. *)
Theorem C82_verify_errors : forall m e, u32_length (d_vertices m) -> u32_length (d_normals m) -> u32_length (d_uvs m) ->
  (In e (reported_d (verify_tmf_mesh_d m)) <->
   index_problem DVertexArrayMissing DIndexOutsideVertexArray (d_vertices m) (d_vertex_triangles m) e \/
   ((exists l n, d_normals m = Some l /\ In n l /\ length_off_d n) /\ e = DNormalsNotNormalized) \/
   (~ (exists l n, d_normals m = Some l /\ In n l /\ length_off_d n) /\
    index_problem DNormalArrayMissing DIndexOutsideNormalArray (d_normals m) (d_normal_triangles m) e) \/
   index_problem DUVArrayMissing DIndexOutsideUVArray (d_uvs m) (d_uv_triangles m) e).
Proof. intros m e. apply reported_in_d. Qed.
Theorem C82_verify_total : forall m, verify_tmf_mesh_d m <> Panic.
Proof. exact verify_never_panics_d. Qed.
(** A UV far outside 0..1 is not reported, whatever else the mesh holds. *)
Theorem C82_uv_range_unchecked : forall m x y, ~ In (DUVOutsideRange x y) (reported_d (verify_tmf_mesh_d m)).
Proof.
  intros m x y I. rewrite verify_reported_d, somes_in in I. cbn [In] in I. destruct I as [I|[I|[I|[]]]].
  - unfold verify_vertices_d in I. destruct (d_vertices m), (d_vertex_triangles m); try discriminate I. destruct (indices_inside_array _ _); discriminate I.
  - unfold verify_normals_d in I. destruct (d_normals m), (d_normal_triangles m); try destruct (existsb _ _); try discriminate I.
    destruct (indices_inside_array _ _); discriminate I.
  - unfold verify_uvs_d in I. destruct (d_uvs m), (d_uv_triangles m); try rewrite uv_range_none_d in I; try discriminate I.
    destruct (indices_inside_array _ _); discriminate I.
Qed.
Print Assumptions C82_verify_ok.
Print Assumptions C82_verify_errors.
Print Assumptions C82_verify_total.
Print Assumptions C82_uv_range_unchecked.
(** C82. Whatever its components, a finite normal is accepted if its true length is
    within 0.001 - 2^-49 of 1 and reported if it is 0.001 + 2^-49 or more off; only in between
    does the rounding of the computed length matter. *)
Theorem C82_length_real : forall n, finite3_d n ->
  (Rabs (norm3_d n - 1) <= 0.001 - / 2 ^ 49 -> ~ length_off_d n) /\ (0.001 + / 2 ^ 49 <= Rabs (norm3_d n - 1) -> length_off_d n).
Proof.
  rewrite p49_d. intros n (Fx & Fy & Fz). destruct n as [[x y] z]. unfold finite64 in *. cbn [fst snd] in *.
  assert (NN : norm3_d (x, y, z) = sqrt (R64 x * R64 x + R64 y * R64 y + R64 z * R64 z)) by reflexivity.
  assert (SQ : forall v, v * v = Rabs v * Rabs v) by (intros v; rewrite <- Rabs_mult; rewrite Rabs_pos_eq; nra).
  assert (D : (2 <= Rabs (R64 x) \/ 2 <= Rabs (R64 y) \/ 2 <= Rabs (R64 z)) \/
              (Rabs (R64 x) <= / 4 /\ Rabs (R64 y) <= / 4 /\ Rabs (R64 z) <= / 4) \/
              (Rabs (R64 x) <= 2 /\ Rabs (R64 y) <= 2 /\ Rabs (R64 z) <= 2) /\
              (/ 4 <= Rabs (R64 x) \/ / 4 <= Rabs (R64 y) \/ / 4 <= Rabs (R64 z))).
  { destruct (Rle_lt_dec 2 (Rabs (R64 x))); [auto|]. destruct (Rle_lt_dec 2 (Rabs (R64 y))); [auto|].
    destruct (Rle_lt_dec 2 (Rabs (R64 z))); [auto|]. right.
    destruct (Rle_lt_dec (/ 4) (Rabs (R64 x))); [right; split; [lra|auto]|].
    destruct (Rle_lt_dec (/ 4) (Rabs (R64 y))); [right; split; [lra|auto]|].
    destruct (Rle_lt_dec (/ 4) (Rabs (R64 z))); [right; split; [lra|auto]|]. left. lra. }
  pose proof (Rabs_pos (R64 x)). pose proof (Rabs_pos (R64 y)). pose proof (Rabs_pos (R64 z)).
  destruct D as [D|[(Bx & By & Bz)|[(Bx & By & Bz) D]]].
  - pose proof (long_off_d x y z Fx Fy Fz D) as L. split; [|auto]. intros H2 _.
    assert (2 <= norm3_d (x, y, z)).
    { rewrite NN, (SQ (R64 x)), (SQ (R64 y)), (SQ (R64 z)). rewrite <- (sqrt_square 2) at 1 by lra. apply sqrt_le_1_alt.
      destruct D as [D|[D|D]]; nra. }
    rewrite Rabs_pos_eq in H2; unfold u64 in *; lra.
  - pose proof (tiny_off_d x y z Fx Fy Fz Bx By Bz) as L. split; [|auto]. intros H2 _.
    assert (norm3_d (x, y, z) <= / 2).
    { rewrite NN, (SQ (R64 x)), (SQ (R64 y)), (SQ (R64 z)). rewrite <- (sqrt_square (/ 2)) by lra. apply sqrt_le_1_alt. nra. }
    apply Rabs_le_iff in H2. unfold u64 in *. lra.
  - assert (P50 : 2 <= 2 ^ 50) by (rewrite p50_d; apply IZR_le; lia).
    assert (P50' : / 2 ^ 50 <= / 4) by (rewrite p50_d; cbn; lra).
    assert (O : ordinary_d (x, y, z)).
    { split; [repeat split; auto|]. cbn [fst snd]. change val64 with R64. split; [lra|].
      destruct D as [D|[D|D]]; [left|right; left|right; right]; lra. }
    destruct (measure_d _ O) as [Mf Mp Me _ _ _]. pose proof u64_small as U.
    change (sqrt (sq3_d (x, y, z))) with (norm3_d (x, y, z)) in *. set (rho := norm3_d (x, y, z)) in *.
    assert (R3 : rho <= 3.5).
    { rewrite NN, (SQ (R64 x)), (SQ (R64 y)), (SQ (R64 z)). rewrite <- (sqrt_square 3.5) by lra. apply sqrt_le_1_alt. nra. }
    assert (UR : 0 <= u64 * rho <= u64 * 3.5) by (split; [apply Rmult_le_pos; lra|apply Rmult_le_compat_l; lra]).
    assert (DM : Rabs (Rabs (R64 (magnitude_d (x, y, z)) - 1) - Rabs (rho - 1)) <= 3 * u64 * rho).
    { eapply Rle_trans; [apply Rabs_triang_inv2|].
      replace (R64 (magnitude_d (x, y, z)) - 1 - (rho - 1)) with (R64 (magnitude_d (x, y, z)) - rho) by ring. lra. }
    apply Rabs_le_iff in Me, DM.
    destruct (off_by_d (x, y, z) Mf) as [A B]; [apply Rabs_le_iff; unfold u64 in *; lra|].
    assert (NEAR : rho <= 1.1 -> u64 * rho <= u64 * 1.1) by (intros; apply Rmult_le_compat_l; lra).
    split; intros H2.
    + apply A. assert (L : rho <= 1.1) by (pose proof (Rle_abs (rho - 1)); unfold u64 in *; lra). specialize (NEAR L). unfold u64 in *. lra.
    + apply B. destruct (Rle_lt_dec rho 1.1) as [L|L]; [specialize (NEAR L); unfold u64 in *; lra|].
      rewrite (Rabs_pos_eq (rho - 1)) in DM by lra. unfold u64 in *. lra.
Qed.
Print Assumptions C82_length_real.
(** A normal with a component that is NaN is accepted; one with an infinite component
    and no NaN is reported. *)
Theorem C82_nan_accepted : forall x y z, x = B754_nan \/ y = B754_nan \/ z = B754_nan -> ~ length_off_d (x, y, z).
Proof.
  intros x y z D L. pose proof (nan_passes_d x y z) as N. unfold not_normalized_d in N. unfold length_off_d in L.
  rewrite N in L; [discriminate L|]. destruct D as [->|[->| ->]]; auto.
Qed.
Print Assumptions C82_nan_accepted.
Theorem C82_infinite_reported : forall x y z, is_nan x = false -> is_nan y = false -> is_nan z = false ->
  ~ finite3_d (x, y, z) -> length_off_d (x, y, z).
Proof.
  intros x y z Nx Ny Nz NF.
  assert (M : forall v, is_nan v = false -> large_d (dmul v v) /\ (is_finite v = false -> dmul v v = B754_infinity false)).
  { intros v N. destruct (is_finite v) eqn:F; [split; [now apply large_square_d|discriminate]|].
    destruct v as [s|s| |s m e H]; try discriminate. destruct s; split; auto; left; reflexivity. }
  destruct (M x Nx) as [X1 X2], (M y Ny) as [Y1 Y2], (M z Nz) as [Z1 Z2].
  assert (G : dadd (dadd (dmul x x) (dmul y y)) (dmul z z) = B754_infinity false).
  { destruct (is_finite x) eqn:Fx.
    - destruct (is_finite y) eqn:Fy.
      + destruct (is_finite z) eqn:Fz.
        * exfalso. apply NF. repeat split; assumption.
        * rewrite (Z2 eq_refl). now apply inf_add_d, large_add_d.
      + rewrite (Y2 eq_refl). rewrite (proj2 (inf_add_d _ X1)). now apply inf_add_d.
    - rewrite (X2 eq_refl). rewrite (proj1 (inf_add_d _ Y1)). now apply inf_add_d. }
  unfold length_off_d, magnitude_d, dvx, dvy, dvz. cbn [fst snd]. rewrite G. vm_compute. reflexivity.
Qed.
Print Assumptions C82_infinite_reported.
(** (3, 0, -4) is reported, (0, 1, 0) is accepted. *)
Example C82_length_case : length_off_d (f64_of_Z 3, d0, f64_of_Z (-4)) /\ ~ length_off_d (d0, d1, d0) /\ finite3_d (d0, d1, d0) /\ norm3_d (d0, d1, d0) = 1.
Proof.
  split; [vm_compute; reflexivity|]. split; [vm_compute; discriminate|]. split; [repeat split|].
  destruct d1_R as [A _]. unfold norm3_d, dot3_d. cbn [fst snd]. change val64 with R64. rewrite A. change (R64 d0) with 0.
  replace (0 * 0 + 1 * 1 + 0 * 0) with 1 by ring. apply sqrt_1.
Qed.
(** Nothing but the normals changes. The array of normals keeps its length and order,
    and every normal of ordinary size becomes a vector of length 1 up to rounding, in
    the same direction up to 2^-50 in each component. *)
Theorem C82_normalize : forall m, let m' := mesh_normalize_d m in
  arrays (fun n n' => ordinary_d n -> unit_vector_d n' /\ same_direction_d (/ 2 ^ 50) n n') (d_normals m) (d_normals m') /\
  d_vertices m' = d_vertices m /\ d_vertex_triangles m' = d_vertex_triangles m /\ d_normal_triangles m' = d_normal_triangles m /\
  d_uvs m' = d_uvs m /\ d_uv_triangles m' = d_uv_triangles m /\ d_tangents m' = d_tangents m /\ d_tangent_triangles m' = d_tangent_triangles m /\
  d_custom_data m' = d_custom_data m.
Proof.
  intros m. cbv zeta. unfold mesh_normalize_d. destruct (d_normals m) as [l|] eqn:E; [|rewrite E; cbn; auto 20].
  split; [|cbn; auto 20]. cbn [d_normals arrays].
  clear E. induction l as [|n l IH]; cbn [map]; constructor; [|exact IH].
  intros O. destruct (normalize_R_d n O) as (A & B & _). split; auto. replace (/ 2 ^ 50) with (8 * u64) by (rewrite p50_d; cbn; unfold u64; lra). exact B.
Qed.

Lemma normalize_others_d m : d_vertices (mesh_normalize_d m) = d_vertices m /\ d_uvs (mesh_normalize_d m) = d_uvs m /\
  d_vertex_triangles (mesh_normalize_d m) = d_vertex_triangles m /\ d_uv_triangles (mesh_normalize_d m) = d_uv_triangles m /\ d_normal_triangles (mesh_normalize_d m) = d_normal_triangles m.
Proof. unfold mesh_normalize_d. destruct (d_normals m); cbn; auto. Qed.
(** The normals of the result pass the verification, and their computed lengths differ
    from 1 by at most 2^-48. *)
Theorem C82_verified : forall m l, d_normals m = Some l -> Forall ordinary_d l ->
  u32_length (d_vertices m) -> u32_length (d_normals m) -> u32_length (d_uvs m) ->
  (verify_tmf_mesh_d (mesh_normalize_d m) = Ok tt <->
   indices_at_most (d_vertices m) (d_vertex_triangles m) /\ indices_at_most (d_normals m) (d_normal_triangles m) /\ indices_at_most (d_uvs m) (d_uv_triangles m)) /\
  forall l' n, d_normals (mesh_normalize_d m) = Some l' -> In n l' -> finite64 (magnitude_d n) /\ Rabs (val64 (magnitude_d n) - 1) <= / 2 ^ 48.
Proof.
  intros m l E O S1 S2 S3. pose proof (normalize_others_d m) as (N1 & N2 & N3 & N4 & N5).
  assert (EN : d_normals (mesh_normalize_d m) = Some (map normalize_d l)) by (unfold mesh_normalize_d; rewrite E; reflexivity).
  assert (U : forall n, In n (map normalize_d l) -> unit_vector_d n).
  { intros n I. apply in_map_iff in I as (a & <- & I). rewrite Forall_forall in O. apply normalize_R_d. auto. }
  split.
  - rewrite C82_verify_ok, N1, N2, N3, N4, N5, EN; rewrite ?N1, ?N2; auto.
    + assert (IM : indices_at_most (Some (map normalize_d l)) (d_normal_triangles m) <-> indices_at_most (d_normals m) (d_normal_triangles m)).
      { rewrite E. unfold indices_at_most. destruct (d_normal_triangles m) as [t|]; [|tauto].
        split; intros (x & X & I); injection X as <-; eexists; (split; [reflexivity|]); unfold len in *; rewrite map_length in *; exact I. }
      rewrite IM. split; [tauto|]. intros (A & B & C). split; auto. split; auto. split; auto.
      intros l' n El I. injection El as <-. unfold length_off_d. destruct (one_ok_d n (U n I)) as [G _]. unfold not_normalized_d in G. rewrite G. discriminate.
    + rewrite EN. intros l' El. injection El as <-. unfold len. rewrite map_length. exact (S2 l E).
  - intros l' n El I. rewrite EN in El. injection El as <-. destruct (one_ok_d n (U n I)) as (_ & G1 & G2). split; [exact G1|]. replace (/ 2 ^ 48) with (32 * u64); [exact G2|]. rewrite (pow_IZR 2 48). change (2 ^ Z.of_nat 48)%Z with 281474976710656%Z. unfold u64. lra.
Qed.

(** What happens to other vectors. Too small: the components become infinite, or NaN
    where they are zero. *)
Definition infinite_d (x : f64) : Prop := exists s, x = B754_infinity s.
Definition zero_d (x : f64) : Prop := exists s, x = B754_zero s.
Definition each_d (P : f64 -> Prop) (n : dvec3) : Prop := P (fst (fst n)) /\ P (snd (fst n)) /\ P (snd n).
Theorem C82_too_small : forall x y z, each_d (fun c => finite64 c /\ Rabs (val64 c) <= / 2 ^ 538) (x, y, z) ->
  exists x' y' z', normalize_d (x, y, z) = (x', y', z') /\
  (val64 x = 0 -> x' = B754_nan) /\ (val64 x <> 0 -> infinite_d x') /\ (val64 y = 0 -> y' = B754_nan) /\ (val64 y <> 0 -> infinite_d y') /\
  (val64 z = 0 -> z' = B754_nan) /\ (val64 z <> 0 -> infinite_d z').
Proof.
  intros x y z ((Fx & Bx) & (Fy & By) & (Fz & Bz)). cbn [fst snd] in *.
  destruct (dmul_small x Fx Bx) as [X1 X2]. destruct (dmul_small y Fy By) as [Y1 Y2]. destruct (dmul_small z Fz Bz) as [Z1 Z2].
  destruct (zeros_magnitude_d x y z) as [s E]; try now apply zero_or_d.
  rewrite (normalize_by_d x y z _ E eq_refl). do 3 eexists. split; [reflexivity|].
  destruct (div_zero_d x s Fx), (div_zero_d y s Fy), (div_zero_d z s Fz). unfold infinite_d. auto 10.
Qed.
(** Too large: all components become zero, and the verification reports it. *)
Theorem C82_too_large : forall x y z, each_d finite64 (x, y, z) -> 2 ^ 512 <= Rabs (val64 x) \/ 2 ^ 512 <= Rabs (val64 y) \/ 2 ^ 512 <= Rabs (val64 z) ->
  each_d zero_d (normalize_d (x, y, z)) /\ length_off_d (normalize_d (x, y, z)).
Proof.
  intros x y z (Fx & Fy & Fz) D. cbn [fst snd] in *. rewrite (normalize_by_d x y z _ (huge_magnitude_d x y z Fx Fy Fz D) eq_refl).
  destruct (div_inf_d x Fx) as [a A], (div_inf_d y Fy) as [b B], (div_inf_d z Fz) as [c C]. rewrite A, B, C. split; [repeat split; eexists; reflexivity|]. apply zeros_off_d.
Qed.
(** Not a number: the zero vector, and the verification reports it. *)
Theorem C82_nan : forall x y z, x = B754_nan \/ y = B754_nan \/ z = B754_nan ->
  normalize_d (x, y, z) = (d0, d0, d0) /\ length_off_d (normalize_d (x, y, z)).
Proof.
  intros x y z D. assert (E : magnitude_d (x, y, z) = B754_nan) by (apply nan_magnitude_d; destruct D as [->|[->| ->]]; auto).
  assert (N : normalize_d (x, y, z) = (d0, d0, d0)).
  { unfold normalize_d, dvx, dvy, dvz. cbn [fst snd]. change (dsqrt (dadd (dadd (dmul x x) (dmul y y)) (dmul z z))) with (magnitude_d (x, y, z)). now rewrite E. }
  rewrite N. split; auto. apply zeros_off_d.
Qed.
(** A normal that is zero becomes NaN, and the verification accepts the mesh: the
    property does not hold for it. Nor does it for some normals that are not zero. *)
Definition one_normal_d (n : dvec3) : dmesh := mk_dmesh (Some [n]) None None None None None None None [].
Theorem C82_zero_refuted : exists m, d_normals m = Some [(d0, d0, d0)] /\
  d_normals (mesh_normalize_d m) = Some [(B754_nan, B754_nan, B754_nan)] /\ verify_tmf_mesh_d (mesh_normalize_d m) = Ok tt.
Proof. exists (one_normal_d (d0, d0, d0)). repeat split. Qed.
Definition tiny_d : f64 := dlit 1 (2 ^ 600).
Definition huge_d : f64 := f64_of_Z (2 ^ 600).
Theorem C82_nonzero_refuted : each_d finite64 (tiny_d, d0, d0) /\ val64 tiny_d <> 0 /\ each_d finite64 (huge_d, d0, d0) /\ val64 huge_d <> 0 /\
  d_normals (mesh_normalize_d (one_normal_d (tiny_d, d0, d0))) = Some [(d_inf, B754_nan, B754_nan)] /\
  d_normals (mesh_normalize_d (one_normal_d (huge_d, d0, d0))) = Some [(d0, d0, d0)].
Proof.
  split; [repeat split|]. split.
  { intros Z. destruct (zero_or_d tiny_d eq_refl Z) as [s E]. apply (f_equal (fun v => B2SF v)) in E. vm_compute in E. discriminate E. }
  split; [repeat split|]. split.
  { intros Z. destruct (zero_or_d huge_d eq_refl Z) as [s E]. apply (f_equal (fun v => B2SF v)) in E. vm_compute in E. discriminate E. }
  assert (G : forall a b : f64, B2SF a = B2SF b -> a = b) by (intros a b; apply B2SF_inj).
  cbn [mesh_normalize_d one_normal_d d_normals map]. split; f_equal; f_equal;
    rewrite (normalize_by_d _ _ _ _ eq_refl eq_refl); (f_equal; [f_equal|]); apply G; vm_compute; reflexivity.
Qed.
(** (3, 0, -4) meets the hypotheses. *)
Example C82_case : ordinary_d (f64_of_Z 3, d0, f64_of_Z (-4)) /\ u32_length (d_normals (one_normal_d (f64_of_Z 3, d0, f64_of_Z (-4)))).
Proof.
  destruct (f64_of_Z_exact 3 ltac:(lia)) as [A1 A2]. destruct (f64_of_Z_exact (-4) ltac:(lia)) as [B1 B2].
  assert (P : 4 <= 2 ^ 50) by (rewrite p50_d; apply IZR_le; lia). assert (Q : / 2 ^ 50 <= 3) by (rewrite p50_d; cbn; lra).
  split.
  - split; [repeat split; auto|]. cbn [fst snd]. change val64 with R64. rewrite A1, B1. change (R64 d0) with 0.
    rewrite Rabs_R0, (Rabs_pos_eq 3), (Rabs_left (-4)) by lra. split; [repeat split; lra|left; lra].
  - intros l E. injection E as <-. reflexivity.
Qed.
Print Assumptions C82_normalize.
Print Assumptions C82_verified.
Print Assumptions C82_too_small.
Print Assumptions C82_too_large.
Print Assumptions C82_nan.
Print Assumptions C82_zero_refuted.
Print Assumptions C82_nonzero_refuted.
