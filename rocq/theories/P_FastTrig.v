(** Property C63: a build with the fast_trig feature. *)
From Coq Require Import List NArith ZArith Arith Lia Bool Reals Lra.
From Flocq Require Import Core IEEE754.BinarySingleNaN.
From Verif Require Import Base UnalignedRW ReadExt BitSpec Floats Floats_proofs FloatReal_proofs Utilis Normals CustomData Mesh Tmf File FileSpec SaveSpec
  ValueSpec PlatformSpec RangeSpec FastTrigSpec Demo Log2_proofs Trig_proofs NormalReal_proofs Save_proofs Save2_proofs Codec_proofs Image_proofs
  Quant_proofs P_Save P_Normals Platform_proofs Range_proofs Range2_proofs FastTrig FastTrig_proofs FastTrig2_proofs FastTrig3_proofs P_Platform.
Import ListNotations.
Open Scope res_scope.

(** C63. The same bytes loaded with and without the feature: the same error, or both a
    panic, or the same meshes, except that a normal or tangent may be off by 1/256. *)
Theorem C63_same_but_normals : forall lm lm' oc src, sin_cos_ok lm' -> bytes_ok src ->
  same_outcome (Forall2 (same_but (near_by (/ 256)))) (read_tmf (fast lm) oc src) (read_tmf lm' oc src).
Proof. intros lm lm' oc src SC H. apply so_read; auto. intros p c A B C. now apply fast_near. Qed.
Print Assumptions C63_same_but_normals.

(** The ranges of C62 hold with the feature, whatever the mathematics library: in
    particular no normal is NaN, although the cosine is computed as sqrt(1 - x*x). *)
Theorem C63_loaded_ranges : forall lm oc src l, bytes_ok src ->
  read_tmf (fast lm) oc src = Ok l -> Forall (fun mn => values_in_range (fst mn)) l.
Proof. intros lm oc src l H E. now apply (read_ok (fast lm) oc (fast_ok lm) src). Qed.
Print Assumptions C63_loaded_ranges.

(** ** Distances *)
Local Open Scope R_scope.
Lemma cauchy3 a b c x y z : (a * x + b * y + c * z) * (a * x + b * y + c * z) <= (a * a + b * b + c * c) * (x * x + y * y + z * z).
Proof.
  assert (0 <= (a * y - b * x) * (a * y - b * x)) by apply Rle_0_sqr.
  assert (0 <= (a * z - c * x) * (a * z - c * x)) by apply Rle_0_sqr.
  assert (0 <= (b * z - c * y) * (b * z - c * y)) by apply Rle_0_sqr. lra.
Qed.
Lemma triangle3 a b c x y z : sqrt ((a + x) ^ 2 + (b + y) ^ 2 + (c + z) ^ 2) <= sqrt (a ^ 2 + b ^ 2 + c ^ 2) + sqrt (x ^ 2 + y ^ 2 + z ^ 2).
Proof.
  set (u := a ^ 2 + b ^ 2 + c ^ 2). set (v := x ^ 2 + y ^ 2 + z ^ 2).
  assert (U : 0 <= u) by (unfold u; pose proof (pow2_ge_0 a); pose proof (pow2_ge_0 b); pose proof (pow2_ge_0 c); lra).
  assert (V : 0 <= v) by (unfold v; pose proof (pow2_ge_0 x); pose proof (pow2_ge_0 y); pose proof (pow2_ge_0 z); lra).
  pose proof (sqrt_pos u) as SU. pose proof (sqrt_pos v) as SV.
  rewrite <- (sqrt_square (sqrt u + sqrt v)) by lra. apply sqrt_le_1_alt.
  replace ((sqrt u + sqrt v) * (sqrt u + sqrt v)) with (sqrt u * sqrt u + sqrt v * sqrt v + 2 * (sqrt u * sqrt v)) by ring.
  rewrite !sqrt_sqrt by auto. rewrite <- sqrt_mult by auto.
  assert (C : a * x + b * y + c * z <= sqrt (u * v)).
  { apply Rle_trans with (Rabs (a * x + b * y + c * z)); [apply RRle_abs|].
    rewrite <- sqrt_Rsqr_abs. apply sqrt_le_1_alt. unfold Rsqr. eapply Rle_trans; [apply cauchy3|]. unfold u, v. simpl. lra. }
  unfold u, v in *. lra.
Qed.
Lemma dist_triangle a b c : dist3 a c <= dist3 a b + dist3 b c.
Proof.
  unfold dist3.
  set (a1 := val (fst (fst a))). set (a2 := val (snd (fst a))). set (a3 := val (snd a)).
  set (b1 := val (fst (fst b))). set (b2 := val (snd (fst b))). set (b3 := val (snd b)).
  set (c1 := val (fst (fst c))). set (c2 := val (snd (fst c))). set (c3 := val (snd c)).
  pose proof (triangle3 (a1 - b1) (a2 - b2) (a3 - b3) (b1 - c1) (b2 - c2) (b3 - c3)) as T.
  replace (a1 - b1 + (b1 - c1)) with (a1 - c1) in T by ring. replace (a2 - b2 + (b2 - c2)) with (a2 - c2) in T by ring.
  replace (a3 - b3 + (b3 - c3)) with (a3 - c3) in T by ring. exact T.
Qed.
Lemma dist_sym a b : dist3 a b = dist3 b a.
Proof. unfold dist3. f_equal. ring. Qed.
Lemma dist_dot a b : dist3 a b = sqrt (dot3 a a + dot3 b b - 2 * dot3 a b).
Proof. unfold dist3, dot3. f_equal. ring. Qed.
Lemma close_dist s a b : 0 <= s -> unit_vector a -> normal_close s a b -> dist3 a b <= sqrt (2 * (s + 2 * (s * s)) + / 2 ^ 14).
Proof.
  intros Hs (_ & UN & _) [_ UB D _ _ _ _]. rewrite dist_dot. apply sqrt_le_1_alt. apply Rabs_le_iff in UN, UB.
  unfold u32 in *. simpl pow in *. lra.
Qed.

(** The distance between a unit normal and what it loads as with the feature, for 1 to
    24 bits, with s = 1/(2^p-1). *)
Definition fast_distance (p : nat) : R := let s := / (2 ^ p - 1) in sqrt (2 * (s + 2 * (s * s)) + / 2 ^ 14) + / 256.
Lemma fast_rel lm lm' p a b : (1 <= p <= 24)%nat -> asin_ok lm -> unit_vector a -> normal_rel lm (fast lm') p a b ->
  dist3 a b <= fast_distance p.
Proof.
  intros B A U (c & E & ->). set (e := normal_from_encoding exact_libm (low_code p c) p).
  assert (L : forall q, (low p q < 2 ^ N.of_nat p)%N).
  { intros q. unfold low. apply N.mod_lt. apply N.pow_nonzero. lia. }
  destruct (fast_near lm' exact_libm p (low_code p c) exact_sin_cos_ok) as (_ & _ & D); [lia|apply L|apply L|].
  eapply Rle_trans; [apply (dist_triangle a e)|]. unfold fast_distance. cbv zeta. apply Rplus_le_compat.
  - apply close_dist; [apply step_01; lia|exact U|]. apply (rel_close lm exact_libm); auto using exact_sin_cos_ok. now exists c.
  - rewrite dist_sym. exact D.
Qed.
Theorem C63_normal_distance : forall lm lm' oc' p l out,
  asin_ok lm -> (1 <= normal_precision p <= 24)%nat ->
  precision_ok p -> list_ok lm l -> saved lm true p l = Ok out ->
  exists l', read_tmf (fast lm') oc' out = Ok l' /\
    Forall2 (on_normals (fun n n' => unit_vector n -> dist3 n n' <= fast_distance (normal_precision p))) l l'.
Proof.
  intros lm lm' oc' p l out A B HP HL S. apply (normals_load _ lm (fast lm') oc' p l out HP HL S).
  intros n n' R U. now apply (fast_rel lm lm').
Qed.
Print Assumptions C63_normal_distance.
Theorem C63_tangent_distance : forall lm lm' oc' p l out,
  asin_ok lm -> (1 <= tangent_prec p <= 24)%nat ->
  precision_ok p -> list_ok lm l -> saved lm true p l = Ok out ->
  exists l', read_tmf (fast lm') oc' out = Ok l' /\
    Forall2 (on_tangents (fun t t' => unit_vector (fst t) -> dist3 (fst t) (fst t') <= fast_distance (tangent_prec p))) l l'.
Proof.
  intros lm lm' oc' p l out A B HP HL S. apply (tangents_load _ lm (fast lm') oc' p l out HP HL S).
  intros n n' [R _] U. now apply (fast_rel lm lm').
Qed.
Print Assumptions C63_tangent_distance.
(** With the default 7 bits: at most 0.1317, an angle below 7.6 degrees. *)
Lemma fast_distance_7 : fast_distance 7 <= 0.1317.
Proof.
  unfold fast_distance. cbv zeta. assert (sqrt (2 * (/ (2 ^ 7 - 1) + 2 * (/ (2 ^ 7 - 1) * / (2 ^ 7 - 1))) + / 2 ^ 14) <= 0.12775); [|lra].
  rewrite <- (sqrt_square 0.12775) by lra. apply sqrt_le_1_alt. simpl pow. lra.
Qed.

(** The feature does not meet the accuracy C61 asks of a library. *)
Theorem C63_accuracy_refuted : forall lm, ~ sin_cos_ok (fast lm).
Proof.
  intros lm SC. destruct f1_R as [E F]. destruct (SC f1 F) as (_ & _ & S & _); [change (val f1) with (R32 f1); rewrite E; lra|].
  change (m_sin_cos (fast lm) f1) with (fast_sin_cos f1) in S. change val with R32 in S. rewrite E in S.
  destruct (sin_T9 1 ltac:(lra)) as [_ U]. unfold T9 in U.
  assert (B : B2SF (fst (fast_sin_cos f1)) = SpecFloat.S754_finite false 14122311 (-24)) by (vm_compute; reflexivity).
  set (y := fst (fast_sin_cos f1)) in *. clearbody y.
  assert (R : R32 y = 14122311 / 16777216).
  { destruct y; try discriminate B. injection B as -> -> ->. unfold R32, B2R, F2R. cbn [Fnum Fexp cond_Zopp].
    change (bpow radix2 (-24)) with (/ 16777216). lra. }
  apply Rabs_le_iff in S. rewrite R in S. simpl pow in S, U. lra.
Qed.
Print Assumptions C63_accuracy_refuted.

(** The file of C62 and the normal (0.6, 0, -0.8) as cases. *)
Example C63_case : exists m, read_tmf (fast exact_libm) true mixed_file = Ok [(m, [65]%N)] /\ values_in_range m /\
  normals m = Some [mixed_normal (fast exact_libm)] /\
  same_outcome (Forall2 (same_but (near_by (/ 256)))) (read_tmf (fast exact_libm) true mixed_file) (read_tmf exact_libm true mixed_file).
Proof.
  destruct (mixed_loads (fast exact_libm)) as (m & R & A & _). exists m. split; [exact R|].
  pose proof (C63_loaded_ranges exact_libm true mixed_file _ mixed_bytes R) as F.
  apply Forall_inv in F. split; [exact F|]. split; [exact A|].
  apply C63_same_but_normals; [apply exact_sin_cos_ok|apply mixed_bytes].
Qed.
Example C63_distance_case : exists out l' n', saved exact_libm true (mk_prec (flit 1 10) 7 14 8) [(normal_mesh slanted, [])] = Ok out /\
  read_tmf (fast exact_libm) true out = Ok l' /\ map (fun mn => normals (fst mn)) l' = [Some [n']] /\ dist3 slanted n' <= 0.1317.
Proof.
  destruct (normal_mesh_saved exact_libm _ slanted prec7_ok) as (HL & out & S); [cbn; lia|].
  assert (B : (1 <= normal_precision (mk_prec (flit 1 10) 7 14 8) <= 24)%nat) by (cbn; lia).
  destruct (C63_normal_distance exact_libm exact_libm true _ _ out exact_asin_ok B prec7_ok HL S) as (l' & R & F).
  inversion F as [|a b ? ? G F2]; subst. inversion F2; subst. unfold on_normals, arrays in G.
  cbn [fst normals normal_mesh with_normals] in G. destruct (normals (fst b)) as [nb|] eqn:NB; [|contradiction].
  inversion G as [|? u ? ? U G2]; subst. inversion G2; subst. specialize (U slanted_unit).
  exists out, [b], u. split; [exact S|]. split; [exact R|]. split; [cbn [map]; now rewrite NB|].
  eapply Rle_trans; [exact U|apply fast_distance_7].
Qed.
