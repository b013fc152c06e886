(** Property C66: what a program built with the feature [double_precision] loads from the
    files of one built without it, and the other way round. *)
From Coq Require Import List NArith ZArith Arith Lia Bool Reals Lra.
From Flocq Require Import Core IEEE754.BinarySingleNaN.
From Verif Require Import Base BitSpec Floats Floats_proofs FloatReal_proofs Utilis Vertices Normals CustomData Mesh Tmf File FileSpec ValueSpec
  PlatformSpec LayoutSpec Log2_proofs Trig_proofs Platform_proofs Double DoubleSpec Double2_proofs Double3_proofs CustomReal_proofs.
Import ListNotations.
Open Scope res_scope.

(** C66. The same bytes loaded without and with the feature: the same error, or both a panic,
    or meshes with the same names, the same indices and nearly the same values. The one
    exception is a file with an impossibly long colour array, where the build with the feature
    panics whatever the other does. *)
Theorem C66_same_file : forall lm sc oc src, sin_cos_ok lm -> sin_cos64_ok sc -> bytes_ok src ->
  same_outcome (same_file src) (read_tmf lm oc src) (read_tmf_d sc oc src) \/
  (read_tmf_d sc oc src = Panic /\ huge_file src).
Proof. intros lm sc oc src S S' H. exact (so_read_d lm sc S S' oc src H). Qed.
Print Assumptions C66_same_file.
Theorem C66_same_file_one : forall lm sc oc src, sin_cos_ok lm -> sin_cos64_ok sc -> bytes_ok src ->
  same_outcome (fun a b => exists raw, holds src [raw] /\ same_mesh raw a b) (read_tmf_one lm oc src) (read_tmf_one_d sc oc src) \/
  (read_tmf_one_d sc oc src = Panic /\ huge_file src).
Proof.
  intros lm sc oc src S S' H. unfold read_tmf_one, read_tmf_one_d.
  apply (so2_bind (huge_file src) (same_file src)); [exact (so_read_d lm sc S S' oc src H)|].
  intros l l' (ms & Hm & F). left. destruct F as [|raw a b ms l l' M F]; [reflexivity|].
  destruct F as [|raw2 a2 b2 ms l l' M2 F]; [|reflexivity]. exists raw. auto.
Qed.
Print Assumptions C66_same_file_one.

(** The exception does occur: this file is refused without the feature and makes the build
    with it panic. *)
Definition huge_demo : list N := file_bytes [([65]%N, [mk_raw 23 0 ([1; 66]%N ++ lend 8 (2 ^ 58) ++ [8]%N ++ [0x1B]%N)])].
Lemma huge_demo_bytes : bytes_ok huge_demo.
Proof. apply Forall_forall. intros b I. unfold huge_demo in I. vm_compute in I.
  repeat (destruct I as [<-|I]; [reflexivity|]). contradiction. Qed.
Theorem C66_long_colours_refuted : forall lm sc oc, bytes_ok huge_demo /\
  (exists e, read_tmf lm oc huge_demo = Err e) /\ read_tmf_d sc oc huge_demo = Panic.
Proof.
  intros lm sc oc. split; [exact huge_demo_bytes|]. split.
  - eexists. destruct oc; lazy; reflexivity.
  - destruct oc; lazy; reflexivity.
Qed.
Print Assumptions C66_long_colours_refuted.

(** A sine and cosine that meet the hypothesis: correctly rounded. *)
Definition f64_of_R (x : R) : f64 :=
  @binary_normalize 53 1024 gt0_53 lt_53_1024 mode_NE (ZnearestE (scaled_mantissa radix2 fexp64 x)) (cexp radix2 fexp64 x) false.
Lemma f64_of_R_R x : (Rabs x <= big64)%R -> R64 (f64_of_R x) = rnd64 x /\ fin (f64_of_R x).
Proof.
  intros B. pose proof (binary_normalize_correct 53 1024 gt0_53 lt_53_1024 mode_NE
    (ZnearestE (scaled_mantissa radix2 fexp64 x)) (cexp radix2 fexp64 x) false) as C.
  cbv zeta in C. cbn [round_mode] in C. change (F2R _) with (rnd64 x) in C.
  rewrite (round_generic radix2 fexp64 ZnearestE (rnd64 x)) in C by (apply generic_format_round; auto with typeclass_instances).
  rewrite (no_overflow64 x B) in C. split; apply C.
Qed.
Definition exact_sin_cos64 (x : f64) : f64 * f64 := (f64_of_R (sin (val64 x)), f64_of_R (cos (val64 x))).
Lemma rnd64_near x : (-1 <= x <= 1)%R -> (Rabs (rnd64 x - x) <= / 2 ^ 20)%R.
Proof.
  intros B. assert (A : (Rabs x <= 1)%R) by (apply Rabs_le; lra). pose proof (rnd64_err x) as E. pose proof T64 as T.
  unfold u64 in *. simpl pow. lra.
Qed.
Example exact_sin_cos64_ok : sin_cos64_ok exact_sin_cos64.
Proof.
  intros x F P. unfold exact_sin_cos64. cbn [fst snd]. pose proof (SIN_bound (val64 x)) as S. pose proof (COS_bound (val64 x)) as C.
  destruct (f64_of_R_R (sin (val64 x))) as [A1 A2]; [apply (CustomReal_proofs.fits64 1); [simpl; lra|]; assert (Rabs (sin (val64 x)) <= 1)%R by (apply Rabs_le; lra); lra|].
  destruct (f64_of_R_R (cos (val64 x))) as [B1 B2]; [apply (CustomReal_proofs.fits64 1); [simpl; lra|]; assert (Rabs (cos (val64 x)) <= 1)%R by (apply Rabs_le; lra); lra|].
  split; [exact A2|]. split; [exact B2|]. change (val64 (f64_of_R (sin (val64 x)))) with (R64 (f64_of_R (sin (val64 x)))).
  change (val64 (f64_of_R (cos (val64 x)))) with (R64 (f64_of_R (cos (val64 x)))). rewrite A1, B1. split; apply rnd64_near; lra.
Qed.

(** A file with a vertex, a normal, a texture coordinate, a tangent, colours and floats. *)
Definition third_file : list N := file_bytes [([65]%N,
  [ mk_raw 1 0 (lend 8 1 ++ (repeat 0%N 8 ++ [0; 0; 0; 0; 0; 0; 0xF0; 0x3F]%N) ++ (repeat 0%N 8 ++ [0; 0; 0; 0; 0; 0; 0xF0; 0x3F]%N) ++
                 (repeat 0%N 8 ++ [0; 0; 0; 0; 0; 0; 0xF0; 0x3F]%N) ++ [2; 2; 2]%N ++ [0x39]%N);
    mk_raw 3 0 (lend 8 1 ++ [2]%N ++ [0xAA; 0]%N);
    mk_raw 9 0 (lend 8 1 ++ [2]%N ++ [0xCC; 0]%N);
    mk_raw 5 0 ([4]%N ++ lend 8 1 ++ [0x3F]%N);
    mk_raw 2 0 ([2]%N ++ lend 8 3 ++ lend 8 0 ++ [0]%N);
    mk_raw 23 0 ([1; 66]%N ++ lend 8 1 ++ [2]%N ++ [0x1B]%N) ])].
Lemma third_bytes : bytes_ok third_file.
Proof. apply Forall_forall. intros b I. unfold third_file in I. vm_compute in I.
  repeat (destruct I as [<-|I]; [reflexivity|]). contradiction. Qed.
Definition one_bits : f64 := f64_of_bits 0x3FF0000000000000.
Definition zero_bits : f64 := f64_of_bits 0.
Definition two_thirds : f32 := dequantize 2 (f32_of_N 3) (fsub (f32_of_f64 one_bits) (f32_of_f64 zero_bits)) (f32_of_f64 zero_bits).
Definition two_thirds_d : f64 := dequantize_d 2 (f64_of_N 3) (dsub one_bits zero_bits) zero_bits.
Lemma third_loads lm : exists m x y, read_tmf lm true third_file = Ok [(m, [65]%N)] /\ vertices m = Some [(x, y, two_thirds)].
Proof.
  do 3 eexists. split.
  - unfold third_file.
    lazy -[normal_from_encoding dequantize fdiv ddiv f32_of_N f64_of_N f64_of_bits f32_of_f64 fmul fadd fsub f1 fneg f099999]. reflexivity.
  - reflexivity.
Qed.
Lemma third_loads_d sc : exists m x y, read_tmf_d sc true third_file = Ok [(m, [65]%N)] /\ d_vertices m = Some [(x, y, two_thirds_d)].
Proof.
  do 3 eexists. split.
  - unfold third_file.
    lazy -[normal_from_encoding_d dequantize_d ddiv f32_of_N f64_of_N f64_of_bits f32_of_f64 dmul dadd dsub d1 dneg d099999]. reflexivity.
  - reflexivity.
Qed.
(** Both builds load this file, the meshes are the same in the sense above, and the last
    coordinate of the vertex is not the same number. *)
Example C66_case : exists m m' raw x y x' y',
  read_tmf exact_libm true third_file = Ok [(m, [65]%N)] /\ read_tmf_d exact_sin_cos64 true third_file = Ok [(m', [65]%N)] /\
  holds third_file [raw] /\ same_mesh raw (m, [65]%N) (m', [65]%N) /\
  vertices m = Some [(x, y, two_thirds)] /\ d_vertices m' = Some [(x', y', two_thirds_d)] /\ val two_thirds <> val64 two_thirds_d.
Proof.
  destruct (third_loads exact_libm) as (m & x & y & R & V). destruct (third_loads_d exact_sin_cos64) as (m' & x' & y' & R' & V').
  destruct (C66_same_file exact_libm exact_sin_cos64 true third_file exact_sin_cos_ok exact_sin_cos64_ok third_bytes) as [S|[P _]].
  - rewrite R, R' in S. destruct S as (ms & H & F). inversion F as [|raw a b ms' l l' M F' E1 E2 E3]. subst.
    inversion F'. subst. exists m, m', raw, x, y, x', y'. split; [exact R|]. split; [exact R'|]. split; [exact H|]. split; [exact M|].
    split; [exact V|]. split; [exact V'|].
    assert (A : B2SF two_thirds = SpecFloat.S754_finite false 11184811%positive (-24)%Z) by (vm_compute; reflexivity).
    assert (B : B2SF two_thirds_d = SpecFloat.S754_finite false 6004799503160661%positive (-53)%Z) by (vm_compute; reflexivity).
    unfold val, val64. rewrite <- (SF2R_B2SF _ _ two_thirds), <- (SF2R_B2SF _ _ two_thirds_d), A, B.
    unfold SF2R, F2R. cbn [cond_Zopp Fnum Fexp bpow radix2 radix_val Z.pow_pos Pos.iter Z.mul Pos.mul]. lra.
  - rewrite R' in P. discriminate P.
Qed.
