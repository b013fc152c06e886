(** Properties C61 and C62: what a loaded mesh owes to the mathematics library, and the
    ranges of loaded values, for every file. *)
From Coq Require Import List NArith ZArith Arith Lia Bool Reals Lra.
From Flocq Require Import Core IEEE754.BinarySingleNaN.
From Verif Require Import Base BitSpec Floats Floats_proofs FloatReal_proofs Utilis Normals CustomData Mesh Tmf File FileSpec ValueSpec
  PlatformSpec RangeSpec Demo Log2_proofs Trig_proofs Platform_proofs Range_proofs Range2_proofs.
Import ListNotations.
Open Scope res_scope.

(** C61. The same bytes loaded with two mathematics libraries, whatever they compute:
    the same error, or both a panic, or the same meshes except for the first two
    components of normals and tangents. *)
Theorem C61_platform_independent : forall lm lm' oc src, bytes_ok src ->
  same_outcome (Forall2 (same_but same_z)) (read_tmf lm oc src) (read_tmf lm' oc src).
Proof.
  intros lm lm' oc src H. apply so_read; auto. intros p c _ _ _. unfold same_z, normal_from_encoding.
  destruct (p =? 0); [reflexivity|]. cbv zeta.
  destruct (m_sin_cos lm _), (m_sin_cos lm' _). reflexivity.
Qed.
Print Assumptions C61_platform_independent.
Theorem C61_platform_independent_one : forall lm lm' oc src, bytes_ok src ->
  same_outcome (same_but same_z) (read_tmf_one lm oc src) (read_tmf_one lm' oc src).
Proof.
  intros lm lm' oc src H. apply so_read_one; auto. intros p c _ _ _. unfold same_z, normal_from_encoding.
  destruct (p =? 0); [reflexivity|]. cbv zeta.
  destruct (m_sin_cos lm _), (m_sin_cos lm' _). reflexivity.
Qed.
Print Assumptions C61_platform_independent_one.
(** With two libraries whose sine and cosine are accurate, these components differ by at
    most 2^-18. *)
Theorem C61_accurate_platforms : forall lm lm' oc src, sin_cos_ok lm -> sin_cos_ok lm' -> bytes_ok src ->
  same_outcome (Forall2 (same_but (near3 (/ 2 ^ 18)))) (read_tmf lm oc src) (read_tmf lm' oc src).
Proof. intros lm lm' oc src S S' H. apply so_read; auto. intros p c A B C. now apply near_any. Qed.
Print Assumptions C61_accurate_platforms.

(** C62. Whatever the file: texture coordinates are in [0,1], normals and tangents are
    unit vectors or (when stored with no bits) corners of a cube, a handedness is 1 or
    -1, and colours are in [0,1] or (when stored with no bits) NaN. *)
Theorem C62_loaded_ranges : forall lm oc src l, sin_cos_ok lm -> bytes_ok src ->
  read_tmf lm oc src = Ok l -> Forall (fun mn => values_in_range (fst mn)) l.
Proof. intros lm oc src l SC H E. now apply (read_ok lm oc (accurate_ok lm SC) src). Qed.
Print Assumptions C62_loaded_ranges.

(** A file with a normal, a tangent, a texture coordinate and two colours, one of them
    stored with no bits. *)
Definition mixed_file : list N := file_bytes [([65]%N,
  [ mk_raw 3 0 (lend 8 1 ++ [2]%N ++ [0xAA; 0]%N);
    mk_raw 9 0 (lend 8 1 ++ [2]%N ++ [0xCC; 0]%N);
    mk_raw 5 0 ([4]%N ++ lend 8 1 ++ [0x3F]%N);
    mk_raw 23 0 ([1; 66]%N ++ lend 8 1 ++ [2]%N ++ [0x1B]%N);
    mk_raw 23 0 ([1; 67]%N ++ lend 8 1 ++ [0]%N) ])].
Lemma mixed_bytes : bytes_ok mixed_file.
Proof. apply Forall_forall. intros b I. unfold mixed_file in I. vm_compute in I.
  repeat (destruct I as [<-|I]; [reflexivity|]). contradiction. Qed.
Definition mixed_normal (lm : libm) : vec3 := normal_from_encoding lm (mk_ncode 1 1 true false true) 2.
Lemma mixed_loads lm : exists m, read_tmf lm true mixed_file = Ok [(m, [65]%N)] /\
  normals m = Some [mixed_normal lm] /\
  (exists s1 s2 p, custom_data m = [s1; s2] /\ c_data s2 = CColor [(B754_nan, B754_nan, B754_nan, B754_nan)] p) /\
  uvs m = Some [(fdiv (f32_of_N 3) (f32_of_N 15), fdiv (f32_of_N 15) (f32_of_N 15))].
Proof.
  eexists. split; [|split; [|split]].
  - unfold mixed_file. lazy -[normal_from_encoding fdiv ddiv f32_of_N f64_of_N f32_of_f64 fmul f1 fneg f099999]. reflexivity.
  - reflexivity.
  - do 3 eexists. split; reflexivity.
  - reflexivity.
Qed.

(** The normal of this file differs between two libraries, in its first two components
    only. *)
Definition demo' : libm := mk_libm demo_log2 (fun x => x) (fun x => (x, x)).
Example C61_case : forall oc,
  same_outcome (Forall2 (same_but same_z)) (read_tmf demo oc mixed_file) (read_tmf demo' oc mixed_file) /\
  vy (mixed_normal demo) <> vy (mixed_normal demo') /\ vz (mixed_normal demo) = vz (mixed_normal demo').
Proof.
  intros oc. split; [apply C61_platform_independent, mixed_bytes|]. split; [|reflexivity].
  intros E. apply (f_equal B2SF) in E. vm_compute in E. discriminate E.
Qed.
Example C61_accurate_case :
  same_outcome (Forall2 (same_but (near3 (/ 2 ^ 18)))) (read_tmf exact_libm true mixed_file) (read_tmf exact_libm true mixed_file).
Proof. apply C61_accurate_platforms; auto using exact_sin_cos_ok, mixed_bytes. Qed.
Example C62_case : exists m, read_tmf exact_libm true mixed_file = Ok [(m, [65]%N)] /\ values_in_range m /\
  normals m = Some [mixed_normal exact_libm] /\
  (Rabs (dot3 (mixed_normal exact_libm) (mixed_normal exact_libm) - 1) <= / 2 ^ 17)%R.
Proof.
  destruct (mixed_loads exact_libm) as (m & R & A & _). exists m. split; [exact R|].
  pose proof (C62_loaded_ranges exact_libm true mixed_file _ exact_sin_cos_ok mixed_bytes R) as F.
  apply Forall_inv in F. split; [exact F|]. split; [exact A|].
  apply unit_any; [apply exact_sin_cos_ok|lia|reflexivity|reflexivity].
Qed.

(** NaN does occur, for colours and for vertices stored with no bits. *)
Theorem C62_colours_refuted : forall lm, exists m s l p, read_tmf lm true mixed_file = Ok [(m, [65]%N)] /\
  In s (custom_data m) /\ c_data s = CColor l p /\ l = [(B754_nan, B754_nan, B754_nan, B754_nan)].
Proof.
  intros lm. destruct (mixed_loads lm) as (m & R & _ & (s1 & s2 & p & C & D) & _). exists m, s2. do 2 eexists.
  split; [exact R|]. split; [rewrite C; right; now left|]. split; [exact D|reflexivity].
Qed.
Print Assumptions C62_colours_refuted.
Definition flat_file : list N := file_bytes [([65]%N, [mk_raw 1 0 (lend 8 1 ++ repeat 0%N 48 ++ [0; 0; 0]%N)])].
Theorem C62_vertices_refuted : forall lm oc, exists m, read_tmf lm oc flat_file = Ok [(m, [65]%N)] /\
  vertices m = Some [(B754_nan, B754_nan, B754_nan)].
Proof. intros lm oc. eexists. split; [ lazy; reflexivity|reflexivity]. Qed.
Print Assumptions C62_vertices_refuted.
