(** Properties C68 and C69, and the place of a panic (C17): what the bytes of a file mean,
    mesh by mesh and segment by segment. *)
From Coq Require Import List NArith ZArith Arith Lia Bool.
From Flocq Require Import IEEE754.BinarySingleNaN.
From Verif Require Import Base BitSpec UnalignedRW ReadExt Triangles TriSpec Floats Unify CustomData Mesh Tmf File FileSpec File_proofs NoPanic_proofs
  LayoutSpec Layout_proofs Layout2_proofs Layout3_proofs P_Platform.
Import ListNotations.
Open Scope res_scope.

(** C68. A file that loads holds as many meshes as were loaded, with their names. *)
Theorem C68_layout : forall lm oc src l, bytes_ok src -> read_tmf lm oc src = Ok l ->
  exists ms, holds src ms /\ Forall2 (fun m raw => snd m = fst raw) l ms.
Proof.
  intros lm oc src l H R. destruct (file_held lm oc src l H R) as (a & b & c & d & ms & rest & -> & (F1 & F2 & F3) & X).
  exists ms. split; [|exact X]. exists a, b, c, d, rest. auto.
Qed.
Print Assumptions C68_layout.
(** The bytes determine the meshes: no file can be taken apart in two ways. *)
Theorem C68_unambiguous : forall src ms ms', holds src ms -> holds src ms' -> ms = ms'.
Proof.
  intros src ms ms' H H'. assert (G : forall x y, holds src x -> holds src y -> length x <= length y -> x = y).
  { intros x y X Y L. destruct (starts_inj src _ _ x y X Y L) as [E [more ->]]. unfold len in E. rewrite app_length in E.
    destruct more; [now rewrite app_nil_r|cbn in E; lia]. }
  destruct (Nat.le_ge_cases (length ms) (length ms')); [auto|symmetry; auto].
Qed.
Print Assumptions C68_unambiguous.
(** The meshes of a file do not depend on each other: a file with two lists of meshes loads
    what a file with the first and a file with the second load. *)
Theorem C68_independent : forall lm oc a b c d ms1 ms2 rest rest1, file_fits a b c d (ms1 ++ ms2) ->
  read_tmf lm oc (file_of a b c d (ms1 ++ ms2) rest) =
  (let* l1 := read_tmf lm oc (file_of a b c d ms1 rest1) in
   let* l2 := read_tmf lm oc (file_of a b c d ms2 rest) in Ok (l1 ++ l2)).
Proof.
  intros lm oc a b c d ms1 ms2 rest rest1 F. assert (file_fits a b c d ms1 /\ file_fits a b c d ms2) as [F1 F2].
  { destruct F as (A & B & C). apply Forall_app in C as [C1 C2]. unfold len in B. rewrite app_length in B.
    split; (split; [exact A|]; split; [unfold len; lia|assumption]). }
  rewrite !read_file by auto. destruct (too_new c d); [reflexivity|]. rewrite map_app. apply collect_app.
Qed.
Print Assumptions C68_independent.

(** C69. The order of the segments of a mesh matters only among those that add to the same
    part of it. *)
Lemma fits_order a b c d ms1 ms2 name l l' : rearranged l l' -> file_fits a b c d (ms1 ++ (name, l) :: ms2) -> file_fits a b c d (ms1 ++ (name, l') :: ms2).
Proof.
  intros R (A & B & C). split; [exact A|]. unfold len in *. rewrite app_length in *. cbn [length] in *. split; [exact B|].
  apply Forall_app in C as [C1 C2]. apply Forall_app. split; [exact C1|]. inversion C2 as [|? ? (D1 & D2 & D3) C3]; subst. constructor; [|exact C3].
  cbn [fst snd] in *. split; [exact D1|]. cbn [snd]. unfold len in *. rewrite <- (rearranged_length l l' R). split; [exact D2|].
  rewrite Forall_forall in *. intros s I. apply D3. now apply (rearranged_In l l' R).
Qed.
Theorem C69_segment_order : forall lm oc a b c d ms1 name l l' ms2 rest, rearranged l l' -> file_fits a b c d (ms1 ++ (name, l) :: ms2) ->
  let file x := file_of a b c d (ms1 ++ (name, x) :: ms2) rest in
  (forall out, read_tmf lm oc (file l) = Ok out <-> read_tmf lm oc (file l') = Ok out) /\
  (read_tmf lm oc (file l) = Panic <-> read_tmf lm oc (file l') = Panic).
Proof.
  intros lm oc a b c d ms1 name l l' ms2 rest R F file. unfold file. rewrite !read_file by eauto using fits_order.
  destruct (too_new c d); [split; [intros|]; reflexivity|]. rewrite !map_app, !collect_app. cbn [map collect].
  destruct (collect (map _ ms1)); cbn [bind]; try (split; [intros|]; reflexivity).
  set (ctx := init_header _).
  assert (A : forall x, load_at lm oc ctx (name, l) = Ok x <-> load_at lm oc ctx (name, l') = Ok x).
  { intros x. split; apply load_order; auto using rearranged_sym. }
  assert (P : load_at lm oc ctx (name, l) = Panic <-> load_at lm oc ctx (name, l') = Panic).
  { split; apply load_order_panic; auto using rearranged_sym. }
  destruct (load_at lm oc ctx (name, l)) as [x|e|].
  - rewrite (proj1 (A x) eq_refl). split; [intros|]; reflexivity.
  - destruct (load_at lm oc ctx (name, l')) as [y|e'|].
    + discriminate (proj2 (A y) eq_refl).
    + cbn [bind]. split; [intros; split; discriminate|split; discriminate].
    + discriminate (proj2 P eq_refl).
  - rewrite (proj1 P eq_refl). split; [intros|]; reflexivity.
Qed.
Print Assumptions C69_segment_order.
(** Segments of one kind do depend on their order: they are appended. *)
Definition two_uvs (x y : N) : list N := file_bytes [([65]%N, [mk_raw 5 0 ([4]%N ++ lend 8 1 ++ [x]%N); mk_raw 5 0 ([4]%N ++ lend 8 1 ++ [y]%N)])].
Definition uv_zero : f32 := fdiv (f32_of_N 0) (f32_of_N 15).
Definition uv_one : f32 := fdiv (f32_of_N 15) (f32_of_N 15).
Theorem C69_same_kind_refuted : forall lm, exists m m',
  read_tmf lm true (two_uvs 0x00 0xFF) = Ok [(m, [65]%N)] /\ read_tmf lm true (two_uvs 0xFF 0x00) = Ok [(m', [65]%N)] /\
  uvs m = Some [(uv_zero, uv_zero); (uv_one, uv_one)] /\ uvs m' = Some [(uv_one, uv_one); (uv_zero, uv_zero)] /\ uv_zero <> uv_one.
Proof.
  intros lm. do 2 eexists. split; [unfold two_uvs; lazy -[fdiv f32_of_N]; reflexivity|]. split; [unfold two_uvs; lazy -[fdiv f32_of_N]; reflexivity|].
  split; [reflexivity|]. split; [reflexivity|]. intros E. apply (f_equal B2SF) in E. vm_compute in E. discriminate E.
Qed.
Print Assumptions C69_same_kind_refuted.

(** C17. Where the bytes that make a load panic are: in a segment of one of the meshes the
    file starts with. *)
Theorem C17_panics_where : forall lm oc src, bytes_ok src -> read_tmf lm oc src = Panic ->
  exists n ms raw s, starts_with src n (ms ++ [raw]) /\ (len ms < n)%N /\ In s (snd raw) /\ panic_payload oc (r_kind s) (r_payload s).
Proof.
  intros lm oc src H R. destruct (file_panics lm oc src H R) as (n & ms & raw & A & B & s & C & D). exists n, ms, raw, s. auto.
Qed.
Print Assumptions C17_panics_where.

(** The segments of a file, and the same with the texture coordinates moved to the front and
    the first custom data before the tangents. *)
Definition mixed_segs : list raw_seg :=
  [ mk_raw 3 0 (lend 8 1 ++ [2]%N ++ [0xAA; 0]%N);
    mk_raw 9 0 (lend 8 1 ++ [2]%N ++ [0xCC; 0]%N);
    mk_raw 5 0 ([4]%N ++ lend 8 1 ++ [0x3F]%N);
    mk_raw 23 0 ([1; 66]%N ++ lend 8 1 ++ [2]%N ++ [0x1B]%N);
    mk_raw 23 0 ([1; 67]%N ++ lend 8 1 ++ [0]%N) ].
Definition moved_segs : list raw_seg :=
  [ mk_raw 5 0 ([4]%N ++ lend 8 1 ++ [0x3F]%N);
    mk_raw 3 0 (lend 8 1 ++ [2]%N ++ [0xAA; 0]%N);
    mk_raw 23 0 ([1; 66]%N ++ lend 8 1 ++ [2]%N ++ [0x1B]%N);
    mk_raw 9 0 (lend 8 1 ++ [2]%N ++ [0xCC; 0]%N);
    mk_raw 23 0 ([1; 67]%N ++ lend 8 1 ++ [0]%N) ].
Lemma mixed_moved : rearranged mixed_segs moved_segs.
Proof.
  assert (I : forall s t, existsb (fun p => existsb (N.eqb p) (parts (r_kind t))) (parts (r_kind s)) = false -> independent s t).
  { intros s t E p A B. assert (X : existsb (fun p => existsb (N.eqb p) (parts (r_kind t))) (parts (r_kind s)) = true); [|congruence].
    apply existsb_exists. exists p. split; [exact A|]. apply existsb_exists. exists p. split; [exact B|apply N.eqb_refl]. }
  unfold mixed_segs, moved_segs.
  match goal with |- rearranged [?a; ?b; ?c; ?d; ?e] _ =>
    apply re_trans with [a; c; b; d; e]; [apply (re_swap [a] b c [d; e]), I; reflexivity|];
    apply re_trans with [c; a; b; d; e]; [apply (re_swap [] a c [b; d; e]), I; reflexivity|];
    apply (re_swap [c; a] b d [e]), I; reflexivity end.
Qed.
Lemma mixed_fits n : (n < 128)%N -> storable 2 ([n]%N, mixed_segs).
Proof.
  intros H. split; [split; [apply utf8_1; [lia|constructor]|reflexivity]|]. split; [reflexivity|].
  repeat constructor; cbn; try lia; auto; discriminate.
Qed.
Example C68_case : holds mixed_file [([65]%N, mixed_segs)] /\ forall lm, exists m, read_tmf lm true mixed_file = Ok [(m, [65]%N)].
Proof.
  split; [|intros lm; destruct (mixed_loads lm) as (m & R & _); eauto].
  exists 0%N, 2%N, 0%N, 2%N, []. rewrite app_nil_r. split; [reflexivity|]. split; [repeat constructor|]. split; [reflexivity|].
  constructor; [now apply mixed_fits|constructor].
Qed.
(** Two meshes, in one file, and the second kept out of a file of its own. *)
Example C68_independent_case : forall lm, exists m n, read_tmf lm true (file_of 0 2 0 2 [([65]%N, mixed_segs); ([66]%N, [])] [7]%N) =
  Ok [(m, [65]%N); (n, [66]%N)] /\ read_tmf lm true mixed_file = Ok [(m, [65]%N)] /\ read_tmf lm true (file_of 0 2 0 2 [([66]%N, [])] [7]%N) = Ok [(n, [66]%N)].
Proof.
  intros lm. destruct (mixed_loads lm) as (m & R & _). eexists m, _.
  assert (R2 : read_tmf lm true (file_of 0 2 0 2 [([66]%N, [])] [7]%N) = Ok [(Mesh.empty, [66]%N)]) by (vm_compute; reflexivity).
  split; [|split; [exact R|exact R2]].
  change [([65]%N, mixed_segs); ([66]%N, [])] with ([([65]%N, mixed_segs)] ++ [([66]%N, @nil raw_seg)]).
  rewrite (C68_independent lm true 0 2 0 2 _ _ [7]%N []).
  - replace (file_of 0 2 0 2 [([65]%N, mixed_segs)] []) with mixed_file by (unfold file_of; rewrite app_nil_r; reflexivity).
    rewrite R, R2. reflexivity.
  - split; [repeat constructor|]. split; [reflexivity|]. constructor; [now apply mixed_fits|]. constructor; [|constructor].
    split; [split; [apply utf8_1; [lia|constructor]|reflexivity]|]. split; [reflexivity|constructor].
Qed.
Example C69_case : forall lm, exists m, read_tmf lm true mixed_file = Ok [(m, [65]%N)] /\
  read_tmf lm true (file_bytes [([65]%N, moved_segs)]) = Ok [(m, [65]%N)].
Proof.
  intros lm. destruct (mixed_loads lm) as (m & R & _). exists m. split; [exact R|].
  destruct (C69_segment_order lm true 0 2 0 2 [] [65]%N mixed_segs moved_segs [] [] mixed_moved) as [A _].
  { split; [repeat constructor|]. split; [reflexivity|]. constructor; [now apply mixed_fits|constructor]. }
  cbn [app] in A. unfold file_of in A. rewrite !app_nil_r in A. apply A. exact R.
Qed.
