(** C50 and C58: faces with more than three corners, when the feature "triangulation"
    is on. [acos] is the platform's function. *)
From Coq Require Import List NArith ZArith Arith Lia Bool.
From Flocq Require Import IEEE754.BinarySingleNaN.
From Verif Require Import Base Floats Utilis CustomData Mesh FileSpec MeshSpec Importer Obj ObjSpec Obj_proofs Obj2_proofs P_Split PolygonSpec Polygon_proofs P_Obj.
Import ListNotations.
Open Scope res_scope.

(** The state of the import with more indices. *)
Definition more (s : importer) (v n u : list N) : importer :=
  mk_importer (i_vertices s) (i_normals s) (i_uvs s) (i_vertex_triangles s ++ v) (i_normal_triangles s ++ n) (i_uv_triangles s ++ u) (i_name s).
Lemma push_face_polygon acos s v u n : 4 <= length v -> length u = length v -> length n = length v ->
  push_face (Some acos) s v u n = triangulate acos s v n u.
Proof.
  intros L LU LN. unfold push_face. rewrite LU, LN, Nat.eqb_refl. cbn [andb negb]. destruct v as [|a [|b [|c [|d v]]]]; cbn in L; try lia. reflexivity.
Qed.
Lemma corners_lt n x : In x (corners n) -> (x < N.of_nat n)%N.
Proof. unfold corners. intros I. apply in_map_iff in I as (k & <- & I). apply in_seq in I. lia. Qed.
Lemma picked (l : list N) ts pr k : length l = k -> clips pr (corners k) ts -> picks l (flat ts) (sel l (flat ts)).
Proof.
  intros L C. apply sel_picks. apply Forall_forall. intros x I. apply (clips_corners _ _ _ C) in I. apply corners_lt in I. unfold len. lia.
Qed.

(** C50. A face with n corners becomes n - 2 triangles, the same in all three index
    arrays, by cutting off corners one by one; but the place before the first corner is
    taken to be 2^64 - 1 modulo the number of corners left. *)
Theorem C50_triangulates : forall acos s v u n, 4 <= length v -> (len v < 2 ^ 64)%N -> length u = length v -> length n = length v ->
  in_range (i_vertices s) v ->
  exists ts vs us ns, push_face (Some acos) s v u n = Ok (more s vs ns us) /\
    clips wrapped_before (corners (length v)) ts /\ picks v (flat ts) vs /\ picks u (flat ts) us /\ picks n (flat ts) ns.
Proof.
  intros acos s v u n L B LU LN R. rewrite push_face_polygon by auto.
  destruct (triangulate_ok (E:=face_error) acos s v n u) as (ts & -> & C); auto; [lia|].
  exists ts, (sel v (flat ts)), (sel u (flat ts)), (sel n (flat ts)). split; [reflexivity|]. split; auto.
  split; [|split]; eapply picked; eauto.
Qed.
(** What cutting off corners gives, whatever is taken for the place before: the number
    of triangles, and corners of the polygon only. *)
Theorem C50_count : forall pr n ts, clips pr (corners n) ts -> length ts = n - 2 /\ length (flat ts) = 3 * (n - 2) /\
  Forall (fun p => (p < N.of_nat n)%N) (flat ts).
Proof.
  intros pr n ts C. pose proof (clips_count _ _ _ C) as L. unfold corners in L. rewrite map_length, seq_length in L. rewrite flat_length.
  split; [lia|]. split; [lia|]. apply Forall_forall. intros x I. apply corners_lt. eapply clips_corners; eauto.
Qed.
(** Four corners are cut properly, along one of the diagonals. *)
Theorem C50_quad : forall acos s v u n, length v = 4 -> length u = 4 -> length n = 4 -> in_range (i_vertices s) v ->
  exists ts vs us ns, push_face (Some acos) s v u n = Ok (more s vs ns us) /\
    picks v (flat ts) vs /\ picks u (flat ts) us /\ picks n (flat ts) ns /\ clips place_before (corners 4) ts /\
    (ts = [(3, 0, 1); (1, 2, 3)] \/ ts = [(0, 1, 2); (0, 2, 3)] \/ ts = [(1, 2, 3); (0, 1, 3)] \/ ts = [(2, 3, 0); (0, 1, 2)])%N.
Proof.
  intros acos s v u n L LU LN R.
  destruct (C50_triangulates acos s v u n) as (ts & vs & us & ns & E & C & P1 & P2 & P3); try lia; auto. { unfold len. rewrite L. reflexivity. }
  rewrite L in C. exists ts, vs, us, ns. split; auto. split; auto. split; auto. split; auto. split; [|now apply clips_quad].
  apply clips_quad in C. assert (T : forall a b c, clips place_before [a; b; c] [(a, b, c)]) by (intros; apply clips_last).
  destruct C as [->|[->|[->| ->]]].
  - apply (clips_corner _ _ 0); try reflexivity. apply T.
  - apply (clips_corner _ _ 1); try reflexivity. apply T.
  - apply (clips_corner _ _ 2); try reflexivity. apply T.
  - apply (clips_corner _ _ 3); try reflexivity. apply T.
Qed.
(** Five corners never are: the first triangle is (0, 0, 1), without area, and the first
    corner is in no other, so that its part of the polygon is missing. This holds for
    every pentagon whose first corner has finite coordinates, if acos of NaN is NaN. *)
Theorem C50_pentagon_refuted : forall acos s v u n x, acos B754_nan = B754_nan -> length v = 5 -> length u = 5 -> length n = 5 ->
  in_range (i_vertices s) v -> (forall i, at_pos v 0 i -> at_pos (i_vertices s) i x) -> finite_vec x ->
  exists ts vs us ns, push_face (Some acos) s v u n = Ok (more s vs ns us) /\
    picks v (flat ((0, 0, 1)%N :: ts)) vs /\ picks u (flat ((0, 0, 1)%N :: ts)) us /\ picks n (flat ((0, 0, 1)%N :: ts)) ns /\
    length ts = 2 /\ ~ In 0%N (flat ts).
Proof.
  intros acos s v u n x AN L LU LN R X F. rewrite push_face_polygon by lia.
  destruct (pentagon (E:=face_error) acos s v n u x) as (ts & -> & ts' & -> & C); auto.
  exists ts', (sel v (flat ((0, 0, 1)%N :: ts'))), (sel u (flat ((0, 0, 1)%N :: ts'))), (sel n (flat ((0, 0, 1)%N :: ts'))). split; [reflexivity|].
  assert (IN : forall y, In y (flat ts') -> (y = 1 \/ y = 2 \/ y = 3 \/ y = 4)%N).
  { intros y I. apply (clips_corners _ _ _ C) in I. cbn in I. intuition auto. }
  assert (P : forall l, length l = 5 -> picks l (flat ((0, 0, 1)%N :: ts')) (sel l (flat ((0, 0, 1)%N :: ts')))).
  { intros l LL. apply sel_picks. apply Forall_forall. intros y I. unfold len. rewrite LL. change (flat ((0, 0, 1)%N :: ts')) with ([0; 0; 1]%N ++ flat ts') in I.
    apply in_app_or in I as [I|I]; [cbn in I; intuition (subst; lia)|]. apply IN in I. lia. }
  split; auto. split; auto. split; auto. split.
  - apply clips_count in C. cbn in C. lia.
  - intros I. apply IN in I. lia.
Qed.
(** A pentagon in the plane z = 0; demo_acos keeps NaN. *)
Definition demo_acos (x : f32) : f32 := fsub f1 x.
Definition five : importer := mk_importer [pt 0 0 0; pt 2 0 0; pt 3 1 0; pt 1 3 0; pt 0 1 0] [] [] [] [] [] [].
Definition triangles_of (r : res face_error importer) : option (list N) := match r with Ok s => Some (i_vertex_triangles s) | _ => None end.
Example C50_case : demo_acos B754_nan = B754_nan /\ in_range (i_vertices five) [0; 1; 2; 3; 4]%N /\
  (forall i, at_pos [0; 1; 2; 3; 4]%N 0 i -> at_pos (i_vertices five) i (pt 0 0 0)) /\ finite_vec (pt 0 0 0) /\
  triangles_of (push_face (Some demo_acos) five [0; 1; 2; 3; 4]%N [0; 1; 2; 3; 4]%N [0; 1; 2; 3; 4]%N) = Some [0; 0; 1; 4; 1; 2; 2; 3; 4]%N /\
  triangles_of (push_face (Some demo_acos) five [0; 1; 2; 4]%N [0; 1; 2; 4]%N [0; 1; 2; 4]%N) = Some [0; 1; 2; 0; 2; 4]%N.
Proof.
  split; [reflexivity|]. split; [repeat (apply Forall_cons; [reflexivity|]); apply Forall_nil|].
  split; [intros i I; injection I as <-; reflexivity|]. split; [repeat split|]. split; vm_compute; reflexivity.
Qed.
Print Assumptions C50_triangulates.
Print Assumptions C50_count.
Print Assumptions C50_quad.
Print Assumptions C50_pentagon_refuted.

(** C58. When triangulation is on, a face makes the import panic exactly when it has
    more than three corners and one of them is a vertex that was not read yet. *)
Theorem C58_panics : forall acos s v u n, (len v < 2 ^ 64)%N ->
  (push_face (Some acos) s v u n = Panic <->
   length u = length v /\ length n = length v /\ 4 <= length v /\ exists i, In i v /\ (len (i_vertices s) <= i)%N).
Proof.
  intros acos s v u n B. split.
  - intros H. assert (LL : length u = length v /\ length n = length v).
    { unfold push_face in H. destruct (length v =? length u) eqn:E1; [|discriminate H]. destruct (length v =? length n) eqn:E2; [|discriminate H].
      apply Nat.eqb_eq in E1, E2. auto. }
    destruct LL as [LU LN]. split; auto. split; auto.
    assert (L : 4 <= length v).
    { destruct v as [|a [|b [|c [|d v]]]]; cbn [length]; try lia; exfalso; unfold push_face in H; rewrite LU, LN in H; cbn in H; discriminate H. }
    split; auto. rewrite push_face_polygon in H by auto.
    assert (D : in_range (i_vertices s) v \/ exists i, In i v /\ (len (i_vertices s) <= i)%N).
    { clear. unfold in_range. induction v as [|x v [IH|(i & I & J)]]; [left; constructor| |right; exists i; split; [now right|auto]].
      destruct (N.lt_ge_cases x (len (i_vertices s))); [left; now constructor|right]. exists x. split; [now left|auto]. }
    destruct D as [R|D]; auto. destruct (triangulate_ok (E:=face_error) acos s v n u) as (ts & T & _); auto; [lia|]. congruence.
  - intros (LU & LN & L & i & I & O). rewrite push_face_polygon by auto. eapply triangulate_panics; eauto.
Qed.
(** The same for a whole file of vertices and one face of four or more corners. *)
Theorem C58_file : forall ft acos vs cs nums, text_ok ft -> Forall corner_plain cs -> Forall2 corner_numbers cs nums -> Forall nonzero nums ->
  4 <= length cs -> (len cs < 2 ^ 64)%N ->
  (read_from_obj ft (Some acos) (concat (map (vec3_line ft kw_v) vs) ++ face_line cs ++ nl) = Panic <->
   exists c, In c nums /\ (len vs < fst (fst c))%N).
Proof.
  intros ft acos vs cs nums T P F NZ L B.
  assert (LN : length nums = length cs) by (clear - F; induction F; cbn [length]; lia).
  replace (concat (map (vec3_line ft kw_v) vs) ++ face_line cs ++ nl) with (unlines (map (vec3_text ft kw_v) vs ++ [face_line cs])).
  2: { rewrite unlines_app, unlines_map. rewrite (map_ext _ _ (vec3_line_text ft kw_v)). f_equal. unfold unlines. cbn [map concat]. now rewrite app_nil_r. }
  unfold read_from_obj. rewrite lines_unlines.
  2: { apply Forall_app. split.
       - apply Forall_forall. intros l I. apply in_map_iff in I as (x & <- & _). apply visible_line, join_visible; [apply kw_plain|]. now apply vec3_parts.
       - constructor; [|constructor]. rewrite face_line_join. apply visible_line, join_visible; [apply kw_plain|now apply corner_seps_ok]. }
  rewrite read_lines_app, read_vertices by auto. cbn [bind read_lines].
  rewrite (parse_face_line ft (Some acos) cs nums nums); auto. 2: { exists []. rewrite app_nil_r. auto. }
  set (s := with_data importer_new vs [] []).
  pose proof (C58_panics acos s (map (fun c => fst (fst c) - 1)%N nums) (map (fun c => snd (fst c) - 1)%N nums) (map (fun c => snd c - 1)%N nums)) as C.
  rewrite !map_length in C. assert (B' : (len (map (fun c : N * N * N => fst (fst c) - 1)%N nums) < 2 ^ 64)%N) by (unfold len in *; now rewrite map_length, LN).
  specialize (C B'). change (len (i_vertices s)) with (len vs) in C.
  assert (EQ : (exists i, In i (map (fun c : N * N * N => fst (fst c) - 1)%N nums) /\ (len vs <= i)%N) <-> exists c, In c nums /\ (len vs < fst (fst c))%N).
  { split.
    - intros (i & I & O). apply in_map_iff in I as (c & <- & I). exists c. split; auto. rewrite Forall_forall in NZ. destruct (NZ c I). lia.
    - intros (c & I & O). exists (fst (fst c) - 1)%N. split; [apply (in_map (fun c : N * N * N => fst (fst c) - 1)%N), I|]. lia. }
  rewrite <- EQ. split.
  - intros H. apply C. destruct (push_face (Some acos) s _ _ _) as [s'|e|]; cbn [map_err bind] in H; [discriminate H|discriminate H|reflexivity].
  - intros H. assert (push_face (Some acos) s (map (fun c => fst (fst c) - 1)%N nums) (map (fun c => snd (fst c) - 1)%N nums) (map (fun c => snd c - 1)%N nums) = Panic) as ->.
    { apply C. split; auto. split; auto. split; [lia|auto]. }
    reflexivity.
Qed.
(** "v ...", "f 1/1/1 1/1/1 1/1/1 2/1/1": the fourth corner is missing. *)
Example C58_case : exists cs nums, Forall corner_plain cs /\ Forall2 corner_numbers cs nums /\ Forall nonzero nums /\ length cs = 4 /\
  exists c, In c nums /\ (len [pt 0 0 0] < fst (fst c))%N.
Proof.
  exists [([49], [49], [49]); ([49], [49], [49]); ([49], [49], [49]); ([50], [49], [49])]%N, [(1, 1, 1); (1, 1, 1); (1, 1, 1); (2, 1, 1)]%N.
  split; [unfold corner_plain, plain; repeat (apply Forall_cons; [cbn [fst snd]; repeat split; repeat (apply Forall_cons; [lia|]); apply Forall_nil|]); apply Forall_nil|].
  split; [unfold corner_numbers; repeat (apply Forall2_cons; [cbn [fst snd]; repeat split; apply stands_for_by; reflexivity|]); apply Forall2_nil|].
  split; [unfold nonzero; repeat (apply Forall_cons; [cbn [fst snd]; lia|]); apply Forall_nil|]. split; [reflexivity|].
  exists (2, 1, 1)%N. split; [cbn; auto|reflexivity].
Qed.
Print Assumptions C58_panics.
Print Assumptions C58_file.
