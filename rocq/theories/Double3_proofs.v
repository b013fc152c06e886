(** Loading the same bytes with and without the feature [double_precision]. *)
From Coq Require Import List NArith ZArith Arith Lia Bool Reals.
From Flocq Require Import IEEE754.BinarySingleNaN.
From Verif Require Import Base BitSpec BitLemmas UnalignedRW UnalignedRW_proofs ReadExt ByteLemmas Triangles
  TriSpec Triangles_proofs Floats Utilis Unify Vertices Uv Normals CustomData Mesh Tmf File FileSpec
  Parse_proofs File_proofs NoPanic_proofs ValueSpec PlatformSpec Platform_proofs LayoutSpec Layout_proofs Double DoubleSpec Range2_proofs Double2_proofs.
Import ListNotations.
Open Scope res_scope.

(** As [same_outcome], or the second panics and [H] holds. *)
Definition so2 {A B} (H : Prop) (R : A -> B -> Prop) (a : res ierr A) (b : res ierr B) : Prop :=
  same_outcome R a b \/ (b = Panic /\ H).
Lemma so2_bind {A A' B B'} H (R : A -> A' -> Prop) (S : B -> B' -> Prop) m m' (k : A -> res ierr B) (k' : A' -> res ierr B') :
  so2 H R m m' -> (forall a a', R a a' -> so2 H S (k a) (k' a')) -> so2 H S (bind m k) (bind m' k').
Proof.
  intros [M|[-> X]] K; [|right; auto]. destruct m, m'; cbn in M; try contradiction; cbn.
  - now apply K.
  - left. exact M.
  - left. exact I.
Qed.
Lemma so2_same {A B B'} H (Q : A -> Prop) (S : B -> B' -> Prop) (m : res ierr A) (k : A -> res ierr B) (k' : A -> res ierr B') :
  outc True Q m -> (forall a, Q a -> so2 H S (k a) (k' a)) -> so2 H S (bind m k) (bind m k').
Proof. destruct m; cbn; auto; intros; left; cbn; auto. Qed.
Lemma so2_weaken {A B} (H H' : Prop) (R R' : A -> B -> Prop) a b : (H -> H') -> (forall x y, R x y -> R' x y) -> so2 H R a b -> so2 H' R' a b.
Proof. intros HH RR [M|[-> X]]; [left|right; auto]. destruct a, b; cbn in *; auto. Qed.
Lemma so_weaken {A B} (R R' : A -> B -> Prop) (a : res ierr A) b : (forall x y, R x y -> R' x y) -> same_outcome R a b -> same_outcome R' a b.
Proof. intros RR M. destruct a, b; cbn in *; auto. Qed.
Lemma so_collect2 {A B} (R : A -> B -> Prop) (l : list (res ierr A)) (l' : list (res ierr B)) :
  Forall2 (same_outcome R) l l' -> same_outcome (Forall2 R) (collect l) (collect l').
Proof.
  induction 1 as [|a b l l' H F IH]; cbn [collect]; [constructor|].
  eapply so_bind; [exact H|]. intros x y XY. eapply so_bind; [exact IH|]. intros u v UV. cbn. now constructor.
Qed.
Lemma so2_join {A B} H (R : A -> B -> Prop) (l : list (res ierr A)) (l' : list (res ierr B)) :
  Forall2 (so2 H R) l l' -> so2 H (Forall2 R) (join_collect l) (join_collect l').
Proof.
  intros F. assert (D : Forall2 (same_outcome R) l l' \/ (existsb is_panic l' = true /\ H)).
  { induction F as [|a b l l' M F IH]; [left; constructor|]. destruct M as [M|[-> X]]; [|right; auto].
    destruct IH as [IH|[IH X]]; [left; now constructor|right]. cbn. rewrite IH, orb_true_r. auto. }
  unfold join_collect. destruct D as [D|[D X]]; [left|right; rewrite D; auto].
  assert (EQ : existsb is_panic l = existsb is_panic l').
  { clear F. induction D as [|a b l l' M F IH]; cbn; [reflexivity|]. rewrite IH. f_equal. destruct a, b; cbn in *; tauto. }
  rewrite EQ. destruct (existsb is_panic l'); [exact I|]. now apply so_collect2.
Qed.

Lemma Forall2_impl {A B} (P Q : A -> B -> Prop) l l' : (forall a b, P a b -> Q a b) -> Forall2 P l l' -> Forall2 Q l l'.
Proof. intros I F. induction F; constructor; auto. Qed.

(** ** Loops *)
Lemma so_many {A B} (P : A -> B -> Prop) (step : reader -> res ierr (A * reader)) (step' : reader -> res ierr (B * reader)) :
  (forall r, rok r -> same_outcome (fun x y => P (fst x) (fst y) /\ snd x = snd y /\ rok (snd x)) (step r) (step' r)) ->
  forall k r l l', rok r -> Forall2 P l l' -> same_outcome (Forall2 P) (read_many step k r l) (read_many step' k r l').
Proof.
  intros ST k. induction k as [|k IH]; intros r l l' Hr G; cbn [read_many]; [exact G|].
  eapply so_bind; [apply ST; exact Hr|]. intros [a r1] [b r1'] (X & Y & Z). cbn [fst snd] in *. subst r1'.
  apply IH; auto. apply Forall2_app; auto.
Qed.
Ltac loop n := induction n as [|n IH]; intros; [reflexivity|];
  cbn [read_many read_vertex_loop read_tangent_loop read_uv_loop read_float_loop read_color_loop];
  repeat match goal with |- context [io ?m] => destruct (io m) as [[? ?]|?|]; cbn [bind fst snd]; try reflexivity end; apply IH.
Lemma vertex_many n px py pz mk : forall r acc, read_vertex_loop n r px py pz mk acc =
  read_many (fun r => let* (x, r) := io (read_unaligned r px) in let* (y, r) := io (read_unaligned r py) in
    let* (z, r) := io (read_unaligned r pz) in Ok (mk x y z, r)) n r acc.
Proof. loop n. Qed.
Lemma normal_many n lm oc p : forall r acc, read_normal_loop lm oc n p r acc = read_many (read_normal lm oc p) n r acc.
Proof. induction n as [|n IH]; intros; [reflexivity|]. cbn. destruct (read_normal lm oc p r) as [[? ?]|?|]; cbn; auto. Qed.
Lemma tangent_many n lm p : forall r acc, read_tangent_loop lm n p r acc =
  read_many (fun r => let* (h, r) := io (read_bit r) in let* (sx, r) := io (read_bit r) in let* (sy, r) := io (read_bit r) in
    let* (sz, r) := io (read_bit r) in let* (a, r) := io (read_unaligned r p) in let* (z, r) := io (read_unaligned r p) in
    Ok ((normal_from_encoding lm (mk_ncode a z sx sy sz) p, ht_from_bool h), r)) n r acc.
Proof. loop n. Qed.
Lemma uv_many n oc p d : forall r acc, read_uv_loop oc n r p d acc =
  read_many (fun r => let* (c, r) := io (read2_unaligned oc r p) in Ok ((uv_value d (fst c), uv_value d (snd c)), r)) n r acc.
Proof. loop n. Qed.
Lemma float_many n p mk : forall r acc, read_float_loop n r p mk acc =
  read_many (fun r => let* (v, r) := io (read_unaligned r p) in Ok (mk v, r)) n r acc.
Proof. loop n. Qed.
Lemma color_many n oc p mk : forall r acc, read_color_loop oc n r p mk acc =
  read_many (fun r => let* (c, r) := io (read2_unaligned oc r p) in let* (d, r) := io (read2_unaligned oc r p) in
    Ok ((mk (fst c), mk (snd c), mk (fst d), mk (snd d)), r)) n r acc.
Proof. loop n. Qed.

(** ** Payloads *)
Lemma so_box src : bytes_ok src ->
  same_outcome (fun x y => fst x = f32_of_f64 (fst y) /\ snd x = snd y /\ bytes_ok (snd x) /\
     exists l, src = lend 8 l ++ snd x /\ (l < 2 ^ 64)%N /\ fst y = f64_of_bits l) (read_f64_as_f32 src) (io (read_f64 src)).
Proof.
  intros H. unfold read_f64_as_f32, read_f64. pose proof (outc_u64 True src H) as A.
  destruct (read_u64 src) as [[v r]|e|]; cbn [io map_err bind outc same_outcome fst snd] in *; auto. destruct A as (A & B & C).
  split; [reflexivity|]. split; [reflexivity|]. split; [exact A|]. exists v. rewrite lend_le. auto.
Qed.
Definition near_in (payload : list N) (v : vec3) (v' : dvec3) : Prop :=
  exists lx hx ly hy lz hz, box_of payload 0 lx hx /\ box_of payload 1 ly hy /\ box_of payload 2 lz hz /\
    near_coord lx hx (fst (fst v)) (fst (fst v')) /\ near_coord ly hy (snd (fst v)) (snd (fst v')) /\
    near_coord lz hz (snd v) (snd v').
Lemma lend8 v : length (lend 8 v) = 8. Proof. now rewrite lend_le, le_bytes_length. Qed.
Lemma so_vertices src : bytes_ok src ->
  same_outcome (Forall2 (near_in src)) (read_tmf_vertices src) (read_tmf_vertices_d src).
Proof.
  intros H. unfold read_tmf_vertices, read_tmf_vertices_d.
  eapply so_same; [apply outc_u64; auto|]. intros [n s0] (H0 & E0 & _). cbn [fst snd] in *.
  eapply so_bind; [apply so_box; auto|]. intros [lx s1] [lx' s1'] (As1 & Bs1 & H1 & bl1 & E1 & L1 & F1). cbn [fst snd] in *. subst lx s1'.
  eapply so_bind; [apply so_box; auto|]. intros [hx s2] [hx' s2'] (As2 & Bs2 & H2 & bl2 & E2 & L2 & F2). cbn [fst snd] in *. subst hx s2'.
  eapply so_bind; [apply so_box; auto|]. intros [ly s3] [ly' s3'] (As3 & Bs3 & H3 & bl3 & E3 & L3 & F3). cbn [fst snd] in *. subst ly s3'.
  eapply so_bind; [apply so_box; auto|]. intros [hy s4] [hy' s4'] (As4 & Bs4 & H4 & bl4 & E4 & L4 & F4). cbn [fst snd] in *. subst hy s4'.
  eapply so_bind; [apply so_box; auto|]. intros [lz s5] [lz' s5'] (As5 & Bs5 & H5 & bl5 & E5 & L5 & F5). cbn [fst snd] in *. subst lz s5'.
  eapply so_bind; [apply so_box; auto|]. intros [hz s6] [hz' s6'] (As6 & Bs6 & H6 & bl6 & E6 & L6 & F6). cbn [fst snd] in *. subst hz s6'.
  eapply so_same; [apply outc_prec; auto|]. intros [px s7] [H7 P7]. cbn [fst snd] in *.
  eapply so_same; [apply outc_prec; auto|]. intros [py s8] [H8 P8]. cbn [fst snd] in *.
  eapply so_same; [apply outc_prec; auto|]. intros [pz s9] [H9 P9]. cbn [fst snd] in *. cbv zeta.
  destruct (_ <? _)%N; [reflexivity|].
  assert (BX : box_of src 0 lx' hx').
  { exists n, [], bl1, bl2, s2. split; [rewrite (lend_le 8 n); cbn [app]; rewrite <- E2, <- E1; exact E0|auto]. }
  assert (BY : box_of src 1 ly' hy').
  { exists n, (lend 8 bl1 ++ lend 8 bl2), bl3, bl4, s4.
    split; [rewrite (lend_le 8 n), <- app_assoc, <- E4, <- E3, <- E2, <- E1; exact E0|]. rewrite app_length, !lend8. auto. }
  assert (BZ : box_of src 2 lz' hz').
  { exists n, (lend 8 bl1 ++ lend 8 bl2 ++ lend 8 bl3 ++ lend 8 bl4), bl5, bl6, s6.
    split; [rewrite (lend_le 8 n), <- !app_assoc, <- E6, <- E5, <- E4, <- E3, <- E2, <- E1; exact E0|].
    rewrite !app_length, !lend8. auto. }
  rewrite vertex_many. apply so_many; [|now apply rok_slice|constructor]. clear - P7 P8 P9 BX BY BZ. intros r Hr.
  eapply so_same; [apply outc_one; auto|]. intros [x r1] [R1 X1]. cbn [fst snd] in *.
  eapply so_same; [apply outc_one; auto|]. intros [y r2] [R2 Y2]. cbn [fst snd] in *.
  eapply so_same; [apply outc_one; auto|]. intros [z r3] [R3 Z3]. cbn [fst snd same_outcome] in *.
  split; [|auto]. exists lx', hx', ly', hy', lz', hz'. cbn [fst snd]. auto 10 using coord_close.
Qed.

Section Accurate.
Variables (lm : libm) (sc : f64 -> f64 * f64).
Hypothesis OK : sin_cos_ok lm.
Hypothesis OK64 : sin_cos64_ok sc.

Lemma so_normals_d oc src : bytes_ok src ->
  same_outcome (Forall2 near_direction) (read_normal_array lm oc src) (read_normal_array_d sc oc src).
Proof.
  intros H. unfold read_normal_array, read_normal_array_d. eapply so_same; [apply outc_u64; auto|]. intros [n s0] (H0 & _).
  cbn [fst snd] in *. destruct (_ <? _)%N; [reflexivity|].
  eapply so_same; [apply outc_prec; auto|]. intros [p s1] [H1 Hp]. cbn [fst snd] in *.
  rewrite normal_many. apply so_many; [|now apply rok_slice|constructor]. intros r Hr. unfold read_normal.
  eapply so_same; [apply outc_bit; auto|]. intros [b1 r1] R1.
  eapply so_same; [apply outc_bit; auto|]. intros [b2 r2] R2.
  eapply so_same; [apply outc_bit; auto|]. intros [b3 r3] R3.
  eapply so_same; [apply outc_two; auto|]. intros [[a z] r4] (R4 & Fa & Fz). cbn [fst snd same_outcome] in *.
  split; [|auto]. apply direction_close; cbn [n_asine n_z]; auto using fits_lt.
Qed.
Definition near_tangent (t : tangent) (t' : dtangent) : Prop := near_direction (fst t) (fst t') /\ close 0 (snd t) (snd t').
Lemma so_tangents_d src : bytes_ok src -> same_outcome (Forall2 near_tangent) (read_tangents lm src) (read_tangents_d sc src).
Proof.
  intros H. unfold read_tangents, read_tangents_d. eapply so_same; [apply outc_u64; auto|]. intros [n s0] (H0 & _).
  cbn [fst snd] in *. destruct (_ <? _)%N; [reflexivity|].
  eapply so_same; [apply outc_prec; auto|]. intros [p s1] [H1 Hp]. cbn [fst snd] in *.
  rewrite tangent_many. apply so_many; [|now apply rok_slice|constructor]. intros r Hr.
  eapply so_same; [apply outc_bit; auto|]. intros [b1 r1] R1.
  eapply so_same; [apply outc_bit; auto|]. intros [b2 r2] R2.
  eapply so_same; [apply outc_bit; auto|]. intros [b3 r3] R3.
  eapply so_same; [apply outc_bit; auto|]. intros [b4 r4] R4.
  eapply so_same; [apply outc_one; auto|]. intros [a r5] [R5 Fa].
  eapply so_same; [apply outc_one; auto|]. intros [z r6] [R6 Fz]. cbn [fst snd same_outcome] in *.
  split; [|auto]. split; cbn [fst snd].
  - apply direction_close; cbn [n_asine n_z]; auto using fits_lt.
  - apply (close_sg 0 b1), one_close. apply Rle_refl.
Qed.
End Accurate.
Lemma so_uvs_d oc src : bytes_ok src -> same_outcome (Forall2 near_uv) (read_uvs oc src) (read_uvs_d oc src).
Proof.
  intros H. unfold read_uvs, read_uvs_d. eapply so_same; [apply outc_u8; auto|]. intros [p s0] (H0 & _). cbn [fst snd] in *.
  eapply so_same; [apply outc_u64; auto|]. intros [n s1] (H1 & _). cbn [fst snd] in *.
  destruct (_ <? _)%N; [reflexivity|]. destruct (N.eqb_spec p 0) as [E|E].
  - cbn. induction (N.to_nat n) as [|k IH]; cbn; constructor; auto. split; apply zero_close.
  - destruct (N.leb_spec 64 p) as [L|L]; [reflexivity|].
    rewrite uv_many. apply so_many; [|now apply rok_slice|constructor]. intros r Hr.
    eapply so_same; [apply outc_two; auto|]. intros [[a b] r1] (R1 & Fa & Fb). cbn [fst snd same_outcome] in *.
    split; [|auto]. split; apply uv_close; auto; lia.
Qed.
Lemma so_float src : bytes_ok src -> same_outcome near_data (read_custom_float src) (read_custom_float_d src).
Proof.
  intros H. unfold read_custom_float, read_custom_float_d. eapply so_same; [apply outc_u64; auto|]. intros [n s0] (H0 & _).
  cbn [fst snd] in *. destruct (_ <? _)%N; [reflexivity|].
  eapply so_same; [apply outc_f64; auto|]. intros [mn s1] H1. cbn [fst snd] in *.
  eapply so_same; [apply outc_f64; auto|]. intros [mx s2] H2. cbn [fst snd] in *.
  eapply so_same; [apply outc_prec; auto|]. intros [p s3] [H3 Hp]. cbn [fst snd] in *. cbv zeta.
  apply so_bind with (R := Forall2 rounded).
  - rewrite float_many. apply so_many; [|now apply rok_slice|constructor]. intros r Hr.
    eapply so_same; [apply outc_one; auto|]. intros [v r1] [R1 _]. cbn [fst snd same_outcome] in *. unfold rounded. auto.
  - intros l l' F. cbn [same_outcome near_data]. split; [exact F|apply precision_close].
Qed.
Definition huge (src : list N) : Prop := exists n rest, src = lend 8 n ++ rest /\ (2 ^ 58 <= n < 2 ^ 64)%N.
Lemma so_color oc src : bytes_ok src -> so2 (huge src) near_data (read_custom_color oc src) (read_custom_color_d oc src).
Proof.
  intros H. unfold read_custom_color, read_custom_color_d. eapply so2_same; [apply outc_u64; auto|]. intros [n s0] (H0 & E0 & L0).
  cbn [fst snd] in *. eapply so2_same; [apply outc_u8; auto|]. intros [p s1] (H1 & E1 & _). cbn [fst snd] in *.
  unfold color_alloc_ok_d. destruct (N.ltb_spec (n * 32) (2 ^ 63)) as [L|L]; cbn [negb].
  2:{ right. split; [reflexivity|]. exists n, s0. rewrite lend_le. split; [exact E0|].
      change (2 ^ 63)%N with (2 ^ 58 * 32)%N in L. change (2 ^ 64)%N with (2 ^ 58 * 64)%N in *. lia. }
  unfold color_alloc_ok. destruct (N.ltb_spec (n * 16) (2 ^ 63)) as [L'|L']; [|lia]. cbn [negb]. cbv zeta.
  eapply so2_same; [apply Range2_proofs.shl_one|]. intros one _. left.
  apply so_bind with (R := Forall2 rounded4).
  - rewrite color_many. apply so_many; [|now apply rok_slice|constructor]. intros r Hr.
    eapply so_same; [apply outc_two; auto|]. intros [[a b] r1] (R1 & _). cbn [fst snd] in *.
    eapply so_same; [apply outc_two; auto|]. intros [[c d] r2] (R2 & _). cbn [fst snd same_outcome] in *.
    unfold rounded4, rounded. cbn [fst snd]. auto.
  - intros l l' F. cbn [same_outcome near_data]. split; [exact F|apply precision_close].
Qed.
Definition huge_in (payload : list N) : Prop :=
  exists name n rest, payload = len name :: name ++ lend 8 n ++ rest /\ (2 ^ 58 <= n < 2 ^ 64)%N.
Lemma so_cseg oc ctx kind src : bytes_ok src ->
  so2 (kind = KColor /\ huge_in src) near_custom (cseg_read oc ctx kind src) (cseg_read_d oc ctx kind src).
Proof.
  intros H. unfold cseg_read, cseg_read_d. eapply so2_same; [apply outc_u8; auto|]. intros [n s0] (H0 & E0 & L0). cbn [fst snd] in *.
  eapply so2_same; [apply outc_read_exact|]. intros [name s1] [E1 L1]. cbn [fst snd] in *.
  assert (H1 : bytes_ok s1) by (rewrite E1 in H0; apply bytes_ok_app in H0; tauto).
  apply so2_bind with (R := near_data).
  2:{ intros d d' D. left. cbn [same_outcome]. unfold near_custom, new_raw. auto. }
  destruct kind.
  - left. eapply so_bind; [apply so_refl with (R := eq); reflexivity|]. intros l l' <-. cbn. auto.
  - left. eapply so_bind; [apply so_refl with (R := eq); reflexivity|]. intros l l' <-. cbn. auto.
  - left. now apply so_float.
  - eapply so2_weaken; [| |apply so_color; exact H1]; [|auto]. intros (k & rest & E & B). split; [reflexivity|].
    exists name, k, rest. split; [|exact B]. rewrite E0, E1, E, <- L1. reflexivity.
Qed.

(** ** Segments and meshes *)
Lemma kind_of k : (k < 256)%N -> match section_from_u8 k with SVertex => k = 1%N | SCustom KColor => k = 23%N | _ => True end.
Proof.
  intros _. destruct k as [|k]; [exact I|]. do 5 (destruct k as [k|k|]; try exact I; try reflexivity).
Qed.
Definition dlike2 (raw : raw_mesh) (d : dseg) (x : xseg) : Prop :=
  match d, x with
  | DNothing, XNothing => True
  | DVertex l, XVertex l' => Forall2 (near_vertex raw) l l'
  | DNormal l, XNormal l' => Forall2 near_direction l l'
  | DUV l, XUV l' => Forall2 near_uv l l'
  | DTangent l, XTangent l' => Forall2 near_tangent l l'
  | DTriVertex l, XTriVertex l' | DTriNormal l, XTriNormal l' | DTriUV l, XTriUV l' | DTriTangent l, XTriTangent l' => l = l'
  | DShared k l, XShared k' l' => k = k' /\ l = l'
  | DCustom s, XCustom s' => near_custom s s'
  | _, _ => False
  end.

Section Accurate2.
Variables (lm : libm) (sc : f64 -> f64 * f64).
Hypothesis OK : sin_cos_ok lm.
Hypothesis OK64 : sin_cos64_ok sc.

Lemma so_decode_d raw oc ctx s : (r_kind s < 256)%N -> bytes_ok (r_payload s) -> In s (snd raw) ->
  so2 (huge_colours raw) (dlike2 raw) (decode lm oc ctx (eseg_of s)) (decode_d sc oc ctx (eseg_of s)).
Proof.
  intros K B SI. pose proof (kind_of _ K) as KD. unfold decode, decode_d, eseg_of. cbn [e_type e_data e_comp].
  set (sec := section_from_u8 (r_kind s)) in *. clearbody sec. destruct sec as [| | | | | | | | |ck|].
  - left. exact I.
  - left. eapply so_bind; [apply so_vertices; exact B|]. intros l l' F. cbn [same_outcome dlike2].
    eapply Forall2_impl; [|exact F]. intros v v' (lx & hx & ly & hy & lz & hz & X).
    exists s, lx, hx, ly, hy, lz, hz. auto.
  - left. eapply so_bind; [apply so_refl with (R := eq); reflexivity|]. intros ? ? ->. reflexivity.
  - left. eapply so_bind; [apply so_normals_d; eauto|]. intros l l' F. exact F.
  - left. eapply so_bind; [apply so_refl with (R := eq); reflexivity|]. intros ? ? ->. reflexivity.
  - left. eapply so_bind; [apply so_uvs_d; exact B|]. intros l l' F. exact F.
  - left. eapply so_bind; [apply so_refl with (R := eq); reflexivity|]. intros ? ? ->. reflexivity.
  - left. eapply so_bind; [apply so_tangents_d; eauto|]. intros l l' F. exact F.
  - left. eapply so_bind; [apply so_refl with (R := eq); reflexivity|]. intros ? ? ->. reflexivity.
  - eapply so2_bind; [|intros x y F; left; exact F].
    eapply so2_weaken; [| |apply so_cseg; exact B]; [|auto]. intros [-> (name & n & rest & E & L)].
    exists s, name, n, rest. auto.
  - left. destruct (r_payload s); [reflexivity|]. destruct (comp_of (r_comp s)); try reflexivity.
    eapply so_bind; [apply so_refl with (R := eq); reflexivity|]. intros ? ? ->. cbn. auto.
Qed.

Lemma arrays_extend {A B} (P : A -> B -> Prop) o o' l l' : arrays P o o' -> Forall2 P l l' -> arrays P (extend o l) (extend o' l').
Proof. destruct o, o'; cbn; try contradiction; auto. intros. now apply Forall2_app. Qed.
Lemma apply_near raw nm m m' d d' : dlike2 raw d d' -> same_mesh raw (m, nm) (m', nm) -> same_mesh raw (apply m d, nm) (apply_d m' d', nm).
Proof.
  intros D [A V N U T T1 T2 T3 T4 C]. cbn [fst snd] in *.
  assert (EV : forall m l, append_vertex_triangles m l = with_vertex_triangles m (extend (vertex_triangles m) l)).
  { intros [? ? ? vt ? ? ? ? ?] l. unfold append_vertex_triangles. cbn. destruct vt; reflexivity. }
  assert (EN : forall m l, append_normal_triangles m l = with_normal_triangles m (extend (normal_triangles m) l)).
  { intros [? nt ? ? ? ? ? ? ?] l. unfold append_normal_triangles. cbn. destruct nt; reflexivity. }
  assert (EU : forall m l, append_uv_triangles m l = with_uv_triangles m (extend (uv_triangles m) l)).
  { intros [? ? ? ? ? ut ? ? ?] l. unfold append_uv_triangles. cbn. destruct ut; reflexivity. }
  destruct d, d'; cbn [dlike2] in D; try contradiction; cbn [apply apply_d].
  - constructor; auto.
  - replace (append_vertices m l) with (with_vertices m (extend (vertices m) l)) by (destruct m as [? ? [?|] ? ? ? ? ? ?]; reflexivity).
    constructor; cbn; auto. now apply arrays_extend.
  - replace (append_normals m l) with (with_normals m (extend (normals m) l)) by (destruct m as [[?|] ? ? ? ? ? ? ? ?]; reflexivity).
    constructor; cbn; auto. now apply arrays_extend.
  - replace (append_uvs m l) with (with_uvs m (extend (uvs m) l)) by (destruct m as [? ? ? ? [?|] ? ? ? ?]; reflexivity).
    constructor; cbn; auto. now apply arrays_extend.
  - replace (append_tangents m l) with (with_tangents m (extend (tangents m) l)) by (destruct m as [? ? ? ? ? ? [?|] ? ?]; reflexivity).
    constructor; cbn; auto. now apply arrays_extend.
  - subst. rewrite EV. constructor; cbn; auto. now rewrite T1.
  - subst. rewrite EN. constructor; cbn; auto. now rewrite T2.
  - subst. rewrite EU. constructor; cbn; auto. now rewrite T3.
  - subst. replace (append_tangent_triangles m l0) with (with_tangent_triangles m (extend (tangent_triangles m) l0))
      by (destruct m as [? ? ? ? ? ? ? [?|] ?]; reflexivity).
    constructor; cbn; auto. now rewrite T4.
  - destruct D as [<- <-]. destruct (has_mask mask MASK_VERTEX), (has_mask mask MASK_NORMAL), (has_mask mask MASK_UV);
      rewrite ?EV, ?EN, ?EU; constructor; cbn; auto; rewrite ?T1, ?T2, ?T3; reflexivity.
  - unfold add_custom_data_seg. constructor; cbn; auto. apply Forall2_app; auto.
Qed.
Lemma fold_near raw nm ds ds' : Forall2 (dlike2 raw) ds ds' -> forall m m', same_mesh raw (m, nm) (m', nm) ->
  same_mesh raw (fold_left apply ds m, nm) (fold_left apply_d ds' m', nm).
Proof. induction 1 as [|d d' ds ds' D F IH]; intros m m' H; cbn [fold_left]; auto. apply IH. now apply apply_near. Qed.

Lemma so_mesh_d oc ctx src : ctx_ok ctx -> bytes_ok src ->
  so2 (exists raw rest, mesh_at ctx raw src rest /\ huge_colours raw)
    (fun x y => snd x = snd y /\ bytes_ok (snd x) /\ exists raw, mesh_at ctx raw src (snd x) /\ same_mesh raw (fst x) (fst y))
    (import_mesh lm oc ctx src) (import_mesh_d sc oc ctx src).
Proof.
  intros Hc Hs. unfold import_mesh, import_mesh_d. eapply so2_same; [apply outc_string_at; exact Hs|].
  intros [name s1] (H1 & Hn & E1). cbn [fst snd] in *.
  eapply so2_same; [exact (outc_read_le _ 2 s1 H1)|]. intros [n s2] (H2 & E2 & L2). cbn [fst snd] in *.
  eapply so2_same; [apply outc_segments_at; auto|]. intros [l' s3] (H3 & l & Ln & E3 & F & P & EL). cbn [fst snd] in *. subst l'.
  assert (MA : mesh_at ctx (name, l) src s3) by (eapply mesh_at_intro; eauto).
  apply so2_bind with (R := Forall2 (dlike2 (name, l))).
  - apply so2_weaken with (H := huge_colours (name, l)) (R := Forall2 (dlike2 (name, l))); [eauto|auto|].
    apply so2_join. assert (IN : forall s, In s l -> In s (snd (name, l))) by auto.
    revert IN. generalize (name, l) as raw. clear - OK OK64 P. intros raw IN. induction P as [|s l B P IH]; cbn [map]; constructor.
    + assert (In s (snd raw)) by (apply IN; now left). destruct (N.ltb_spec (r_kind s) 256) as [K|K].
      * rewrite eseg_at_of by exact K. now apply so_decode_d.
      * left. unfold decode, decode_d, eseg_at, section_from_u16. cbn [e_type].
        destruct (N.ltb_spec 255 (r_kind s)); [exact I|lia].
    + apply IH. intros x X. apply IN. now right.
  - intros ds ds' D. left. cbn [same_outcome fst snd]. split; [reflexivity|]. split; [exact H3|].
    exists (name, l). split; [exact MA|]. apply fold_near; auto. constructor; cbn; auto.
Qed.
Lemma so_meshes_d oc ctx n : forall src, ctx_ok ctx -> bytes_ok src ->
  so2 (exists ms raw rest, src = concat (map (mesh_bytes (framing (minor_of ctx))) ms) ++ rest /\ Forall (storable (minor_of ctx)) ms /\
         length ms <= n /\ In raw ms /\ huge_colours raw)
    (fun x y => exists ms rest, src = concat (map (mesh_bytes (framing (minor_of ctx))) ms) ++ rest /\ Forall (storable (minor_of ctx)) ms /\
         length ms = n /\ Forall3 same_mesh ms (fst x) (fst y))
    (import_meshes lm oc ctx n src) (import_meshes_d sc oc ctx n src).
Proof.
  induction n as [|n IH]; intros src Hc Hs; cbn [import_meshes import_meshes_d].
  { left. exists [], src. repeat split; constructor. }
  eapply so2_bind.
  - eapply so2_weaken; [| |apply so_mesh_d; auto].
    + intros (raw & rest & (E & S & _) & X). exists [raw], raw, rest. cbn [map concat]. rewrite app_nil_r.
      split; [exact E|]. split; [constructor; auto|]. cbn. split; [lia|auto].
    + intros x y Q. exact Q.
  - intros [m s1] [m' s1'] (A & C & raw & (E & S & _) & M). cbn [fst snd] in *. subst s1'.
    eapply so2_bind.
    + eapply so2_weaken; [| |apply (IH s1 Hc C)].
      * intros (ms & r & rest & E2 & F & L & I1 & X). exists (raw :: ms), r, rest. cbn [map concat length In].
        rewrite <- app_assoc, <- E2. split; [exact E|]. split; [constructor; auto|]. split; [lia|auto].
      * intros x y F. exact F.
    + intros [l s] [l' s'] (ms & rest & E2 & F & L & X). left. cbn [same_outcome fst] in *.
      exists (raw :: ms), rest. cbn [map concat length]. rewrite <- app_assoc, <- E2.
      split; [exact E|]. split; [constructor; auto|]. split; [lia|]. constructor; auto.
Qed.
Lemma so_read_d oc src : bytes_ok src ->
  so2 (huge_file src) (same_file src) (read_tmf lm oc src) (read_tmf_d sc oc src).
Proof.
  intros Hs. unfold read_tmf, import, read_tmf_d.
  destruct (read_tmf_header src) as [[h s4]|e|] eqn:EH; try (left; reflexivity). cbn [bind].
  destruct (header_at src h s4 Hs EH) as (H4 & E4 & L4).
  pose proof (outc_read_le True 4 s4 H4) as A5. change (N.of_nat 4) with 4%N in A5. change (read_le 4) with read_u32 in A5.
  destruct (read_u32 s4) as [[n s5]|e|]; try (left; reflexivity). cbn [io map_err bind outc fst snd] in *. destruct A5 as (H5 & E5 & L5).
  destruct (framing_of h _ eq_refl) as [FR ST].
  assert (SW : forall ms rest, s5 = concat (map (mesh_bytes (framing (minor_of (init_header h)))) ms) ++ rest ->
    Forall (storable (minor_of (init_header h))) ms -> starts_with src n ms).
  { intros ms rest E F. exists (h_major h), (h_minor h), (h_min_major h), (h_min_minor h), rest. rewrite <- FR, <- E, lend_le, <- E5.
    split; [exact E4|]. split; [exact L4|]. split; [exact L5|]. eapply Forall_impl; [|exact F]. intros m. apply ST. }
  eapply so2_bind.
  - eapply so2_weaken; [| |apply (so_meshes_d oc (init_header h) (N.to_nat n) s5 (init_header_ok _) H5)].
    + intros (ms & raw & rest & E & F & L & I1 & X). exists n, ms, raw. split; [eapply SW; eauto|]. unfold len. split; [lia|auto].
    + intros x y F. exact F.
  - intros [l s] [l' s'] (ms & rest & E & F & L & X). left. cbn [same_outcome fst] in *. exists ms. split; [|exact X].
    unfold holds. replace (len ms) with n by (unfold len; lia). eapply SW; eauto.
Qed.
End Accurate2.
