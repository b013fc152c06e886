(** Properties C38, C39 and C40: how vertices are stored. *)
From Coq Require Import List NArith ZArith Arith Lia Bool Reals Lra.
From Flocq Require Import Core IEEE754.BinarySingleNaN.
From Verif Require Import Base UnalignedRW ReadExt Floats Floats_proofs FloatReal_proofs Utilis Vertices CustomData Mesh Tmf File FileSpec SaveSpec File_proofs
  ValueSpec VertexSpec Demo Save_proofs Save2_proofs Codec_proofs Image_proofs Quant_proofs Log2_proofs NormalReal_proofs VertexReal_proofs P_Save P_Uv P_Normals.
Import ListNotations.
Open Scope res_scope.
Local Open Scope R_scope.

(** The bytes of a stored number: an f32 widened to an f64, low byte first. *)
Definition f64_bytes (x : f32) : list N := lend 8 (bits_of_f64 (f64_of_f32 x)).
(** The layout of a vertex array: count, box, widths, packed codes. *)
Definition vertex_layout (count : N) (x0 x1 y0 y1 z0 z1 : f32) (px py pz : nat) (payload : list N) : list N :=
  lend 8 count ++ f64_bytes x0 ++ f64_bytes x1 ++ f64_bytes y0 ++ f64_bytes y1 ++ f64_bytes z0 ++ f64_bytes z1 ++
  [N.of_nat px; N.of_nat py; N.of_nat pz] ++ payload.

Lemma layout_is n q payload : vertex_header n q ++ payload =
  vertex_layout n (min_x (vp_box q)) (max_x (vp_box q)) (min_y (vp_box q)) (max_y (vp_box q)) (min_z (vp_box q)) (max_z (vp_box q))
    (vp_px q) (vp_py q) (vp_pz q) payload.
Proof. unfold vertex_header, vertex_layout, f64_bytes, le_f64. rewrite !lend_le, <- !app_assoc. reflexivity. Qed.

Lemma saved_params lm vs prec edge out : save_tmf_vertices lm true vs prec edge [] = Ok out ->
  exists q mx my mz payload, vertex_params lm vs prec edge = Some q /\
    mask_f32 (E:=ioerr) true (vp_px q) = Ok mx /\ mask_f32 (E:=ioerr) true (vp_py q) = Ok my /\
    mask_f32 (E:=ioerr) true (vp_pz q) = Ok mz /\ out = vertex_header (len vs) q ++ payload.
Proof.
  intros S. pose proof S as S0. unfold save_tmf_vertices in S.
  destruct (bounding_box (E:=ioerr) vs) as [bb| |] eqn:EB; try discriminate. cbn [bind] in S. cbv zeta in S.
  destruct (vertex_params lm vs prec edge) as [q|] eqn:V.
  2:{ unfold vertex_params in V. rewrite EB in V. discriminate. }
  pose proof V as V'. unfold vertex_params in V'. rewrite EB in V'. injection V' as V'.
  destruct (mask_f32 (E:=ioerr) true (vp_px q)) as [mx| |] eqn:Mx; subst q; cbn [vp_px vp_py vp_pz] in *; rewrite Mx in S; try discriminate.
  cbn [bind] in S.
  match type of S with context [mask_f32 true ?a] => destruct (mask_f32 (E:=ioerr) true a) as [my| |] eqn:My; try discriminate end.
  destruct (save_vertices_spec lm true vs prec edge [] _ mx my my (Forall_nil _) V) as (pl & E & _); cbn [vp_px vp_py vp_pz]; auto;
    try (pose proof (mask_30 _ _ Mx); pose proof (mask_30 _ _ My); lia).
  rewrite E in S0. apply Ok_inj in S0. eexists. exists mx, my, my, pl. repeat split; auto.
Qed.

(** C38. The six numbers stored with a vertex array are the ones of [stored_box]. *)
Theorem C38_stored_box : forall lm vs prec edge out,
  Forall finite3 vs -> save_tmf_vertices lm true vs prec edge [] = Ok out ->
  exists x0 x1 y0 y1 z0 z1 px py pz payload,
    out = vertex_layout (len vs) x0 x1 y0 y1 z0 z1 px py pz payload /\ stored_box vs x0 x1 y0 y1 z0 z1.
Proof.
  intros lm vs prec edge out F S. destruct (saved_params _ _ _ _ _ S) as (q & mx & my & mz & pl & V & _ & _ & _ & ->).
  rewrite layout_is. do 10 eexists. split; [reflexivity|].
  unfold vertex_params in V. destruct (bounding_box (E:=ioerr) vs) as [b| |] eqn:EB; try discriminate.
  injection V as <-. cbn [vp_box]. now apply box_is.
Qed.
Print Assumptions C38_stored_box.

(** So it contains every vertex, except that the last vertex may lie beyond the upper
    x or below the lower y. *)
Theorem C38_box_contains : forall vs x0 x1 y0 y1 z0 z1, stored_box vs x0 x1 y0 y1 z0 z1 ->
  Forall (fun v => val x0 <= val (vx v) /\ val (vy v) <= val y1 /\ between z0 z1 (vz v)) vs /\
  Forall (fun v => between x0 x1 (vx v) /\ between y0 y1 (vy v) /\ between z0 z1 (vz v)) (removelast vs).
Proof.
  intros vs x0 x1 y0 y1 z0 z1 [_ [_ B1] [_ B2] [_ B3] [_ B4] [_ B5] [_ B6]].
  assert (A : Forall (fun v => val x0 <= val (vx v) /\ val (vy v) <= val y1 /\ between z0 z1 (vz v)) vs).
  { apply Forall_forall. intros v I. split; [apply B1; exact (in_map (fun v => val (fst (fst v))) _ _ I)|].
    split; [apply B4, in_or_app; right; exact (in_map (fun v => val (snd (fst v))) _ _ I)|].
    split; [apply B5, in_or_app; right|apply B6]; exact (in_map (fun v => val (snd v)) _ _ I). }
  split; [exact A|]. rewrite Forall_forall in *. intros v I.
  assert (J : In v vs).
  { destruct vs as [|u vs]; [contradiction|]. rewrite (app_removelast_last u) by discriminate. apply in_or_app. now left. }
  destruct (A v J) as (A1 & A2 & A3). repeat split; auto; try apply A3.
  - apply B2, in_or_app. left. exact (in_map (fun v => val (fst (fst v))) _ _ I).
  - apply B3, in_or_app. left. exact (in_map (fun v => val (snd (fst v))) _ _ I).
Qed.
Print Assumptions C38_box_contains.

(** ** One coordinate *)

Lemma axis_stored {E} p mul mn mx v B : (1 <= p)%nat -> mask_f32 (E:=E) true p = Ok mul ->
  fin mn -> fin mx -> fin v -> Rabs (R32 mn) <= B -> Rabs (R32 mx) <= B -> Rabs (R32 v) <= B -> B <= 2 ^ 60 ->
  coordinate_stored B p mn mx v
    (dequantize (low p (quantize v mn (fmax (fsub mx mn) min_extent) mul)) (f32_of_N (mask_u64 p)) (fsub mx mn) mn).
Proof.
  intros HP M Fn Fx Fv Bn Bx Bv HB. pose proof (mask_30 _ _ M) as P30.
  assert (FD : fin (fsub mx mn)).
  { apply fsub_R; auto. apply (fits_B B); auto. apply Rabs_le_iff in Bn, Bx. apply Rabs_le_iff. lra. }
  constructor; change val with R32 in *.
  - intros HP2 [H1 H2]. destruct (mask_R _ _ M HP2) as [M1 M2].
    destruct (axis_R p mul mn mx v B HP2 M1 M2 Fn Fx Fv (conj H1 H2) Bn Bx HB) as (A1 & A2 & A3 & _). cbv zeta in *.
    split; [exact A1|]. split; [exact A2|]. unfold within. rewrite <- steps_pow. exact A3.
  - intros EQ. apply (dequantize_low p _ (fsub mx mn) mn B); auto; try lia. right.
    destruct (fsub_R mx mn Fx Fn) as [A _].
    + rewrite EQ, Rminus_diag_eq, Rabs_R0, big32_pow by reflexivity. apply pow_le. lra.
    + rewrite A, EQ, Rminus_diag_eq by reflexivity. apply rnd32_0.
  - intros L. apply (dequantize_low p _ (fsub mx mn) mn B); auto; try lia. left. eapply below_code; eauto.
  - intros W L EQ. apply (dequantize_low p _ (fsub mx mn) mn B); auto; try lia. left. eapply top_code; eauto.
Qed.

Lemma vertices_stored lm vs prec edge q mx my mz B :
  Forall (bounded B) vs -> B <= 2 ^ 60 -> vertex_params lm vs prec edge = Some q ->
  mask_f32 (E:=ioerr) true (vp_px q) = Ok mx -> mask_f32 (E:=ioerr) true (vp_py q) = Ok my -> mask_f32 (E:=ioerr) true (vp_pz q) = Ok mz ->
  box_of vs (vp_box q) /\
  Forall2 (fun v v' => coordinate_stored B (vp_px q) (min_x (vp_box q)) (max_x (vp_box q)) (vx v) (vx v') /\
                       coordinate_stored B (vp_py q) (min_y (vp_box q)) (max_y (vp_box q)) (vy v) (vy v') /\
                       coordinate_stored B (vp_pz q) (min_z (vp_box q)) (max_z (vp_box q)) (vz v) (vz v')) vs (map (vertex_image q mx my mz) vs).
Proof.
  intros F HB V Mx My Mz. unfold vertex_params in V. destruct (bounding_box (E:=ioerr) vs) as [b| |] eqn:EB; try discriminate.
  injection V as <-. cbn [vp_box vp_px vp_py vp_pz] in *.
  assert (FF : Forall finite3 vs) by (eapply Forall_impl; [|exact F]; now intros v [? _]).
  pose proof (box_is vs b FF EB) as BX. split; [exact BX|].
  pose proof (box_bounded B vs _ _ _ _ _ _ F BX) as BB.
  destruct (box_finite _ _ _ _ _ _ _ BX) as (F1 & F2 & F3 & F4 & F5 & F6).
  repeat (apply Forall_cons_iff in BB as [? BB]). change val with R32 in *. rewrite Forall_forall in F.
  apply F2_map. intros v I. apply F in I as ((G1 & G2 & G3) & G4 & G5 & G6). unfold vertex_image, vx, vy, vz.
  cbn [vp_box vp_px vp_py vp_pz vp_sx vp_sy vp_sz fst snd].
  split; [|split]; (eapply axis_stored; eauto); unfold axis_precision; lia.
Qed.

(** C39. The coordinates of a saved vertex array, against the box and the widths stored
    with it. *)
Theorem C39_coordinates_stored : forall lm vs prec edge out B,
  Forall (bounded B) vs -> B <= 2 ^ 60 -> (len vs <= 2 ^ 27)%N -> save_tmf_vertices lm true vs prec edge [] = Ok out ->
  exists x0 x1 y0 y1 z0 z1 px py pz payload vs',
    out = vertex_layout (len vs) x0 x1 y0 y1 z0 z1 px py pz payload /\ stored_box vs x0 x1 y0 y1 z0 z1 /\
    (1 <= px <= 30 /\ 1 <= py <= 30 /\ 1 <= pz <= 30)%nat /\
    read_tmf_vertices out = Ok vs' /\
    Forall2 (fun v v' => coordinate_stored B px x0 x1 (vx v) (vx v') /\ coordinate_stored B py y0 y1 (vy v) (vy v') /\
                         coordinate_stored B pz z0 z1 (vz v) (vz v')) vs vs'.
Proof.
  intros lm vs prec edge out B F HB HL S. destruct (saved_params _ _ _ _ _ S) as (q & mx & my & mz & pl & V & Mx & My & Mz & EO).
  destruct (vertices_stored lm vs prec edge q mx my mz B F HB V Mx My Mz) as [BX F2].
  pose proof (mask_30 _ _ Mx) as P1. pose proof (mask_30 _ _ My) as P2. pose proof (mask_30 _ _ Mz) as P3.
  destruct (vertices_roundtrip lm true vs prec edge q mx my mz []) as (bytes & Sb & _ & Rb); auto; try lia; [unfold len in HL; lia|apply Forall_nil|].
  rewrite S in Sb. apply Ok_inj in Sb. subst bytes. rewrite app_nil_r in Rb.
  exists (min_x (vp_box q)), (max_x (vp_box q)), (min_y (vp_box q)), (max_y (vp_box q)), (min_z (vp_box q)), (max_z (vp_box q)).
  exists (vp_px q), (vp_py q), (vp_pz q), pl, (map (vertex_image q mx my mz) vs).
  split; [rewrite EO; apply layout_is|]. split; [exact BX|]. split; [|split; [exact Rb|exact F2]].
  assert (1 <= vp_px q /\ 1 <= vp_py q /\ 1 <= vp_pz q)%nat; [|lia].
  unfold vertex_params in V. destruct (bounding_box (E:=ioerr) vs); try discriminate. injection V as <-. cbn. unfold axis_precision. lia.
Qed.
Print Assumptions C39_coordinates_stored.

(** ** Files *)

(** [on_vertices P]: the vertex arrays of two meshes are both absent, or both are cut
    at the same places into parts with [P] between them. *)
Definition on_vertices (P : list vec3 -> list vec3 -> Prop) (a b : mesh * list N) : Prop :=
  match vertices (fst a), vertices (fst b) with
  | Some x, Some y => in_pieces P x y
  | None, None => True
  | _, _ => False
  end.

Lemma dist_bound a b : bounded (2 ^ 50) a -> bounded (2 ^ 50) b -> dist3 a b <= 2 ^ 52.
Proof.
  intros ((A1 & A2 & A3) & A4 & A5 & A6) ((B1 & B2 & B3) & B4 & B5 & B6).
  destruct (square_R _ _ A1 B1 A4 B4) as (_ & _ & _ & X4).
  destruct (square_R _ _ A2 B2 A5 B5) as (_ & _ & _ & Y4).
  destruct (square_R _ _ A3 B3 A6 B6) as (_ & _ & _ & Z4). cbv zeta in *.
  unfold dist3. change val with R32. rewrite <- (sqrt_square (2 ^ 52)) by (apply pow_le; lra).
  apply sqrt_le_1_alt. assert (E : 2 ^ 52 * 2 ^ 52 = 4 * 2 ^ 102) by (replace 4 with (2 ^ 2) by (simpl; lra); rewrite <- !pow_add; reflexivity).
  rewrite E. assert (0 < 2 ^ 102) by (apply pow_lt; lra). lra.
Qed.
Lemma sides_bound vs t d : Forall (bounded (2 ^ 50)) vs -> side_of vs t d -> d <= 2 ^ 52.
Proof.
  intros F. rewrite Forall_forall in F. induction 1 as [a b c t va vb vc d G1 G2 G3 D|]; auto.
  apply nth_error_In, F in G1, G2, G3. destruct D as [->|[->| ->]]; now apply dist_bound.
Qed.
Lemma edge_bound vs ts s : Forall (bounded (2 ^ 50)) (match vs with Some v => v | None => [] end) -> shortest_edge vs ts s -> s <= 2 ^ 52.
Proof.
  unfold shortest_edge. intros F. assert (0.1 <= 2 ^ 52) by (apply Rle_trans with (2 ^ 0); [simpl; lra|apply pow2_le; lia]).
  destruct ts as [[|i t]|]; destruct vs as [v|]; try (intros ->; assumption). intros [S _]. eapply sides_bound; eauto.
Qed.

Definition vlist (o : option (list vec3)) : list vec3 := match o with Some v => v | None => [] end.

Lemma piece_close lm vs prec edge q mx my mz B s :
  log2_ok lm -> Forall (bounded B) vs -> B <= 2 ^ 50 -> edge_near s edge -> / 2 ^ 20 <= s <= 2 ^ 52 ->
  fin prec -> 0 < R32 prec <= 1 -> B + 0.000001 <= 2 ^ 20 * (s * R32 prec) ->
  vertex_params lm vs prec edge = Some q ->
  mask_f32 (E:=ioerr) true (vp_px q) = Ok mx -> mask_f32 (E:=ioerr) true (vp_py q) = Ok my -> mask_f32 (E:=ioerr) true (vp_pz q) = Ok mz ->
  piece_moved B (s * R32 prec) vs (map (vertex_image q mx my mz) vs).
Proof.
  intros LG F HB [Fe Ne] Hs Fp Hp HBs V Mx My Mz. pose proof u32_small as U.
  assert (HB6 : B <= 2 ^ 60) by (eapply Rle_trans; [exact HB|apply pow2_le; lia]).
  destruct (vertices_stored lm vs prec edge q mx my mz B F HB6 V Mx My Mz) as [BX F2].
  pose proof (box_bounded B vs _ _ _ _ _ _ F BX) as BB.
  destruct (box_finite _ _ _ _ _ _ _ BX) as (F1 & F2' & F3 & F4 & F5 & F6).
  unfold vertex_params in V. destruct (bounding_box (E:=ioerr) vs) as [b| |] eqn:EB; try discriminate.
  injection V as <-. cbn [vp_box vp_px vp_py vp_pz vp_sx vp_sy vp_sz] in *.
  repeat (apply Forall_cons_iff in BB as [? BB]). change val with R32 in *. unfold finite in *.
  set (t := s * R32 prec) in *. destruct min_extent_R as [E1 E2].
  assert (p20 : 0 < / 2 ^ 20 <= 0.000001) by (split; [apply Rinv_0_lt_compat, pow_lt; lra|simpl pow; lra]).
  assert (t0 : 0 < t) by (apply Rmult_lt_0_compat; lra).
  apply Rabs_le_iff in Ne.
  assert (s20 : / 2 ^ 20 * s <= 0.000001 * s) by (apply Rmult_le_compat_r; lra).
  assert (EP : 0.999999 * t <= R32 edge * R32 prec <= 1.000001 * t).
  { unfold t. rewrite <- !Rmult_assoc. split; apply Rmult_le_compat_r; lra. }
  (* an extent and the width computed from it *)
  assert (W : forall lo hi, fin lo -> fin hi -> Rabs (R32 lo) <= B -> Rabs (R32 hi) <= B ->
    let sx := fmax (fsub hi lo) min_extent in let p := axis_precision lm edge sx prec in
    (1 <= p <= 24)%nat /\ R32 sx <= 2.0025 * t * IZR (steps p) /\ (1 - u32) * Rmax (R32 hi - R32 lo) 0.000001 <= R32 sx * 1.0001).
  { intros lo hi Fl Fh Bl Bh sx p. apply Rabs_le_iff in Bl, Bh.
    destruct (fsub_R hi lo Fh Fl) as [D1 D2]; [apply (fits_B B); auto; apply Rabs_le_iff; lra|].
    pose proof (rnd32_diff hi lo) as DE. rewrite <- D1 in DE.
    destruct (fmax_R (fsub hi lo) min_extent D2 E1) as [X1 X2]. fold sx in X1, X2.
    assert (s1 : R32 (fsub hi lo) <= R32 sx) by (rewrite X1; apply Rmax_l).
    assert (s2 : R32 min_extent <= R32 sx) by (rewrite X1; apply Rmax_r).
    assert (AB : Rabs (R32 hi - R32 lo) <= 2 * B) by (apply Rabs_le_iff; lra).
    assert (u32 * Rabs (R32 hi - R32 lo) <= 0.0001 * (2 * B)) by (apply mul_le; try lra; apply Rabs_pos).
    assert (SU : R32 sx <= 2.001 * B + 0.0000010001).
    { rewrite X1. apply Rmax_lub; [|lra]. apply Rabs_le_iff in DE. lra. }
    assert (HS : R32 sx <= 2 ^ 22 * (R32 edge * R32 prec)).
    { replace (2 ^ 22) with (4 * 2 ^ 20) by (simpl; lra). assert (0 < 2 ^ 20) by (apply pow_lt; lra).
      assert (2 ^ 20 * (0.999999 * t) <= 2 ^ 20 * (R32 edge * R32 prec)) by (apply Rmult_le_compat_l; lra). lra. }
    assert (E60 : 0 < R32 edge <= 2 ^ 60).
    { split; [lra|]. apply Rle_trans with (2 * 2 ^ 52); [lra|]. change (2 * 2 ^ 52) with (2 ^ 53). apply pow2_le. lia. }
    destruct (axis_width lm edge sx prec LG Fe X2 Fp E60) as [P1 P2]; auto; [lra|]. fold p in P1, P2. cbv zeta in P1, P2. fold p in P1, P2.
    split; [exact P1|]. split.
    - eapply Rle_trans; [exact P2|]. apply Rmult_le_compat_r; [|lra]. apply IZR_le. pose proof (steps_bounds p P1). lia.
    - assert (U1 : 0 <= 1 - u32) by lra. destruct (Rle_lt_dec (R32 hi - R32 lo) 0.000001) as [L|L].
      + rewrite Rmax_right by lra. assert ((1 - u32) * 0.000001 <= 1 * 0.000001) by (apply Rmult_le_compat_r; lra). lra.
      + rewrite Rmax_left by lra. rewrite (Rabs_pos_eq (R32 hi - R32 lo)) in DE by lra. apply Rabs_le_iff in DE. lra. }
  assert (MX : forall lo hi p x y, coordinate_stored B p lo hi x y -> (1 <= p <= 24)%nat -> between lo hi x ->
    forall T, (R32 hi - R32 lo) / IZR (steps p) <= T -> 0 <= T -> finite y /\ within (T + 0.000001001 + / 2 ^ 19 * B) x y).
  { intros lo hi p x y C P I T HT T0. destruct (cs_inside _ _ _ _ _ _ C P I) as (C1 & _ & C3). split; auto.
    unfold within in *. eapply Rle_trans; [exact C3|]. rewrite <- steps_pow. change val with R32.
    assert (Rmax ((R32 hi - R32 lo) / IZR (steps p)) 0.000001001 <= T + 0.000001001) by (apply Rmax_lub; lra). lra. }
  assert (EX : forall lo hi, fin lo -> fin hi -> Rabs (R32 lo) <= B -> Rabs (R32 hi) <= B ->
    let p := axis_precision lm edge (fmax (fsub hi lo) min_extent) prec in (R32 hi - R32 lo) / IZR (steps p) <= 2.003 * t).
  { intros lo hi Fl Fh Bl Bh p. destruct (W lo hi Fl Fh Bl Bh) as (P1 & P2 & P3). cbv zeta in *. fold p in P1, P2.
    assert (S1 : 1 <= IZR (steps p)) by (apply IZR_le; pose proof (steps_bounds p P1); lia).
    set (M := IZR (steps p)) in *. apply Rmult_le_reg_r with M; [lra|]. unfold Rdiv. rewrite Rmult_assoc, Rinv_l, Rmult_1_r by lra.
    pose proof (Rmax_l (R32 hi - R32 lo) 0.000001) as RL.
    assert (0.9999 * Rmax (R32 hi - R32 lo) 0.000001 <= (1 - u32) * Rmax (R32 hi - R32 lo) 0.000001).
    { apply Rmult_le_compat_r; [|lra]. pose proof (Rmax_r (R32 hi - R32 lo) 0.000001). lra. }
    assert (0 <= t * M) by (apply Rmult_le_pos; lra). lra. }
  exists (min_x b), (max_x b), (min_y b), (max_y b), (min_z b), (max_z b). split; [exact BX|].
  assert (ZI : forall v, In v vs -> between (min_z b) (max_z b) (vz v)).
  { intros v I. destruct (C38_box_contains _ _ _ _ _ _ _ BX) as [A _]. rewrite Forall_forall in A. now apply A. }
  assert (Px : (1 <= axis_precision lm edge (fmax (fsub (max_x b) (min_x b)) min_extent) prec <= 24)%nat) by (apply W; auto).
  assert (Py : (1 <= axis_precision lm edge (fmax (fsub (max_y b) (min_y b)) min_extent) prec <= 24)%nat) by (apply W; auto).
  assert (Z0 : 0 <= R32 (max_z b) - R32 (min_z b)).
  { destruct vs as [|v vs]; [discriminate|]. destruct (ZI v (or_introl eq_refl)). change val with R32 in *. lra. }
  set (pz := axis_precision lm edge (fmax (fsub (max_y b) (min_y b)) min_extent) prec) in *.
  assert (TZ : (R32 (max_z b) - R32 (min_z b)) / IZR (steps pz) <=
    2.003 * t * ((R32 (max_z b) - R32 (min_z b)) / Rmax (R32 (max_y b) - R32 (min_y b)) 0.000001)).
  { destruct (W (min_y b) (max_y b) F3 F4) as (_ & P2 & P3); auto. cbv zeta in *. fold pz in P2.
    assert (S1 : 1 <= IZR (steps pz)) by (apply IZR_le; pose proof (steps_bounds pz Py); lia).
    set (M := IZR (steps pz)) in *. pose proof (Rmax_r (R32 (max_y b) - R32 (min_y b)) 0.000001) as RR.
    set (Y := Rmax (R32 (max_y b) - R32 (min_y b)) 0.000001) in *. set (Z := R32 (max_z b) - R32 (min_z b)) in *.
    assert (0.9999 * Y <= (1 - u32) * Y) by (apply Rmult_le_compat_r; lra).
    assert (0 <= t * M) by (apply Rmult_le_pos; lra).
    assert (YM : Y <= 2.003 * t * M) by lra.
    apply Rmult_le_reg_r with (M * Y); [apply Rmult_lt_0_compat; lra|].
    replace (Z / M * (M * Y)) with (Z * Y) by (field; lra).
    replace (2.003 * t * (Z / Y) * (M * Y)) with (Z * (2.003 * t * M)) by (field; lra). apply Rmult_le_compat_l; lra. }
  assert (0 <= 2.003 * t) by lra.
  assert (0 <= 2.003 * t * ((R32 (max_z b) - R32 (min_z b)) / Rmax (R32 (max_y b) - R32 (min_y b)) 0.000001)).
  { apply Rmult_le_pos; [lra|]. apply Rmult_le_pos; [lra|]. left. apply Rinv_0_lt_compat.
    pose proof (Rmax_r (R32 (max_y b) - R32 (min_y b)) 0.000001). lra. }
  change val with R32.
  clear -F2 ZI MX EX Px Py TZ F1 F2' F3 F4 H H0 H1 H2 H3 H4 H5 H6.
  revert F2 ZI. generalize (map (vertex_image (mk_vparams b (fmax (fsub (max_x b) (min_x b)) min_extent) (fmax (fsub (max_y b) (min_y b)) min_extent)
    (fmax (fsub (max_z b) (min_z b)) min_extent) (axis_precision lm edge (fmax (fsub (max_x b) (min_x b)) min_extent) prec) pz pz) mx my mz) vs).
  intros l2 F2. induction F2 as [|v v' l l2 (C1 & C2 & C3) F2 IH]; intros ZI; constructor.
  - split; [intros I; eapply MX; eauto|]. split; [intros I; eapply MX; eauto|]. eapply MX; eauto. apply ZI. now left.
  - apply IH. intros u I. apply ZI. now right.
Qed.

(** C40. What does hold: with an accurate log2, a precision of at most 1 and numbers
    that are not too large for it, x and y move by little more than twice the
    requested fraction of the shortest edge (where the stored box contains them), and
    z by that much times the ratio of the extents of z and y. *)
Theorem C40_movement_bound : forall lm lm' oc' p l out,
  log2_ok lm -> precision_ok p -> list_ok lm l -> saved lm true p l = Ok out ->
  finite (vertex_precision p) -> 0 < val (vertex_precision p) <= 1 ->
  exists l', read_tmf lm' oc' out = Ok l' /\
    Forall2 (fun a b => forall B s,
      Forall (bounded B) (vlist (vertices (fst a))) -> B <= 2 ^ 50 ->
      shortest_edge (vertices (fst a)) (vertex_triangles (fst a)) s -> / 2 ^ 20 <= s ->
      B + 0.000001 <= 2 ^ 20 * (s * val (vertex_precision p)) ->
      on_vertices (piece_moved B (s * val (vertex_precision p))) a b) l l'.
Proof.
  intros lm lm' oc' p l out LG HP HL S Fp Hp. destruct (saved_loads_as lm lm' oc' p l out HP HL S) as (l' & R & F).
  exists l'. split; auto. eapply F2_impl; [|exact F]. intros [a na] [b nb] (_ & edge & EE & [M _ _ _ _]) B s FB HB SE Hs HBs. cbn [fst] in *.
  unfold on_vertices. cbn [fst with_custom_data vertices image_rels rv] in *.
  destruct (vertices a) as [va|], (vertices b) as [vb|]; try contradiction; auto. cbn [olift vlist] in *.
  assert (FB' : Forall (bounded (2 ^ 50)) va).
  { eapply Forall_impl; [|exact FB]. intros v (A1 & A2 & A3 & A4). repeat split; try apply A1; lra. }
  pose proof (shortest_edge_R (vertex_triangles a) (Some va) edge s FB' Hs SE EE) as NE.
  pose proof (edge_bound (Some va) (vertex_triangles a) s FB' SE) as SB.
  destruct M as (ps & -> & -> & FP). exists ps. split; [reflexivity|]. split; [reflexivity|].
  clear -LG FB HB NE Hs SB Fp Hp HBs FP. induction ps as [|[x y] ps IH]; constructor.
  - apply Forall_inv in FP. cbn [fst snd] in *. destruct FP as (q & mx & my & mz & V & Mx & My & Mz & ->).
    cbn [map concat fst] in FB. apply Forall_app in FB as [FB _]. eapply piece_close; eauto.
  - apply Forall_inv_tail in FP. cbn [map concat] in FB. apply Forall_app in FB as [_ FB]. auto.
Qed.
Print Assumptions C40_movement_bound.

(** The box misses the last vertex: of (0,0,0) and (10,0,0) both load with x = 0,
    whatever the precision and the platform. *)
Definition f10 : f32 := f32_of_Z 10.
Definition f5 : f32 := f32_of_Z 5.
Lemma val_0 : val f0 = 0. Proof. reflexivity. Qed.
Lemma val_10 : val f10 = 10. Proof. apply (f32_of_Z_exact 10). lia. Qed.
Lemma val_5 : val f5 = 5. Proof. apply (f32_of_Z_exact 5). lia. Qed.
Lemma zero_bounded : bounded 10 (f0, f0, f0).
Proof. repeat split; cbn [fst snd]; rewrite val_0, Rabs_R0; lra. Qed.
Lemma ten_bounded : bounded 10 (f10, f0, f0).
Proof. repeat split; cbn [fst snd]; rewrite ?val_0, ?val_10, ?Rabs_R0, ?Rabs_pos_eq; lra. Qed.
Lemma five_bounded : bounded 10 (f0, f0, f5).
Proof. repeat split; cbn [fst snd]; rewrite ?val_0, ?val_5, ?Rabs_R0, ?Rabs_pos_eq; lra. Qed.
Theorem C38_last_vertex_refuted : forall lm prec edge out,
  save_tmf_vertices lm true [(f0, f0, f0); (f10, f0, f0)] prec edge [] = Ok out ->
  exists a b, read_tmf_vertices out = Ok [a; b] /\ val (vx a) = 0 /\ val (vx b) = 0.
Proof.
  intros lm prec edge out S.
  assert (FB : Forall (bounded 10) [(f0, f0, f0); (f10, f0, f0)]).
  { repeat apply Forall_cons; [apply zero_bounded|apply ten_bounded|apply Forall_nil]. }
  destruct (C39_coordinates_stored lm _ prec edge out 10 FB ltac:(simpl pow; lra) ltac:(vm_compute; discriminate) S)
    as (x0 & x1 & y0 & y1 & z0 & z1 & px & py & pz & pl & vs' & _ & BX & _ & R & F).
  inversion F as [|? a ? ? (A & _) F']; subst. inversion F' as [|? b ? ? (B & _) F'']; subst. inversion F''; subst.
  destruct BX as [_ [I0 L0] [I1 L1] _ _ _ _]. cbn [xs ys removelast map app In fst snd] in *. rewrite val_0, val_10 in *.
  assert (val x0 = 0) as E0 by (pose proof (L0 0 (or_introl eq_refl)); destruct I0 as [?|[?|[]]]; lra).
  assert (val x1 = 0) as E1 by (repeat (destruct I1 as [I1|I1]; [lra|]); contradiction).
  exists a, b. split; [exact R|]. split.
  - rewrite <- E0. apply (cs_flat _ _ _ _ _ _ A). lra.
  - rewrite <- E0. apply (cs_flat _ _ _ _ _ _ B). lra.
Qed.
Print Assumptions C38_last_vertex_refuted.
(** A single vertex (0,0,5) loads with y = 5. *)
Theorem C38_single_vertex_refuted : forall lm prec edge out,
  save_tmf_vertices lm true [(f0, f0, f5)] prec edge [] = Ok out ->
  exists a, read_tmf_vertices out = Ok [a] /\ val (vy a) = 5.
Proof.
  intros lm prec edge out S.
  assert (FB : Forall (bounded 10) [(f0, f0, f5)]).
  { repeat apply Forall_cons; [apply five_bounded|apply Forall_nil]. }
  destruct (C39_coordinates_stored lm _ prec edge out 10 FB ltac:(simpl pow; lra) ltac:(vm_compute; discriminate) S)
    as (x0 & x1 & y0 & y1 & z0 & z1 & px & py & pz & pl & vs' & _ & BX & _ & R & F).
  inversion F as [|? a ? ? (_ & A & _) F']; subst. inversion F'; subst.
  destruct BX as [_ _ _ [I0 L0] _ _ _]. cbn [xs ys zs removelast map app In fst snd] in *. rewrite val_5 in *.
  assert (val y0 = 5) as E0 by (destruct I0 as [?|[]]; lra).
  exists a. split; [exact R|]. rewrite <- E0. apply (cs_below _ _ _ _ _ _ A). unfold vy. cbn [fst snd]. rewrite val_0. lra.
Qed.
Print Assumptions C38_single_vertex_refuted.
(** Such arrays are written, as parts of whole files. *)
Definition point_mesh (l : list vec3) : mesh := with_vertices empty (Some l).
Definition shown (r : res ierr (list (mesh * list N))) : list (option (list (SpecFloat.spec_float * SpecFloat.spec_float * SpecFloat.spec_float))) :=
  match r with
  | Ok l => map (fun mn => option_map (map (fun v => (B2SF (vx v), B2SF (vy v), B2SF (vz v)))) (vertices (fst mn))) l
  | _ => []
  end.
Example C38_case : exists out out2 out3,
  save_tmf_vertices demo true [(f0, f0, f0); (f10, f0, f0)] (flit 1 10) (flit 1 10) [] = Ok out /\
  save_tmf_vertices demo true [(f0, f0, f5)] (flit 1 10) (flit 1 10) [] = Ok out2 /\
  saved demo true demo_prec [(point_mesh [(f0, f0, f0); (f10, f0, f0)], []); (point_mesh [(f0, f0, f5)], [])] = Ok out3 /\
  shown (read_tmf demo true out3) =
    [Some [(B2SF f0, B2SF f0, B2SF f0); (B2SF f0, B2SF f0, B2SF f0)]; Some [(B2SF f0, B2SF f5, B2SF f5)]].
Proof.
  eexists. eexists. eexists. split; [vm_compute; reflexivity|]. split; [vm_compute; reflexivity|]. split; [vm_compute; reflexivity|].
  vm_compute. reflexivity.
Qed.

Example C39_case : exists out, Forall (bounded 10) [(f0, f0, f0); (f10, f0, f0); (f0, f0, f5); (f0, f0, f0)] /\ (10 <= 2 ^ 60)%R /\
  (len [(f0, f0, f0); (f10, f0, f0); (f0, f0, f5); (f0, f0, f0)] <= 2 ^ 27)%N /\
  save_tmf_vertices demo true [(f0, f0, f0); (f10, f0, f0); (f0, f0, f5); (f0, f0, f0)] (flit 1 10) (flit 1 10) [] = Ok out.
Proof.
  eexists. split; [repeat apply Forall_cons; [apply zero_bounded|apply ten_bounded|apply five_bounded|apply zero_bounded|apply Forall_nil]|].
  split; [simpl pow; lra|]. split; [vm_compute; discriminate|]. vm_compute. reflexivity.
Qed.

(** A platform whose log2 is accurate, and exact and computable on powers of two. *)
Definition grid_log2 (x : f32) : f32 :=
  match x with
  | B754_finite false m e _ => if (Zpos m =? 8388608)%Z then f32_of_Z (23 + e) else m_log2 exact_libm x
  | B754_finite true _ _ _ => m_log2 exact_libm x
  | _ => f0
  end.
Definition grid_libm : libm := mk_libm grid_log2 (m_asin exact_libm) (m_sin_cos exact_libm).
Lemma grid_log2_ok : log2_ok grid_libm.
Proof.
  intros x F P. cbn [m_log2 grid_libm]. destruct x as [s|s| |s m e W]; try discriminate.
  - exfalso. change (val (B754_zero s)) with 0 in P. lra.
  - cbn [grid_log2]. destruct s; [apply exact_log2_ok; auto|]. destruct (Z.eqb_spec (Zpos m) 8388608) as [E|_]; [|apply exact_log2_ok; auto].
    assert (EB : (-149 <= e <= 104)%Z).
    { pose proof W as W'. unfold SpecFloat.bounded in W'. apply andb_prop in W' as [W1 W2]. apply Zle_bool_imp_le in W2.
      unfold SpecFloat.canonical_mantissa in W1. apply Zeq_bool_eq in W1. unfold SpecFloat.fexp, SpecFloat.emin in W1. lia. }
    destruct (f32_of_Z_exact (23 + e)) as [A B]; [lia|]. split; [exact B|]. change val with R32. rewrite A.
    assert (V : R32 (B754_finite false m e W) = bpow radix2 (23 + e)).
    { unfold R32, B2R, F2R. cbn [Fnum Fexp cond_Zopp]. rewrite E. change 8388608%Z with (radix2 ^ 23)%Z.
      rewrite (IZR_Zpower radix2 23) by lia. now rewrite <- bpow_plus. }
    rewrite V, log2_bpow, Rminus_diag_eq, Rabs_R0 by reflexivity. apply Rmult_le_pos; [left; apply Rinv_0_lt_compat, pow_lt; lra|].
    pose proof (Rabs_pos (IZR (23 + e))). lra.
Qed.

(** A right-angled triangle on it, with sides of 64/100. *)
Definition leg : f32 := fmul (flit 1 100) (f32_of_Z 64).
Definition tri_mesh : mesh := with_vertex_triangles (point_mesh [(f0, f0, f0); (leg, f0, f0); (f0, leg, f0)]) (Some [0; 1; 2]%N).
Lemma three_storable a b c : storable (with_vertex_triangles (point_mesh [a; b; c]) (Some [0; 1; 2]%N)).
Proof. unfold point_mesh. storable_tac. Qed.
Definition sixteenth : prec_info := mk_prec (flit 1 16) 7 14 8.
Lemma leg_R : finite leg /\ 0.63 <= val leg <= 0.65.
Proof.
  let v := eval vm_compute in (B2SF leg) in destruct (R32_SF leg v) as [A B]; [vm_compute; reflexivity|].
  split; [exact B|]. change val with R32. rewrite A. unfold SF2R, F2R. cbn. lra.
Qed.
Lemma sixteenth_R : finite (flit 1 16) /\ val (flit 1 16) = / 16.
Proof.
  let v := eval vm_compute in (B2SF (flit 1 16)) in destruct (R32_SF (flit 1 16) v) as [A B]; [vm_compute; reflexivity|].
  split; [exact B|]. change val with R32. rewrite A. unfold SF2R, F2R. cbn. lra.
Qed.
Example C40_case : log2_ok grid_libm /\ precision_ok sixteenth /\ list_ok grid_libm [(tri_mesh, [])] /\
  (exists out, saved grid_libm true sixteenth [(tri_mesh, [])] = Ok out) /\
  finite (vertex_precision sixteenth) /\ 0 < val (vertex_precision sixteenth) <= 1 /\
  Forall (bounded 1) (vlist (vertices tri_mesh)) /\ shortest_edge (vertices tri_mesh) (vertex_triangles tri_mesh) (val leg) /\
  / 2 ^ 20 <= val leg /\ 1 + 0.000001 <= 2 ^ 20 * (val leg * val (vertex_precision sixteenth)).
Proof.
  destruct leg_R as [L1 L2]. destruct sixteenth_R as [S1 S2].
  split; [apply grid_log2_ok|]. split; [split; cbn; lia|]. split.
  { split; [vm_compute; reflexivity|]. apply Forall_cons; [|apply Forall_nil]. cbn [fst snd].
    split; [apply three_storable|]. split; [apply name_ok_ascii; reflexivity|]. vm_compute. reflexivity. }
  split; [eexists; vm_compute; reflexivity|]. cbn [vertex_precision sixteenth]. rewrite S2. split; [exact S1|]. split; [lra|].
  split.
  { unfold tri_mesh, point_mesh, vlist. cbn [vertices with_vertices with_vertex_triangles].
    repeat apply Forall_cons; try apply Forall_nil; repeat split; cbn [fst snd]; rewrite ?val_0, ?Rabs_R0, ?(Rabs_pos_eq (val leg)); auto; try lra; reflexivity. }
  split; [|simpl pow; lra].
  unfold tri_mesh, point_mesh, shortest_edge. cbn [vertices with_vertices with_vertex_triangles vertex_triangles].
  assert (D1 : dist3 (f0, f0, f0) (leg, f0, f0) = val leg).
  { unfold dist3. cbn [fst snd]. rewrite val_0. rewrite <- (sqrt_square (val leg)) at 3 by lra. f_equal. ring. }
  assert (D2 : dist3 (f0, leg, f0) (f0, f0, f0) = val leg).
  { unfold dist3. cbn [fst snd]. rewrite val_0. rewrite <- (sqrt_square (val leg)) at 3 by lra. f_equal. ring. }
  assert (D3 : val leg <= dist3 (leg, f0, f0) (f0, leg, f0)).
  { unfold dist3. cbn [fst snd]. rewrite val_0. rewrite <- (sqrt_square (val leg)) at 1 by lra. apply sqrt_le_1_alt.
    assert (0 <= val leg * val leg) by (apply Rle_0_sqr). lra. }
  split.
  - eapply side_first; try reflexivity. left. symmetry. exact D1.
  - intros d S. inversion S as [? ? ? ? va vb vc ? G1 G2 G3 D|? ? ? ? ? S']; subst; [|inversion S'].
    change (Some (f0, f0, f0) = Some va) in G1. change (Some (leg, f0, f0) = Some vb) in G2. change (Some (f0, leg, f0) = Some vc) in G3.
    injection G1 as <-. injection G2 as <-. injection G3 as <-. destruct D as [->|[->| ->]]; lra.
Qed.

(** The documented guarantee ("their length will not change by more than" the given
    fraction of the shortest edge) does not hold, whichever fraction is meant: in this
    mesh, saved with a precision of 1/16, an edge of the shortest length collapses to a
    point. All points lie on the z axis; the width is computed from the empty y extent. *)
Definition rod : f32 := fmul min_extent (f32_of_Z 1073741824).
Definition rod_points : list vec3 := [(f0, f0, f0); (f0, f0, rod); (f0, f0, fadd rod rod)].
Definition rod_mesh : mesh := with_vertex_triangles (point_mesh rod_points) (Some [0; 1; 2]%N).
Lemma rod_R : finite rod /\ 1073 <= val rod <= 1074 /\ val (fadd rod rod) = 2 * val rod.
Proof.
  let v := eval vm_compute in (B2SF rod) in destruct (R32_SF rod v) as [A B]; [vm_compute; reflexivity|].
  let v := eval vm_compute in (B2SF (fadd rod rod)) in destruct (R32_SF (fadd rod rod) v) as [A2 _]; [vm_compute; reflexivity|].
  split; [exact B|]. change val with R32. rewrite A2, A. unfold SF2R, F2R. cbn. lra.
Qed.
Theorem C40_edge_length_refuted : exists lm out l' a b c,
  log2_ok lm /\ precision_ok sixteenth /\ list_ok lm [(rod_mesh, [])] /\
  saved lm true sixteenth [(rod_mesh, [])] = Ok out /\ read_tmf lm true out = Ok l' /\
  map (fun mn => vertices (fst mn)) l' = [Some [a; b; c]] /\
  shortest_edge (vertices rod_mesh) (vertex_triangles rod_mesh) (val rod) /\
  dist3 (f0, f0, f0) (f0, f0, rod) = val rod /\ dist3 a b = 0.
Proof.
  destruct rod_R as (F & B & T).
  assert (P : precision_ok sixteenth) by (split; cbn; lia).
  assert (HL : list_ok grid_libm [(rod_mesh, [])]).
  { split; [vm_compute; reflexivity|]. apply Forall_cons; [|apply Forall_nil]. cbn [fst snd].
    split; [apply three_storable|]. split; [apply name_ok_ascii; reflexivity|]. vm_compute. reflexivity. }
  assert (K : shown (let* o := map_err (fun _ => ENotTMFFile) (saved grid_libm true sixteenth [(rod_mesh, [])]) in read_tmf grid_libm true o) =
    [Some [(B2SF f0, B2SF f0, B2SF f0); (B2SF f0, B2SF f0, B2SF f0); (B2SF f0, B2SF f0, B2SF (fadd rod rod))]]) by (vm_compute; reflexivity).
  assert (exists out, saved grid_libm true sixteenth [(rod_mesh, [])] = Ok out) as [out S] by (eexists; vm_compute; reflexivity).
  destruct (saved_loads_as grid_libm grid_libm true sixteenth _ out P HL S) as (l' & R & _).
  rewrite S in K. cbn [map_err bind] in K. rewrite R in K. cbn [shown] in K.
  assert (exists z q, z = B2SF f0 /\ map (fun mn => option_map (map (fun v => (B2SF (vx v), B2SF (vy v), B2SF (vz v)))) (vertices (fst mn))) l' =
    [Some [(z, z, z); (z, z, z); (z, z, q)]]) as (z & q & Z & K') by (exists (B2SF f0), (B2SF (fadd rod rod)); split; [reflexivity|exact K]).
  clear K. rename K' into K.
  destruct l' as [|[m n] [|? l']]; try discriminate K. cbn [map fst] in K.
  destruct (vertices m) as [[|a [|b [|c [|? ?]]]]|] eqn:V; try discriminate K. cbn [option_map map] in K. injection K as K1 K2 K3 K4 K5 K6 K7 K8 K9.
  exists grid_libm, out, [(m, n)], a, b, c. split; [apply grid_log2_ok|]. split; [exact P|]. split; [exact HL|].
  split; [exact S|]. split; [exact R|]. split; [cbn [map fst]; now rewrite V|].
  assert (D : dist3 (f0, f0, f0) (f0, f0, rod) = val rod).
  { unfold dist3. cbn [fst snd]. rewrite val_0. rewrite <- (sqrt_square (val rod)) at 3 by lra. f_equal. ring. }
  split; [|split; [exact D|]].
  - unfold rod_mesh, point_mesh, rod_points, shortest_edge. cbn [vertices with_vertices with_vertex_triangles vertex_triangles].
    split; [eapply side_first; try reflexivity; left; symmetry; exact D|].
    revert T. generalize (fadd rod rod) as tip. intros tip T d S'. inversion S' as [? ? ? ? va vb vc ? G1 G2 G3 E|? ? ? ? ? S'']; subst; [|inversion S''].
    change (Some (f0, f0, f0) = Some va) in G1. change (Some (f0, f0, rod) = Some vb) in G2. change (Some (f0, f0, tip) = Some vc) in G3.
    injection G1 as <-. injection G2 as <-. injection G3 as <-.
    destruct E as [->|[->| ->]]; [lra| |].
    + unfold dist3. cbn [fst snd]. rewrite T, val_0. rewrite <- (sqrt_square (val rod)) at 1 by lra. apply sqrt_le_1_alt. right. ring.
    + unfold dist3. cbn [fst snd]. rewrite T, val_0. rewrite <- (sqrt_square (val rod)) at 1 by lra. apply sqrt_le_1_alt.
      assert (0 <= val rod * val rod) by apply Rle_0_sqr. lra.
  - rewrite Z in K1, K2, K3, K4, K5, K6. apply B2SF_inj in K1, K2, K3, K4, K5, K6. unfold dist3. change (fst (fst a)) with (vx a). change (snd (fst a)) with (vy a). change (snd a) with (vz a).
    change (fst (fst b)) with (vx b). change (snd (fst b)) with (vy b). change (snd b) with (vz b).
    rewrite K1, K2, K3, K4, K5, K6. rewrite val_0. rewrite <- sqrt_0. f_equal. ring.
Qed.
Print Assumptions C40_edge_length_refuted.
