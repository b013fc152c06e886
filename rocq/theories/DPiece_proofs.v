(** What loads of the vertices stored by a program built with [double_precision]. *)
From Coq Require Import List NArith ZArith Arith Lia Bool Reals Lra Psatz.
From Flocq Require Import Core IEEE754.BinarySingleNaN.
From Verif Require Import Base UnalignedRW ReadExt Floats Floats_proofs FloatReal_proofs ValueSpec VertexSpec Log2_proofs Trig_proofs
  Save_proofs Codec_proofs Image_proofs Quant_proofs NormalReal_proofs VertexReal_proofs CustomReal_proofs P_Uv
  Double DoubleSpec DoubleSave DoubleValueSpec Double2_proofs DCodec_proofs DSave_proofs DQuant_proofs DVertex_proofs.
Import ListNotations.
Local Open Scope R_scope.

Lemma box_contains_d : forall vs x0 x1 y0 y1 z0 z1, stored_box_d vs x0 x1 y0 y1 z0 z1 ->
  Forall (fun v => val64 x0 <= val64 (dvx v) /\ val64 (dvy v) <= val64 y1 /\ between_d z0 z1 (dvz v)) vs /\
  Forall (fun v => between_d x0 x1 (dvx v) /\ between_d y0 y1 (dvy v) /\ between_d z0 z1 (dvz v)) (removelast vs).
Proof.
  intros vs x0 x1 y0 y1 z0 z1 [_ [_ B1] [_ B2] [_ B3] [_ B4] [_ B5] [_ B6]].
  assert (A : Forall (fun v => val64 x0 <= val64 (dvx v) /\ val64 (dvy v) <= val64 y1 /\ between_d z0 z1 (dvz v)) vs).
  { apply Forall_forall. intros v I. split; [apply B1; exact (in_map (fun v => val64 (fst (fst v))) _ _ I)|].
    split; [apply B4, in_or_app; right; exact (in_map (fun v => val64 (snd (fst v))) _ _ I)|].
    split; [apply B5, in_or_app; right|apply B6]; exact (in_map (fun v => val64 (snd v)) _ _ I). }
  split; [exact A|]. rewrite Forall_forall in *. intros v I.
  assert (J : In v vs).
  { destruct vs as [|u vs]; [contradiction|]. rewrite (app_removelast_last u) by discriminate. apply in_or_app. now left. }
  destruct (A v J) as (A1 & A2 & A3). repeat split; auto; try apply A3.
  - apply B2, in_or_app. left. exact (in_map (fun v => val64 (fst (fst v))) _ _ I).
  - apply B3, in_or_app. left. exact (in_map (fun v => val64 (snd (fst v))) _ _ I).
Qed.
Lemma axis_stored_d {E} p mul mn mx v B : (1 <= p)%nat -> mask_f64 (E:=E) true p = Ok mul ->
  fin mn -> fin mx -> fin v -> Rabs (R64 mn) <= B -> Rabs (R64 mx) <= B -> Rabs (R64 v) <= B -> B <= 2 ^ 60 ->
  coordinate_stored_d B p mn mx v
    (dequantize_d (low p (quantize_d v mn (dmax (dsub mx mn) min_extent_d) mul)) (f64_of_N (mask_u64 p)) (dsub mx mn) mn).
Proof.
  intros HP M Fn Fx Fv Bn Bx Bv HB. pose proof (mask_d30 _ _ M) as P30.
  assert (FD : fin (dsub mx mn)).
  { apply dsub_R; auto. apply (fits_B_d B); auto. apply Rabs_le_iff in Bn, Bx. apply Rabs_le_iff. lra. }
  constructor; change val64 with R64 in *.
  - intros [H1 H2]. assert (HP2 : (1 <= p <= 30)%nat) by lia. destruct (mask_R_d _ _ M HP2) as [M1 M2].
    destruct (axis_R_d p mul mn mx v B HP2 M1 M2 Fn Fx Fv (conj H1 H2) Bn Bx HB) as (A1 & A2 & A3 & _). cbv zeta in *.
    split; [exact A1|]. split; [exact A2|]. unfold within_d. rewrite <- steps_pow. exact A3.
  - intros EQ. apply (dequantize_low_d p _ (dsub mx mn) mn B); auto; try lia. right.
    destruct (dsub_R mx mn Fx Fn) as [A _].
    + rewrite EQ, Rminus_diag_eq, Rabs_R0, big64_pow by reflexivity. apply pow_le. lra.
    + rewrite A, EQ, Rminus_diag_eq by reflexivity. apply rnd64_0.
  - intros L. apply (dequantize_low_d p _ (dsub mx mn) mn B); auto; try lia. left. eapply below_code_d; eauto.
Qed.
Lemma vertices_stored_d lm vs prec edge q mx my mz B :
  Forall (bounded_d B) vs -> B <= 2 ^ 60 -> vertex_params_d lm vs prec edge = Some q ->
  mask_f64 (E:=ioerr) true (dp_px q) = Ok mx -> mask_f64 (E:=ioerr) true (dp_py q) = Ok my -> mask_f64 (E:=ioerr) true (dp_pz q) = Ok mz ->
  box_of_d vs (dp_box q) /\
  Forall2 (fun v v' => coordinate_stored_d B (dp_px q) (dmin_x (dp_box q)) (dmax_x (dp_box q)) (dvx v) (dvx v') /\
                       coordinate_stored_d B (dp_py q) (dmin_y (dp_box q)) (dmax_y (dp_box q)) (dvy v) (dvy v') /\
                       coordinate_stored_d B (dp_pz q) (dmin_z (dp_box q)) (dmax_z (dp_box q)) (dvz v) (dvz v')) vs (map (vertex_image_d q mx my mz) vs).
Proof.
  intros F HB V Mx My Mz. unfold vertex_params_d in V. destruct (bounding_box_d (E:=ioerr) vs) as [b| |] eqn:EB; try discriminate.
  injection V as <-. cbn [dp_box dp_px dp_py dp_pz] in *.
  assert (FF : Forall finite3_d vs) by (eapply Forall_impl; [|exact F]; now intros v [? _]).
  pose proof (box_is_d vs b FF EB) as BX. split; [exact BX|].
  pose proof (box_bounded_d B vs _ _ _ _ _ _ F BX) as BB.
  destruct (box_finite_d _ _ _ _ _ _ _ BX) as (F1 & F2 & F3 & F4 & F5 & F6).
  repeat (apply Forall_cons_iff in BB as [? BB]). change val64 with R64 in *. rewrite Forall_forall in F.
  apply F2_map. intros v I. apply F in I as ((G1 & G2 & G3) & G4 & G5 & G6). unfold vertex_image_d, dvx, dvy, dvz.
  cbn [dp_box dp_px dp_py dp_pz dp_sx dp_sy dp_sz fst snd].
  split; [|split]; (eapply axis_stored_d; eauto); unfold axis_precision_d; lia.
Qed.
Lemma dist_bound_d a b : bounded_d (2 ^ 50) a -> bounded_d (2 ^ 50) b -> dist3_d a b <= 2 ^ 52.
Proof.
  intros ((A1 & A2 & A3) & A4 & A5 & A6) ((B1 & B2 & B3) & B4 & B5 & B6).
  destruct (square_R_d _ _ A1 B1 A4 B4) as (_ & _ & _ & X4).
  destruct (square_R_d _ _ A2 B2 A5 B5) as (_ & _ & _ & Y4).
  destruct (square_R_d _ _ A3 B3 A6 B6) as (_ & _ & _ & Z4). cbv zeta in *.
  unfold dist3_d. change val64 with R64. rewrite <- (sqrt_square (2 ^ 52)) by (apply pow_le; lra).
  apply sqrt_le_1_alt. assert (E : 2 ^ 52 * 2 ^ 52 = 4 * 2 ^ 102) by (replace 4 with (2 ^ 2) by (simpl; lra); rewrite <- !pow_add; reflexivity).
  rewrite E. assert (0 < 2 ^ 102) by (apply pow_lt; lra). lra.
Qed.
Lemma sides_bound_d vs t d : Forall (bounded_d (2 ^ 50)) vs -> side_of_d vs t d -> d <= 2 ^ 52.
Proof.
  intros F. rewrite Forall_forall in F. induction 1 as [a b c t va vb vc d G1 G2 G3 D|]; auto.
  apply nth_error_In, F in G1, G2, G3. destruct D as [->|[->| ->]]; now apply dist_bound_d.
Qed.
Lemma edge_bound_d vs ts s : Forall (bounded_d (2 ^ 50)) (match vs with Some v => v | None => [] end) -> shortest_edge_d vs ts s -> s <= 2 ^ 52.
Proof.
  unfold shortest_edge_d. intros F. assert (0.1 <= 2 ^ 52) by (apply Rle_trans with (2 ^ 0); [simpl; lra|apply pow2_le; lia]).
  destruct ts as [[|i t]|]; destruct vs as [v|]; try (intros ->; assumption). intros [S _]. eapply sides_bound_d; eauto.
Qed.
Definition vlist_d (o : option (list dvec3)) : list dvec3 := match o with Some v => v | None => [] end.
Lemma piece_close_d lm vs prec edge q mx my mz B s :
  log2_64_ok lm -> Forall (bounded_d B) vs -> B <= 2 ^ 50 -> edge_near_d s edge -> / 2 ^ 20 <= s <= 2 ^ 52 ->
  fin prec -> / 2 ^ 60 <= R64 prec <= 1 ->
  vertex_params_d lm vs prec edge = Some q ->
  mask_f64 (E:=ioerr) true (dp_px q) = Ok mx -> mask_f64 (E:=ioerr) true (dp_py q) = Ok my -> mask_f64 (E:=ioerr) true (dp_pz q) = Ok mz ->
  piece_moved_d B (s * R64 prec) vs (map (vertex_image_d q mx my mz) vs).
Proof.
  intros LG F HB [Fe Ne] Hs Fp Hp V Mx My Mz. pose proof (mask_d30 _ _ Mx) as Hx. pose proof (mask_d30 _ _ My) as Hy. pose proof u64_small as U.
  assert (HB6 : B <= 2 ^ 60) by (eapply Rle_trans; [exact HB|apply pow2_le; lia]).
  destruct (vertices_stored_d lm vs prec edge q mx my mz B F HB6 V Mx My Mz) as [BX F2].
  pose proof (box_bounded_d B vs _ _ _ _ _ _ F BX) as BB.
  destruct (box_finite_d _ _ _ _ _ _ _ BX) as (F1 & F2' & F3 & F4 & F5 & F6).
  unfold vertex_params_d in V. destruct (bounding_box_d (E:=ioerr) vs) as [b| |] eqn:EB; try discriminate.
  injection V as <-. cbn [dp_box dp_px dp_py dp_pz dp_sx dp_sy dp_sz] in *.
  repeat (apply Forall_cons_iff in BB as [? BB]). change val64 with R64 in *. unfold finite64 in *.
  set (t := s * R64 prec) in *. destruct min_extent_R_d as [E1 E2].
  assert (p20 : 0 < / 2 ^ 20 <= 0.000001) by (split; [apply Rinv_0_lt_compat, pow_lt; lra|simpl pow; lra]).
  assert (p60 : 0 < / 2 ^ 60) by (apply Rinv_0_lt_compat, pow_lt; lra).
  assert (t80 : / 2 ^ 80 <= t).
  { replace (/ 2 ^ 80) with (/ 2 ^ 20 * / 2 ^ 60) by (rewrite <- Rinv_mult, <- pow_add; reflexivity). apply Rmult_le_compat; lra. }
  assert (q80 : 0 < / 2 ^ 80) by (apply Rinv_0_lt_compat, pow_lt; lra).
  assert (t0 : 0 < t) by lra.
  apply Rabs_le_iff in Ne.
  assert (s20 : / 2 ^ 20 * s <= 0.000001 * s) by (apply Rmult_le_compat_r; lra).
  assert (EP : 0.999999 * t <= R64 edge * R64 prec <= 1.000001 * t).
  { unfold t. rewrite <- !Rmult_assoc. split; apply Rmult_le_compat_r; lra. }
  (* an extent and the width computed from it *)
  assert (W : forall lo hi, fin lo -> fin hi -> Rabs (R64 lo) <= B -> Rabs (R64 hi) <= B ->
    let sx := dmax (dsub hi lo) min_extent_d in let p := axis_precision_d lm edge sx prec in
    (p <= 30)%nat -> (1 <= p <= 30)%nat /\ R64 sx <= 2.0025 * t * IZR (steps p) /\ (1 - u64) * Rmax (R64 hi - R64 lo) 0.000001 <= R64 sx * 1.0001).
  { intros lo hi Fl Fh Bl Bh sx p P30. apply Rabs_le_iff in Bl, Bh.
    destruct (dsub_R hi lo Fh Fl) as [D1 D2]; [apply (fits_B_d B); auto; apply Rabs_le_iff; lra|].
    pose proof (rnd64_diff hi lo) as DE. rewrite <- D1 in DE.
    destruct (dmax_R (dsub hi lo) min_extent_d D2 E1) as [X1 X2]. fold sx in X1, X2.
    assert (s1 : R64 (dsub hi lo) <= R64 sx) by (rewrite X1; apply Rmax_l).
    assert (s2 : R64 min_extent_d <= R64 sx) by (rewrite X1; apply Rmax_r).
    assert (AB : Rabs (R64 hi - R64 lo) <= 2 * B) by (apply Rabs_le_iff; lra).
    assert (u64 * Rabs (R64 hi - R64 lo) <= 0.0001 * (2 * B)) by (apply mul_le; try lra; apply Rabs_pos).
    assert (SU : R64 sx <= 2.001 * B + 0.0000010001).
    { rewrite X1. apply Rmax_lub; [|lra]. apply Rabs_le_iff in DE. lra. }
    assert (HS : R64 sx <= 2 ^ 190 * (R64 edge * R64 prec)).
    { apply Rle_trans with (2 ^ 53); [replace (2 ^ 53) with (8 * 2 ^ 50) by (simpl pow; lra); assert (1 <= 2 ^ 50) by (apply pow_R1_Rle; lra); lra|].
      apply Rle_trans with (2 ^ 189 * / 2 ^ 80).
      - replace (2 ^ 189) with (2 ^ 109 * 2 ^ 80) by (rewrite <- pow_add; reflexivity). rewrite Rmult_assoc, Rinv_r, Rmult_1_r by (apply pow_nonzero; lra). apply pow2_le. lia.
      - change (2 ^ 190) with (2 * 2 ^ 189). assert (0 < 2 ^ 189) by (apply pow_lt; lra). set (k := 2 ^ 189) in *.
        replace (2 * k * (R64 edge * R64 prec)) with (k * (2 * (R64 edge * R64 prec))) by ring. apply Rmult_le_compat_l; lra. }
    assert (E60 : 0 < R64 edge <= 2 ^ 60).
    { split; [lra|]. apply Rle_trans with (2 * 2 ^ 52); [lra|]. change (2 * 2 ^ 52) with (2 ^ 53). apply pow2_le. lia. }
    destruct (axis_width_d lm edge sx prec LG Fe X2 Fp E60) as [P0 P2]; auto; [lra|lra|]. fold p in P0, P2. cbv zeta in P0, P2. fold p in P0, P2.
    assert (P1 : (1 <= p <= 30)%nat) by lia.
    split; [exact P1|]. split.
    - eapply Rle_trans; [exact P2|]. apply Rmult_le_compat_r; [|lra]. apply IZR_le. pose proof (steps_bounds_d p P1). lia.
    - assert (U1 : 0 <= 1 - u64) by lra. destruct (Rle_lt_dec (R64 hi - R64 lo) 0.000001) as [L|L].
      + rewrite Rmax_right by lra. assert ((1 - u64) * 0.000001 <= 1 * 0.000001) by (apply Rmult_le_compat_r; lra). lra.
      + rewrite Rmax_left by lra. rewrite (Rabs_pos_eq (R64 hi - R64 lo)) in DE by lra. apply Rabs_le_iff in DE. lra. }
  assert (MX : forall lo hi p x y, coordinate_stored_d B p lo hi x y -> (1 <= p <= 30)%nat -> between_d lo hi x ->
    forall T, (R64 hi - R64 lo) / IZR (steps p) <= T -> 0 <= T -> finite64 y /\ within_d (T + 0.000001001 + / 2 ^ 48 * B) x y).
  { intros lo hi p x y C P I T HT T0. destruct (cs_inside_d _ _ _ _ _ _ C I) as (C1 & _ & C3). split; auto.
    unfold within_d in *. eapply Rle_trans; [exact C3|]. rewrite <- steps_pow. change val64 with R64.
    assert (Rmax ((R64 hi - R64 lo) / IZR (steps p)) 0.000001001 <= T + 0.000001001) by (apply Rmax_lub; lra). lra. }
  assert (EX : forall lo hi, fin lo -> fin hi -> Rabs (R64 lo) <= B -> Rabs (R64 hi) <= B ->
    let p := axis_precision_d lm edge (dmax (dsub hi lo) min_extent_d) prec in (p <= 30)%nat -> (R64 hi - R64 lo) / IZR (steps p) <= 2.003 * t).
  { intros lo hi Fl Fh Bl Bh p P30. destruct (W lo hi Fl Fh Bl Bh P30) as (P1 & P2 & P3). cbv zeta in *. fold p in P1, P2.
    assert (S1 : 1 <= IZR (steps p)) by (apply IZR_le; pose proof (steps_bounds_d p P1); lia).
    set (M := IZR (steps p)) in *. apply Rmult_le_reg_r with M; [lra|]. unfold Rdiv. rewrite Rmult_assoc, Rinv_l, Rmult_1_r by lra.
    pose proof (Rmax_l (R64 hi - R64 lo) 0.000001) as RL.
    assert (0.9999 * Rmax (R64 hi - R64 lo) 0.000001 <= (1 - u64) * Rmax (R64 hi - R64 lo) 0.000001).
    { apply Rmult_le_compat_r; [|lra]. pose proof (Rmax_r (R64 hi - R64 lo) 0.000001). lra. }
    assert (0 <= t * M) by (apply Rmult_le_pos; lra). lra. }
  exists (dmin_x b), (dmax_x b), (dmin_y b), (dmax_y b), (dmin_z b), (dmax_z b). split; [exact BX|].
  assert (ZI : forall v, In v vs -> between_d (dmin_z b) (dmax_z b) (dvz v)).
  { intros v I. destruct (box_contains_d _ _ _ _ _ _ _ BX) as [A _]. rewrite Forall_forall in A. now apply A. }
  assert (Px : (1 <= axis_precision_d lm edge (dmax (dsub (dmax_x b) (dmin_x b)) min_extent_d) prec <= 30)%nat) by (apply W; auto; lia).
  assert (Py : (1 <= axis_precision_d lm edge (dmax (dsub (dmax_y b) (dmin_y b)) min_extent_d) prec <= 30)%nat) by (apply W; auto; lia).
  assert (Z0 : 0 <= R64 (dmax_z b) - R64 (dmin_z b)).
  { destruct vs as [|v vs]; [discriminate|]. destruct (ZI v (or_introl eq_refl)). change val64 with R64 in *. lra. }
  set (pz := axis_precision_d lm edge (dmax (dsub (dmax_y b) (dmin_y b)) min_extent_d) prec) in *.
  assert (TZ : (R64 (dmax_z b) - R64 (dmin_z b)) / IZR (steps pz) <=
    2.003 * t * ((R64 (dmax_z b) - R64 (dmin_z b)) / Rmax (R64 (dmax_y b) - R64 (dmin_y b)) 0.000001)).
  { destruct (W (dmin_y b) (dmax_y b) F3 F4) as (_ & P2 & P3); auto. cbv zeta in *. fold pz in P2.
    assert (S1 : 1 <= IZR (steps pz)) by (apply IZR_le; pose proof (steps_bounds_d pz Py); lia).
    set (M := IZR (steps pz)) in *. pose proof (Rmax_r (R64 (dmax_y b) - R64 (dmin_y b)) 0.000001) as RR.
    set (Y := Rmax (R64 (dmax_y b) - R64 (dmin_y b)) 0.000001) in *. set (Z := R64 (dmax_z b) - R64 (dmin_z b)) in *.
    assert (0.9999 * Y <= (1 - u64) * Y) by (apply Rmult_le_compat_r; lra).
    assert (0 <= t * M) by (apply Rmult_le_pos; lra).
    assert (YM : Y <= 2.003 * t * M) by lra.
    apply Rmult_le_reg_r with (M * Y); [apply Rmult_lt_0_compat; lra|].
    replace (Z / M * (M * Y)) with (Z * Y) by (field; lra).
    replace (2.003 * t * (Z / Y) * (M * Y)) with (Z * (2.003 * t * M)) by (field; lra). apply Rmult_le_compat_l; lra. }
  assert (0 <= 2.003 * t) by lra.
  assert (0 <= 2.003 * t * ((R64 (dmax_z b) - R64 (dmin_z b)) / Rmax (R64 (dmax_y b) - R64 (dmin_y b)) 0.000001)).
  { apply Rmult_le_pos; [lra|]. apply Rmult_le_pos; [lra|]. left. apply Rinv_0_lt_compat.
    pose proof (Rmax_r (R64 (dmax_y b) - R64 (dmin_y b)) 0.000001). lra. }
  change val64 with R64.
  clear -F2 ZI MX EX Px Py TZ F1 F2' F3 F4 H H0 H1 H2 H3 H4 H5 H6.
  revert F2 ZI. generalize (map (vertex_image_d (mk_dparams b (dmax (dsub (dmax_x b) (dmin_x b)) min_extent_d) (dmax (dsub (dmax_y b) (dmin_y b)) min_extent_d)
    (dmax (dsub (dmax_z b) (dmin_z b)) min_extent_d) (axis_precision_d lm edge (dmax (dsub (dmax_x b) (dmin_x b)) min_extent_d) prec) pz pz) mx my mz) vs).
  intros l2 F2. induction F2 as [|v v' l l2 (C1 & C2 & C3) F2 IH]; intros ZI; constructor.
  - split; [intros I; eapply MX; eauto; apply EX; auto; lia|]. split; [intros I; eapply MX; eauto; apply EX; auto; lia|]. eapply MX; eauto. apply ZI. now left.
  - apply IH. intros u I. apply ZI. now right.
Qed.
