(** Vertex arrays whose splitting and encoding in double precision cannot overflow: as VSave_proofs.v. *)
From Coq Require Import List NArith ZArith Arith Lia Bool Reals Lra ZifyN ZifyNat ZifyBool.
From Flocq Require Import Core IEEE754.BinarySingleNaN.
From Verif Require Import Base UnalignedRW ReadExt Floats Floats_proofs FloatReal_proofs Utilis Vertices OptTris OptVertices OptVertices_proofs
  FileSpec ValueSpec VertexSpec CheckedSpec Split_proofs Save_proofs Save2_proofs Codec_proofs Quant_proofs NormalReal_proofs Log2_proofs VertexReal_proofs
  Double DoubleSpec Double2_proofs DoubleSave DoubleSaveSpec DoubleValueSpec DoublePanicSpec DCodec_proofs DQuant_proofs DVertex_proofs DSplit_proofs.
Import ListNotations.
Open Scope res_scope.
Local Open Scope R_scope.

(** ** The ratio a width is computed from *)
Definition ratio_d (d : f64) : f64 := ddiv d1 (ddiv split_edge_d d).
Lemma split_edge_R_d : fin split_edge_d /\ 0.009 <= R64 split_edge_d <= 0.011.
Proof.
  destruct (dlit_R 1 100) as [A B]; [lia|lia|]. fold split_edge_d in A, B. split; [exact B|]. rewrite A.
  pose proof (rnd64_err (1 / 100)) as Er. rewrite (Rabs_pos_eq (1 / 100)) in Er by lra.
  pose proof tiny64_bound as [_ T]. change (2 ^ 100)%Z with 1267650600228229401496703205376%Z in T.
  apply Rabs_le_iff in Er. unfold u64 in Er. simpl pow in *. lra.
Qed.
Lemma inv_inf_d (x : f64) : is_finite x = false -> is_nan x = false -> R64 (ddiv d1 x) = 0 /\ fin (ddiv d1 x).
Proof. destruct x as [s|s| |s m e H]; try discriminate. intros _ _. destruct s; split; reflexivity. Qed.

(** The division either overflows, and then the ratio is zero, or does not. *)
Lemma ratio_R_d (d : f64) : fin d -> 0 <= R64 d <= 2 ^ 62 ->
  fin (ratio_d d) /\
  ((R64 (ratio_d d) = 0 /\ (R64 d = 0 \/ Rlt_bool (Rabs (rnd64 (R64 split_edge_d / R64 d))) (bpow radix2 1024) = false)) \/
   (0 < R64 d /\ Rlt_bool (Rabs (rnd64 (R64 split_edge_d / R64 d))) (bpow radix2 1024) = true /\
    / 2 ^ 71 <= rnd64 (R64 split_edge_d / R64 d) /\
    R64 (ratio_d d) = rnd64 (1 / rnd64 (R64 split_edge_d / R64 d)) /\ 0 < R64 (ratio_d d) <= 2 ^ 72)).
Proof.
  intros F D. destruct split_edge_R_d as [F0 S0]. unfold ratio_d. pose proof u64_small as U.
  destruct (Req_dec (R64 d) 0) as [Z|Z].
  { assert (X : is_finite (ddiv split_edge_d d) = false /\ is_nan (ddiv split_edge_d d) = false).
    { destruct d as [s|s| |s m e H]; try discriminate.
      - destruct s; vm_compute; auto.
      - exfalso. unfold R64, B2R in Z. apply eq_0_F2R in Z. destruct s; discriminate Z. }
    destruct X as [X1 X2]. destruct (inv_inf_d _ X1 X2) as [A B]. split; [exact B|]. left. auto. }
  pose proof (Bdiv_correct 53 1024 gt0_53 lt_53_1024 mode_NE split_edge_d d Z) as C. cbn [round_mode] in C.
  change (round radix2 (SpecFloat.fexp 53 1024) ZnearestE) with rnd64 in C. fold ddiv in C.
  change (B2R split_edge_d) with (R64 split_edge_d) in C. change (B2R d) with (R64 d) in C.
  destruct (Rlt_bool (Rabs (rnd64 (R64 split_edge_d / R64 d))) (bpow radix2 1024)) eqn:O.
  - destruct C as (C1 & C2 & _). change (Bdiv mode_NE split_edge_d d) with (ddiv split_edge_d d) in *.
    change (B2R (ddiv split_edge_d d)) with (R64 (ddiv split_edge_d d)) in C1.
    assert (L : / 2 ^ 70 <= R64 split_edge_d / R64 d).
    { apply Rmult_le_reg_r with (R64 d); [lra|]. unfold Rdiv. rewrite Rmult_assoc, Rinv_l, Rmult_1_r by lra.
      assert (0 < / 2 ^ 70) by (apply Rinv_0_lt_compat, pow_lt; lra).
      apply Rle_trans with (/ 2 ^ 70 * 2 ^ 62); [apply Rmult_le_compat_l; lra|].
      replace (2 ^ 70) with (2 ^ 62 * 2 ^ 8) by (rewrite <- pow_add; reflexivity). rewrite Rinv_mult.
      assert (0 < 2 ^ 62) by (apply pow_lt; lra).
      replace (/ 2 ^ 62 * / 2 ^ 8 * 2 ^ 62) with (/ 2 ^ 8) by (field; lra). simpl pow. lra. }
    assert (p70 : 0 < / 2 ^ 70) by (apply Rinv_0_lt_compat, pow_lt; lra).
    assert (p100 : / 2 ^ 200 <= / 2 ^ 70) by (apply Rinv_le_contravar; [apply pow_lt; lra|apply pow2_le; lia]).
    pose proof (rnd64_rel_pos (R64 split_edge_d / R64 d) ltac:(lra)) as RR.
    assert (L2 : / 2 ^ 71 <= rnd64 (R64 split_edge_d / R64 d)).
    { replace (2 ^ 71) with (2 ^ 70 * 2) by (simpl; lra). rewrite Rinv_mult.
      assert (/ 2 ^ 70 * / 2 <= (1 - u64) * (R64 split_edge_d / R64 d)) by (rewrite (Rmult_comm (/ 2 ^ 70)); apply mul_le; lra). lra. }
    assert (p71 : 0 < / 2 ^ 71) by (apply Rinv_0_lt_compat, pow_lt; lra).
    set (e := rnd64 (R64 split_edge_d / R64 d)) in *.
    assert (I : 0 < 1 / e <= 2 ^ 71).
    { unfold Rdiv. rewrite Rmult_1_l. split; [apply Rinv_0_lt_compat; lra|]. rewrite <- (Rinv_inv (2 ^ 71)). apply Rinv_le_contravar; lra. }
    destruct d1_R as [O1 O2].
    destruct (ddiv_R d1 (ddiv split_edge_d d) O2) as [A B]; [rewrite C1; lra|rewrite O1, C1; apply big_ok_d; split; [lra|]|].
    { eapply Rle_trans; [apply I|]. apply pow2_le. lia. }
    split; [exact B|]. right. rewrite O1, C1 in A. rewrite A.
    assert (LB : bpow radix2 (-1024) <= 1 / e).
    { unfold Rdiv. rewrite Rmult_1_l. change (-1024)%Z with (Z.opp 1024). rewrite bpow_opp. apply Rinv_le_contravar; [lra|].
      destruct (Rlt_bool_spec (Rabs e) (bpow radix2 1024)) as [G|G]; [|discriminate O]. rewrite Rabs_pos_eq in G by lra. lra. }
    assert (L3 : bpow radix2 (-1024) <= rnd64 (1 / e)).
    { rewrite <- (round_generic radix2 fexp64 ZnearestE (bpow radix2 (-1024))); [now apply rnd64_le|].
      apply generic_format_bpow. vm_compute. discriminate. }
    pose proof (bpow_gt_0 radix2 (-1024)).
    assert (p71e : bpow radix2 71 = 2 ^ 71) by (rewrite pow_IZR; reflexivity).
    assert (U2 : Rabs (rnd64 (1 / e)) <= bpow radix2 71) by (apply rnd64_abs_le_bpow; [lia|rewrite p71e, Rabs_pos_eq; lra]).
    rewrite p71e, Rabs_pos_eq in U2 by lra. assert (2 ^ 72 = 2 * 2 ^ 71) by (simpl; lra). repeat split; auto; lra.
  - assert (X : is_finite (ddiv split_edge_d d) = false /\ is_nan (ddiv split_edge_d d) = false).
    { change (Bdiv mode_NE split_edge_d d) with (ddiv split_edge_d d) in C. destruct (ddiv split_edge_d d); cbn in C; try discriminate C; auto. }
    destruct X as [X1 X2]. destruct (inv_inf_d _ X1 X2) as [A B]. split; [exact B|]. left. auto.
Qed.
Lemma ratio_nonneg_d d : fin d -> 0 <= R64 d <= 2 ^ 62 -> 0 <= R64 (ratio_d d) <= 2 ^ 72.
Proof.
  intros F D. destruct (ratio_R_d d F D) as [_ [[-> _]|(_ & _ & _ & _ & H)]]; [|lra]. split; [lra|]. apply pow_le. lra.
Qed.
Lemma ratio_mono_d c d : fin c -> fin d -> 0 <= R64 c <= R64 d -> R64 d <= 2 ^ 62 -> R64 (ratio_d c) <= R64 (ratio_d d).
Proof.
  intros Fc Fd L B. destruct split_edge_R_d as [_ S0].
  destruct (ratio_R_d c Fc ltac:(lra)) as [_ [[-> _]|(C1 & C2 & C3 & C4 & C5)]]; [apply ratio_nonneg_d; auto; lra|].
  assert (LE : R64 split_edge_d / R64 d <= R64 split_edge_d / R64 c).
  { apply Rmult_le_compat_l; [lra|]. apply Rinv_le_contravar; lra. }
  assert (P0 : 0 <= R64 split_edge_d / R64 d).
  { apply Rmult_le_pos; [lra|]. left. apply Rinv_0_lt_compat. lra. }
  pose proof (rnd64_le _ _ LE) as RL. pose proof (rnd64_le _ _ P0) as RP. rewrite rnd64_0 in RP.
  destruct (ratio_R_d d Fd ltac:(lra)) as [_ [[_ [Z|Z]]|(D1 & D2 & D3 & D4 & D5)]]; [lra| |].
  - exfalso. destruct (Rlt_bool_spec (Rabs (rnd64 (R64 split_edge_d / R64 c))) (bpow radix2 1024)) as [G|G]; [|discriminate].
    destruct (Rlt_bool_spec (Rabs (rnd64 (R64 split_edge_d / R64 d))) (bpow radix2 1024)) as [G'|G']; [discriminate|].
    rewrite Rabs_pos_eq in G by lra. rewrite Rabs_pos_eq in G' by lra. lra.
  - rewrite C4, D4. apply rnd64_le. unfold Rdiv at 1 3. rewrite !Rmult_1_l. apply Rinv_le_contravar; [|exact RL].
    eapply Rlt_le_trans; [|exact D3]. apply Rinv_0_lt_compat, pow_lt. lra.
Qed.

(** ** Bit counts *)
Lemma axis_bits_le_d lm d : log2_64_ok lm -> log2_64_standard lm -> fin d -> 0 <= R64 d <= 2 ^ 62 -> (axis_bits_d lm split_edge_d d <= 74)%nat.
Proof.
  intros LG [LZ _] F D. destruct (ratio_R_d d F D) as [FR X]. pose proof (ratio_nonneg_d d F D) as N.
  unfold axis_bits_d. fold (ratio_d d). destruct (Req_dec (R64 (ratio_d d)) 0) as [Z|Z].
  - rewrite (LZ (ratio_d d) FR Z). vm_compute. lia.
  - assert (P : 0 < R64 (ratio_d d)) by lra. destruct (LG _ FR P) as [H1 H2].
    assert (L : log2 (R64 (ratio_d d)) <= 72).
    { rewrite <- (log2_bpow 72). apply log2_le; [exact P|]. replace (bpow radix2 72) with (2 ^ 72) by (rewrite pow_IZR; reflexivity). lra. }
    change (val64 (ratio_d d)) with (R64 (ratio_d d)) in H2.
    assert (V : R64 (l_log2 lm (ratio_d d)) <= 73).
    { change (val64 (l_log2 lm (ratio_d d))) with (R64 (l_log2 lm (ratio_d d))) in H2. apply Rabs_le_iff in H2.
      assert (0 < / 2 ^ 30 <= / 1000) by (simpl pow; lra). set (t := log2 (R64 (ratio_d d))) in *.
      destruct (Rle_or_lt 0 t) as [S|S].
      - rewrite (Rabs_pos_eq t) in H2 by exact S.
        assert (/ 2 ^ 30 * (1 + t) <= / 1000 * 73) by (apply Rmult_le_compat; lra). lra.
      - rewrite (Rabs_left t) in H2 by exact S.
        assert (/ 2 ^ 30 * (1 + - t) <= / 1000 * (1 + - t)) by (apply Rmult_le_compat_r; lra). lra. }
    apply Nat2Z.inj_le. rewrite u8_ceil_d by exact H1.
    assert (Zceil (R64 (l_log2 lm (ratio_d d))) <= 73)%Z; [|lia].
    rewrite <- (Zceil_IZR 73). now apply Zceil_le.
Qed.
Lemma axis_bits_mono_d lm c d : log2_64_ok lm -> log2_64_standard lm -> fin c -> fin d -> 0 <= R64 c <= R64 d -> R64 d <= 2 ^ 62 ->
  (axis_bits_d lm split_edge_d c <= axis_bits_d lm split_edge_d d)%nat.
Proof.
  intros LG [LZ LM] Fc Fd L B. pose proof (ratio_mono_d c d Fc Fd L B) as M.
  destruct (ratio_R_d c Fc ltac:(lra)) as [Gc _]. destruct (ratio_R_d d Fd ltac:(lra)) as [Gd _].
  pose proof (ratio_nonneg_d c Fc ltac:(lra)) as Nc. unfold axis_bits_d. fold (ratio_d c) (ratio_d d).
  destruct (Req_dec (R64 (ratio_d c)) 0) as [Z|Z].
  - rewrite (LZ _ Gc Z). change (u8_of_f64 (dceil (B754_infinity true))) with 0%nat. lia.
  - assert (P : 0 < R64 (ratio_d c)) by lra. destruct (LG _ Gc P) as [Hc _]. destruct (LG _ Gd) as [Hd _]; [change val64 with R64; lra|].
    apply Nat2Z.inj_le. rewrite !u8_ceil_d by assumption.
    assert (Zceil (R64 (l_log2 lm (ratio_d c))) <= Zceil (R64 (l_log2 lm (ratio_d d))))%Z; [|lia].
    apply Zceil_le. apply LM; auto.
Qed.

(** ** Spans *)
Definition near_d (B : R) (x : f64) : Prop := fin x /\ Rabs (R64 x) <= B.
Record span_ok_d (B : R) (s : dspan) : Prop := {
  so_x_d : near_d B (dvx (fst s)) /\ near_d B (dvx (snd s)) /\ R64 (dvx (fst s)) <= R64 (dvx (snd s));
  so_y_d : near_d B (dvy (fst s)) /\ near_d B (dvy (snd s)) /\ R64 (dvy (fst s)) <= R64 (dvy (snd s)) }.
Record span_in_d (s t : dspan) : Prop := {
  si_x0_d : R64 (dvx (fst t)) <= R64 (dvx (fst s)); si_x1_d : R64 (dvx (snd s)) <= R64 (dvx (snd t));
  si_y0_d : R64 (dvy (fst t)) <= R64 (dvy (fst s)); si_y1_d : R64 (dvy (snd s)) <= R64 (dvy (snd t)) }.
Lemma span_in_refl_d s : span_in_d s s. Proof. constructor; lra. Qed.
Lemma span_in_trans_d a b c : span_in_d a b -> span_in_d b c -> span_in_d a c.
Proof. intros [] []. constructor; lra. Qed.
Lemma near_min_d B x y : near_d B x -> near_d B y -> near_d B (dmin x y) /\ R64 (dmin x y) = Rmin (R64 x) (R64 y).
Proof.
  intros [Fx Bx] [Fy By]. destruct (dmin_R x y Fx Fy) as [A C]. split; [split; [exact C|]|exact A].
  rewrite A. unfold Rmin. destruct (Rle_dec _ _); auto.
Qed.
Lemma near_max_d B x y : near_d B x -> near_d B y -> near_d B (dmax x y) /\ R64 (dmax x y) = Rmax (R64 x) (R64 y).
Proof.
  intros [Fx Bx] [Fy By]. destruct (dmax_R x y Fx Fy) as [A C]. split; [split; [exact C|]|exact A].
  rewrite A. unfold Rmax. destruct (Rle_dec _ _); auto.
Qed.
Lemma expand_ok_d B s v : span_ok_d B s -> bounded_d B v -> span_ok_d B (expand_vertex_span_d s v) /\ span_in_d s (expand_vertex_span_d s v).
Proof.
  intros [(X0 & X1 & X) (Y0 & Y1 & Y)] ((V1 & V2 & _) & V4 & V5 & _).
  assert (NX : near_d B (dvx v)) by (split; assumption). assert (NY : near_d B (dvy v)) by (split; assumption).
  destruct (near_min_d B _ _ X0 NX) as [A1 A2]. destruct (near_max_d B _ _ X1 NX) as [B1 B2].
  destruct (near_min_d B _ _ Y0 NY) as [C1 C2]. destruct (near_max_d B _ _ Y1 NY) as [D1 D2].
  unfold expand_vertex_span_d. set (fst s) as lo in *. set (snd s) as hi in *.
  split; constructor; cbn [fst snd dvx dvy]; unfold dvx, dvy in *; cbn [fst snd]; rewrite ?A2, ?B2, ?C2, ?D2;
    repeat split; try apply A1; try apply B1; try apply C1; try apply D1;
    try apply Rmin_l; try apply Rmax_l; (eapply Rle_trans; [apply Rmin_l|]; eapply Rle_trans; [eassumption|apply Rmax_l]).
Qed.
Lemma fold_ok_d B vs : Forall (bounded_d B) vs -> forall s, span_ok_d B s ->
  span_ok_d B (fold_left expand_vertex_span_d vs s) /\ span_in_d s (fold_left expand_vertex_span_d vs s).
Proof.
  induction 1 as [|v vs V _ IH]; intros s S; cbn [fold_left]; [split; [exact S|apply span_in_refl_d]|].
  destruct (expand_ok_d B s v S V) as [S1 I1]. destruct (IH _ S1) as [S2 I2]. split; [exact S2|]. eapply span_in_trans_d; eauto.
Qed.
Lemma zero_span_ok_d B : 0 <= B -> span_ok_d B zero_span_d.
Proof.
  intros HB. assert (near_d B d0) by (split; [reflexivity|]; change (R64 d0) with 0; rewrite Rabs_R0; exact HB).
  constructor; repeat split; auto; cbn; try apply H; lra.
Qed.
(** The extents of nested spans. *)
Lemma extent_ok_d B lo hi : B <= 2 ^ 60 -> near_d B lo -> near_d B hi -> R64 lo <= R64 hi ->
  fin (dsub hi lo) /\ R64 (dsub hi lo) = rnd64 (R64 hi - R64 lo) /\ 0 <= R64 (dsub hi lo) <= 2 ^ 62.
Proof.
  intros HB [Fl Bl] [Fh Bh] L. apply Rabs_le_iff in Bl, Bh.
  destruct (dsub_R hi lo Fh Fl) as [A C]; [apply (fits_B_d B); auto; apply Rabs_le_iff; lra|].
  split; [exact C|]. split; [exact A|]. rewrite A. split; [rewrite <- rnd64_0; apply rnd64_le; lra|].
  eapply Rle_trans; [apply Rle_abs|]. replace (2 ^ 62) with (bpow radix2 62) by (rewrite pow_IZR; reflexivity).
  apply rnd64_abs_le_bpow; [lia|]. rewrite Rabs_pos_eq by lra.
  replace (bpow radix2 62) with (4 * 2 ^ 60) by (rewrite pow_IZR, <- mult_IZR; reflexivity).
  assert (0 < 2 ^ 60) by (apply pow_lt; lra). lra.
Qed.
Lemma bit_count_ok_d {E} lm B s : log2_64_ok lm -> log2_64_standard lm -> B <= 2 ^ 60 -> span_ok_d B s ->
  exists n, range_to_vertex_bit_count_d (E:=E) lm true s split_edge_d = Ok n /\ (n <= 222)%nat.
Proof.
  intros LG LS HB [(X0 & X1 & X) (Y0 & Y1 & Y)].
  destruct (extent_ok_d B _ _ HB X0 X1 X) as (A1 & _ & A3). destruct (extent_ok_d B _ _ HB Y0 Y1 Y) as (B1 & _ & B3).
  pose proof (axis_bits_le_d lm _ LG LS A1 A3) as C1. pose proof (axis_bits_le_d lm _ LG LS B1 B3) as C2.
  unfold range_to_vertex_bit_count_d. cbv zeta. set (a := axis_bits_d lm _ _) in *. set (b := axis_bits_d lm split_edge_d (dsub (dvy (snd s)) (dvy (fst s)))) in *.
  unfold add8. replace (a + b <? 256) with true by lia. cbn [bind]. replace (a + b + b <? 256) with true by lia. eexists. split; [reflexivity|]. lia.
Qed.
Lemma bit_count_mono_d {E} lm B s t n m : log2_64_ok lm -> log2_64_standard lm -> B <= 2 ^ 60 -> span_ok_d B s -> span_ok_d B t -> span_in_d s t ->
  range_to_vertex_bit_count_d (E:=E) lm true s split_edge_d = Ok n ->
  range_to_vertex_bit_count_d (E:=E) lm true t split_edge_d = Ok m -> (n <= m)%nat.
Proof.
  intros LG LS HB [(X0 & X1 & X) (Y0 & Y1 & Y)] [(X0' & X1' & X') (Y0' & Y1' & Y')] [I1 I2 I3 I4] N M.
  destruct (extent_ok_d B _ _ HB X0 X1 X) as (A1 & A2 & A3). destruct (extent_ok_d B _ _ HB Y0 Y1 Y) as (B1 & B2 & B3).
  destruct (extent_ok_d B _ _ HB X0' X1' X') as (A1' & A2' & A3'). destruct (extent_ok_d B _ _ HB Y0' Y1' Y') as (B1' & B2' & B3').
  assert (LX : R64 (dsub (dvx (snd s)) (dvx (fst s))) <= R64 (dsub (dvx (snd t)) (dvx (fst t)))) by (rewrite A2, A2'; apply rnd64_le; lra).
  assert (LY : R64 (dsub (dvy (snd s)) (dvy (fst s))) <= R64 (dsub (dvy (snd t)) (dvy (fst t)))) by (rewrite B2, B2'; apply rnd64_le; lra).
  pose proof (axis_bits_mono_d lm _ _ LG LS A1 A1' ltac:(lra) ltac:(lra)) as C1.
  pose proof (axis_bits_mono_d lm _ _ LG LS B1 B1' ltac:(lra) ltac:(lra)) as C2.
  pose proof (axis_bits_le_d lm _ LG LS A1 A3) as D1. pose proof (axis_bits_le_d lm _ LG LS B1 B3) as D2.
  pose proof (axis_bits_le_d lm _ LG LS A1' A3') as D1'. pose proof (axis_bits_le_d lm _ LG LS B1' B3') as D2'.
  unfold range_to_vertex_bit_count_d in N, M. cbv zeta in N, M.
  set (a := axis_bits_d lm split_edge_d (dsub (dvx (snd s)) (dvx (fst s)))) in *. set (b := axis_bits_d lm split_edge_d (dsub (dvy (snd s)) (dvy (fst s)))) in *.
  set (a' := axis_bits_d lm split_edge_d (dsub (dvx (snd t)) (dvx (fst t)))) in *. set (b' := axis_bits_d lm split_edge_d (dsub (dvy (snd t)) (dvy (fst t)))) in *.
  unfold add8 in N, M. replace (a + b <? 256) with true in N by lia. replace (a' + b' <? 256) with true in M by lia. cbn [bind] in N, M.
  replace (a + b + b <? 256) with true in N by lia. replace (a' + b' + b' <? 256) with true in M by lia.
  apply Ok_inj in N, M. lia.
Qed.

(** ** The splitter *)
Lemma scan_ok_d {E} lm B total rest : log2_64_ok lm -> log2_64_standard lm -> B <= 2 ^ 60 -> Forall (bounded_d B) rest -> (total <= 222)%nat -> forall i sp pv b,
  span_ok_d B sp -> range_to_vertex_bit_count_d (E:=E) lm true (fold_left expand_vertex_span_d rest sp) split_edge_d = Ok total ->
  (pv <= total)%nat -> (N.of_nat i + len rest < 2 ^ 50)%N ->
  exists b', vertex_scan_d (E:=E) lm true split_edge_d total rest i sp pv b = Ok b'.
Proof.
  intros LG LS HB F HT. induction F as [|v rest V F IH]; intros i sp pv b S T P L; cbn [vertex_scan_d]; [eauto|].
  cbn [fold_left] in T. unfold len in L. cbn [length] in L.
  destruct (inside_span_d sp v) eqn:I; cbn [negb]; cbv zeta.
  - rewrite (inside_expand_d _ _ I) in T. unfold sub8. replace (pv <=? total) with true by lia. cbn [bind].
    unfold mul64. change two64 with 18446744073709551616%N.
    assert (G : (N.of_nat i * N.of_nat (total - pv) <= 2 ^ 50 * 222)%N) by (apply N.mul_le_mono; lia).
    change (2 ^ 50 * 222)%N with 249949779319062528%N in G. change (2 ^ 50)%N with 1125899906842624%N in L.
    replace (N.of_nat i * N.of_nat (total - pv) <? 18446744073709551616)%N with true by lia. cbn [bind].
    set (g := (N.of_nat i * N.of_nat (total - pv))%N) in *.
    assert (J : to_isize g = Z.of_N g).
    { unfold to_isize. change (2 ^ 63)%N with 9223372036854775808%N. replace (g <? 9223372036854775808)%N with true by lia. reflexivity. }
    rewrite J. unfold sub_isize. set (loss := to_isize vertex_split_loss). assert (EL : (0 <= loss <= 1000)%Z) by (vm_compute; split; discriminate).
    unfold isize_min. change (2 ^ 63)%Z with 9223372036854775808%Z.
    replace ((- (9223372036854775808) <=? Z.of_N g - loss) && (Z.of_N g - loss <? 9223372036854775808))%Z with true by lia. cbn [bind].
    apply IH; auto. unfold len. change (2 ^ 50)%N with 1125899906842624%N. lia.
  - destruct (expand_ok_d B sp v S V) as [S1 I1]. destruct (bit_count_ok_d (E:=E) lm B _ LG LS HB S1) as (n & N1 & _). rewrite N1. cbn [bind].
    destruct (fold_ok_d B rest F _ S1) as [S2 I2].
    apply IH; auto; [exact (bit_count_mono_d lm B _ _ _ _ LG LS HB S1 S2 I2 N1 T)|]. unfold len. change (2 ^ 50)%N with 1125899906842624%N in *. lia.
Qed.
Lemma find_split_checked_d {E} lm B vs : log2_64_ok lm -> log2_64_standard lm -> 0 <= B <= 2 ^ 60 -> Forall (bounded_d B) vs -> (len vs < 2 ^ 50)%N ->
  exists o, find_best_vertex_split_d (E:=E) lm true vs split_edge_d = Ok o.
Proof.
  intros LG LS HB F L. unfold find_best_vertex_split_d. cbv zeta.
  pose proof (zero_span_ok_d B ltac:(lra)) as Z. destruct (fold_ok_d B vs F _ Z) as [S1 I1].
  destruct (bit_count_ok_d (E:=E) lm B _ LG LS ltac:(lra) S1) as (t & R & HT). rewrite R. cbn [bind].
  destruct (scan_ok_d (E:=E) lm B t vs LG LS ltac:(lra) F HT 0 zero_span_d 0 (isize_min, 0%nat) Z R) as [b V]; [lia|lia|]. rewrite V. cbn [bind].
  destruct (0 <? fst b)%Z eqn:P; [|eauto]. apply Z.ltb_lt in P.
  assert (NL : not_last (0 + length vs) b).
  { eapply scan_not_last_d; eauto. intros H. cbn [fst] in H. vm_compute in H. discriminate H. }
  specialize (NL P). cbn [plus] in NL. unfold sub64. replace (1 <=? N.of_nat (length vs))%N with true by lia. cbn [bind].
  replace (N.of_nat (snd b) <? N.of_nat (length vs) - 1)%N with true by lia. eauto.
Qed.
Lemma opt_vertices_checked_fuel_d lm B fuel : log2_64_ok lm -> log2_64_standard lm -> 0 <= B <= 2 ^ 60 -> forall vs, (length vs < fuel)%nat ->
  Forall (bounded_d B) vs -> (len vs < 2 ^ 50)%N -> exists segs, opt_vertices_fuel_d lm true fuel vs = Ok segs.
Proof.
  intros LG LS HB. induction fuel as [|fuel IH]; intros vs L F HL; [lia|]. cbn [opt_vertices_fuel_d].
  destruct (find_split_checked_d (E:=no_fuel) lm B vs LG LS HB F HL) as [[p|] FS]; rewrite FS; cbn [bind]; [|eauto].
  destruct (find_split_ok_d (E:=no_fuel) lm true vs split_edge_d) as [_ P]. specialize (P _ FS). unfold split_at.
  replace (p <=? length vs) with true by lia. cbn [bind].
  destruct (IH (firstn p vs)) as [a A]; [rewrite firstn_length; lia|rewrite <- (firstn_skipn p vs) in F; apply Forall_app in F; apply F|unfold len in *; rewrite firstn_length; lia|].
  destruct (IH (skipn p vs)) as [c C]; [rewrite skipn_length; lia|rewrite <- (firstn_skipn p vs) in F; apply Forall_app in F; apply F|unfold len in *; rewrite skipn_length; lia|].
  rewrite A. cbn [bind]. rewrite C. cbn [bind]. eauto.
Qed.
Lemma opt_vertices_checked_d lm B vs : log2_64_ok lm -> log2_64_standard lm -> 0 <= B <= 2 ^ 60 ->
  Forall (bounded_d B) vs -> (len vs < 2 ^ 50)%N -> exists segs, opt_vertices_d lm true vs = Ok segs.
Proof. intros. eapply opt_vertices_checked_fuel_d; eauto. Qed.
