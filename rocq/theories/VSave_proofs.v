(** Vertex arrays whose splitting and encoding cannot overflow. *)
From Coq Require Import List NArith ZArith Arith Lia Bool Reals Lra ZifyN ZifyNat ZifyBool.
From Flocq Require Import Core IEEE754.BinarySingleNaN.
From Verif Require Import Base UnalignedRW ReadExt Floats Floats_proofs FloatReal_proofs Utilis Vertices OptTris OptVertices OptVertices_proofs
  FileSpec ValueSpec VertexSpec CheckedSpec Split_proofs Save_proofs Save2_proofs Codec_proofs Quant_proofs NormalReal_proofs Log2_proofs VertexReal_proofs.
Import ListNotations.
Open Scope res_scope.
Local Open Scope R_scope.

(** ** The ratio a width is computed from *)
Definition ratio (d : f32) : f32 := fdiv f1 (fdiv split_edge d).
Lemma split_edge_R : fin split_edge /\ 0.009 <= R32 split_edge <= 0.011.
Proof.
  destruct (flit_R 1 100) as [A B]; [lia|lia|]. fold split_edge in A, B. split; [exact B|]. rewrite A.
  pose proof (rnd32_err (1 / 100)) as Er. rewrite (Rabs_pos_eq (1 / 100)) in Er by lra.
  pose proof tiny32_bound as [_ T]. change (2 ^ 100)%Z with 1267650600228229401496703205376%Z in T.
  apply Rabs_le_iff in Er. unfold u32 in Er. simpl pow in *. lra.
Qed.
Lemma inv_inf (x : f32) : is_finite x = false -> is_nan x = false -> R32 (fdiv f1 x) = 0 /\ fin (fdiv f1 x).
Proof. destruct x as [s|s| |s m e H]; try discriminate. intros _ _. destruct s; split; reflexivity. Qed.

(** The division either overflows, and then the ratio is zero, or does not. *)
Lemma ratio_R (d : f32) : fin d -> 0 <= R32 d <= 2 ^ 62 ->
  fin (ratio d) /\
  ((R32 (ratio d) = 0 /\ (R32 d = 0 \/ Rlt_bool (Rabs (rnd32 (R32 split_edge / R32 d))) (bpow radix2 128) = false)) \/
   (0 < R32 d /\ Rlt_bool (Rabs (rnd32 (R32 split_edge / R32 d))) (bpow radix2 128) = true /\
    / 2 ^ 71 <= rnd32 (R32 split_edge / R32 d) /\
    R32 (ratio d) = rnd32 (1 / rnd32 (R32 split_edge / R32 d)) /\ 0 < R32 (ratio d) <= 2 ^ 72)).
Proof.
  intros F D. destruct split_edge_R as [F0 S0]. unfold ratio. pose proof u32_small as U.
  destruct (Req_dec (R32 d) 0) as [Z|Z].
  { assert (X : is_finite (fdiv split_edge d) = false /\ is_nan (fdiv split_edge d) = false).
    { destruct d as [s|s| |s m e H]; try discriminate.
      - destruct s; vm_compute; auto.
      - exfalso. unfold R32, B2R in Z. apply eq_0_F2R in Z. destruct s; discriminate Z. }
    destruct X as [X1 X2]. destruct (inv_inf _ X1 X2) as [A B]. split; [exact B|]. left. auto. }
  pose proof (Bdiv_correct 24 128 gt0_24 lt_24_128 mode_NE split_edge d Z) as C. cbn [round_mode] in C.
  change (round radix2 (SpecFloat.fexp 24 128) ZnearestE) with rnd32 in C. fold fdiv in C.
  change (B2R split_edge) with (R32 split_edge) in C. change (B2R d) with (R32 d) in C.
  destruct (Rlt_bool (Rabs (rnd32 (R32 split_edge / R32 d))) (bpow radix2 128)) eqn:O.
  - destruct C as (C1 & C2 & _). change (Bdiv mode_NE split_edge d) with (fdiv split_edge d) in *.
    change (B2R (fdiv split_edge d)) with (R32 (fdiv split_edge d)) in C1.
    assert (L : / 2 ^ 70 <= R32 split_edge / R32 d).
    { apply Rmult_le_reg_r with (R32 d); [lra|]. unfold Rdiv. rewrite Rmult_assoc, Rinv_l, Rmult_1_r by lra.
      assert (0 < / 2 ^ 70) by (apply Rinv_0_lt_compat, pow_lt; lra).
      apply Rle_trans with (/ 2 ^ 70 * 2 ^ 62); [apply Rmult_le_compat_l; lra|].
      replace (2 ^ 70) with (2 ^ 62 * 2 ^ 8) by (rewrite <- pow_add; reflexivity). rewrite Rinv_mult.
      assert (0 < 2 ^ 62) by (apply pow_lt; lra).
      replace (/ 2 ^ 62 * / 2 ^ 8 * 2 ^ 62) with (/ 2 ^ 8) by (field; lra). simpl pow. lra. }
    assert (p70 : 0 < / 2 ^ 70) by (apply Rinv_0_lt_compat, pow_lt; lra).
    assert (p100 : / 2 ^ 100 <= / 2 ^ 70) by (apply Rinv_le_contravar; [apply pow_lt; lra|apply pow2_le; lia]).
    pose proof (rnd32_rel_pos (R32 split_edge / R32 d) ltac:(lra)) as RR.
    assert (L2 : / 2 ^ 71 <= rnd32 (R32 split_edge / R32 d)).
    { replace (2 ^ 71) with (2 ^ 70 * 2) by (simpl; lra). rewrite Rinv_mult.
      assert (/ 2 ^ 70 * / 2 <= (1 - u32) * (R32 split_edge / R32 d)) by (rewrite (Rmult_comm (/ 2 ^ 70)); apply mul_le; lra). lra. }
    assert (p71 : 0 < / 2 ^ 71) by (apply Rinv_0_lt_compat, pow_lt; lra).
    set (e := rnd32 (R32 split_edge / R32 d)) in *.
    assert (I : 0 < 1 / e <= 2 ^ 71).
    { unfold Rdiv. rewrite Rmult_1_l. split; [apply Rinv_0_lt_compat; lra|]. rewrite <- (Rinv_inv (2 ^ 71)). apply Rinv_le_contravar; lra. }
    destruct f1_R as [O1 O2].
    destruct (fdiv_R f1 (fdiv split_edge d) O2) as [A B]; [rewrite C1; lra|rewrite O1, C1; apply big_ok; split; [lra|]|].
    { eapply Rle_trans; [apply I|]. apply pow2_le. lia. }
    split; [exact B|]. right. rewrite O1, C1 in A. rewrite A.
    assert (LB : bpow radix2 (-128) <= 1 / e).
    { unfold Rdiv. rewrite Rmult_1_l. change (-128)%Z with (Z.opp 128). rewrite bpow_opp. apply Rinv_le_contravar; [lra|].
      destruct (Rlt_bool_spec (Rabs e) (bpow radix2 128)) as [G|G]; [|discriminate O]. rewrite Rabs_pos_eq in G by lra. lra. }
    assert (L3 : bpow radix2 (-128) <= rnd32 (1 / e)).
    { rewrite <- (round_generic radix2 fexp32 ZnearestE (bpow radix2 (-128))); [now apply rnd32_le|].
      apply generic_format_bpow. vm_compute. discriminate. }
    pose proof (bpow_gt_0 radix2 (-128)).
    assert (p71e : bpow radix2 71 = 2 ^ 71) by (rewrite pow_IZR; reflexivity).
    assert (U2 : Rabs (rnd32 (1 / e)) <= bpow radix2 71) by (apply rnd32_abs_le_bpow; [lia|rewrite p71e, Rabs_pos_eq; lra]).
    rewrite p71e, Rabs_pos_eq in U2 by lra. assert (2 ^ 72 = 2 * 2 ^ 71) by (simpl; lra). repeat split; auto; lra.
  - assert (X : is_finite (fdiv split_edge d) = false /\ is_nan (fdiv split_edge d) = false).
    { change (Bdiv mode_NE split_edge d) with (fdiv split_edge d) in C. destruct (fdiv split_edge d); cbn in C; try discriminate C; auto. }
    destruct X as [X1 X2]. destruct (inv_inf _ X1 X2) as [A B]. split; [exact B|]. left. auto.
Qed.
Lemma ratio_nonneg d : fin d -> 0 <= R32 d <= 2 ^ 62 -> 0 <= R32 (ratio d) <= 2 ^ 72.
Proof.
  intros F D. destruct (ratio_R d F D) as [_ [[-> _]|(_ & _ & _ & _ & H)]]; [|lra]. split; [lra|]. apply pow_le. lra.
Qed.
Lemma ratio_mono c d : fin c -> fin d -> 0 <= R32 c <= R32 d -> R32 d <= 2 ^ 62 -> R32 (ratio c) <= R32 (ratio d).
Proof.
  intros Fc Fd L B. destruct split_edge_R as [_ S0].
  destruct (ratio_R c Fc ltac:(lra)) as [_ [[-> _]|(C1 & C2 & C3 & C4 & C5)]]; [apply ratio_nonneg; auto; lra|].
  assert (LE : R32 split_edge / R32 d <= R32 split_edge / R32 c).
  { apply Rmult_le_compat_l; [lra|]. apply Rinv_le_contravar; lra. }
  assert (P0 : 0 <= R32 split_edge / R32 d).
  { apply Rmult_le_pos; [lra|]. left. apply Rinv_0_lt_compat. lra. }
  pose proof (rnd32_le _ _ LE) as RL. pose proof (rnd32_le _ _ P0) as RP. rewrite rnd32_0 in RP.
  destruct (ratio_R d Fd ltac:(lra)) as [_ [[_ [Z|Z]]|(D1 & D2 & D3 & D4 & D5)]]; [lra| |].
  - exfalso. destruct (Rlt_bool_spec (Rabs (rnd32 (R32 split_edge / R32 c))) (bpow radix2 128)) as [G|G]; [|discriminate].
    destruct (Rlt_bool_spec (Rabs (rnd32 (R32 split_edge / R32 d))) (bpow radix2 128)) as [G'|G']; [discriminate|].
    rewrite Rabs_pos_eq in G by lra. rewrite Rabs_pos_eq in G' by lra. lra.
  - rewrite C4, D4. apply rnd32_le. unfold Rdiv at 1 3. rewrite !Rmult_1_l. apply Rinv_le_contravar; [|exact RL].
    eapply Rlt_le_trans; [|exact D3]. apply Rinv_0_lt_compat, pow_lt. lra.
Qed.

(** ** Bit counts *)
Lemma axis_bits_le lm d : log2_ok lm -> log2_standard lm -> fin d -> 0 <= R32 d <= 2 ^ 62 -> (axis_bits lm split_edge d <= 74)%nat.
Proof.
  intros LG [LZ _] F D. destruct (ratio_R d F D) as [FR X]. pose proof (ratio_nonneg d F D) as N.
  unfold axis_bits. fold (ratio d). destruct (Req_dec (R32 (ratio d)) 0) as [Z|Z].
  - rewrite (LZ (ratio d) FR Z). vm_compute. lia.
  - destruct (width_covers lm (ratio d) LG FR ltac:(lra)) as [_ W]. cbv zeta in W.
    set (w := u8_of_f32 _) in *. destruct (le_lt_dec w 74) as [G|G]; [exact G|]. exfalso.
    specialize (W ltac:(lia)). assert (IZR (2 ^ 75) <= IZR (2 ^ Z.of_nat w)) by (apply IZR_le, Z.pow_le_mono_r; lia).
    assert (E : IZR (2 ^ 75) = 8 * 2 ^ 72) by (rewrite pow_IZR, <- mult_IZR; reflexivity). rewrite E in *.
    assert (0 < 2 ^ 72) by (apply pow_lt; lra). lra.
Qed.
Lemma axis_bits_mono lm c d : log2_ok lm -> log2_standard lm -> fin c -> fin d -> 0 <= R32 c <= R32 d -> R32 d <= 2 ^ 62 ->
  (axis_bits lm split_edge c <= axis_bits lm split_edge d)%nat.
Proof.
  intros LG [LZ LM] Fc Fd L B. pose proof (ratio_mono c d Fc Fd L B) as M.
  destruct (ratio_R c Fc ltac:(lra)) as [Gc _]. destruct (ratio_R d Fd ltac:(lra)) as [Gd _].
  pose proof (ratio_nonneg c Fc ltac:(lra)) as Nc. unfold axis_bits. fold (ratio c) (ratio d).
  destruct (Req_dec (R32 (ratio c)) 0) as [Z|Z].
  - rewrite (LZ _ Gc Z). change (u8_of_f32 (fceil (B754_infinity true))) with 0%nat. lia.
  - assert (P : 0 < R32 (ratio c)) by lra. destruct (LG _ Gc P) as [Hc _]. destruct (LG _ Gd) as [Hd _]; [change val with R32; lra|].
    apply Nat2Z.inj_le. rewrite !u8_ceil by assumption.
    assert (Zceil (R32 (m_log2 lm (ratio c))) <= Zceil (R32 (m_log2 lm (ratio d))))%Z; [|lia].
    apply Zceil_le. apply LM; auto.
Qed.

(** ** Spans *)
Definition near (B : R) (x : f32) : Prop := fin x /\ Rabs (R32 x) <= B.
Record span_ok (B : R) (s : span) : Prop := {
  so_x : near B (vx (fst s)) /\ near B (vx (snd s)) /\ R32 (vx (fst s)) <= R32 (vx (snd s));
  so_y : near B (vy (fst s)) /\ near B (vy (snd s)) /\ R32 (vy (fst s)) <= R32 (vy (snd s)) }.
Record span_in (s t : span) : Prop := {
  si_x0 : R32 (vx (fst t)) <= R32 (vx (fst s)); si_x1 : R32 (vx (snd s)) <= R32 (vx (snd t));
  si_y0 : R32 (vy (fst t)) <= R32 (vy (fst s)); si_y1 : R32 (vy (snd s)) <= R32 (vy (snd t)) }.
Lemma span_in_refl s : span_in s s. Proof. constructor; lra. Qed.
Lemma span_in_trans a b c : span_in a b -> span_in b c -> span_in a c.
Proof. intros [] []. constructor; lra. Qed.
Lemma near_min B x y : near B x -> near B y -> near B (fmin x y) /\ R32 (fmin x y) = Rmin (R32 x) (R32 y).
Proof.
  intros [Fx Bx] [Fy By]. destruct (fmin_R x y Fx Fy) as [A C]. split; [split; [exact C|]|exact A].
  rewrite A. unfold Rmin. destruct (Rle_dec _ _); auto.
Qed.
Lemma near_max B x y : near B x -> near B y -> near B (fmax x y) /\ R32 (fmax x y) = Rmax (R32 x) (R32 y).
Proof.
  intros [Fx Bx] [Fy By]. destruct (fmax_R x y Fx Fy) as [A C]. split; [split; [exact C|]|exact A].
  rewrite A. unfold Rmax. destruct (Rle_dec _ _); auto.
Qed.
Lemma expand_ok B s v : span_ok B s -> bounded B v -> span_ok B (expand_vertex_span s v) /\ span_in s (expand_vertex_span s v).
Proof.
  intros [(X0 & X1 & X) (Y0 & Y1 & Y)] ((V1 & V2 & _) & V4 & V5 & _).
  assert (NX : near B (vx v)) by (split; assumption). assert (NY : near B (vy v)) by (split; assumption).
  destruct (near_min B _ _ X0 NX) as [A1 A2]. destruct (near_max B _ _ X1 NX) as [B1 B2].
  destruct (near_min B _ _ Y0 NY) as [C1 C2]. destruct (near_max B _ _ Y1 NY) as [D1 D2].
  unfold expand_vertex_span. set (fst s) as lo in *. set (snd s) as hi in *.
  split; constructor; cbn [fst snd vx vy]; unfold vx, vy in *; cbn [fst snd]; rewrite ?A2, ?B2, ?C2, ?D2;
    repeat split; try apply A1; try apply B1; try apply C1; try apply D1;
    try apply Rmin_l; try apply Rmax_l; (eapply Rle_trans; [apply Rmin_l|]; eapply Rle_trans; [eassumption|apply Rmax_l]).
Qed.
Lemma fold_ok B vs : Forall (bounded B) vs -> forall s, span_ok B s ->
  span_ok B (fold_left expand_vertex_span vs s) /\ span_in s (fold_left expand_vertex_span vs s).
Proof.
  induction 1 as [|v vs V _ IH]; intros s S; cbn [fold_left]; [split; [exact S|apply span_in_refl]|].
  destruct (expand_ok B s v S V) as [S1 I1]. destruct (IH _ S1) as [S2 I2]. split; [exact S2|]. eapply span_in_trans; eauto.
Qed.
Lemma zero_span_ok B : 0 <= B -> span_ok B zero_span.
Proof.
  intros HB. assert (near B f0) by (split; [reflexivity|]; change (R32 f0) with 0; rewrite Rabs_R0; exact HB).
  constructor; repeat split; auto; cbn; try apply H; lra.
Qed.
(** The extents of nested spans. *)
Lemma extent_ok B lo hi : B <= 2 ^ 60 -> near B lo -> near B hi -> R32 lo <= R32 hi ->
  fin (fsub hi lo) /\ R32 (fsub hi lo) = rnd32 (R32 hi - R32 lo) /\ 0 <= R32 (fsub hi lo) <= 2 ^ 62.
Proof.
  intros HB [Fl Bl] [Fh Bh] L. apply Rabs_le_iff in Bl, Bh.
  destruct (fsub_R hi lo Fh Fl) as [A C]; [apply (fits_B B); auto; apply Rabs_le_iff; lra|].
  split; [exact C|]. split; [exact A|]. rewrite A. split; [rewrite <- rnd32_0; apply rnd32_le; lra|].
  eapply Rle_trans; [apply Rle_abs|]. replace (2 ^ 62) with (bpow radix2 62) by (rewrite pow_IZR; reflexivity).
  apply rnd32_abs_le_bpow; [lia|]. rewrite Rabs_pos_eq by lra.
  replace (bpow radix2 62) with (4 * 2 ^ 60) by (rewrite pow_IZR, <- mult_IZR; reflexivity).
  assert (0 < 2 ^ 60) by (apply pow_lt; lra). lra.
Qed.
Lemma bit_count_ok {E} lm B s : log2_ok lm -> log2_standard lm -> B <= 2 ^ 60 -> span_ok B s ->
  exists n, range_to_vertex_bit_count (E:=E) lm true s split_edge = Ok n /\ (n <= 222)%nat.
Proof.
  intros LG LS HB [(X0 & X1 & X) (Y0 & Y1 & Y)].
  destruct (extent_ok B _ _ HB X0 X1 X) as (A1 & _ & A3). destruct (extent_ok B _ _ HB Y0 Y1 Y) as (B1 & _ & B3).
  pose proof (axis_bits_le lm _ LG LS A1 A3) as C1. pose proof (axis_bits_le lm _ LG LS B1 B3) as C2.
  unfold range_to_vertex_bit_count. cbv zeta. set (a := axis_bits lm _ _) in *. set (b := axis_bits lm split_edge (fsub (vy (snd s)) (vy (fst s)))) in *.
  unfold add8. replace (a + b <? 256) with true by lia. cbn [bind]. replace (a + b + b <? 256) with true by lia. eexists. split; [reflexivity|]. lia.
Qed.
Lemma bit_count_mono {E} lm B s t n m : log2_ok lm -> log2_standard lm -> B <= 2 ^ 60 -> span_ok B s -> span_ok B t -> span_in s t ->
  range_to_vertex_bit_count (E:=E) lm true s split_edge = Ok n ->
  range_to_vertex_bit_count (E:=E) lm true t split_edge = Ok m -> (n <= m)%nat.
Proof.
  intros LG LS HB [(X0 & X1 & X) (Y0 & Y1 & Y)] [(X0' & X1' & X') (Y0' & Y1' & Y')] [I1 I2 I3 I4] N M.
  destruct (extent_ok B _ _ HB X0 X1 X) as (A1 & A2 & A3). destruct (extent_ok B _ _ HB Y0 Y1 Y) as (B1 & B2 & B3).
  destruct (extent_ok B _ _ HB X0' X1' X') as (A1' & A2' & A3'). destruct (extent_ok B _ _ HB Y0' Y1' Y') as (B1' & B2' & B3').
  assert (LX : R32 (fsub (vx (snd s)) (vx (fst s))) <= R32 (fsub (vx (snd t)) (vx (fst t)))) by (rewrite A2, A2'; apply rnd32_le; lra).
  assert (LY : R32 (fsub (vy (snd s)) (vy (fst s))) <= R32 (fsub (vy (snd t)) (vy (fst t)))) by (rewrite B2, B2'; apply rnd32_le; lra).
  pose proof (axis_bits_mono lm _ _ LG LS A1 A1' ltac:(lra) ltac:(lra)) as C1.
  pose proof (axis_bits_mono lm _ _ LG LS B1 B1' ltac:(lra) ltac:(lra)) as C2.
  pose proof (axis_bits_le lm _ LG LS A1 A3) as D1. pose proof (axis_bits_le lm _ LG LS B1 B3) as D2.
  pose proof (axis_bits_le lm _ LG LS A1' A3') as D1'. pose proof (axis_bits_le lm _ LG LS B1' B3') as D2'.
  unfold range_to_vertex_bit_count in N, M. cbv zeta in N, M.
  set (a := axis_bits lm split_edge (fsub (vx (snd s)) (vx (fst s)))) in *. set (b := axis_bits lm split_edge (fsub (vy (snd s)) (vy (fst s)))) in *.
  set (a' := axis_bits lm split_edge (fsub (vx (snd t)) (vx (fst t)))) in *. set (b' := axis_bits lm split_edge (fsub (vy (snd t)) (vy (fst t)))) in *.
  unfold add8 in N, M. replace (a + b <? 256) with true in N by lia. replace (a' + b' <? 256) with true in M by lia. cbn [bind] in N, M.
  replace (a + b + b <? 256) with true in N by lia. replace (a' + b' + b' <? 256) with true in M by lia.
  apply Ok_inj in N, M. lia.
Qed.

(** ** The splitter *)
Lemma scan_ok {E} lm B total rest : log2_ok lm -> log2_standard lm -> B <= 2 ^ 60 -> Forall (bounded B) rest -> (total <= 222)%nat -> forall i sp pv b,
  span_ok B sp -> range_to_vertex_bit_count (E:=E) lm true (fold_left expand_vertex_span rest sp) split_edge = Ok total ->
  (pv <= total)%nat -> (N.of_nat i + len rest < 2 ^ 50)%N ->
  exists b', vertex_scan (E:=E) lm true split_edge total rest i sp pv b = Ok b'.
Proof.
  intros LG LS HB F HT. induction F as [|v rest V F IH]; intros i sp pv b S T P L; cbn [vertex_scan]; [eauto|].
  cbn [fold_left] in T. unfold len in L. cbn [length] in L.
  destruct (inside_span sp v) eqn:I; cbn [negb]; cbv zeta.
  - rewrite (inside_expand _ _ I) in T. unfold sub8. replace (pv <=? total) with true by lia. cbn [bind].
    unfold mul64. change two64 with 18446744073709551616%N.
    assert (G : (N.of_nat i * N.of_nat (total - pv) <= 2 ^ 50 * 222)%N) by (apply N.mul_le_mono; lia).
    change (2 ^ 50 * 222)%N with 249949779319062528%N in G. change (2 ^ 50)%N with 1125899906842624%N in L.
    replace (N.of_nat i * N.of_nat (total - pv) <? 18446744073709551616)%N with true by lia. cbn [bind].
    set (g := (N.of_nat i * N.of_nat (total - pv))%N) in *.
    assert (J : to_isize g = Z.of_N g).
    { unfold to_isize. change (2 ^ 63)%N with 9223372036854775808%N. replace (g <? 9223372036854775808)%N with true by lia. reflexivity. }
    rewrite J. unfold sub_isize. set (loss := to_isize vertex_split_loss). assert (EL : (0 <= loss <= 1000)%Z) by (vm_compute; split; discriminate).
    unfold isize_min. change (2 ^ 63)%Z with 9223372036854775808%Z.
    replace ((- (9223372036854775808) <=? Z.of_N g - loss) && (Z.of_N g - loss <? 9223372036854775808))%Z with true by lia. cbn [bind].
    apply IH; auto. unfold len. change (2 ^ 50)%N with 1125899906842624%N. lia.
  - destruct (expand_ok B sp v S V) as [S1 I1]. destruct (bit_count_ok (E:=E) lm B _ LG LS HB S1) as (n & N1 & _). rewrite N1. cbn [bind].
    destruct (fold_ok B rest F _ S1) as [S2 I2].
    apply IH; auto; [exact (bit_count_mono lm B _ _ _ _ LG LS HB S1 S2 I2 N1 T)|]. unfold len. change (2 ^ 50)%N with 1125899906842624%N in *. lia.
Qed.
Lemma find_split_checked {E} lm B vs : log2_ok lm -> log2_standard lm -> 0 <= B <= 2 ^ 60 -> Forall (bounded B) vs -> (len vs < 2 ^ 50)%N ->
  exists o, find_best_vertex_split (E:=E) lm true vs split_edge = Ok o.
Proof.
  intros LG LS HB F L. unfold find_best_vertex_split. cbv zeta.
  pose proof (zero_span_ok B ltac:(lra)) as Z. destruct (fold_ok B vs F _ Z) as [S1 I1].
  destruct (bit_count_ok (E:=E) lm B _ LG LS ltac:(lra) S1) as (t & R & HT). rewrite R. cbn [bind].
  destruct (scan_ok (E:=E) lm B t vs LG LS ltac:(lra) F HT 0 zero_span 0 (isize_min, 0%nat) Z R) as [b V]; [lia|lia|]. rewrite V. cbn [bind].
  destruct (0 <? fst b)%Z eqn:P; [|eauto]. apply Z.ltb_lt in P.
  assert (NL : not_last (0 + length vs) b).
  { eapply scan_not_last; eauto. intros H. cbn [fst] in H. vm_compute in H. discriminate H. }
  specialize (NL P). cbn [plus] in NL. unfold sub64. replace (1 <=? N.of_nat (length vs))%N with true by lia. cbn [bind].
  replace (N.of_nat (snd b) <? N.of_nat (length vs) - 1)%N with true by lia. eauto.
Qed.
Lemma opt_vertices_checked_fuel lm B fuel : log2_ok lm -> log2_standard lm -> 0 <= B <= 2 ^ 60 -> forall vs, (length vs < fuel)%nat ->
  Forall (bounded B) vs -> (len vs < 2 ^ 50)%N -> exists segs, opt_vertices_fuel lm true fuel vs = Ok segs.
Proof.
  intros LG LS HB. induction fuel as [|fuel IH]; intros vs L F HL; [lia|]. cbn [opt_vertices_fuel].
  destruct (find_split_checked (E:=no_fuel) lm B vs LG LS HB F HL) as [[p|] FS]; rewrite FS; cbn [bind]; [|eauto].
  destruct (find_split_ok (E:=no_fuel) lm true vs split_edge) as [_ P]. specialize (P _ FS). unfold split_at.
  replace (p <=? length vs) with true by lia. cbn [bind].
  destruct (IH (firstn p vs)) as [a A]; [rewrite firstn_length; lia|rewrite <- (firstn_skipn p vs) in F; apply Forall_app in F; apply F|unfold len in *; rewrite firstn_length; lia|].
  destruct (IH (skipn p vs)) as [c C]; [rewrite skipn_length; lia|rewrite <- (firstn_skipn p vs) in F; apply Forall_app in F; apply F|unfold len in *; rewrite skipn_length; lia|].
  rewrite A. cbn [bind]. rewrite C. cbn [bind]. eauto.
Qed.
Lemma opt_vertices_checked lm B vs : log2_ok lm -> log2_standard lm -> 0 <= B <= 2 ^ 60 ->
  Forall (bounded B) vs -> (len vs < 2 ^ 50)%N -> exists segs, opt_vertices lm true vs = Ok segs.
Proof. intros. eapply opt_vertices_checked_fuel; eauto. Qed.
