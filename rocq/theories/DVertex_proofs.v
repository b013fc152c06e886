(** How far the vertices stored by a program built with [double_precision] are from the originals. *)
From Coq Require Import List NArith ZArith Arith Lia Bool Reals Lra Psatz Wf_nat.
From Flocq Require Import Core Relative Plus_error IEEE754.BinarySingleNaN.
From Verif Require Import Base UnalignedRW ReadExt Floats Floats_proofs FloatReal_proofs ValueSpec VertexSpec Log2_proofs Trig_proofs
  Utilis Mesh_proofs Save_proofs Codec_proofs Quant_proofs NormalReal_proofs VertexReal_proofs CustomReal_proofs P_Uv
  Double DoubleSpec DoubleSave DoubleValueSpec Double2_proofs DMerge_proofs DCodec_proofs DSave_proofs DQuant_proofs.
Import ListNotations.
Local Open Scope R_scope.

Lemma min_extent_R_d : fin min_extent_d /\ 0.00000099999 <= R64 min_extent_d <= 0.0000010001.
Proof.
  destruct (dlit_R 1 1000000) as [A B]; [lia|lia|]. fold min_extent_d in A, B. split; [exact B|]. rewrite A.
  pose proof (rnd64_err (1 / 1000000)) as E. rewrite (Rabs_pos_eq (1 / 1000000)) in E by lra.
  pose proof tiny64_bound as [_ T]. change (2 ^ 100)%Z with 1267650600228229401496703205376%Z in T.
  apply Rabs_le_iff in E. unfold u64 in E. lra.
Qed.
Lemma fits_B_d (B x : R) : B <= 2 ^ 60 -> Rabs x <= 4 * B -> Rabs x <= big64.
Proof.
  intros HB H. eapply Rle_trans; [exact H|]. pose proof big64_ge as G.
  change (2 ^ 100)%Z with 1267650600228229401496703205376%Z in G. simpl pow in HB. lra.
Qed.
Lemma axis_R_d p (mul mn mx v : f64) (B : R) : (1 <= p <= 30)%nat -> R64 mul = IZR (steps p) -> fin mul ->
  fin mn -> fin mx -> fin v -> R64 mn <= R64 v <= R64 mx -> Rabs (R64 mn) <= B -> Rabs (R64 mx) <= B -> B <= 2 ^ 60 ->
  let y := dequantize_d (low p (quantize_d v mn (dmax (dsub mx mn) min_extent_d) mul)) (f64_of_N (mask_u64 p)) (dsub mx mn) mn in
  fin y /\ R64 mn <= R64 y <= R64 mx + / 2 ^ 49 * B /\
  Rabs (R64 y - R64 v) <= Rmax ((R64 mx - R64 mn) / IZR (steps p)) 0.000001001 + / 2 ^ 48 * B /\
  (R64 mn = R64 mx -> R64 y = R64 v).
Proof.
  intros HP M1 M2 Fn Fx Fv Hv Bn Bx HB y. pose proof u64_small as U. pose proof tiny_u_d as T.
  destruct min_extent_R_d as [E1 E2]. pose proof (steps_bounds_d p HP) as SB.
  assert (S1 : 1 <= IZR (steps p)) by (apply IZR_le; lia).
  set (M := IZR (steps p)) in *. set (a := R64 mn) in *. set (b := R64 mx) in *. set (x := R64 v) in *.
  apply Rabs_le_iff in Bn, Bx. assert (B0 : 0 <= B) by lra.
  assert (UB : 0 <= u64 * B) by (apply Rmult_le_pos; lra).
  assert (UB1 : u64 * B <= 0.0001 * B) by (apply Rmult_le_compat_r; lra).
  destruct (dsub_R mx mn Fx Fn) as [D1 D2]; [apply (fits_B_d B); auto; apply Rabs_le_iff; fold a b; lra|].
  fold a b in D1. set (D := R64 (dsub mx mn)) in *.
  destruct (dsub_R v mn Fv Fn) as [V1 V2]; [apply (fits_B_d B); auto; apply Rabs_le_iff; fold a x; lra|].
  fold a x in V1. set (d := R64 (dsub v mn)) in *.
  assert (d0 : 0 <= d) by (rewrite V1, <- rnd64_0; apply rnd64_le; lra).
  assert (dD : d <= D) by (rewrite V1, D1; apply rnd64_le; lra).
  pose proof (rnd64_diff mx mn) as DE. fold a b in DE. rewrite <- D1, (Rabs_pos_eq (b - a)) in DE by lra.
  pose proof (rnd64_diff v mn) as VE. fold a x in VE. rewrite <- V1, (Rabs_pos_eq (x - a)) in VE by lra.
  assert (ba : 0 <= u64 * (b - a) <= 2 * (u64 * B)).
  { split; [apply Rmult_le_pos; lra|]. replace (2 * (u64 * B)) with (u64 * (2 * B)) by ring. apply Rmult_le_compat_l; lra. }
  assert (xa : 0 <= u64 * (x - a) <= u64 * (b - a)).
  { split; [apply Rmult_le_pos; lra|]. apply Rmult_le_compat_l; lra. }
  apply Rabs_le_iff in DE, VE.
  assert (DB : 0 <= D <= 2 * B + 2 * (u64 * B)) by lra.
  destruct (dmax_R (dsub mx mn) min_extent_d D2 E1) as [X1 X2]. fold D in X1.
  set (s := dmax (dsub mx mn) min_extent_d) in *. set (sr := R64 s) in *.
  assert (s1 : D <= sr) by (rewrite X1; apply Rmax_l).
  assert (s2 : R64 min_extent_d <= sr) by (rewrite X1; apply Rmax_r).
  assert (sp : 0 < sr) by lra.
  assert (Q : 0 <= d / sr <= 1) by (apply div_01; lra).
  destruct (ddiv_R (dsub v mn) s V2) as [T1 T2]; [fold sr; lra|fold d sr; now apply fits1_d|].
  fold d sr in T1. set (t := R64 (ddiv (dsub v mn) s)) in *.
  assert (t01 : 0 <= t <= 1) by (rewrite T1; apply rnd64_between; [apply rnd64_0|apply rnd64_1|exact Q]).
  destruct (code_R_d p mul (ddiv (dsub v mn) s) HP M1 M2 T2 t01) as (C1 & C2 & C3). fold t in C1.
  unfold y, quantize_d, dequantize_d. clear y. rewrite C2.
  set (q := u64_of_f64 (dmul (ddiv (dsub v mn) s) mul)) in *.
  destruct (encode_R_d (steps p) t SB t01) as (_ & _ & C4). cbv zeta in C4. rewrite <- C1 in C4.
  destruct (value_d p q HP C3) as (_ & W2 & W3 & W4). cbv zeta in *. fold M in C4, W4.
  set (w := ddiv (f64_of_N q) (f64_of_N (mask_u64 p))) in *. set (wr := R64 w) in *.
  assert (WD : 0 <= wr * D <= D).
  { split; [apply Rmult_le_pos; lra|]. pose proof (Rmult_le_compat_r D wr 1 ltac:(lra) ltac:(lra)). lra. }
  destruct (dmul_R w (dsub mx mn) W2 D2) as [G1 G2].
  { apply (fits_B_d B); auto. fold wr D. apply Rabs_le_iff. lra. }
  fold wr D in G1. set (g := R64 (dmul w (dsub mx mn))) in *.
  assert (g0 : 0 <= g <= D).
  { rewrite G1. apply rnd64_between; [apply rnd64_0|apply rnd64_R64|exact WD]. }
  destruct (dadd_R (dmul w (dsub mx mn)) mn G2 Fn) as [Y1 Y2].
  { apply (fits_B_d B); auto. fold g a. apply Rabs_le_iff. lra. }
  fold g a in Y1. set (y := R64 (dadd (dmul w (dsub mx mn)) mn)) in *.
  pose proof (rnd64_sum (dmul w (dsub mx mn)) mn) as YE. fold g a in YE. rewrite <- Y1 in YE.
  assert (GA : Rabs (g + a) <= B + 4 * (u64 * B)) by (apply Rabs_le_iff; lra).
  assert (GU : u64 * Rabs (g + a) <= 1.1 * (u64 * B)).
  { eapply Rle_trans; [apply Rmult_le_compat_l; [lra|exact GA]|].
    replace (u64 * (B + 4 * (u64 * B))) with (u64 * B + 4 * u64 * (u64 * B)) by ring.
    assert (4 * u64 * (u64 * B) <= 0.1 * (u64 * B)) by (apply Rmult_le_compat_r; lra). lra. }
  apply Rabs_le_iff in YE.
  assert (E20 : / 2 ^ 49 = 16 * u64) by (unfold u64; simpl pow; lra).
  assert (E19 : / 2 ^ 48 = 32 * u64) by (unfold u64; simpl pow; lra). rewrite E20, E19, !Rmult_assoc.
  split; [exact Y2|]. split; [|split].
  - split; [|lra]. rewrite Y1. apply Rle_trans with (rnd64 a); [right; symmetry; apply rnd64_R64|]. apply rnd64_le. lra.
  - assert (K : Rabs (g + a - x) <= Rmax ((b - a) / M) 0.000001001 + 25 * (u64 * B)).
    { destruct (Rle_lt_dec (R64 min_extent_d) D) as [L|L].
      - (* the extent is large enough *)
        assert (sD : sr = D) by (rewrite X1; apply Rmax_left; exact L).
        pose proof (rnd64_err1 (d / sr)) as TE. rewrite <- T1, (Rabs_pos_eq (d / sr)) in TE by lra. specialize (TE (proj2 Q)).
        assert (WT : Rabs (wr - d / D) <= / M + 5.1 * u64).
        { rewrite sD in TE. apply Rabs_le_iff in TE, C4, W4. apply Rabs_le_iff. lra. }
        assert (WG : Rabs (wr * D - d) <= D / M + 5.1 * (u64 * D)).
        { replace (wr * D - d) with ((wr - d / D) * D) by (field; lra). rewrite Rabs_mult, (Rabs_pos_eq D) by lra.
          replace (D / M + 5.1 * (u64 * D)) with ((/ M + 5.1 * u64) * D) by (field; lra). apply Rmult_le_compat_r; lra. }
        pose proof (rnd64_err (wr * D)) as GE. rewrite <- G1, (Rabs_pos_eq (wr * D)) in GE by lra.
        assert (uD : u64 * D <= 2.1 * (u64 * B)).
        { assert (u64 * D <= u64 * (2.1 * B)) by (apply Rmult_le_compat_l; [lra|]; assert (2 * (u64 * B) <= 0.1 * B) by (rewrite <- Rmult_assoc; apply Rmult_le_compat_r; lra); lra). lra. }
        assert (uwD : u64 * (wr * D) <= u64 * D) by (apply Rmult_le_compat_l; lra).
        assert (BM : 0.0000004 <= B).
        { assert (2 * (u64 * B) <= 0.1 * B) by (rewrite <- Rmult_assoc; apply Rmult_le_compat_r; lra). lra. }
        assert (tB : tiny64 <= u64 * B).
        { eapply Rle_trans; [exact (proj2 tiny64_bound)|]. apply Rle_trans with (u64 * 0.0000004); [|apply Rmult_le_compat_l; lra].
          unfold u64. cbn. lra. }
        assert (DM : D / M <= (b - a) / M + 2 * (u64 * B)).
        { replace ((b - a) / M + 2 * (u64 * B)) with ((b - a + 2 * (u64 * B) * M) * / M) by (field; lra).
          apply Rmult_le_compat_r; [left; apply Rinv_0_lt_compat; lra|].
          assert (2 * (u64 * B) * 1 <= 2 * (u64 * B) * M) by (apply Rmult_le_compat_l; lra). lra. }
        pose proof (Rmax_l ((b - a) / M) 0.000001001).
        apply Rabs_le_iff in WG, GE. apply Rabs_le_iff. lra.
      - pose proof (Rmax_r ((b - a) / M) 0.000001001).
        assert (u64 * (b - a) <= 0.0001 * (b - a)) by (apply Rmult_le_compat_r; lra).
        assert (b - a <= 0.000001001) by lra. apply Rabs_le_iff. lra. }
    apply Rabs_le_iff in K. apply Rabs_le_iff. lra.
  - intros AB. assert (D = 0) by (rewrite D1, AB; unfold b; rewrite Rminus_diag_eq by reflexivity; apply rnd64_0).
    assert (Hg : g = 0) by lra. rewrite Y1, Hg, Rplus_0_l. unfold a. rewrite rnd64_R64. fold a. lra.
Qed.
Lemma xs_app_d a v : xs_d (a ++ [v]) = xs_d a ++ [R64 (dvx v)]. Proof. unfold xs_d. now rewrite map_app. Qed.
Lemma ys_app_d a v : ys_d (a ++ [v]) = ys_d a ++ [R64 (dvy v)]. Proof. unfold ys_d. now rewrite map_app. Qed.
Lemma zs_app_d a v : zs_d (a ++ [v]) = zs_d a ++ [R64 (dvz v)]. Proof. unfold zs_d. now rewrite map_app. Qed.
Definition box_of_d (vs : list dvec3) (b : dbox) : Prop :=
  stored_box_d vs (dmin_x b) (dmax_x b) (dmin_y b) (dmax_y b) (dmin_z b) (dmax_z b).
Lemma box_step_d vs b v : finite3_d v -> box_of_d vs b -> box_of_d (vs ++ [v]) (dbox_step b v).
Proof.
  intros (Fx & Fy & Fz) [(F1 & F2 & F3 & F4 & F5 & F6) B1 B2 B3 B4 B5 B6].
  change (finite64 (dvx v)) in Fx. change (finite64 (dvy v)) in Fy. change (finite64 (dvz v)) in Fz.
  change val64 with R64 in *. unfold dbox_step, box_of_d. cbv zeta. cbn [dmin_x dmax_x dmin_y dmax_y dmin_z dmax_z].
  destruct (dmin_R (dmin_x b) (dvx v) F1 Fx) as [A1 G1].
  destruct (dmax_R (dmax_y b) (dvy v) F4 Fy) as [A2 G2].
  destruct (dmin_R (dmin_z b) (dvz v) F5 Fz) as [A3 G3].
  destruct (dmax_R _ (dvx v) G2 Fx) as [A4 G4].
  destruct (dmin_R _ (dvy v) G3 Fy) as [A5 G5].
  destruct (dmax_R (dmax_z b) (dvz v) F6 Fz) as [A6 G6].
  assert (M2 : greatest (xs_d vs ++ ys_d (vs ++ [v])) (R64 (dmax (dmax_y b) (dvy v)))).
  { rewrite A2. eapply greatest_add; [exact B4|]. rewrite ys_app_d. same_elements. }
  assert (M3 : least (ys_d vs ++ zs_d (vs ++ [v])) (R64 (dmin (dmin_z b) (dvz v)))).
  { rewrite A3. eapply least_add; [exact B5|]. rewrite zs_app_d. same_elements. }
  constructor; change val64 with R64.
  - repeat split; assumption.
  - rewrite A1. eapply least_add; [exact B1|]. rewrite xs_app_d. same_elements.
  - rewrite removelast_last. exact M2.
  - rewrite removelast_last. exact M3.
  - rewrite A4. eapply greatest_add; [exact M2|]. rewrite xs_app_d. same_elements.
  - rewrite A5. eapply least_add; [exact M3|]. rewrite ys_app_d. same_elements.
  - rewrite A6. eapply greatest_add; [exact B6|]. rewrite zs_app_d. same_elements.
Qed.
Lemma box_first_d v : finite3_d v -> box_of_d [v] (dbox_step (dbox_init v) v).
Proof.
  intros (Fx & Fy & Fz). change (finite64 (dvx v)) in Fx. change (finite64 (dvy v)) in Fy. change (finite64 (dvz v)) in Fz.
  unfold dbox_step, box_of_d, dbox_init. cbv zeta. cbn [dmin_x dmax_x dmin_y dmax_y dmin_z dmax_z].
  destruct (dmin_R (dvx v) (dvx v) Fx Fx) as [A1 G1].
  destruct (dmax_R (dvy v) (dvy v) Fy Fy) as [A2 G2].
  destruct (dmin_R (dvz v) (dvz v) Fz Fz) as [A3 G3].
  destruct (dmax_R _ (dvx v) G2 Fx) as [A4 G4].
  destruct (dmin_R _ (dvy v) G3 Fy) as [A5 G5].
  destruct (dmax_R (dvz v) (dvz v) Fz Fz) as [A6 G6].
  rewrite Rmin_left in A1, A3 by lra. rewrite Rmax_left in A2, A6 by lra. rewrite A2 in A4. rewrite A3 in A5.
  constructor; change val64 with R64; cbn [xs_d ys_d zs_d map removelast app]; change val64 with R64;
    fold (dvx v) (dvy v) (dvz v).
  - repeat split; assumption.
  - rewrite A1. apply least_one.
  - rewrite A2. apply greatest_one.
  - rewrite A3. apply least_one.
  - rewrite A4. eapply greatest_add; [apply greatest_one|]. same_elements.
  - rewrite A5. eapply least_add; [apply least_one|]. same_elements.
  - rewrite A6. apply greatest_one.
Qed.
Lemma box_fold_d v0 vs : finite3_d v0 -> Forall finite3_d vs -> box_of_d (v0 :: vs) (fold_left dbox_step (v0 :: vs) (dbox_init v0)).
Proof.
  intros F0 F. induction vs as [|v vs IH] using rev_ind.
  - now apply box_first_d.
  - apply Forall_app in F as [F1 F2]. apply Forall_inv in F2.
    change (v0 :: vs ++ [v]) with ((v0 :: vs) ++ [v]). rewrite fold_left_app. cbn [fold_left]. apply box_step_d; auto.
Qed.
Lemma box_is_d (vs : list dvec3) b : Forall finite3_d vs -> bounding_box_d (E:=ioerr) vs = Ok b -> box_of_d vs b.
Proof.
  intros F E. destruct vs as [|v vs]; [discriminate|]. cbn [bounding_box_d] in E. apply Ok_inj in E. subst b.
  apply Forall_cons_iff in F as [F0 F]. now apply box_fold_d.
Qed.
Lemma box_bounded_d B vs x0 x1 y0 y1 z0 z1 : Forall (bounded_d B) vs -> stored_box_d vs x0 x1 y0 y1 z0 z1 ->
  Forall (fun x => Rabs (val64 x) <= B) [x0; x1; y0; y1; z0; z1].
Proof.
  intros F [_ B1 B2 B3 B4 B5 B6]. rewrite Forall_forall in F.
  assert (X : forall r, In r (xs_d vs) \/ In r (ys_d vs) \/ In r (zs_d vs) -> Rabs r <= B).
  { unfold xs_d, ys_d, zs_d. intros r [I|[I|I]]; apply in_map_iff in I as (v & <- & I); apply F in I as (_ & ? & ? & ?); auto. }
  assert (S : forall f r, In r (map f (removelast vs)) -> In r (map (f : dvec3 -> R) vs)).
  { intros f r I. apply in_map_iff in I as (v & <- & I). apply in_map. destruct vs as [|u vs]; [contradiction|].
    rewrite (app_removelast_last u) by discriminate. apply in_or_app. now left. }
  unfold xs_d, ys_d, zs_d in *.
  repeat apply Forall_cons; [..|apply Forall_nil]; apply X.
  - left. apply B1.
  - destruct B2 as [I _]. apply in_app_or in I as [I|I]; auto.
  - destruct B3 as [I _]. apply in_app_or in I as [I|I]; auto.
  - destruct B4 as [I _]. apply in_app_or in I as [I|I]; auto.
  - destruct B5 as [I _]. apply in_app_or in I as [I|I]; auto.
  - destruct B6 as [I _]. auto.
Qed.
Lemma f64_of_small_d z : (0 <= z <= 2 ^ 30)%Z -> fin (f64_of_Z z) /\ 0 <= R64 (f64_of_Z z) <= 2 ^ 30 /\ ((1 <= z)%Z -> 1 <= R64 (f64_of_Z z)).
Proof.
  intros B. assert (I : 0 <= IZR z <= 2 ^ 30).
  { split; [apply IZR_le; lia|]. replace (2 ^ 30) with (IZR (2 ^ 30)) by (rewrite pow_IZR; reflexivity). apply IZR_le. lia. }
  destruct (f64_of_Z_R z) as [A F].
  { rewrite Rabs_pos_eq, big64_pow by lra. eapply Rle_trans; [apply I|apply pow2_le; lia]. }
  split; [exact F|]. rewrite A. split.
  - split; [rewrite <- rnd64_0; apply rnd64_le; lra|].
    assert (E : 2 ^ 30 = bpow radix2 30) by (rewrite <- IZR_Zpower, pow_IZR by lia; reflexivity). rewrite E in *.
    eapply Rle_trans; [apply Rle_abs|]. apply rnd64_abs_le_bpow; [lia|]. rewrite Rabs_pos_eq; lra.
  - intros H1. rewrite <- rnd64_1. apply rnd64_le. apply (IZR_le 1). exact H1.
Qed.
Lemma mul_zero_R_d (x y : f64) : fin x -> fin y -> R64 x = 0 \/ R64 y = 0 -> R64 (dmul x y) = 0 /\ fin (dmul x y).
Proof.
  intros Fx Fy Z. assert (Z' : R64 x * R64 y = 0) by (destruct Z as [->| ->]; ring).
  destruct (dmul_R x y Fx Fy) as [A B]; [rewrite Z', Rabs_R0, big64_pow; apply pow_le; lra|].
  rewrite A, Z'. split; [apply rnd64_0|exact B].
Qed.
Lemma add_zero_R_d (x y : f64) B : fin x -> fin y -> R64 x = 0 -> Rabs (R64 y) <= B -> B <= 2 ^ 60 -> R64 (dadd x y) = R64 y /\ fin (dadd x y).
Proof.
  intros Fx Fy Z By HB. assert (Z' : R64 x + R64 y = R64 y) by (rewrite Z; ring).
  destruct (dadd_R x y Fx Fy) as [A C]; [rewrite Z', big64_pow; eapply Rle_trans; [exact By|]; eapply Rle_trans; [exact HB|apply pow2_le; lia]|].
  rewrite A, Z', rnd64_R64. split; [reflexivity|exact C].
Qed.
Lemma code_value_R_d p q : (1 <= p <= 30)%nat -> 
  fin (ddiv (f64_of_N (low p q)) (f64_of_N (mask_u64 p))) /\ (low p q = 0%N -> R64 (ddiv (f64_of_N (low p q)) (f64_of_N (mask_u64 p))) = 0).
Proof.
  intros B. unfold f64_of_N. destruct (f64_of_small_d _ (low_lt p q ltac:(lia))) as (F1 & B1 & _).
  rewrite steps_N. pose proof (steps_30 p B) as S. destruct (f64_of_small_d (steps p)) as (F2 & B2 & B3); [lia|].
  specialize (B3 ltac:(lia)).
  set (a := R64 (f64_of_Z (Z.of_N (low p q)))) in *. set (b := R64 (f64_of_Z (steps p))) in *.
  destruct (ddiv_R (f64_of_Z (Z.of_N (low p q))) (f64_of_Z (steps p)) F1) as [A F]; fold a b; [lra| |].
  - assert (0 <= a / b <= a).
    { split; [apply Rmult_le_pos; [lra|left; apply Rinv_0_lt_compat; lra]|].
      rewrite <- (Rmult_1_r a) at 2. apply Rmult_le_compat_l; [lra|]. rewrite <- Rinv_1. apply Rinv_le_contravar; lra. }
    rewrite Rabs_pos_eq, big64_pow by lra. apply Rle_trans with (2 ^ 30); [lra|apply pow2_le; lia].
  - split; [exact F|]. intros Z. rewrite A. fold a b. unfold a. rewrite Z. cbn [Z.of_N].
    destruct (f64_of_Z_exact 0) as [-> _]; [lia|]. unfold Rdiv. rewrite Rmult_0_l. apply rnd64_0.
Qed.
Lemma dequantize_low_d p q (D mn : f64) B : (1 <= p <= 30)%nat -> fin D -> fin mn -> Rabs (R64 mn) <= B -> B <= 2 ^ 60 ->
  low p q = 0%N \/ R64 D = 0 ->
  let y := dequantize_d (low p q) (f64_of_N (mask_u64 p)) D mn in fin y /\ R64 y = R64 mn.
Proof.
  intros HP FD Fm Bm HB Z y. destruct (code_value_R_d p q HP) as [F1 Z1]. unfold y, dequantize_d.
  destruct (mul_zero_R_d _ D F1 FD) as [A1 A2]; [destruct Z; auto|].
  destruct (add_zero_R_d _ mn B A2 Fm A1 Bm HB) as [A3 A4]. auto.
Qed.
Lemma below_code_d {E} p mul (mn mx v : f64) B : (1 <= p)%nat -> mask_f64 (E:=E) true p = Ok mul ->
  fin mn -> fin mx -> fin v -> Rabs (R64 mn) <= B -> Rabs (R64 mx) <= B -> Rabs (R64 v) <= B -> B <= 2 ^ 60 -> R64 v <= R64 mn ->
  low p (quantize_d v mn (dmax (dsub mx mn) min_extent_d) mul) = 0%N.
Proof.
  intros HP M Fn Fx Fv Bn Bx Bv HB L. pose proof (mask_d30 _ _ M) as P30. rewrite (mask_is_d _ _ M).
  pose proof (steps_30 p ltac:(lia)) as S. destruct (f64_of_small_d (steps p)) as (F1 & B1 & _); [lia|].
  destruct min_extent_R_d as [E1 E2]. apply Rabs_le_iff in Bn, Bx, Bv.
  destruct (dsub_R mx mn Fx Fn) as [_ D2]; [apply (fits_B_d B); auto; apply Rabs_le_iff; lra|].
  destruct (dsub_R v mn Fv Fn) as [V1 V2]; [apply (fits_B_d B); auto; apply Rabs_le_iff; lra|].
  destruct (dmax_R (dsub mx mn) min_extent_d D2 E1) as [X1 X2].
  set (s := dmax (dsub mx mn) min_extent_d) in *. set (d := R64 (dsub v mn)) in *. set (mul' := f64_of_Z (steps p)) in *.
  assert (s2 : R64 min_extent_d <= R64 s) by (rewrite X1; apply Rmax_r).
  assert (d0 : - (2 ^ 62) <= d <= 0).
  { split; [|rewrite V1, <- rnd64_0; apply rnd64_le; lra].
    assert (Rabs d <= bpow radix2 62).
    { rewrite V1. apply rnd64_abs_le_bpow; [lia|]. rewrite <- IZR_Zpower by lia. change (IZR (radix2 ^ 62)) with 4611686018427387904.
      simpl pow in HB. apply Rabs_le_iff. lra. }
    apply Rabs_le_iff in H. rewrite <- IZR_Zpower in H by lia. change (IZR (radix2 ^ 62)) with 4611686018427387904 in H. simpl pow. lra. }
  assert (I : 0 < / R64 s <= 1100000).
  { split; [apply Rinv_0_lt_compat; lra|]. apply Rle_trans with (/ 0.00000099999); [apply Rinv_le_contravar; lra|lra]. }
  assert (Q : - (2 ^ 83) <= d / R64 s <= 0).
  { unfold Rdiv. split.
    - assert (2 ^ 62 * / R64 s <= 2 ^ 62 * 1100000) by (apply Rmult_le_compat_l; [apply pow_le|]; lra).
      assert (- (2 ^ 62) * / R64 s <= d * / R64 s) by (apply Rmult_le_compat_r; lra). simpl pow in *. lra.
    - assert (0 <= (- d) * / R64 s) by (apply Rmult_le_pos; lra). lra. }
  destruct (ddiv_R (dsub v mn) s V2) as [T1 T2]; [lra| |].
  { fold d. rewrite big64_pow. apply Rle_trans with (2 ^ 83); [apply Rabs_le_iff; lra|apply pow2_le; lia]. }
  fold d in T1. set (t := R64 (ddiv (dsub v mn) s)) in *.
  assert (t0 : - (2 ^ 83) <= t <= 0).
  { split; [|rewrite T1, <- rnd64_0; apply rnd64_le; lra].
    assert (E83 : 2 ^ 83 = bpow radix2 83) by (rewrite <- IZR_Zpower, pow_IZR by lia; reflexivity). rewrite E83 in *.
    assert (K : Rabs t <= bpow radix2 83) by (rewrite T1; apply rnd64_abs_le_bpow; [lia|]; apply Rabs_le_iff; lra).
    apply Rabs_le_iff in K. lra. }
  destruct (dmul_R (ddiv (dsub v mn) s) mul' T2 F1) as [M1 M2].
  { fold t. rewrite Rabs_left1.
    - rewrite big64_pow. apply Rle_trans with (2 ^ 83 * 2 ^ 30); [|rewrite <- pow_add; apply pow2_le; lia].
      replace (- (t * R64 mul')) with ((- t) * R64 mul') by ring. apply Rmult_le_compat; lra.
    - assert (0 <= (- t) * R64 mul') by (apply Rmult_le_pos; lra). lra. }
  unfold quantize_d. rewrite u64_neg_d; [unfold low; apply N.mod_0_l, N.pow_nonzero; lia|exact M2|].
  rewrite M1. fold t. rewrite <- rnd64_0. apply rnd64_le.
  assert (0 <= (- t) * R64 mul') by (apply Rmult_le_pos; lra). lra.
Qed.
Lemma big_ok_d x : 0 <= x <= 2 ^ 300 -> Rabs x <= big64.
Proof. intros A. rewrite Rabs_pos_eq, big64_pow by lra. eapply Rle_trans; [apply A|apply pow2_le; lia]. Qed.
Lemma square_R_d (x y : f64) : fin x -> fin y -> Rabs (R64 x) <= 2 ^ 50 -> Rabs (R64 y) <= 2 ^ 50 ->
  let q := dmul (dsub x y) (dsub x y) in let d := R64 x - R64 y in
  fin q /\ 0 <= R64 q /\ Rabs (R64 q - d * d) <= 3.1 * (u64 * (d * d)) + tiny64 /\ d * d <= 2 ^ 102.
Proof.
  intros Fx Fy Bx By q d. pose proof u64_small as U. pose proof tiny_u_d as T. apply pow50 in Bx, By.
  assert (dB : Rabs d <= 2 ^ 51) by (apply Rabs_le_iff; unfold d; simpl pow; lra).
  destruct (dsub_R x y Fx Fy) as [D1 D2].
  { fold d. rewrite big64_pow. eapply Rle_trans; [exact dB|apply pow2_le; lia]. }
  pose proof (rnd64_diff x y) as DE. fold d in D1, DE. rewrite <- D1 in DE. set (X := R64 (dsub x y)) in *.
  assert (dd : d * d <= 2 ^ 51 * 2 ^ 51).
  { rewrite <- (abs_sq d). apply mul_le; auto; apply Rabs_pos. }
  assert (dp : 0 <= d * d) by apply Rle_0_sqr.
  assert (up : 0 <= u64 * (d * d) <= 0.0001 * (d * d)) by (split; [apply Rmult_le_pos; lra|apply Rmult_le_compat_r; lra]).
  assert (XE : Rabs (X * X - d * d) <= 2.05 * (u64 * (d * d))).
  { replace (X * X - d * d) with (2 * d * (X - d) + (X - d) * (X - d)) by ring.
    eapply Rle_trans; [apply Rabs_triang|]. rewrite !Rabs_mult, (Rabs_pos_eq 2) by lra.
    pose proof (Rabs_pos d). pose proof (Rabs_pos (X - d)).
    assert (2 * Rabs d * Rabs (X - d) <= 2 * Rabs d * (u64 * Rabs d)) by (apply Rmult_le_compat_l; lra).
    assert (Rabs (X - d) * Rabs (X - d) <= (u64 * Rabs d) * (u64 * Rabs d)) by (apply mul_le; lra).
    replace (2 * Rabs d * (u64 * Rabs d)) with (2 * u64 * (Rabs d * Rabs d)) in * by ring.
    replace ((u64 * Rabs d) * (u64 * Rabs d)) with (u64 * (u64 * (Rabs d * Rabs d))) in * by ring.
    rewrite (abs_sq d) in *.
    assert (u64 * (u64 * (d * d)) <= 0.05 * (u64 * (d * d))) by (apply Rmult_le_compat_r; lra). lra. }
  assert (XX : 0 <= X * X) by apply Rle_0_sqr. apply Rabs_le_iff in XE.
  assert (E102 : 2 ^ 51 * 2 ^ 51 = 2 ^ 102) by (rewrite <- pow_add; reflexivity). rewrite E102 in dd.
  destruct (dmul_R (dsub x y) (dsub x y) D2 D2) as [Q1 Q2].
  { fold X. apply big_ok_d. split; [exact XX|]. apply Rle_trans with (2 * 2 ^ 102); [lra|]. change (2 * 2 ^ 102) with (2 ^ 103). apply pow2_le. lia. }
  fold q X in Q1, Q2. pose proof (rnd64_err (X * X)) as QE. rewrite <- Q1, (Rabs_pos_eq (X * X)) in QE by lra.
  split; [exact Q2|]. split; [rewrite Q1, <- rnd64_0; apply rnd64_le; exact XX|]. split; [|exact dd].
  assert (u64 * (X * X) <= u64 * (1.01 * (d * d))) by (apply Rmult_le_compat_l; lra).
  apply Rabs_le_iff in QE. apply Rabs_le_iff. lra.
Qed.
Lemma distance_R_d a b : bounded_d (2 ^ 50) a -> bounded_d (2 ^ 50) b -> / 2 ^ 20 <= dist3_d a b ->
  fin (distance_d a b) /\ Rabs (R64 (distance_d a b) - dist3_d a b) <= / 2 ^ 20 * dist3_d a b.
Proof.
  intros ((A1 & A2 & A3) & A4 & A5 & A6) ((B1 & B2 & B3) & B4 & B5 & B6) L. pose proof u64_small as U. pose proof tiny64_bound as [T0 T].
  change val64 with R64 in *. unfold finite64 in *.
  change (fst (fst a)) with (dvx a) in *. change (snd (fst a)) with (dvy a) in *. change (snd a) with (dvz a) in *.
  change (fst (fst b)) with (dvx b) in *. change (snd (fst b)) with (dvy b) in *. change (snd b) with (dvz b) in *.
  destruct (square_R_d (dvx a) (dvx b) A1 B1 A4 B4) as (X1 & X2 & X3 & X4).
  destruct (square_R_d (dvy a) (dvy b) A2 B2 A5 B5) as (Y1 & Y2 & Y3 & Y4).
  destruct (square_R_d (dvz a) (dvz b) A3 B3 A6 B6) as (Z1 & Z2 & Z3 & Z4).
  unfold distance_d. cbv zeta in *. unfold dist3_d in *. change val64 with R64 in *.
  change (fst (fst a)) with (dvx a) in *. change (snd (fst a)) with (dvy a) in *. change (snd a) with (dvz a) in *.
  change (fst (fst b)) with (dvx b) in *. change (snd (fst b)) with (dvy b) in *. change (snd b) with (dvz b) in *.
  set (dx := R64 (dvx a) - R64 (dvx b)) in *. set (dy := R64 (dvy a) - R64 (dvy b)) in *. set (dz := R64 (dvz a) - R64 (dvz b)) in *.
  set (qx := dmul (dsub (dvx a) (dvx b)) (dsub (dvx a) (dvx b))) in *. set (qy := dmul (dsub (dvy a) (dvy b)) (dsub (dvy a) (dvy b))) in *.
  set (qz := dmul (dsub (dvz a) (dvz b)) (dsub (dvz a) (dvz b))) in *.
  assert (PX : 0 <= dx * dx) by apply Rle_0_sqr. assert (PY : 0 <= dy * dy) by apply Rle_0_sqr. assert (PZ : 0 <= dz * dz) by apply Rle_0_sqr.
  set (S := dx * dx + dy * dy + dz * dz) in *. set (d := sqrt S) in *.
  assert (DS : d * d = S) by (apply sqrt_sqrt; unfold S; lra).
  assert (dp : 0 < d) by (simpl pow in L; lra).
  assert (S40 : / 1099511627776 <= S).
  { rewrite <- DS. replace (/ 1099511627776) with (/ 2 ^ 20 * / 2 ^ 20) by (simpl pow; lra). apply mul_le; auto; simpl pow; lra. }
  change (2 ^ 100)%Z with 1267650600228229401496703205376%Z in T.
  assert (tS : tiny64 <= 0.01 * (u64 * S)).
  { eapply Rle_trans; [exact T|]. apply Rle_trans with (0.01 * (u64 * / 1099511627776)); [unfold u64; lra|].
    apply Rmult_le_compat_l; [lra|]. apply Rmult_le_compat_l; lra. }
  assert (uS : 0 <= u64 * S <= 0.0001 * S) by (split; [apply Rmult_le_pos; lra|apply Rmult_le_compat_r; lra]).
  assert (uX : 0 <= u64 * (dx * dx)) by (apply Rmult_le_pos; lra).
  assert (uY : 0 <= u64 * (dy * dy)) by (apply Rmult_le_pos; lra).
  assert (uZ : 0 <= u64 * (dz * dz)) by (apply Rmult_le_pos; lra).
  assert (US : u64 * S = u64 * (dx * dx) + u64 * (dy * dy) + u64 * (dz * dz)) by (unfold S; ring).
  apply Rabs_le_iff in X3, Y3, Z3.
  assert (SB : S <= 3 * 2 ^ 102) by (unfold S; lra).
  assert (SB2 : 4 * 2 ^ 102 <= 2 ^ 300) by (replace 4 with (2 ^ 2) by (simpl; lra); rewrite <- pow_add; apply pow2_le; lia).
  destruct (dadd_R qx qy X1 Y1) as [H1 H2]; [apply big_ok_d; unfold S in *; lra|].
  pose proof (rnd64_sum qx qy) as E1. rewrite <- H1, (Rabs_pos_eq (R64 qx + R64 qy)) in E1 by lra.
  set (s1 := R64 (dadd qx qy)) in *.
  assert (s10 : 0 <= s1) by (rewrite H1, <- rnd64_0; apply rnd64_le; lra).
  assert (u64 * (R64 qx + R64 qy) <= u64 * (1.01 * S)) by (apply Rmult_le_compat_l; unfold S in *; lra).
  apply Rabs_le_iff in E1.
  destruct (dadd_R (dadd qx qy) qz H2 Z1) as [H3 H4]; [fold s1; apply big_ok_d; unfold S in *; lra|].
  pose proof (rnd64_sum (dadd qx qy) qz) as E2. fold s1 in E2, H3. rewrite <- H3, (Rabs_pos_eq (s1 + R64 qz)) in E2 by lra.
  set (s2 := R64 (dadd (dadd qx qy) qz)) in *.
  assert (s20 : 0 <= s2) by (rewrite H3, <- rnd64_0; apply rnd64_le; lra).
  assert (u64 * (s1 + R64 qz) <= u64 * (1.02 * S)) by (apply Rmult_le_compat_l; unfold S in *; lra).
  apply Rabs_le_iff in E2.
  assert (K : Rabs (s2 - d * d) <= 6 * u64 * (d * d)).
  { rewrite DS, Rmult_assoc. unfold S in DS |- *. fold S. apply Rabs_le_iff. unfold S in *. lra. }
  apply sqrt_err in K; auto.
  destruct (dsqrt_R _ H4 s20) as [R1 R2]. fold s2 in R1. split; [exact R2|]. rewrite R1.
  pose proof (rnd64_err (sqrt s2)) as E3. rewrite (Rabs_pos_eq (sqrt s2)) in E3 by apply sqrt_pos.
  apply Rabs_le_iff in K, E3.
  assert (ud : 0 <= u64 * d <= 0.0001 * d) by (split; [apply Rmult_le_pos; lra|apply Rmult_le_compat_r; lra]).
  assert (u64 * sqrt s2 <= u64 * (1.1 * d)) by (apply Rmult_le_compat_l; lra).
  assert (tiny64 <= 0.01 * (u64 * d)).
  { eapply Rle_trans; [exact T|]. apply Rle_trans with (0.01 * (u64 * / 2 ^ 20)); [unfold u64; simpl pow; lra|].
    apply Rmult_le_compat_l; [lra|]. apply Rmult_le_compat_l; lra. }
  apply Rle_trans with (16 * (u64 * d)); [apply Rabs_le_iff; lra|]. rewrite <- Rmult_assoc. apply Rmult_le_compat_r; [lra|]. unfold u64. simpl pow. lra.
Qed.
Lemma dmin_inf (y : f64) : fin y -> dmin d_inf y = y.
Proof. intros F. unfold dmin, d_inf. cbn [is_nan]. destruct y as [s|s| |s m e H]; try discriminate; try reflexivity; destruct s; reflexivity. Qed.
Definition inf_or_fin_d (x : f64) := x = d_inf \/ fin x.
Lemma dmin_acc (x y : f64) : inf_or_fin_d x -> fin y ->
  fin (dmin x y) /\ R64 (dmin x y) <= R64 y /\ (fin x -> R64 (dmin x y) <= R64 x) /\ (dmin x y = x \/ dmin x y = y).
Proof.
  intros [->|Fx] Fy.
  - rewrite dmin_inf by auto. split; auto. split; [lra|]. split; auto. discriminate.
  - destruct (dmin_R x y Fx Fy) as [A B]. split; auto. rewrite A. split; [apply Rmin_r|]. split; [intros _; apply Rmin_l|].
    unfold dmin. destruct (is_nan x); auto. destruct (is_nan y); auto. destruct (dlt y x); auto.
Qed.
Definition edge_near_d (d : R) (e : f64) : Prop := fin e /\ Rabs (R64 e - d) <= / 2 ^ 20 * d.
Lemma shortest_loop_R_d vs tris : Forall (bounded_d (2 ^ 50)) vs -> forall acc e,
  (forall d, side_of_d vs tris d -> / 2 ^ 20 <= d) -> inf_or_fin_d acc -> shortest_loop_d vs tris acc = Ok e ->
  (e = acc \/ exists d, side_of_d vs tris d /\ edge_near_d d e) /\
  (forall d, side_of_d vs tris d -> fin e /\ R64 e <= (1 + / 2 ^ 20) * d) /\ (fin acc -> fin e /\ R64 e <= R64 acc).
Proof.
  intros FB. rewrite Forall_forall in FB.
  induction tris as [tris IH] using (induction_ltof1 _ (@length N)). intros acc e L IA E.
  destruct tris as [|a [|b [|c t]]].
  1,2,3: cbn [shortest_loop_d] in E; apply Ok_inj in E; subst e; split; [now left|split; [intros d S; inversion S|split; auto; lra]].
  cbn [shortest_loop_d] in E. unfold index in E.
  destruct (get vs a) as [va|] eqn:Ga; [|discriminate]. destruct (get vs b) as [vb|] eqn:Gb; [|discriminate].
  destruct (get vs c) as [vc|] eqn:Gc; [|discriminate]. cbn [bind] in E. rewrite get_nth in Ga, Gb, Gc.
  assert (S3 : forall d, d = dist3_d va vb \/ d = dist3_d vb vc \/ d = dist3_d vc va -> side_of_d vs (a :: b :: c :: t) d).
  { intros d D. eapply side_first_d; eauto. }
  pose proof (FB va (nth_error_In _ _ Ga)) as Va. pose proof (FB vb (nth_error_In _ _ Gb)) as Vb. pose proof (FB vc (nth_error_In _ _ Gc)) as Vc.
  pose proof (distance_R_d va vb Va Vb (L _ (S3 _ (or_introl eq_refl)))) as D1.
  pose proof (distance_R_d vb vc Vb Vc (L _ (S3 _ (or_intror (or_introl eq_refl))))) as D2.
  pose proof (distance_R_d vc va Vc Va (L _ (S3 _ (or_intror (or_intror eq_refl))))) as D3.
  fold (edge_near_d (dist3_d va vb) (distance_d va vb)) in D1. fold (edge_near_d (dist3_d vb vc) (distance_d vb vc)) in D2. fold (edge_near_d (dist3_d vc va) (distance_d vc va)) in D3.
  set (e1 := distance_d va vb) in *. set (e2 := distance_d vb vc) in *. set (e3 := distance_d vc va) in *.
  destruct (dmin_acc e2 e3 (or_intror (proj1 D2)) (proj1 D3)) as (M1 & M2 & M3 & M4). specialize (M3 (proj1 D2)).
  destruct (dmin_acc e1 (dmin e2 e3) (or_intror (proj1 D1)) M1) as (N1 & N2 & N3 & N4). specialize (N3 (proj1 D1)).
  set (m := dmin e1 (dmin e2 e3)) in *.
  destruct (dmin_acc acc m IA N1) as (O1 & O2 & O3 & O4).
  destruct (IH t) with (acc := dmin acc m) (e := e) as (A & B & C); auto.
  { unfold ltof. cbn. lia. }
  { intros d S. apply L. now apply side_later_d. }
  { now right. }
  destruct (C O1) as [C1 C2].
  assert (U : forall d x, edge_near_d d x -> R64 x <= (1 + / 2 ^ 20) * d).
  { intros d x [_ X]. apply Rabs_le_iff in X. lra. }
  split; [|split].
  - destruct A as [A|(d & A1 & A2)]; [|right; exists d; split; auto; now apply side_later_d].
    assert (X : e = acc \/ e = e1 \/ e = e2 \/ e = e3).
    { rewrite A. destruct O4 as [O4|O4]; [now left|right]. rewrite O4. destruct N4 as [N4|N4]; [now left|right]. rewrite N4. exact M4. }
    destruct X as [X|[X|[X|X]]]; [now left|right..]; rewrite X;
      [exists (dist3_d va vb)|exists (dist3_d vb vc)|exists (dist3_d vc va)]; auto.
  - intros d S. inversion S as [a' b' c' t' va' vb' vc' d' G1 G2 G3 D|a' b' c' t' d' S']; subst; [|apply B; auto].
    split; [exact C1|]. rewrite Ga in G1. rewrite Gb in G2. rewrite Gc in G3. injection G1 as <-. injection G2 as <-. injection G3 as <-.
    apply U in D1, D2, D3. destruct D as [->|[->| ->]]; lra.
  - intros Fa. split; [exact C1|]. specialize (O3 Fa). lra.
Qed.
Lemma shortest_edge_R_d tris vs e s : Forall (bounded_d (2 ^ 50)) (match vs with Some v => v | None => [] end) -> / 2 ^ 20 <= s ->
  shortest_edge_d vs tris s -> calc_shortest_edge_d tris vs = Ok e -> edge_near_d s e.
Proof.
  intros FB Hs S E.
  assert (D : s = 0.1 -> edge_near_d s default_edge_d).
  { intros ->. destruct (dlit_R 1 10) as [A B]; [lia|lia|]. fold default_edge_d in A, B. split; [exact B|]. rewrite A.
    pose proof (rnd64_err (1 / 10)) as Er. rewrite (Rabs_pos_eq (1 / 10)) in Er by lra.
    pose proof tiny64_bound as [_ T]. change (2 ^ 100)%Z with 1267650600228229401496703205376%Z in T.
    apply Rabs_le_iff in Er. apply Rabs_le_iff. unfold u64 in Er. simpl pow. lra. }
  unfold shortest_edge_d in S. unfold calc_shortest_edge_d in E.
  destruct tris as [[|i t]|]; [destruct vs; apply Ok_inj in E; subst; auto| |apply Ok_inj in E; subst; auto].
  destruct vs as [v|]; [|apply Ok_inj in E; subst; auto]. destruct S as [S1 S2].
  destruct (shortest_loop_d v (i :: t) d_inf) as [r| |] eqn:R; try discriminate. cbn [bind] in E.
  destruct (is_finite r) eqn:Fr; [|discriminate]. apply Ok_inj in E. subst r.
  destruct (shortest_loop_R_d v (i :: t) FB d_inf e) as (A & B & _); auto.
  { intros d Sd. apply S2 in Sd. lra. }
  { now left. }
  split; [exact Fr|]. destruct (B s S1) as [_ B1]. destruct A as [->|(d & D1 & _ & D2)]; [discriminate|].
  apply S2 in D1. apply Rabs_le_iff in D2. apply Rabs_le_iff.
  assert (/ 2 ^ 20 <= 0.1) by (simpl pow; lra).
  assert ((1 - / 2 ^ 20) * s <= (1 - / 2 ^ 20) * d) by (apply Rmult_le_compat_l; lra). lra.
Qed.
Lemma rnd64_rel x : bpow radix2 (-1022) <= Rabs x -> Rabs (rnd64 x - x) <= u64 * Rabs x.
Proof.
  intros B. pose proof (relative_error_N_FLT radix2 (-1074) 53 eq_refl (fun z => negb (Z.even z)) x B) as E.
  replace (/ 2 * bpow radix2 (- (53) + 1)) with u64 in E; [exact E|].
  change (bpow radix2 (-(53) + 1)) with (/ IZR (2 ^ 52)). unfold u64. cbn. lra.
Qed.
Lemma rnd64_rel_pos x : / 2 ^ 200 <= x -> (1 - u64) * x <= rnd64 x <= (1 + u64) * x.
Proof.
  intros B. assert (0 < / 2 ^ 200) by (apply Rinv_0_lt_compat, pow_lt; lra).
  assert (E : bpow radix2 (-1022) <= / 2 ^ 200).
  { replace (/ 2 ^ 200) with (bpow radix2 (-200)); [apply bpow_le; lia|].
    change (bpow radix2 (-200)) with (/ IZR (2 ^ 200)). rewrite pow_IZR. reflexivity. }
  pose proof (rnd64_rel x) as R. rewrite Rabs_pos_eq in R by lra. specialize (R ltac:(lra)). apply Rabs_le_iff in R. lra.
Qed.
Lemma axis_width_d lm (e s prec : f64) : log2_64_ok lm -> fin e -> fin s -> fin prec ->
  0 < R64 e <= 2 ^ 60 -> / 2 ^ 20 <= R64 s -> 0 < R64 prec <= 1 -> R64 s <= 2 ^ 190 * (R64 e * R64 prec) ->
  let p := axis_precision_d lm e s prec in
  (p <= 30)%nat -> (1 <= p)%nat /\ R64 s <= 2.002 * (R64 e * R64 prec) * IZR (steps p).
Proof.
  intros LG Fe Fs Fp He Hs Hp HS p P30. pose proof u64_small as U.
  set (E := R64 e) in *. set (S := R64 s) in *. set (P := R64 prec) in *.
  assert (s0 : 0 < / 2 ^ 20) by (apply Rinv_0_lt_compat, pow_lt; lra).
  assert (S0 : 0 < S) by lra. assert (EP : 0 < E * P) by (apply Rmult_lt_0_compat; lra).
  assert (iS : 0 < / S) by (apply Rinv_0_lt_compat; lra).
  assert (Q1 : / 2 ^ 190 <= E / S * P).
  { apply Rmult_le_reg_r with S; [lra|]. replace (E / S * P * S) with (E * P) by (field; lra).
    assert (0 < 2 ^ 190) by (apply pow_lt; lra). apply Rmult_le_reg_l with (2 ^ 190); [lra|]. rewrite <- Rmult_assoc, Rinv_r by lra. lra. }
  assert (Q0 : 0 < E / S) by (apply Rmult_lt_0_compat; lra).
  assert (Q2 : E / S * P <= E / S) by (pose proof (Rmult_le_compat_l (E / S) P 1 ltac:(lra) ltac:(lra)); lra).
  assert (Q3 : E / S <= 2 ^ 80).
  { replace (2 ^ 80) with (2 ^ 60 * 2 ^ 20) by (rewrite <- pow_add; reflexivity). apply mul_le; try lra.
    rewrite <- (Rinv_inv (2 ^ 20)). apply Rinv_le_contravar; lra. }
  assert (p22 : / 2 ^ 200 <= / 2 ^ 190 / 2).
  { unfold Rdiv. rewrite <- Rinv_mult. apply Rinv_le_contravar; [assert (0 < 2 ^ 190) by (apply pow_lt; lra); lra|].
    replace (2 ^ 190 * 2) with (2 ^ 191) by (simpl; lra). apply pow2_le. lia. }
  assert (p22' : 0 < / 2 ^ 190) by (apply Rinv_0_lt_compat, pow_lt; lra).
  destruct (ddiv_R e s Fe) as [A1 A2]; [fold S; lra|fold E S; apply big_ok_d; split; [lra|eapply Rle_trans; [exact Q3|apply pow2_le; lia]]|].
  fold E S in A1. pose proof (rnd64_rel_pos (E / S) ltac:(lra)) as R1. rewrite <- A1 in R1. set (a := R64 (ddiv e s)) in *.
  assert (aP1 : (1 - u64) * (E / S * P) <= a * P <= (1 + u64) * (E / S * P)).
  { rewrite <- !Rmult_assoc. split; apply Rmult_le_compat_r; lra. }
  assert (h1 : (1 - u64) * (E / S * P) >= 0.999 * (E / S * P)) by (apply Rle_ge, Rmult_le_compat_r; lra).
  assert (h2 : (1 + u64) * (E / S * P) <= 1.001 * (E / S * P)) by (apply Rmult_le_compat_r; lra).
  assert (p81 : 4 * 2 ^ 80 <= 2 ^ 300) by (replace 4 with (2 ^ 2) by (simpl; lra); rewrite <- pow_add; apply pow2_le; lia).
  destruct (dmul_R (ddiv e s) prec A2 Fp) as [B1 B2]; [fold a P; apply big_ok_d; lra|].
  fold a P in B1. pose proof (rnd64_rel_pos (a * P) ltac:(lra)) as R2. rewrite <- B1 in R2. set (b := R64 (dmul (ddiv e s) prec)) in *.
  assert (h3 : 0.9999 * (a * P) <= b <= 1.0001 * (a * P)).
  { split; [eapply Rle_trans; [|apply R2]|eapply Rle_trans; [apply R2|]]; apply Rmult_le_compat_r; lra. }
  set (x := E / S * P) in *.
  assert (bx : 0.9999 * x <= b <= 1.0001 * x).
  { assert ((1 - u64) * ((1 - u64) * x) <= (1 - u64) * (a * P)) by (apply Rmult_le_compat_l; lra).
    assert ((1 + u64) * (a * P) <= (1 + u64) * ((1 + u64) * x)) by (apply Rmult_le_compat_l; lra).
    assert (0 <= u64 * x <= 0.00001 * x) by (split; [apply Rmult_le_pos|apply Rmult_le_compat_r]; lra).
    assert (0 <= u64 * (u64 * x) <= 0.00001 * (u64 * x)) by (split; [apply Rmult_le_pos|apply Rmult_le_compat_r]; lra). lra. }
  assert (b0 : 0 < b) by lra. assert (x0 : 0 < x) by lra.
  assert (ib : 0.9998 * / x <= 1 / b <= 1.0002 * / x).
  { unfold Rdiv. rewrite Rmult_1_l. split.
    - apply Rmult_le_reg_r with b; [lra|]. rewrite Rinv_l by lra. apply Rle_trans with (0.9998 * / x * (1.0001 * x)).
      + apply Rmult_le_compat_l; [apply Rmult_le_pos; [lra|left; now apply Rinv_0_lt_compat]|lra].
      + replace (0.9998 * / x * (1.0001 * x)) with (0.9998 * 1.0001) by (field; lra). lra.
    - apply Rmult_le_reg_r with b; [lra|]. rewrite Rinv_l by lra. apply Rle_trans with (1.0002 * / x * (0.9999 * x)).
      + replace (1.0002 * / x * (0.9999 * x)) with (1.0002 * 0.9999) by (field; lra). lra.
      + apply Rmult_le_compat_l; [apply Rmult_le_pos; [lra|left; now apply Rinv_0_lt_compat]|lra]. }
  assert (ix : / x = S / (E * P)) by (unfold x; field; repeat split; lra).
  assert (xub : / x <= 2 ^ 190).
  { rewrite <- (Rinv_inv (2 ^ 190)). apply Rinv_le_contravar; lra. }
  assert (xlb : 2 * / 2 ^ 200 <= / x).
  { apply Rle_trans with (/ 2 ^ 80); [|apply Rinv_le_contravar; lra].
    replace (2 ^ 200) with (2 ^ 80 * 2 ^ 120) by (rewrite <- pow_add; reflexivity). rewrite Rinv_mult.
    assert (0 < / 2 ^ 80) by (apply Rinv_0_lt_compat, pow_lt; lra).
    replace (2 * (/ 2 ^ 80 * / 2 ^ 120)) with (/ 2 ^ 80 * (2 * / 2 ^ 120)) by ring. rewrite <- (Rmult_1_r (/ 2 ^ 80)) at 2.
    apply Rmult_le_compat_l; [lra|]. simpl pow. lra. }
  assert (p100 : 0 < / 2 ^ 200) by (apply Rinv_0_lt_compat, pow_lt; lra).
  destruct d1_R as [O1 O2].
  destruct (ddiv_R d1 (dmul (ddiv e s) prec) O2) as [C1 C2]; [fold b; lra|rewrite O1; fold b; apply big_ok_d|].
  { split; [lra|]. apply Rle_trans with (2 ^ 191); [change (2 ^ 191) with (2 * 2 ^ 190); lra|apply pow2_le; lia]. }
  rewrite O1 in C1. fold b in C1. pose proof (rnd64_rel_pos (1 / b) ltac:(lra)) as R3. rewrite <- C1 in R3.
  set (r := ddiv d1 (dmul (ddiv e s) prec)) in *.
  assert (rx : 0.9997 * / x <= R64 r <= 1.0003 * / x).
  { assert (0 <= u64 * (1 / b) <= 0.00001 * (1 / b)) by (split; [apply Rmult_le_pos|apply Rmult_le_compat_r]; lra). lra. }
  assert (r0 : 0 < R64 r) by lra.
  assert (W30 : (u8_of_f64 (dceil (l_log2 lm r)) <= 30)%nat) by (unfold p, axis_precision_d in P30; fold r in P30; lia).
  destruct (width_covers_d lm r LG C2 r0 W30) as [W1 W2].
  unfold p, axis_precision_d. fold r. set (w := u8_of_f64 (dceil (l_log2 lm r))) in *.
  assert (SX : S = / x * (E * P)) by (rewrite ix; field; repeat split; lra).
  destruct (Nat.eq_dec w 0) as [W0|W0].
  - rewrite W0. cbn [Nat.max]. split; [lia|]. rewrite W0 in W1. change (IZR (2 ^ Z.of_nat 0)) with 1 in W1.
    change (IZR (steps 1)) with 1. rewrite SX.
    assert (/ x * (E * P) <= 1.001 * (E * P)) by (apply Rmult_le_compat_r; lra). lra.
  - replace (Nat.max w 1) with w by lia. specialize (W2 ltac:(lia)).
    split; [lia|]. unfold steps. rewrite minus_IZR.
    assert (2 <= IZR (2 ^ Z.of_nat w)) by (apply IZR_le; change 2%Z with (2 ^ 1)%Z at 1; apply Z.pow_le_mono_r; lia).
    rewrite SX. replace (2.002 * (E * P) * (IZR (2 ^ Z.of_nat w) - 1)) with ((2.002 * (IZR (2 ^ Z.of_nat w) - 1)) * (E * P)) by ring.
    apply Rmult_le_compat_r; lra.
Qed.
