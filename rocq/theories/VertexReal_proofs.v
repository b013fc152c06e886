(** How far stored vertices are from the originals. *)
From Coq Require Import List NArith ZArith Arith Lia Bool Reals Lra Psatz.
From Flocq Require Import Core Relative Plus_error IEEE754.BinarySingleNaN.
From Verif Require Import Base UnalignedRW ReadExt Floats Floats_proofs FloatReal_proofs ValueSpec VertexSpec Log2_proofs Trig_proofs
  Utilis Vertices File Mesh_proofs Save_proofs Codec_proofs Quant_proofs NormalReal_proofs.
Import ListNotations.
Local Open Scope R_scope.

Lemma fmin_R (x y : f32) : fin x -> fin y -> R32 (fmin x y) = Rmin (R32 x) (R32 y) /\ fin (fmin x y).
Proof.
  intros Fx Fy. unfold fmin. assert (is_nan x = false) as -> by (destruct x; auto; discriminate).
  assert (is_nan y = false) as -> by (destruct y; auto; discriminate). rewrite (flt_R y x Fy Fx).
  destruct (Rlt_bool_spec (R32 y) (R32 x)); split; auto; [rewrite Rmin_right|rewrite Rmin_left]; auto; lra.
Qed.
Lemma fmax_R (x y : f32) : fin x -> fin y -> R32 (fmax x y) = Rmax (R32 x) (R32 y) /\ fin (fmax x y).
Proof.
  intros Fx Fy. unfold fmax. assert (is_nan x = false) as -> by (destruct x; auto; discriminate).
  assert (is_nan y = false) as -> by (destruct y; auto; discriminate). rewrite (flt_R x y Fx Fy).
  destruct (Rlt_bool_spec (R32 x) (R32 y)); split; auto; [rewrite Rmax_right|rewrite Rmax_left]; auto; lra.
Qed.

Lemma min_extent_R : fin min_extent /\ 0.00000099999 <= R32 min_extent <= 0.0000010001.
Proof.
  destruct (flit_R 1 1000000) as [A B]; [lia|lia|]. fold min_extent in A, B. split; [exact B|]. rewrite A.
  pose proof (rnd32_err (1 / 1000000)) as E. rewrite (Rabs_pos_eq (1 / 1000000)) in E by lra.
  pose proof tiny32_bound as [_ T]. change (2 ^ 100)%Z with 1267650600228229401496703205376%Z in T.
  apply Rabs_le_iff in E. unfold u32 in E. lra.
Qed.

(** ** One axis *)

Lemma fits_B (B x : R) : B <= 2 ^ 60 -> Rabs x <= 4 * B -> Rabs x <= big32.
Proof.
  intros HB H. eapply Rle_trans; [exact H|]. pose proof big32_ge as G.
  change (2 ^ 100)%Z with 1267650600228229401496703205376%Z in G. simpl pow in HB. lra.
Qed.

(** Sums of floats have no underflow error. *)
Lemma rnd32_sum (x y : f32) : Rabs (rnd32 (R32 x + R32 y) - (R32 x + R32 y)) <= u32 * Rabs (R32 x + R32 y).
Proof.
  destruct (@FLT_plus_error_N_ex radix2 (-149) 24 eq_refl (fun z => negb (Z.even z)) (R32 x) (R32 y)) as (e & He & E).
  1,2: apply generic_format_B2R.
  change (round radix2 (FLT_exp (-149) 24) _ (R32 x + R32 y)) with (rnd32 (R32 x + R32 y)) in E. rewrite E.
  replace ((R32 x + R32 y) * (1 + e) - (R32 x + R32 y)) with (e * (R32 x + R32 y)) by ring. rewrite Rabs_mult.
  apply Rmult_le_compat_r; [apply Rabs_pos|]. eapply Rle_trans; [exact He|].
  unfold u_ro. change (bpow radix2 (-24 + 1)) with (/ IZR (2 ^ 23)). unfold u32. cbn.
  apply Rmult_le_reg_r with (1 + / 2 * / 8388608); [lra|]. unfold Rdiv. rewrite Rmult_assoc, Rinv_l by lra. lra.
Qed.
Lemma rnd32_diff (x y : f32) : Rabs (rnd32 (R32 x - R32 y) - (R32 x - R32 y)) <= u32 * Rabs (R32 x - R32 y).
Proof.
  pose proof (rnd32_sum x (fneg y)) as H. rewrite fneg_R in H. exact H.
Qed.

Lemma div_01 a b : 0 <= a <= b -> 0 < b -> 0 <= a / b <= 1.
Proof.
  intros A B. split; [apply Rmult_le_pos; [lra|left; now apply Rinv_0_lt_compat]|].
  apply Rmult_le_reg_r with b; auto. unfold Rdiv. rewrite Rmult_assoc, Rinv_l by lra. lra.
Qed.

Lemma axis_R p (mul mn mx v : f32) (B : R) : (1 <= p <= 24)%nat -> R32 mul = IZR (steps p) -> fin mul ->
  fin mn -> fin mx -> fin v -> R32 mn <= R32 v <= R32 mx -> Rabs (R32 mn) <= B -> Rabs (R32 mx) <= B -> B <= 2 ^ 60 ->
  let y := dequantize (low p (quantize v mn (fmax (fsub mx mn) min_extent) mul)) (f32_of_N (mask_u64 p)) (fsub mx mn) mn in
  fin y /\ R32 mn <= R32 y <= R32 mx + / 2 ^ 20 * B /\
  Rabs (R32 y - R32 v) <= Rmax ((R32 mx - R32 mn) / IZR (steps p)) 0.000001001 + / 2 ^ 19 * B /\
  (R32 mn = R32 mx -> R32 y = R32 v).
Proof.
  intros HP M1 M2 Fn Fx Fv Hv Bn Bx HB y. pose proof u32_small as U. pose proof tiny_u as T.
  destruct min_extent_R as [E1 E2]. pose proof (steps_bounds p HP) as SB.
  assert (S1 : 1 <= IZR (steps p)) by (apply IZR_le; lia).
  set (M := IZR (steps p)) in *. set (a := R32 mn) in *. set (b := R32 mx) in *. set (x := R32 v) in *.
  apply Rabs_le_iff in Bn, Bx. assert (B0 : 0 <= B) by lra.
  assert (UB : 0 <= u32 * B) by (apply Rmult_le_pos; lra).
  assert (UB1 : u32 * B <= 0.0001 * B) by (apply Rmult_le_compat_r; lra).
  destruct (fsub_R mx mn Fx Fn) as [D1 D2]; [apply (fits_B B); auto; apply Rabs_le_iff; fold a b; lra|].
  fold a b in D1. set (D := R32 (fsub mx mn)) in *.
  destruct (fsub_R v mn Fv Fn) as [V1 V2]; [apply (fits_B B); auto; apply Rabs_le_iff; fold a x; lra|].
  fold a x in V1. set (d := R32 (fsub v mn)) in *.
  assert (d0 : 0 <= d) by (rewrite V1, <- rnd32_0; apply rnd32_le; lra).
  assert (dD : d <= D) by (rewrite V1, D1; apply rnd32_le; lra).
  pose proof (rnd32_diff mx mn) as DE. fold a b in DE. rewrite <- D1, (Rabs_pos_eq (b - a)) in DE by lra.
  pose proof (rnd32_diff v mn) as VE. fold a x in VE. rewrite <- V1, (Rabs_pos_eq (x - a)) in VE by lra.
  assert (ba : 0 <= u32 * (b - a) <= 2 * (u32 * B)).
  { split; [apply Rmult_le_pos; lra|]. replace (2 * (u32 * B)) with (u32 * (2 * B)) by ring. apply Rmult_le_compat_l; lra. }
  assert (xa : 0 <= u32 * (x - a) <= u32 * (b - a)).
  { split; [apply Rmult_le_pos; lra|]. apply Rmult_le_compat_l; lra. }
  apply Rabs_le_iff in DE, VE.
  assert (DB : 0 <= D <= 2 * B + 2 * (u32 * B)) by lra.
  destruct (fmax_R (fsub mx mn) min_extent D2 E1) as [X1 X2]. fold D in X1.
  set (s := fmax (fsub mx mn) min_extent) in *. set (sr := R32 s) in *.
  assert (s1 : D <= sr) by (rewrite X1; apply Rmax_l).
  assert (s2 : R32 min_extent <= sr) by (rewrite X1; apply Rmax_r).
  assert (sp : 0 < sr) by lra.
  assert (Q : 0 <= d / sr <= 1) by (apply div_01; lra).
  destruct (fdiv_R (fsub v mn) s V2) as [T1 T2]; [fold sr; lra|fold d sr; now apply fits1|].
  fold d sr in T1. set (t := R32 (fdiv (fsub v mn) s)) in *.
  assert (t01 : 0 <= t <= 1) by (rewrite T1; apply rnd32_between; [apply rnd32_0|apply rnd32_1|exact Q]).
  destruct (code_R p mul (fdiv (fsub v mn) s) HP M1 M2 T2 t01) as (C1 & C2 & C3). fold t in C1.
  unfold y, quantize, dequantize. clear y. rewrite C2.
  set (q := u64_of_f32 (fmul (fdiv (fsub v mn) s) mul)) in *.
  destruct (encode_R (steps p) t SB t01) as (_ & _ & C4). cbv zeta in C4. rewrite <- C1 in C4.
  destruct (value32_R p q HP C3) as (_ & W2 & W3 & W4). cbv zeta in *. fold M in C4, W4.
  set (w := fdiv (f32_of_N q) (f32_of_N (mask_u64 p))) in *. set (wr := R32 w) in *.
  assert (WD : 0 <= wr * D <= D).
  { split; [apply Rmult_le_pos; lra|]. pose proof (Rmult_le_compat_r D wr 1 ltac:(lra) ltac:(lra)). lra. }
  destruct (fmul_R w (fsub mx mn) W2 D2) as [G1 G2].
  { apply (fits_B B); auto. fold wr D. apply Rabs_le_iff. lra. }
  fold wr D in G1. set (g := R32 (fmul w (fsub mx mn))) in *.
  assert (g0 : 0 <= g <= D).
  { rewrite G1. apply rnd32_between; [apply rnd32_0|apply rnd32_R32|exact WD]. }
  destruct (fadd_R (fmul w (fsub mx mn)) mn G2 Fn) as [Y1 Y2].
  { apply (fits_B B); auto. fold g a. apply Rabs_le_iff. lra. }
  fold g a in Y1. set (y := R32 (fadd (fmul w (fsub mx mn)) mn)) in *.
  pose proof (rnd32_sum (fmul w (fsub mx mn)) mn) as YE. fold g a in YE. rewrite <- Y1 in YE.
  assert (GA : Rabs (g + a) <= B + 4 * (u32 * B)) by (apply Rabs_le_iff; lra).
  assert (GU : u32 * Rabs (g + a) <= 1.1 * (u32 * B)).
  { eapply Rle_trans; [apply Rmult_le_compat_l; [lra|exact GA]|].
    replace (u32 * (B + 4 * (u32 * B))) with (u32 * B + 4 * u32 * (u32 * B)) by ring.
    assert (4 * u32 * (u32 * B) <= 0.1 * (u32 * B)) by (apply Rmult_le_compat_r; lra). lra. }
  apply Rabs_le_iff in YE.
  assert (E20 : / 2 ^ 20 = 16 * u32) by (unfold u32; simpl pow; lra).
  assert (E19 : / 2 ^ 19 = 32 * u32) by (unfold u32; simpl pow; lra). rewrite E20, E19, !Rmult_assoc.
  split; [exact Y2|]. split; [|split].
  - split; [|lra]. rewrite Y1. apply Rle_trans with (rnd32 a); [right; symmetry; apply rnd32_R32|]. apply rnd32_le. lra.
  - assert (K : Rabs (g + a - x) <= Rmax ((b - a) / M) 0.000001001 + 25 * (u32 * B)).
    { destruct (Rle_lt_dec (R32 min_extent) D) as [L|L].
      - (* the extent is large enough *)
        assert (sD : sr = D) by (rewrite X1; apply Rmax_left; exact L).
        pose proof (rnd32_err1 (d / sr)) as TE. rewrite <- T1, (Rabs_pos_eq (d / sr)) in TE by lra. specialize (TE (proj2 Q)).
        assert (WT : Rabs (wr - d / D) <= / M + 5.1 * u32).
        { rewrite sD in TE. apply Rabs_le_iff in TE, C4, W4. apply Rabs_le_iff. lra. }
        assert (WG : Rabs (wr * D - d) <= D / M + 5.1 * (u32 * D)).
        { replace (wr * D - d) with ((wr - d / D) * D) by (field; lra). rewrite Rabs_mult, (Rabs_pos_eq D) by lra.
          replace (D / M + 5.1 * (u32 * D)) with ((/ M + 5.1 * u32) * D) by (field; lra). apply Rmult_le_compat_r; lra. }
        pose proof (rnd32_err (wr * D)) as GE. rewrite <- G1, (Rabs_pos_eq (wr * D)) in GE by lra.
        assert (uD : u32 * D <= 2.1 * (u32 * B)).
        { assert (u32 * D <= u32 * (2.1 * B)) by (apply Rmult_le_compat_l; [lra|]; assert (2 * (u32 * B) <= 0.1 * B) by (rewrite <- Rmult_assoc; apply Rmult_le_compat_r; lra); lra). lra. }
        assert (uwD : u32 * (wr * D) <= u32 * D) by (apply Rmult_le_compat_l; lra).
        assert (BM : 0.0000004 <= B).
        { assert (2 * (u32 * B) <= 0.1 * B) by (rewrite <- Rmult_assoc; apply Rmult_le_compat_r; lra). lra. }
        assert (tB : tiny32 <= u32 * B).
        { eapply Rle_trans; [exact (proj2 tiny32_bound)|]. apply Rle_trans with (u32 * 0.0000004); [|apply Rmult_le_compat_l; lra].
          unfold u32. cbn. lra. }
        assert (DM : D / M <= (b - a) / M + 2 * (u32 * B)).
        { replace ((b - a) / M + 2 * (u32 * B)) with ((b - a + 2 * (u32 * B) * M) * / M) by (field; lra).
          apply Rmult_le_compat_r; [left; apply Rinv_0_lt_compat; lra|].
          assert (2 * (u32 * B) * 1 <= 2 * (u32 * B) * M) by (apply Rmult_le_compat_l; lra). lra. }
        pose proof (Rmax_l ((b - a) / M) 0.000001001).
        apply Rabs_le_iff in WG, GE. apply Rabs_le_iff. lra.
      - pose proof (Rmax_r ((b - a) / M) 0.000001001).
        assert (u32 * (b - a) <= 0.0001 * (b - a)) by (apply Rmult_le_compat_r; lra).
        assert (b - a <= 0.000001001) by lra. apply Rabs_le_iff. lra. }
    apply Rabs_le_iff in K. apply Rabs_le_iff. lra.
  - intros AB. assert (D = 0) by (rewrite D1, AB; unfold b; rewrite Rminus_diag_eq by reflexivity; apply rnd32_0).
    assert (Hg : g = 0) by lra. rewrite Y1, Hg, Rplus_0_l. unfold a. rewrite rnd32_R32. fold a. lra.
Qed.

(** ** The stored box *)

Lemma least_add l m x l' : least l m -> (forall y, In y l' <-> y = x \/ In y l) -> least l' (Rmin m x).
Proof.
  intros [A B] E. split.
  - apply E. destruct (Rle_dec m x); [rewrite Rmin_left by auto; auto|rewrite Rmin_right by lra; auto].
  - intros y I. apply E in I as [->|I]; [apply Rmin_r|]. apply B in I. pose proof (Rmin_l m x). lra.
Qed.
Lemma greatest_add l m x l' : greatest l m -> (forall y, In y l' <-> y = x \/ In y l) -> greatest l' (Rmax m x).
Proof.
  intros [A B] E. split.
  - apply E. destruct (Rle_dec m x); [rewrite Rmax_right by auto; auto|rewrite Rmax_left by lra; auto].
  - intros y I. apply E in I as [->|I]; [apply Rmax_r|]. apply B in I. pose proof (Rmax_l m x). lra.
Qed.
Lemma least_one x : least [x] x. Proof. split; [now left|]. intros y [->|[]]. lra. Qed.
Lemma greatest_one x : greatest [x] x. Proof. split; [now left|]. intros y [->|[]]. lra. Qed.
Lemma xs_app a v : xs (a ++ [v]) = xs a ++ [R32 (vx v)]. Proof. unfold xs. now rewrite map_app. Qed.
Lemma ys_app a v : ys (a ++ [v]) = ys a ++ [R32 (vy v)]. Proof. unfold ys. now rewrite map_app. Qed.
Lemma zs_app a v : zs (a ++ [v]) = zs a ++ [R32 (vz v)]. Proof. unfold zs. now rewrite map_app. Qed.

Definition box_of (vs : list vec3) (b : bbox) : Prop :=
  stored_box vs (min_x b) (max_x b) (min_y b) (max_y b) (min_z b) (max_z b).

Ltac same_elements := intros; repeat rewrite in_app_iff; cbn [In xs ys zs map]; intuition congruence.
Lemma box_step vs b v : finite3 v -> box_of vs b -> box_of (vs ++ [v]) (bbox_step b v).
Proof.
  intros (Fx & Fy & Fz) [(F1 & F2 & F3 & F4 & F5 & F6) B1 B2 B3 B4 B5 B6].
  change (finite (vx v)) in Fx. change (finite (vy v)) in Fy. change (finite (vz v)) in Fz.
  change val with R32 in *. unfold bbox_step, box_of. cbv zeta. cbn [min_x max_x min_y max_y min_z max_z].
  destruct (fmin_R (min_x b) (vx v) F1 Fx) as [A1 G1].
  destruct (fmax_R (max_y b) (vy v) F4 Fy) as [A2 G2].
  destruct (fmin_R (min_z b) (vz v) F5 Fz) as [A3 G3].
  destruct (fmax_R _ (vx v) G2 Fx) as [A4 G4].
  destruct (fmin_R _ (vy v) G3 Fy) as [A5 G5].
  destruct (fmax_R (max_z b) (vz v) F6 Fz) as [A6 G6].
  assert (M2 : greatest (xs vs ++ ys (vs ++ [v])) (R32 (fmax (max_y b) (vy v)))).
  { rewrite A2. eapply greatest_add; [exact B4|]. rewrite ys_app. same_elements. }
  assert (M3 : least (ys vs ++ zs (vs ++ [v])) (R32 (fmin (min_z b) (vz v)))).
  { rewrite A3. eapply least_add; [exact B5|]. rewrite zs_app. same_elements. }
  constructor; change val with R32.
  - repeat split; assumption.
  - rewrite A1. eapply least_add; [exact B1|]. rewrite xs_app. same_elements.
  - rewrite removelast_last. exact M2.
  - rewrite removelast_last. exact M3.
  - rewrite A4. eapply greatest_add; [exact M2|]. rewrite xs_app. same_elements.
  - rewrite A5. eapply least_add; [exact M3|]. rewrite ys_app. same_elements.
  - rewrite A6. eapply greatest_add; [exact B6|]. rewrite zs_app. same_elements.
Qed.
Lemma box_first v : finite3 v -> box_of [v] (bbox_step (bbox_init v) v).
Proof.
  intros (Fx & Fy & Fz). change (finite (vx v)) in Fx. change (finite (vy v)) in Fy. change (finite (vz v)) in Fz.
  unfold bbox_step, box_of, bbox_init. cbv zeta. cbn [min_x max_x min_y max_y min_z max_z].
  destruct (fmin_R (vx v) (vx v) Fx Fx) as [A1 G1].
  destruct (fmax_R (vy v) (vy v) Fy Fy) as [A2 G2].
  destruct (fmin_R (vz v) (vz v) Fz Fz) as [A3 G3].
  destruct (fmax_R _ (vx v) G2 Fx) as [A4 G4].
  destruct (fmin_R _ (vy v) G3 Fy) as [A5 G5].
  destruct (fmax_R (vz v) (vz v) Fz Fz) as [A6 G6].
  rewrite Rmin_left in A1, A3 by lra. rewrite Rmax_left in A2, A6 by lra. rewrite A2 in A4. rewrite A3 in A5.
  constructor; change val with R32; cbn [xs ys zs map removelast app]; change val with R32;
    fold (vx v) (vy v) (vz v).
  - repeat split; assumption.
  - rewrite A1. apply least_one.
  - rewrite A2. apply greatest_one.
  - rewrite A3. apply least_one.
  - rewrite A4. eapply greatest_add; [apply greatest_one|]. same_elements.
  - rewrite A5. eapply least_add; [apply least_one|]. same_elements.
  - rewrite A6. apply greatest_one.
Qed.
Lemma box_fold v0 vs : finite3 v0 -> Forall finite3 vs -> box_of (v0 :: vs) (fold_left bbox_step (v0 :: vs) (bbox_init v0)).
Proof.
  intros F0 F. induction vs as [|v vs IH] using rev_ind.
  - now apply box_first.
  - apply Forall_app in F as [F1 F2]. apply Forall_inv in F2.
    change (v0 :: vs ++ [v]) with ((v0 :: vs) ++ [v]). rewrite fold_left_app. cbn [fold_left]. apply box_step; auto.
Qed.
Lemma box_is (vs : list vec3) b : Forall finite3 vs -> bounding_box (E:=ioerr) vs = Ok b -> box_of vs b.
Proof.
  intros F E. destruct vs as [|v vs]; [discriminate|]. cbn [bounding_box] in E. apply Ok_inj in E. subst b.
  apply Forall_cons_iff in F as [F0 F]. now apply box_fold.
Qed.

Lemma box_bounded B vs x0 x1 y0 y1 z0 z1 : Forall (bounded B) vs -> stored_box vs x0 x1 y0 y1 z0 z1 ->
  Forall (fun x => Rabs (val x) <= B) [x0; x1; y0; y1; z0; z1].
Proof.
  intros F [_ B1 B2 B3 B4 B5 B6]. rewrite Forall_forall in F.
  assert (X : forall r, In r (xs vs) \/ In r (ys vs) \/ In r (zs vs) -> Rabs r <= B).
  { unfold xs, ys, zs. intros r [I|[I|I]]; apply in_map_iff in I as (v & <- & I); apply F in I as (_ & ? & ? & ?); auto. }
  assert (S : forall f r, In r (map f (removelast vs)) -> In r (map (f : vec3 -> R) vs)).
  { intros f r I. apply in_map_iff in I as (v & <- & I). apply in_map. destruct vs as [|u vs]; [contradiction|].
    rewrite (app_removelast_last u) by discriminate. apply in_or_app. now left. }
  unfold xs, ys, zs in *.
  repeat apply Forall_cons; [..|apply Forall_nil]; apply X.
  - left. apply B1.
  - destruct B2 as [I _]. apply in_app_or in I as [I|I]; auto.
  - destruct B3 as [I _]. apply in_app_or in I as [I|I]; auto.
  - destruct B4 as [I _]. apply in_app_or in I as [I|I]; auto.
  - destruct B5 as [I _]. apply in_app_or in I as [I|I]; auto.
  - destruct B6 as [I _]. auto.
Qed.

(** ** Coordinates outside the box, empty extents and wide codes *)

Lemma steps_30 p : (1 <= p <= 30)%nat -> (1 <= steps p <= 2 ^ 30)%Z.
Proof.
  intros B. unfold steps. assert (2 ^ 1 <= 2 ^ Z.of_nat p <= 2 ^ 30)%Z by (split; apply Z.pow_le_mono_r; lia). lia.
Qed.
Lemma f32_of_small z : (0 <= z <= 2 ^ 30)%Z -> fin (f32_of_Z z) /\ 0 <= R32 (f32_of_Z z) <= 2 ^ 30 /\ ((1 <= z)%Z -> 1 <= R32 (f32_of_Z z)).
Proof.
  intros B. assert (I : 0 <= IZR z <= 2 ^ 30).
  { split; [apply IZR_le; lia|]. replace (2 ^ 30) with (IZR (2 ^ 30)) by (rewrite pow_IZR; reflexivity). apply IZR_le. lia. }
  destruct (f32_of_Z_R z) as [A F].
  { rewrite Rabs_pos_eq, big32_pow by lra. eapply Rle_trans; [apply I|apply pow2_le; lia]. }
  split; [exact F|]. rewrite A. split.
  - split; [rewrite <- rnd32_0; apply rnd32_le; lra|].
    assert (E : 2 ^ 30 = bpow radix2 30) by (rewrite <- IZR_Zpower, pow_IZR by lia; reflexivity). rewrite E in *.
    eapply Rle_trans; [apply Rle_abs|]. apply rnd32_abs_le_bpow; [lia|]. rewrite Rabs_pos_eq; lra.
  - intros H1. rewrite <- rnd32_1. apply rnd32_le. apply (IZR_le 1). exact H1.
Qed.
Lemma low_lt p q : (p <= 30)%nat -> (0 <= Z.of_N (low p q) <= 2 ^ 30)%Z.
Proof.
  intros B. unfold low. assert (q mod 2 ^ N.of_nat p < 2 ^ N.of_nat p)%N by (apply N.mod_lt, N.pow_nonzero; lia).
  assert (2 ^ N.of_nat p <= 2 ^ 30)%N by (apply N.pow_le_mono_r; lia). lia.
Qed.

Lemma mul_zero_R (x y : f32) : fin x -> fin y -> R32 x = 0 \/ R32 y = 0 -> R32 (fmul x y) = 0 /\ fin (fmul x y).
Proof.
  intros Fx Fy Z. assert (Z' : R32 x * R32 y = 0) by (destruct Z as [->| ->]; ring).
  destruct (fmul_R x y Fx Fy) as [A B]; [rewrite Z', Rabs_R0, big32_pow; apply pow_le; lra|].
  rewrite A, Z'. split; [apply rnd32_0|exact B].
Qed.
Lemma add_zero_R (x y : f32) B : fin x -> fin y -> R32 x = 0 -> Rabs (R32 y) <= B -> B <= 2 ^ 60 -> R32 (fadd x y) = R32 y /\ fin (fadd x y).
Proof.
  intros Fx Fy Z By HB. assert (Z' : R32 x + R32 y = R32 y) by (rewrite Z; ring).
  destruct (fadd_R x y Fx Fy) as [A C]; [rewrite Z', big32_pow; eapply Rle_trans; [exact By|]; eapply Rle_trans; [exact HB|apply pow2_le; lia]|].
  rewrite A, Z', rnd32_R32. split; [reflexivity|exact C].
Qed.

Lemma code_value_R p q : (1 <= p <= 30)%nat -> 
  fin (fdiv (f32_of_N (low p q)) (f32_of_N (mask_u64 p))) /\ (low p q = 0%N -> R32 (fdiv (f32_of_N (low p q)) (f32_of_N (mask_u64 p))) = 0).
Proof.
  intros B. unfold f32_of_N. destruct (f32_of_small _ (low_lt p q ltac:(lia))) as (F1 & B1 & _).
  rewrite steps_N. pose proof (steps_30 p B) as S. destruct (f32_of_small (steps p)) as (F2 & B2 & B3); [lia|].
  specialize (B3 ltac:(lia)).
  set (a := R32 (f32_of_Z (Z.of_N (low p q)))) in *. set (b := R32 (f32_of_Z (steps p))) in *.
  destruct (fdiv_R (f32_of_Z (Z.of_N (low p q))) (f32_of_Z (steps p)) F1) as [A F]; fold a b; [lra| |].
  - assert (0 <= a / b <= a).
    { split; [apply Rmult_le_pos; [lra|left; apply Rinv_0_lt_compat; lra]|].
      rewrite <- (Rmult_1_r a) at 2. apply Rmult_le_compat_l; [lra|]. rewrite <- Rinv_1. apply Rinv_le_contravar; lra. }
    rewrite Rabs_pos_eq, big32_pow by lra. apply Rle_trans with (2 ^ 30); [lra|apply pow2_le; lia].
  - split; [exact F|]. intros Z. rewrite A. fold a b. unfold a. rewrite Z. cbn [Z.of_N].
    destruct (f32_of_Z_exact 0) as [-> _]; [lia|]. unfold Rdiv. rewrite Rmult_0_l. apply rnd32_0.
Qed.

(** The result is the lower bound when the code is 0 or the extent is empty. *)
Lemma dequantize_low p q (D mn : f32) B : (1 <= p <= 30)%nat -> fin D -> fin mn -> Rabs (R32 mn) <= B -> B <= 2 ^ 60 ->
  low p q = 0%N \/ R32 D = 0 ->
  let y := dequantize (low p q) (f32_of_N (mask_u64 p)) D mn in fin y /\ R32 y = R32 mn.
Proof.
  intros HP FD Fm Bm HB Z y. destruct (code_value_R p q HP) as [F1 Z1]. unfold y, dequantize.
  destruct (mul_zero_R _ D F1 FD) as [A1 A2]; [destruct Z; auto|].
  destruct (add_zero_R _ mn B A2 Fm A1 Bm HB) as [A3 A4]. auto.
Qed.

(** A coordinate below the lower bound gets code 0. *)
Lemma below_code {E} p mul (mn mx v : f32) B : (1 <= p)%nat -> mask_f32 (E:=E) true p = Ok mul ->
  fin mn -> fin mx -> fin v -> Rabs (R32 mn) <= B -> Rabs (R32 mx) <= B -> Rabs (R32 v) <= B -> B <= 2 ^ 60 -> R32 v <= R32 mn ->
  low p (quantize v mn (fmax (fsub mx mn) min_extent) mul) = 0%N.
Proof.
  intros HP M Fn Fx Fv Bn Bx Bv HB L. pose proof (mask_30 _ _ M) as P30. rewrite (mask_is _ _ M).
  pose proof (steps_30 p ltac:(lia)) as S. destruct (f32_of_small (steps p)) as (F1 & B1 & _); [lia|].
  destruct min_extent_R as [E1 E2]. apply Rabs_le_iff in Bn, Bx, Bv.
  destruct (fsub_R mx mn Fx Fn) as [_ D2]; [apply (fits_B B); auto; apply Rabs_le_iff; lra|].
  destruct (fsub_R v mn Fv Fn) as [V1 V2]; [apply (fits_B B); auto; apply Rabs_le_iff; lra|].
  destruct (fmax_R (fsub mx mn) min_extent D2 E1) as [X1 X2].
  set (s := fmax (fsub mx mn) min_extent) in *. set (d := R32 (fsub v mn)) in *. set (mul' := f32_of_Z (steps p)) in *.
  assert (s2 : R32 min_extent <= R32 s) by (rewrite X1; apply Rmax_r).
  assert (d0 : - (2 ^ 62) <= d <= 0).
  { split; [|rewrite V1, <- rnd32_0; apply rnd32_le; lra].
    assert (Rabs d <= bpow radix2 62).
    { rewrite V1. apply rnd32_abs_le_bpow; [lia|]. rewrite <- IZR_Zpower by lia. change (IZR (radix2 ^ 62)) with 4611686018427387904.
      simpl pow in HB. apply Rabs_le_iff. lra. }
    apply Rabs_le_iff in H. rewrite <- IZR_Zpower in H by lia. change (IZR (radix2 ^ 62)) with 4611686018427387904 in H. simpl pow. lra. }
  assert (I : 0 < / R32 s <= 1100000).
  { split; [apply Rinv_0_lt_compat; lra|]. apply Rle_trans with (/ 0.00000099999); [apply Rinv_le_contravar; lra|lra]. }
  assert (Q : - (2 ^ 83) <= d / R32 s <= 0).
  { unfold Rdiv. split.
    - assert (2 ^ 62 * / R32 s <= 2 ^ 62 * 1100000) by (apply Rmult_le_compat_l; [apply pow_le|]; lra).
      assert (- (2 ^ 62) * / R32 s <= d * / R32 s) by (apply Rmult_le_compat_r; lra). simpl pow in *. lra.
    - assert (0 <= (- d) * / R32 s) by (apply Rmult_le_pos; lra). lra. }
  destruct (fdiv_R (fsub v mn) s V2) as [T1 T2]; [lra| |].
  { fold d. rewrite big32_pow. apply Rle_trans with (2 ^ 83); [apply Rabs_le_iff; lra|apply pow2_le; lia]. }
  fold d in T1. set (t := R32 (fdiv (fsub v mn) s)) in *.
  assert (t0 : - (2 ^ 83) <= t <= 0).
  { split; [|rewrite T1, <- rnd32_0; apply rnd32_le; lra].
    assert (E83 : 2 ^ 83 = bpow radix2 83) by (rewrite <- IZR_Zpower, pow_IZR by lia; reflexivity). rewrite E83 in *.
    assert (K : Rabs t <= bpow radix2 83) by (rewrite T1; apply rnd32_abs_le_bpow; [lia|]; apply Rabs_le_iff; lra).
    apply Rabs_le_iff in K. lra. }
  destruct (fmul_R (fdiv (fsub v mn) s) mul' T2 F1) as [M1 M2].
  { fold t. rewrite Rabs_left1.
    - rewrite big32_pow. apply Rle_trans with (2 ^ 83 * 2 ^ 30); [|rewrite <- pow_add; apply pow2_le; lia].
      replace (- (t * R32 mul')) with ((- t) * R32 mul') by ring. apply Rmult_le_compat; lra.
    - assert (0 <= (- t) * R32 mul') by (apply Rmult_le_pos; lra). lra. }
  unfold quantize. rewrite u64_neg; [unfold low; apply N.mod_0_l, N.pow_nonzero; lia|exact M2|].
  rewrite M1. fold t. rewrite <- rnd32_0. apply rnd32_le.
  assert (0 <= (- t) * R32 mul') by (apply Rmult_le_pos; lra). lra.
Qed.

(** The greatest coordinate gets code 0 with 25 bits or more. *)
Lemma is_one (x : f32) : fin x -> R32 x = 1 -> x = f1.
Proof.
  intros F E. destruct f1_R as [A B]. apply B2R_Bsign_inj; auto; [unfold R32 in *; lra|].
  destruct x as [s|s| |s m e H]; try discriminate; [cbn in E; lra|]. destruct s; [|reflexivity].
  exfalso. unfold R32 in E. assert (B2R (B754_finite true m e H) < 0) by (apply F2R_lt_0; reflexivity). lra.
Qed.
Lemma top_code {E} p mul (mn mx v : f32) B : (25 <= p)%nat -> mask_f32 (E:=E) true p = Ok mul ->
  fin mn -> fin mx -> fin v -> Rabs (R32 mn) <= B -> Rabs (R32 mx) <= B -> B <= 2 ^ 60 ->
  0.000001001 <= R32 mx - R32 mn -> R32 v = R32 mx ->
  low p (quantize v mn (fmax (fsub mx mn) min_extent) mul) = 0%N.
Proof.
  intros HP M Fn Fx Fv Bn Bx HB L V. destruct min_extent_R as [E1 E2]. pose proof u32_small as U. apply Rabs_le_iff in Bn, Bx.
  destruct (fsub_R mx mn Fx Fn) as [D1 D2]; [apply (fits_B B); auto; apply Rabs_le_iff; lra|].
  destruct (fsub_R v mn Fv Fn) as [V1 V2]; [rewrite V; apply (fits_B B); auto; apply Rabs_le_iff; lra|].
  rewrite V, <- D1 in V1. destruct (fmax_R (fsub mx mn) min_extent D2 E1) as [X1 X2].
  pose proof (rnd32_diff mx mn) as DE. rewrite <- D1, (Rabs_pos_eq (R32 mx - R32 mn)) in DE by lra. apply Rabs_le_iff in DE.
  assert (u32 * (R32 mx - R32 mn) <= 0.0001 * (R32 mx - R32 mn)) by (apply Rmult_le_compat_r; lra).
  rewrite Rmax_left in X1 by lra. set (s := fmax (fsub mx mn) min_extent) in *.
  assert (Q : R32 (fsub v mn) / R32 s = 1) by (rewrite V1, X1; field; lra).
  destruct (fdiv_R (fsub v mn) s V2) as [T1 T2]; [lra|rewrite Q, Rabs_R1, big32_pow; apply pow_R1_Rle; lra|].
  rewrite Q, rnd32_1 in T1. unfold quantize. rewrite (is_one _ T2 T1). eapply one_lost; eauto.
Qed.

(** ** Edge lengths *)

Lemma pow50 x : Rabs x <= 2 ^ 50 -> - 1125899906842624 <= x <= 1125899906842624.
Proof. intros A. apply Rabs_le_iff in A. simpl pow in A. lra. Qed.
Lemma big_ok x : 0 <= x <= 2 ^ 110 -> Rabs x <= big32.
Proof. intros A. rewrite Rabs_pos_eq, big32_pow by lra. eapply Rle_trans; [apply A|apply pow2_le; lia]. Qed.

Lemma square_R (x y : f32) : fin x -> fin y -> Rabs (R32 x) <= 2 ^ 50 -> Rabs (R32 y) <= 2 ^ 50 ->
  let q := fmul (fsub x y) (fsub x y) in let d := R32 x - R32 y in
  fin q /\ 0 <= R32 q /\ Rabs (R32 q - d * d) <= 3.1 * (u32 * (d * d)) + tiny32 /\ d * d <= 2 ^ 102.
Proof.
  intros Fx Fy Bx By q d. pose proof u32_small as U. pose proof tiny_u as T. apply pow50 in Bx, By.
  assert (dB : Rabs d <= 2 ^ 51) by (apply Rabs_le_iff; unfold d; simpl pow; lra).
  destruct (fsub_R x y Fx Fy) as [D1 D2].
  { fold d. rewrite big32_pow. eapply Rle_trans; [exact dB|apply pow2_le; lia]. }
  pose proof (rnd32_diff x y) as DE. fold d in D1, DE. rewrite <- D1 in DE. set (X := R32 (fsub x y)) in *.
  assert (dd : d * d <= 2 ^ 51 * 2 ^ 51).
  { rewrite <- (abs_sq d). apply mul_le; auto; apply Rabs_pos. }
  assert (dp : 0 <= d * d) by apply Rle_0_sqr.
  assert (up : 0 <= u32 * (d * d) <= 0.0001 * (d * d)) by (split; [apply Rmult_le_pos; lra|apply Rmult_le_compat_r; lra]).
  assert (XE : Rabs (X * X - d * d) <= 2.05 * (u32 * (d * d))).
  { replace (X * X - d * d) with (2 * d * (X - d) + (X - d) * (X - d)) by ring.
    eapply Rle_trans; [apply Rabs_triang|]. rewrite !Rabs_mult, (Rabs_pos_eq 2) by lra.
    pose proof (Rabs_pos d). pose proof (Rabs_pos (X - d)).
    assert (2 * Rabs d * Rabs (X - d) <= 2 * Rabs d * (u32 * Rabs d)) by (apply Rmult_le_compat_l; lra).
    assert (Rabs (X - d) * Rabs (X - d) <= (u32 * Rabs d) * (u32 * Rabs d)) by (apply mul_le; lra).
    replace (2 * Rabs d * (u32 * Rabs d)) with (2 * u32 * (Rabs d * Rabs d)) in * by ring.
    replace ((u32 * Rabs d) * (u32 * Rabs d)) with (u32 * (u32 * (Rabs d * Rabs d))) in * by ring.
    rewrite (abs_sq d) in *.
    assert (u32 * (u32 * (d * d)) <= 0.05 * (u32 * (d * d))) by (apply Rmult_le_compat_r; lra). lra. }
  assert (XX : 0 <= X * X) by apply Rle_0_sqr. apply Rabs_le_iff in XE.
  assert (E102 : 2 ^ 51 * 2 ^ 51 = 2 ^ 102) by (rewrite <- pow_add; reflexivity). rewrite E102 in dd.
  destruct (fmul_R (fsub x y) (fsub x y) D2 D2) as [Q1 Q2].
  { fold X. apply big_ok. split; [exact XX|]. apply Rle_trans with (2 * 2 ^ 102); [lra|]. change (2 * 2 ^ 102) with (2 ^ 103). apply pow2_le. lia. }
  fold q X in Q1, Q2. pose proof (rnd32_err (X * X)) as QE. rewrite <- Q1, (Rabs_pos_eq (X * X)) in QE by lra.
  split; [exact Q2|]. split; [rewrite Q1, <- rnd32_0; apply rnd32_le; exact XX|]. split; [|exact dd].
  assert (u32 * (X * X) <= u32 * (1.01 * (d * d))) by (apply Rmult_le_compat_l; lra).
  apply Rabs_le_iff in QE. apply Rabs_le_iff. lra.
Qed.

Lemma sqrt_err a d e : 0 <= a -> 0 < d -> Rabs (a - d * d) <= e * (d * d) -> Rabs (sqrt a - d) <= e * d.
Proof.
  intros A D E. pose proof (sqrt_pos a) as P. pose proof (sqrt_sqrt a A) as S. set (r := sqrt a) in *.
  apply Rmult_le_reg_r with (r + d); [lra|]. rewrite <- (Rabs_pos_eq (r + d)) at 1 by lra. rewrite <- Rabs_mult.
  replace ((r - d) * (r + d)) with (r * r - d * d) by ring. rewrite S. eapply Rle_trans; [exact E|].
  assert (0 <= e).
  { assert (0 <= e * (d * d)) by (eapply Rle_trans; [apply Rabs_pos|exact E]).
    assert (0 < d * d) by (apply Rmult_lt_0_compat; auto). apply Rmult_le_reg_r with (d * d); auto. lra. }
  assert (0 <= e * d * r) by (repeat apply Rmult_le_pos; lra). replace (e * d * (r + d)) with (e * d * r + e * (d * d)) by ring. lra.
Qed.

Lemma distance_R a b : bounded (2 ^ 50) a -> bounded (2 ^ 50) b -> / 2 ^ 20 <= dist3 a b ->
  fin (distance a b) /\ Rabs (R32 (distance a b) - dist3 a b) <= / 2 ^ 20 * dist3 a b.
Proof.
  intros ((A1 & A2 & A3) & A4 & A5 & A6) ((B1 & B2 & B3) & B4 & B5 & B6) L. pose proof u32_small as U. pose proof tiny32_bound as [T0 T].
  change val with R32 in *. unfold finite in *.
  change (fst (fst a)) with (vx a) in *. change (snd (fst a)) with (vy a) in *. change (snd a) with (vz a) in *.
  change (fst (fst b)) with (vx b) in *. change (snd (fst b)) with (vy b) in *. change (snd b) with (vz b) in *.
  destruct (square_R (vx a) (vx b) A1 B1 A4 B4) as (X1 & X2 & X3 & X4).
  destruct (square_R (vy a) (vy b) A2 B2 A5 B5) as (Y1 & Y2 & Y3 & Y4).
  destruct (square_R (vz a) (vz b) A3 B3 A6 B6) as (Z1 & Z2 & Z3 & Z4).
  unfold distance. cbv zeta in *. unfold dist3 in *. change val with R32 in *.
  change (fst (fst a)) with (vx a) in *. change (snd (fst a)) with (vy a) in *. change (snd a) with (vz a) in *.
  change (fst (fst b)) with (vx b) in *. change (snd (fst b)) with (vy b) in *. change (snd b) with (vz b) in *.
  set (dx := R32 (vx a) - R32 (vx b)) in *. set (dy := R32 (vy a) - R32 (vy b)) in *. set (dz := R32 (vz a) - R32 (vz b)) in *.
  set (qx := fmul (fsub (vx a) (vx b)) (fsub (vx a) (vx b))) in *. set (qy := fmul (fsub (vy a) (vy b)) (fsub (vy a) (vy b))) in *.
  set (qz := fmul (fsub (vz a) (vz b)) (fsub (vz a) (vz b))) in *.
  assert (PX : 0 <= dx * dx) by apply Rle_0_sqr. assert (PY : 0 <= dy * dy) by apply Rle_0_sqr. assert (PZ : 0 <= dz * dz) by apply Rle_0_sqr.
  set (S := dx * dx + dy * dy + dz * dz) in *. set (d := sqrt S) in *.
  assert (DS : d * d = S) by (apply sqrt_sqrt; unfold S; lra).
  assert (dp : 0 < d) by (simpl pow in L; lra).
  assert (S40 : / 1099511627776 <= S).
  { rewrite <- DS. replace (/ 1099511627776) with (/ 2 ^ 20 * / 2 ^ 20) by (simpl pow; lra). apply mul_le; auto; simpl pow; lra. }
  change (2 ^ 100)%Z with 1267650600228229401496703205376%Z in T.
  assert (tS : tiny32 <= 0.01 * (u32 * S)).
  { eapply Rle_trans; [exact T|]. apply Rle_trans with (0.01 * (u32 * / 1099511627776)); [unfold u32; lra|].
    apply Rmult_le_compat_l; [lra|]. apply Rmult_le_compat_l; lra. }
  assert (uS : 0 <= u32 * S <= 0.0001 * S) by (split; [apply Rmult_le_pos; lra|apply Rmult_le_compat_r; lra]).
  assert (uX : 0 <= u32 * (dx * dx)) by (apply Rmult_le_pos; lra).
  assert (uY : 0 <= u32 * (dy * dy)) by (apply Rmult_le_pos; lra).
  assert (uZ : 0 <= u32 * (dz * dz)) by (apply Rmult_le_pos; lra).
  assert (US : u32 * S = u32 * (dx * dx) + u32 * (dy * dy) + u32 * (dz * dz)) by (unfold S; ring).
  apply Rabs_le_iff in X3, Y3, Z3.
  assert (SB : S <= 3 * 2 ^ 102) by (unfold S; lra).
  assert (SB2 : 4 * 2 ^ 102 <= 2 ^ 110) by (replace 4 with (2 ^ 2) by (simpl; lra); rewrite <- pow_add; apply pow2_le; lia).
  destruct (fadd_R qx qy X1 Y1) as [H1 H2]; [apply big_ok; unfold S in *; lra|].
  pose proof (rnd32_sum qx qy) as E1. rewrite <- H1, (Rabs_pos_eq (R32 qx + R32 qy)) in E1 by lra.
  set (s1 := R32 (fadd qx qy)) in *.
  assert (s10 : 0 <= s1) by (rewrite H1, <- rnd32_0; apply rnd32_le; lra).
  assert (u32 * (R32 qx + R32 qy) <= u32 * (1.01 * S)) by (apply Rmult_le_compat_l; unfold S in *; lra).
  apply Rabs_le_iff in E1.
  destruct (fadd_R (fadd qx qy) qz H2 Z1) as [H3 H4]; [fold s1; apply big_ok; unfold S in *; lra|].
  pose proof (rnd32_sum (fadd qx qy) qz) as E2. fold s1 in E2, H3. rewrite <- H3, (Rabs_pos_eq (s1 + R32 qz)) in E2 by lra.
  set (s2 := R32 (fadd (fadd qx qy) qz)) in *.
  assert (s20 : 0 <= s2) by (rewrite H3, <- rnd32_0; apply rnd32_le; lra).
  assert (u32 * (s1 + R32 qz) <= u32 * (1.02 * S)) by (apply Rmult_le_compat_l; unfold S in *; lra).
  apply Rabs_le_iff in E2.
  assert (K : Rabs (s2 - d * d) <= 6 * u32 * (d * d)).
  { rewrite DS, Rmult_assoc. unfold S in DS |- *. fold S. apply Rabs_le_iff. unfold S in *. lra. }
  apply sqrt_err in K; auto.
  destruct (fsqrt_R _ H4 s20) as [R1 R2]. fold s2 in R1. split; [exact R2|]. rewrite R1.
  pose proof (rnd32_err (sqrt s2)) as E3. rewrite (Rabs_pos_eq (sqrt s2)) in E3 by apply sqrt_pos.
  apply Rabs_le_iff in K, E3.
  assert (ud : 0 <= u32 * d <= 0.0001 * d) by (split; [apply Rmult_le_pos; lra|apply Rmult_le_compat_r; lra]).
  assert (u32 * sqrt s2 <= u32 * (1.1 * d)) by (apply Rmult_le_compat_l; lra).
  assert (tiny32 <= 0.01 * (u32 * d)).
  { eapply Rle_trans; [exact T|]. apply Rle_trans with (0.01 * (u32 * / 2 ^ 20)); [unfold u32; simpl pow; lra|].
    apply Rmult_le_compat_l; [lra|]. apply Rmult_le_compat_l; lra. }
  replace (/ 2 ^ 20 * d) with (16 * (u32 * d)) by (unfold u32; simpl pow; lra). apply Rabs_le_iff. lra.
Qed.

Lemma fmin_inf (y : f32) : fin y -> fmin f32_inf y = y.
Proof. intros F. unfold fmin, f32_inf. cbn [is_nan]. destruct y as [s|s| |s m e H]; try discriminate; try reflexivity; destruct s; reflexivity. Qed.

Definition inf_or_fin (x : f32) := x = f32_inf \/ fin x.
Lemma fmin_acc (x y : f32) : inf_or_fin x -> fin y ->
  fin (fmin x y) /\ R32 (fmin x y) <= R32 y /\ (fin x -> R32 (fmin x y) <= R32 x) /\ (fmin x y = x \/ fmin x y = y).
Proof.
  intros [->|Fx] Fy.
  - rewrite fmin_inf by auto. split; auto. split; [lra|]. split; auto. discriminate.
  - destruct (fmin_R x y Fx Fy) as [A B]. split; auto. rewrite A. split; [apply Rmin_r|]. split; [intros _; apply Rmin_l|].
    unfold fmin. destruct (is_nan x); auto. destruct (is_nan y); auto. destruct (flt y x); auto.
Qed.

(** [e] is the length [d] up to rounding. *)
Definition edge_near (d : R) (e : f32) : Prop := fin e /\ Rabs (R32 e - d) <= / 2 ^ 20 * d.
Lemma shortest_loop_R vs tris : Forall (bounded (2 ^ 50)) vs -> forall acc e,
  (forall d, side_of vs tris d -> / 2 ^ 20 <= d) -> inf_or_fin acc -> shortest_loop vs tris acc = Ok e ->
  (e = acc \/ exists d, side_of vs tris d /\ edge_near d e) /\
  (forall d, side_of vs tris d -> fin e /\ R32 e <= (1 + / 2 ^ 20) * d) /\ (fin acc -> fin e /\ R32 e <= R32 acc).
Proof.
  intros FB. rewrite Forall_forall in FB.
  induction tris as [tris IH] using (induction_ltof1 _ (@length N)). intros acc e L IA E.
  destruct tris as [|a [|b [|c t]]].
  1,2,3: cbn [shortest_loop] in E; apply Ok_inj in E; subst e; split; [now left|split; [intros d S; inversion S|split; auto; lra]].
  cbn [shortest_loop] in E. unfold index in E.
  destruct (get vs a) as [va|] eqn:Ga; [|discriminate]. destruct (get vs b) as [vb|] eqn:Gb; [|discriminate].
  destruct (get vs c) as [vc|] eqn:Gc; [|discriminate]. cbn [bind] in E. rewrite get_nth in Ga, Gb, Gc.
  assert (S3 : forall d, d = dist3 va vb \/ d = dist3 vb vc \/ d = dist3 vc va -> side_of vs (a :: b :: c :: t) d).
  { intros d D. eapply side_first; eauto. }
  pose proof (FB va (nth_error_In _ _ Ga)) as Va. pose proof (FB vb (nth_error_In _ _ Gb)) as Vb. pose proof (FB vc (nth_error_In _ _ Gc)) as Vc.
  pose proof (distance_R va vb Va Vb (L _ (S3 _ (or_introl eq_refl)))) as D1.
  pose proof (distance_R vb vc Vb Vc (L _ (S3 _ (or_intror (or_introl eq_refl))))) as D2.
  pose proof (distance_R vc va Vc Va (L _ (S3 _ (or_intror (or_intror eq_refl))))) as D3.
  fold (edge_near (dist3 va vb) (distance va vb)) in D1. fold (edge_near (dist3 vb vc) (distance vb vc)) in D2. fold (edge_near (dist3 vc va) (distance vc va)) in D3.
  set (e1 := distance va vb) in *. set (e2 := distance vb vc) in *. set (e3 := distance vc va) in *.
  destruct (fmin_acc e2 e3 (or_intror (proj1 D2)) (proj1 D3)) as (M1 & M2 & M3 & M4). specialize (M3 (proj1 D2)).
  destruct (fmin_acc e1 (fmin e2 e3) (or_intror (proj1 D1)) M1) as (N1 & N2 & N3 & N4). specialize (N3 (proj1 D1)).
  set (m := fmin e1 (fmin e2 e3)) in *.
  destruct (fmin_acc acc m IA N1) as (O1 & O2 & O3 & O4).
  destruct (IH t) with (acc := fmin acc m) (e := e) as (A & B & C); auto.
  { unfold ltof. cbn. lia. }
  { intros d S. apply L. now apply side_later. }
  { now right. }
  destruct (C O1) as [C1 C2].
  assert (U : forall d x, edge_near d x -> R32 x <= (1 + / 2 ^ 20) * d).
  { intros d x [_ X]. apply Rabs_le_iff in X. lra. }
  split; [|split].
  - destruct A as [A|(d & A1 & A2)]; [|right; exists d; split; auto; now apply side_later].
    assert (X : e = acc \/ e = e1 \/ e = e2 \/ e = e3).
    { rewrite A. destruct O4 as [O4|O4]; [now left|right]. rewrite O4. destruct N4 as [N4|N4]; [now left|right]. rewrite N4. exact M4. }
    destruct X as [X|[X|[X|X]]]; [now left|right..]; rewrite X;
      [exists (dist3 va vb)|exists (dist3 vb vc)|exists (dist3 vc va)]; auto.
  - intros d S. inversion S as [a' b' c' t' va' vb' vc' d' G1 G2 G3 D|a' b' c' t' d' S']; subst; [|apply B; auto].
    split; [exact C1|]. rewrite Ga in G1. rewrite Gb in G2. rewrite Gc in G3. injection G1 as <-. injection G2 as <-. injection G3 as <-.
    apply U in D1, D2, D3. destruct D as [->|[->| ->]]; lra.
  - intros Fa. split; [exact C1|]. specialize (O3 Fa). lra.
Qed.

Lemma shortest_edge_R tris vs e s : Forall (bounded (2 ^ 50)) (match vs with Some v => v | None => [] end) -> / 2 ^ 20 <= s ->
  shortest_edge vs tris s -> calc_shortest_edge tris vs = Ok e -> edge_near s e.
Proof.
  intros FB Hs S E.
  assert (D : s = 0.1 -> edge_near s default_edge).
  { intros ->. destruct (flit_R 1 10) as [A B]; [lia|lia|]. fold default_edge in A, B. split; [exact B|]. rewrite A.
    pose proof (rnd32_err (1 / 10)) as Er. rewrite (Rabs_pos_eq (1 / 10)) in Er by lra.
    pose proof tiny32_bound as [_ T]. change (2 ^ 100)%Z with 1267650600228229401496703205376%Z in T.
    apply Rabs_le_iff in Er. apply Rabs_le_iff. unfold u32 in Er. simpl pow. lra. }
  unfold shortest_edge in S. unfold calc_shortest_edge in E.
  destruct tris as [[|i t]|]; [destruct vs; apply Ok_inj in E; subst; auto| |apply Ok_inj in E; subst; auto].
  destruct vs as [v|]; [|apply Ok_inj in E; subst; auto]. destruct S as [S1 S2].
  destruct (shortest_loop v (i :: t) f32_inf) as [r| |] eqn:R; try discriminate. cbn [bind] in E.
  destruct (is_finite r) eqn:Fr; [|discriminate]. apply Ok_inj in E. subst r.
  destruct (shortest_loop_R v (i :: t) FB f32_inf e) as (A & B & _); auto.
  { intros d Sd. apply S2 in Sd. lra. }
  { now left. }
  split; [exact Fr|]. destruct (B s S1) as [_ B1]. destruct A as [->|(d & D1 & _ & D2)]; [discriminate|].
  apply S2 in D1. apply Rabs_le_iff in D2. apply Rabs_le_iff.
  assert (/ 2 ^ 20 <= 0.1) by (simpl pow; lra).
  assert ((1 - / 2 ^ 20) * s <= (1 - / 2 ^ 20) * d) by (apply Rmult_le_compat_l; lra). lra.
Qed.

(** ** The width of an axis *)

Lemma rnd32_rel x : bpow radix2 (-126) <= Rabs x -> Rabs (rnd32 x - x) <= u32 * Rabs x.
Proof.
  intros B. pose proof (relative_error_N_FLT radix2 (-149) 24 eq_refl (fun z => negb (Z.even z)) x B) as E.
  replace (/ 2 * bpow radix2 (- (24) + 1)) with u32 in E; [exact E|].
  change (bpow radix2 (-(24) + 1)) with (/ IZR (2 ^ 23)). unfold u32. cbn. lra.
Qed.
Lemma rnd32_rel_pos x : / 2 ^ 100 <= x -> (1 - u32) * x <= rnd32 x <= (1 + u32) * x.
Proof.
  intros B. assert (0 < / 2 ^ 100) by (apply Rinv_0_lt_compat, pow_lt; lra).
  assert (E : bpow radix2 (-126) <= / 2 ^ 100).
  { replace (/ 2 ^ 100) with (bpow radix2 (-100)); [apply bpow_le; lia|].
    change (bpow radix2 (-100)) with (/ IZR (2 ^ 100)). rewrite pow_IZR. reflexivity. }
  pose proof (rnd32_rel x) as R. rewrite Rabs_pos_eq in R by lra. specialize (R ltac:(lra)). apply Rabs_le_iff in R. lra.
Qed.

Lemma axis_width lm (e s prec : f32) : log2_ok lm -> fin e -> fin s -> fin prec ->
  0 < R32 e <= 2 ^ 60 -> / 2 ^ 20 <= R32 s -> 0 < R32 prec <= 1 -> R32 s <= 2 ^ 22 * (R32 e * R32 prec) ->
  let p := axis_precision lm e s prec in
  (1 <= p <= 24)%nat /\ R32 s <= 2.002 * (R32 e * R32 prec) * IZR (steps p).
Proof.
  intros LG Fe Fs Fp He Hs Hp HS p. pose proof u32_small as U.
  set (E := R32 e) in *. set (S := R32 s) in *. set (P := R32 prec) in *.
  assert (s0 : 0 < / 2 ^ 20) by (apply Rinv_0_lt_compat, pow_lt; lra).
  assert (S0 : 0 < S) by lra. assert (EP : 0 < E * P) by (apply Rmult_lt_0_compat; lra).
  assert (iS : 0 < / S) by (apply Rinv_0_lt_compat; lra).
  assert (Q1 : / 2 ^ 22 <= E / S * P).
  { apply Rmult_le_reg_r with S; [lra|]. replace (E / S * P * S) with (E * P) by (field; lra).
    assert (0 < 2 ^ 22) by (apply pow_lt; lra). apply Rmult_le_reg_l with (2 ^ 22); [lra|]. rewrite <- Rmult_assoc, Rinv_r by lra. lra. }
  assert (Q0 : 0 < E / S) by (apply Rmult_lt_0_compat; lra).
  assert (Q2 : E / S * P <= E / S) by (pose proof (Rmult_le_compat_l (E / S) P 1 ltac:(lra) ltac:(lra)); lra).
  assert (Q3 : E / S <= 2 ^ 80).
  { replace (2 ^ 80) with (2 ^ 60 * 2 ^ 20) by (rewrite <- pow_add; reflexivity). apply mul_le; try lra.
    rewrite <- (Rinv_inv (2 ^ 20)). apply Rinv_le_contravar; lra. }
  assert (p22 : / 2 ^ 100 <= / 2 ^ 22 / 2).
  { unfold Rdiv. rewrite <- Rinv_mult. apply Rinv_le_contravar; [assert (0 < 2 ^ 22) by (apply pow_lt; lra); lra|].
    replace (2 ^ 22 * 2) with (2 ^ 23) by (simpl; lra). apply pow2_le. lia. }
  assert (p22' : 0 < / 2 ^ 22) by (apply Rinv_0_lt_compat, pow_lt; lra).
  destruct (fdiv_R e s Fe) as [A1 A2]; [fold S; lra|fold E S; apply big_ok; split; [lra|eapply Rle_trans; [exact Q3|apply pow2_le; lia]]|].
  fold E S in A1. pose proof (rnd32_rel_pos (E / S) ltac:(lra)) as R1. rewrite <- A1 in R1. set (a := R32 (fdiv e s)) in *.
  assert (aP1 : (1 - u32) * (E / S * P) <= a * P <= (1 + u32) * (E / S * P)).
  { rewrite <- !Rmult_assoc. split; apply Rmult_le_compat_r; lra. }
  assert (h1 : (1 - u32) * (E / S * P) >= 0.999 * (E / S * P)) by (apply Rle_ge, Rmult_le_compat_r; lra).
  assert (h2 : (1 + u32) * (E / S * P) <= 1.001 * (E / S * P)) by (apply Rmult_le_compat_r; lra).
  assert (p81 : 4 * 2 ^ 80 <= 2 ^ 110) by (replace 4 with (2 ^ 2) by (simpl; lra); rewrite <- pow_add; apply pow2_le; lia).
  destruct (fmul_R (fdiv e s) prec A2 Fp) as [B1 B2]; [fold a P; apply big_ok; lra|].
  fold a P in B1. pose proof (rnd32_rel_pos (a * P) ltac:(lra)) as R2. rewrite <- B1 in R2. set (b := R32 (fmul (fdiv e s) prec)) in *.
  assert (h3 : 0.9999 * (a * P) <= b <= 1.0001 * (a * P)).
  { split; [eapply Rle_trans; [|apply R2]|eapply Rle_trans; [apply R2|]]; apply Rmult_le_compat_r; lra. }
  set (x := E / S * P) in *.
  assert (bx : 0.9999 * x <= b <= 1.0001 * x).
  { assert ((1 - u32) * ((1 - u32) * x) <= (1 - u32) * (a * P)) by (apply Rmult_le_compat_l; lra).
    assert ((1 + u32) * (a * P) <= (1 + u32) * ((1 + u32) * x)) by (apply Rmult_le_compat_l; lra).
    assert (0 <= u32 * x <= 0.00001 * x) by (split; [apply Rmult_le_pos|apply Rmult_le_compat_r]; lra).
    assert (0 <= u32 * (u32 * x) <= 0.00001 * (u32 * x)) by (split; [apply Rmult_le_pos|apply Rmult_le_compat_r]; lra). lra. }
  assert (b0 : 0 < b) by lra. assert (x0 : 0 < x) by lra.
  assert (ib : 0.9998 * / x <= 1 / b <= 1.0002 * / x).
  { unfold Rdiv. rewrite Rmult_1_l. split.
    - apply Rmult_le_reg_r with b; [lra|]. rewrite Rinv_l by lra. apply Rle_trans with (0.9998 * / x * (1.0001 * x)).
      + apply Rmult_le_compat_l; [apply Rmult_le_pos; [lra|left; now apply Rinv_0_lt_compat]|lra].
      + replace (0.9998 * / x * (1.0001 * x)) with (0.9998 * 1.0001) by (field; lra). lra.
    - apply Rmult_le_reg_r with b; [lra|]. rewrite Rinv_l by lra. apply Rle_trans with (1.0002 * / x * (0.9999 * x)).
      + replace (1.0002 * / x * (0.9999 * x)) with (1.0002 * 0.9999) by (field; lra). lra.
      + apply Rmult_le_compat_l; [apply Rmult_le_pos; [lra|left; now apply Rinv_0_lt_compat]|lra]. }
  assert (ix : / x = S / (E * P)) by (unfold x; field; repeat split; lra).
  assert (xub : / x <= 2 ^ 22).
  { rewrite <- (Rinv_inv (2 ^ 22)). apply Rinv_le_contravar; lra. }
  assert (xlb : 2 * / 2 ^ 100 <= / x).
  { apply Rle_trans with (/ 2 ^ 80); [|apply Rinv_le_contravar; lra].
    replace (2 ^ 100) with (2 ^ 80 * 2 ^ 20) by (rewrite <- pow_add; reflexivity). rewrite Rinv_mult.
    assert (0 < / 2 ^ 80) by (apply Rinv_0_lt_compat, pow_lt; lra).
    replace (2 * (/ 2 ^ 80 * / 2 ^ 20)) with (/ 2 ^ 80 * (2 * / 2 ^ 20)) by ring. rewrite <- (Rmult_1_r (/ 2 ^ 80)) at 2.
    apply Rmult_le_compat_l; [lra|]. simpl pow. lra. }
  assert (p100 : 0 < / 2 ^ 100) by (apply Rinv_0_lt_compat, pow_lt; lra).
  destruct f1_R as [O1 O2].
  destruct (fdiv_R f1 (fmul (fdiv e s) prec) O2) as [C1 C2]; [fold b; lra|rewrite O1; fold b; apply big_ok|].
  { split; [lra|]. apply Rle_trans with (2 ^ 23); [simpl pow in *; lra|apply pow2_le; lia]. }
  rewrite O1 in C1. fold b in C1. pose proof (rnd32_rel_pos (1 / b) ltac:(lra)) as R3. rewrite <- C1 in R3.
  set (r := fdiv f1 (fmul (fdiv e s) prec)) in *.
  assert (rx : 0.9997 * / x <= R32 r <= 1.0003 * / x).
  { assert (0 <= u32 * (1 / b) <= 0.00001 * (1 / b)) by (split; [apply Rmult_le_pos|apply Rmult_le_compat_r]; lra). lra. }
  assert (r0 : 0 < R32 r) by lra.
  destruct (width_covers lm r LG C2 r0) as [W1 W2]. cbv zeta in *.
  unfold p, axis_precision. fold r. set (w := u8_of_f32 (fceil (m_log2 lm r))) in *.
  assert (SX : S = / x * (E * P)) by (rewrite ix; field; repeat split; lra).
  destruct (Nat.eq_dec w 0) as [W0|W0].
  - rewrite W0. cbn [Nat.max]. split; [lia|]. rewrite W0 in W1. change (IZR (2 ^ Z.of_nat 0)) with 1 in W1.
    change (IZR (steps 1)) with 1. rewrite SX.
    assert (/ x * (E * P) <= 1.001 * (E * P)) by (apply Rmult_le_compat_r; lra). lra.
  - replace (Nat.max w 1) with w by lia. specialize (W2 ltac:(lia)).
    assert (W3 : (w <= 24)%nat).
    { destruct (le_lt_dec w 24) as [|G]; auto. exfalso.
      assert (2 ^ 25 <= 2 ^ Z.of_nat w)%Z by (apply Z.pow_le_mono_r; lia). apply IZR_le in H.
      change (IZR (2 ^ 25)) with 33554432 in H. simpl pow in xub. lra. }
    split; [lia|]. unfold steps. rewrite minus_IZR.
    assert (2 <= IZR (2 ^ Z.of_nat w)) by (apply IZR_le; change 2%Z with (2 ^ 1)%Z at 1; apply Z.pow_le_mono_r; lia).
    rewrite SX. replace (2.002 * (E * P) * (IZR (2 ^ Z.of_nat w) - 1)) with ((2.002 * (IZR (2 ^ Z.of_nat w) - 1)) * (E * P)) by ring.
    apply Rmult_le_compat_r; lra.
Qed.
