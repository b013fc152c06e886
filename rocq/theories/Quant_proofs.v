(** Errors of the quantisers: UVs, colours, custom floats and vertex coordinates. *)
From Coq Require Import List NArith ZArith Arith Lia Bool Reals Lra Psatz.
From Flocq Require Import Core IEEE754.BinarySingleNaN.
From Verif Require Import Base Floats Floats_proofs FloatReal_proofs Save_proofs Codec_proofs Uv.
Import ListNotations.
Local Open Scope R_scope.

(** The multiplier and the divisor of a width of at most 24 bits. *)
Definition steps (p : nat) : Z := (2 ^ Z.of_nat p - 1)%Z.
Lemma steps_bounds p : (1 <= p <= 24)%nat -> (1 <= steps p < 2 ^ 24)%Z.
Proof.
  intros H. unfold steps. assert (2 ^ 1 <= 2 ^ Z.of_nat p <= 2 ^ 24)%Z; [|lia].
  split; apply Z.pow_le_mono_r; lia.
Qed.
Lemma steps_N p : Z.of_N (mask_u64 p) = steps p.
Proof.
  unfold mask_u64, steps. pose proof (N.pow_nonzero 2 (N.of_nat p)).
  rewrite N2Z.inj_sub by lia. rewrite N2Z.inj_pow, nat_N_Z. reflexivity.
Qed.
Lemma mask_is {E} p mul : mask_f32 (E:=E) true p = Ok mul -> mul = f32_of_Z (steps p).
Proof.
  intros H. pose proof (mask_30 _ _ H) as B. revert H. unfold mask_f32, mask_i32, steps.
  assert ((p <? 32)%nat = true) as -> by (apply Nat.ltb_lt; lia). cbn [bind].
  assert (0 < 2 ^ Z.of_nat p <= 2 ^ 30)%Z.
  { split; [apply Z.pow_pos_nonneg; lia|apply Z.pow_le_mono_r; lia]. }
  assert (wrap_i32 (2 ^ Z.of_nat p) = 2 ^ Z.of_nat p)%Z as ->.
  { unfold wrap_i32. rewrite Z.mod_small by lia. lia. }
  assert ((- 2 ^ 31 <=? 2 ^ Z.of_nat p - 1)%Z = true) as -> by (apply Z.leb_le; lia).
  cbn [bind]. intros H1. now injection H1 as <-.
Qed.
Lemma mask_R {E} p mul : mask_f32 (E:=E) true p = Ok mul -> (1 <= p <= 24)%nat ->
  R32 mul = IZR (steps p) /\ fin mul.
Proof.
  intros H B. rewrite (mask_is _ _ H). apply f32_of_Z_exact. pose proof (steps_bounds p B). lia.
Qed.
Lemma divisor_R p : (1 <= p <= 24)%nat ->
  R32 (f32_of_N (mask_u64 p)) = IZR (steps p) /\ fin (f32_of_N (mask_u64 p)).
Proof.
  intros B. unfold f32_of_N. rewrite steps_N. apply f32_of_Z_exact. pose proof (steps_bounds p B). lia.
Qed.
Lemma divisor64_R p : (1 <= p <= 24)%nat ->
  R64 (f64_of_N (mask_u64 p)) = IZR (steps p) /\ fin (f64_of_N (mask_u64 p)).
Proof.
  intros B. unfold f64_of_N. rewrite steps_N. apply f64_of_Z_exact. pose proof (steps_bounds p B). lia.
Qed.
Lemma low_id p q : (Z.of_N q <= steps p)%Z -> low p q = q.
Proof.
  intros H. unfold low. apply N.mod_small. unfold steps in H.
  apply N2Z.inj_lt. rewrite N2Z.inj_pow, nat_N_Z. lia.
Qed.

(** ** Encoding and decoding a number in [0,1] *)

Lemma encode_R (M : Z) x : (1 <= M < 2 ^ 24)%Z -> 0 <= x <= 1 ->
  let t := rnd32 (x * IZR M) in
  0 <= t <= IZR M /\ (0 <= Zfloor t <= M)%Z /\ Rabs (IZR (Zfloor t) / IZR M - x) <= / IZR M + 2 * u32.
Proof.
  intros HM Hx t. assert (1 <= IZR M) by (apply IZR_le; lia).
  assert (T : 0 <= t <= IZR M).
  { apply rnd32_between; [apply rnd32_0|apply rnd32_Z; lia|]. nra. }
  split; [exact T|]. split.
  { split; [apply Zfloor_lub; exact (proj1 T)|]. apply le_IZR. eapply Rle_trans; [apply Zfloor_lb|apply T]. }
  pose proof (Zfloor_lb t). pose proof (Zfloor_ub t).
  pose proof (rnd32_err (x * IZR M)) as Er. fold t in Er.
  rewrite (Rabs_pos_eq (x * IZR M)) in Er by nra. pose proof tiny32_bound as [_ Ti].
  apply Rabs_le_iff in Er.
  assert (U : 0 < u32 < 1) by (unfold u32; lra).
  assert (Tu : tiny32 <= u32) by (unfold u32; lra).
  assert (Rabs (IZR (Zfloor t) - x * IZR M) <= 1 + 2 * u32 * IZR M).
  { apply Rabs_le_iff. assert (u32 * (x * IZR M) <= u32 * IZR M) by (apply Rmult_le_compat_l; nra).
    assert (u32 * 1 <= u32 * IZR M) by (apply Rmult_le_compat_l; lra). lra. }
  replace (IZR (Zfloor t) / IZR M - x) with ((IZR (Zfloor t) - x * IZR M) * / IZR M) by (field; lra).
  rewrite Rabs_mult, (Rabs_pos_eq (/ IZR M)) by (left; apply Rinv_0_lt_compat; lra).
  replace (/ IZR M + 2 * u32) with ((1 + 2 * u32 * IZR M) * / IZR M) by (field; lra).
  apply Rmult_le_compat_r; auto. left; apply Rinv_0_lt_compat; lra.
Qed.

(** The code of a number in [0,1]. *)
Lemma code_R p mul x : (1 <= p <= 24)%nat -> R32 mul = IZR (steps p) -> fin mul -> fin x -> 0 <= R32 x <= 1 ->
  let q := u64_of_f32 (fmul x mul) in
  Z.of_N q = Zfloor (rnd32 (R32 x * IZR (steps p))) /\ low p q = q /\ (Z.of_N q <= steps p)%Z.
Proof.
  intros B M F Fx Hx q. pose proof (steps_bounds p B) as SB.
  destruct (encode_R (steps p) (R32 x) SB Hx) as (T & Q & _). cbv zeta in *.
  assert (1 <= IZR (steps p) < IZR (2 ^ 24)) by (split; [apply IZR_le|apply IZR_lt]; lia).
  destruct (fmul_R x mul Fx F) as [A1 A2].
  { rewrite M, Rabs_pos_eq by nra. eapply Rle_trans; [|apply big32_ge]. cbn in *. nra. }
  rewrite M in A1. assert (E : Z.of_N q = Zfloor (rnd32 (R32 x * IZR (steps p)))).
  { unfold q. rewrite u64_floor, A1; auto; rewrite A1; [apply T|].
    eapply Rle_lt_trans; [apply T|]. apply IZR_lt. lia. }
  split; [exact E|]. split; [apply low_id|]; rewrite E; apply Q.
Qed.

Lemma quotient_01 (q M : Z) : (0 <= q <= M)%Z -> (1 <= M)%Z -> 0 <= IZR q / IZR M <= 1.
Proof.
  intros. assert (1 <= IZR M) by (apply IZR_le; lia). assert (0 <= IZR q <= IZR M) by (split; apply IZR_le; lia).
  split.
  - apply Rmult_le_pos; [lra|]. left; apply Rinv_0_lt_compat; lra.
  - apply Rmult_le_reg_r with (IZR M); [lra|]. unfold Rdiv. rewrite Rmult_assoc, Rinv_l by lra. lra.
Qed.

(** The value of a code, in f32 ... *)
Lemma value32_R p (q : N) : (1 <= p <= 24)%nat -> (Z.of_N q <= steps p)%Z ->
  let y := fdiv (f32_of_N q) (f32_of_N (mask_u64 p)) in
  R32 y = rnd32 (IZR (Z.of_N q) / IZR (steps p)) /\ fin y /\ 0 <= R32 y <= 1 /\
  Rabs (R32 y - IZR (Z.of_N q) / IZR (steps p)) <= 2 * u32.
Proof.
  intros B Hq y. pose proof (steps_bounds p B) as SB. destruct (divisor_R p B) as [D1 D2].
  assert (1 <= IZR (steps p)) by (apply IZR_le; lia).
  destruct (f32_of_Z_exact (Z.of_N q)) as [Q1 Q2]; [lia|]. fold (f32_of_N q) in Q1, Q2.
  assert (0 <= Z.of_N q)%Z by lia.
  assert (I : 0 <= IZR (Z.of_N q) / IZR (steps p) <= 1) by (apply quotient_01; lia).
  destruct (fdiv_R (f32_of_N q) (f32_of_N (mask_u64 p)) Q2) as [A1 A2].
  { rewrite D1. lra. }
  { rewrite Q1, D1, Rabs_pos_eq by lra.
    eapply Rle_trans; [apply I|]. eapply Rle_trans; [|apply big32_ge]. apply IZR_le. lia. }
  rewrite D1, Q1 in A1. fold y in A1, A2.
  assert (J : 0 <= R32 y <= 1).
  { rewrite A1. apply rnd32_between; [apply rnd32_0|apply (rnd32_Z 1); lia|exact I]. }
  split; [exact A1|]. split; [exact A2|]. split; [exact J|].
  rewrite A1. eapply Rle_trans; [apply rnd32_err|]. rewrite Rabs_pos_eq by lra.
  pose proof tiny32_bound as [_ Ti]. assert (tiny32 <= u32) by (unfold u32; lra).
  assert (0 < u32) by (unfold u32; lra). nra.
Qed.

(** ... and in f64 rounded to f32. *)
Lemma value64_R p (q : N) : (1 <= p <= 24)%nat -> (Z.of_N q <= steps p)%Z ->
  let y := ddiv (f64_of_N q) (f64_of_N (mask_u64 p)) in
  R64 y = rnd64 (IZR (Z.of_N q) / IZR (steps p)) /\ fin y /\ 0 <= R64 y <= 1 /\
  Rabs (R64 y - IZR (Z.of_N q) / IZR (steps p)) <= 2 * u64.
Proof.
  intros B Hq y. pose proof (steps_bounds p B) as SB. destruct (divisor64_R p B) as [D1 D2].
  assert (1 <= IZR (steps p)) by (apply IZR_le; lia).
  destruct (f64_of_Z_exact (Z.of_N q)) as [Q1 Q2]; [lia|]. fold (f64_of_N q) in Q1, Q2.
  assert (0 <= Z.of_N q)%Z by lia.
  assert (I : 0 <= IZR (Z.of_N q) / IZR (steps p) <= 1) by (apply quotient_01; lia).
  destruct (ddiv_R (f64_of_N q) (f64_of_N (mask_u64 p)) Q2) as [A1 A2].
  { rewrite D1. lra. }
  { rewrite Q1, D1, Rabs_pos_eq by lra.
    eapply Rle_trans; [apply I|]. eapply Rle_trans; [|apply big64_ge]. apply IZR_le. lia. }
  rewrite D1, Q1 in A1. fold y in A1, A2.
  assert (J : 0 <= R64 y <= 1).
  { rewrite A1. apply rnd64_between; [apply rnd64_0|apply (rnd64_Z 1); lia|exact I]. }
  split; [exact A1|]. split; [exact A2|]. split; [exact J|].
  rewrite A1. eapply Rle_trans; [apply rnd64_err|]. rewrite Rabs_pos_eq by lra.
  pose proof tiny64_bound as [_ Ti]. assert (tiny64 <= u64) by (unfold u64; lra).
  assert (0 < u64) by (unfold u64; lra). nra.
Qed.

(** ** UV coordinates and colour channels *)

Lemma uv_coordinate {E} p mul x : (1 <= p <= 24)%nat -> mask_f32 (E:=E) true p = Ok mul ->
  fin x -> 0 <= R32 x <= 1 ->
  let y := uv_value (f32_of_N (mask_u64 p)) (low p (uv_code mul x)) in
  fin y /\ 0 <= R32 y <= 1 /\ Rabs (R32 y - R32 x) <= / IZR (steps p) + 4 * u32.
Proof.
  intros B M Fx Hx y. destruct (mask_R _ _ M B) as [M1 M2].
  destruct (code_R p mul x B M1 M2 Fx Hx) as (C1 & C2 & C3). cbv zeta in *.
  unfold y, uv_code, uv_value. rewrite C2.
  destruct (value32_R p _ B C3) as (V1 & V2 & V3 & V4). cbv zeta in *.
  split; [exact V2|]. split; [exact V3|].
  destruct (encode_R (steps p) (R32 x) (steps_bounds p B) Hx) as (_ & _ & Er). cbv zeta in Er.
  rewrite <- C1 in Er. apply Rabs_le_iff in Er, V4. apply Rabs_le_iff. lra.
Qed.

Lemma color_channel {E} p mul x : (1 <= p <= 24)%nat -> mask_f32 (E:=E) true p = Ok mul ->
  fin x -> 0 <= R32 x <= 1 ->
  let y := color_value p (low p (color_code mul x)) in
  fin y /\ 0 <= R32 y <= 1 /\ Rabs (R32 y - R32 x) <= / IZR (steps p) + 4 * u32.
Proof.
  intros B M Fx Hx y. destruct (mask_R _ _ M B) as [M1 M2].
  destruct (code_R p mul x B M1 M2 Fx Hx) as (C1 & C2 & C3). cbv zeta in *.
  unfold y, color_code, color_value. rewrite C2. fold (mask_u64 p).
  destruct (value64_R p _ B C3) as (V1 & V2 & V3 & V4). cbv zeta in *.
  set (d := ddiv _ _) in *. set (q := u64_of_f32 (fmul x mul)) in *.
  destruct (f32_of_f64_R d V2) as [A1 A2].
  { rewrite Rabs_pos_eq by lra. eapply Rle_trans; [apply V3|]. eapply Rle_trans; [|apply big32_ge]. apply IZR_le. lia. }
  split; [exact A2|]. rewrite A1. split.
  { apply rnd32_between; [apply rnd32_0|apply (rnd32_Z 1); lia|exact V3]. }
  destruct (encode_R (steps p) (R32 x) (steps_bounds p B) Hx) as (_ & _ & Er). cbv zeta in Er.
  rewrite <- C1 in Er. pose proof (rnd32_err (R64 d)) as E1. rewrite (Rabs_pos_eq (R64 d)) in E1 by lra.
  pose proof tiny32_bound as [_ Ti]. assert (u32 * R64 d <= u32) by (unfold u32; lra).
  apply Rabs_le_iff in Er, V4, E1. apply Rabs_le_iff. unfold u32, u64 in *. lra.
Qed.

(** With 25 bits or more the number 1.0 is encoded as 2^p and stored as 0. *)
Lemma one_lost {E} p mul : (25 <= p)%nat -> mask_f32 (E:=E) true p = Ok mul ->
  low p (u64_of_f32 (fmul f1 mul)) = 0%N.
Proof.
  intros B M. pose proof (mask_30 _ _ M) as B'. rewrite (mask_is _ _ M). clear M.
  assert (p = 25 \/ p = 26 \/ p = 27 \/ p = 28 \/ p = 29 \/ p = 30)%nat as H by lia.
  repeat (destruct H as [->|H]; [vm_compute; reflexivity|]). subst p. vm_compute. reflexivity.
Qed.
