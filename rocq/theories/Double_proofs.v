(** Rounding errors of the loaded values, for any format. *)
From Coq Require Import ZArith NArith List Bool Reals Lra Lia.
From Flocq Require Import Core IEEE754.BinarySingleNaN.
From Verif Require Import Base Floats Floats_proofs FloatReal_proofs.
Local Open Scope R_scope.

Section Rnd.
Variables (rnd : R -> R) (u t : R).
Hypothesis U : 0 < u <= / 16777216.
Hypothesis T : 0 <= t <= / 1000 * u.
Hypothesis ERR : forall x, Rabs (rnd x - x) <= u * Rabs x + t.

Lemma mul_small a B : 0 <= a <= B -> 0 <= u * a <= u * B.
Proof. intros [A1 A2]. split; [apply Rmult_le_pos; lra|apply Rmult_le_compat_l; lra]. Qed.

Lemma quot_err q d : 0 <= q <= d -> 1 <= d -> Rabs (rnd (rnd q / rnd d) - q / d) <= 3.1 * u.
Proof.
  intros Q D. pose proof (ERR q) as E1. pose proof (ERR d) as E2.
  rewrite (Rabs_pos_eq q) in E1 by lra. rewrite (Rabs_pos_eq d) in E2 by lra.
  apply Rabs_le_inv in E1, E2. set (Q' := rnd q) in *. set (D' := rnd d) in *.
  pose proof (mul_small q d ltac:(lra)) as M1.
  assert (UD : u * d <= / 16777216 * d) by (apply Rmult_le_compat_r; lra).
  assert (L : 0.999 * d <= D') by lra.
  assert (P : 0 < D') by lra.
  assert (K : 0 <= q / d <= 1).
  { split; [apply Rmult_le_pos; [lra|left; apply Rinv_0_lt_compat; lra]|].
    apply Rmult_le_reg_r with d; [lra|]. unfold Rdiv. rewrite Rmult_assoc, Rinv_l by lra. lra. }
  assert (N : Rabs (Q' - q - q / d * (D' - d)) <= 2 * (u * d) + 2 * t).
  { eapply Rle_trans; [apply Rabs_triang|]. rewrite Rabs_Ropp, Rabs_mult, (Rabs_pos_eq (q / d)) by lra.
    assert (A1 : Rabs (Q' - q) <= u * d + t) by (apply Rabs_le; lra).
    assert (A2 : Rabs (D' - d) <= u * d + t) by (apply Rabs_le; lra).
    assert (A3 : q / d * Rabs (D' - d) <= 1 * (u * d + t)) by (apply Rmult_le_compat; auto using Rabs_pos; lra).
    lra. }
  assert (E : Q' / D' - q / d = (Q' - q - q / d * (D' - d)) / D') by (field; lra).
  assert (G : Rabs (Q' / D' - q / d) <= 2.01 * u).
  { rewrite E. unfold Rdiv at 1. rewrite Rabs_mult, (Rabs_pos_eq (/ D')) by (left; now apply Rinv_0_lt_compat).
    apply Rmult_le_reg_r with D'; [exact P|]. rewrite Rmult_assoc, Rinv_l, Rmult_1_r by lra.
    eapply Rle_trans; [exact N|].
    assert (X : 2.01 * u * (0.999 * d) <= 2.01 * u * D') by (apply Rmult_le_compat_l; lra).
    assert (Y : u * 1 <= u * d) by (apply Rmult_le_compat_l; lra). lra. }
  pose proof (ERR (Q' / D')) as E3. apply Rabs_le_inv in G.
  assert (B : Rabs (Q' / D') <= 1.01) by (apply Rabs_le; lra).
  assert (UB : u * Rabs (Q' / D') <= u * 1.01) by (apply Rmult_le_compat_l; lra).
  apply Rabs_le_inv in E3. apply Rabs_le. lra.
Qed.

(** A coordinate computed from a rounded fraction [a] of [al] and rounded ends of the box. *)
Lemma coord_err B lo hi l h a al : 0 <= B -> Rabs lo <= B -> Rabs hi <= B ->
  Rabs (l - lo) <= u * B + t -> Rabs (h - hi) <= u * B + t -> 0 <= al <= 1 -> Rabs (a - al) <= 4 * u ->
  Rabs (h - l) <= 2.01 * B + 3 * t /\ Rabs (a * rnd (h - l)) <= 2.01 * B + 7 * t /\ Rabs (rnd (a * rnd (h - l)) + l) <= 1.01 * B + 10 * t /\
  Rabs (rnd (rnd (a * rnd (h - l)) + l) - (lo + al * (hi - lo))) <= 18 * (u * B) + 12 * t.
Proof.
  intros HB Hlo Hhi Hl Hh Hal Ha. apply Rabs_le_inv in Hlo, Hhi, Hl, Hh, Ha.
  assert (UB : 0 <= u * B <= / 16777216 * B) by (split; [apply Rmult_le_pos; lra|apply Rmult_le_compat_r; lra]).
  set (w := u * B) in *.
  assert (UW : 0 <= u * w <= / 16777216 * w) by (split; [apply Rmult_le_pos; lra|apply Rmult_le_compat_r; lra]).
  assert (UT : 0 <= u * t <= / 16777216 * t) by (split; [apply Rmult_le_pos; lra|apply Rmult_le_compat_r; lra]).
  assert (S1 : Rabs (h - l) <= 2 * B + 2 * w + 2 * t) by (apply Rabs_le; lra).
  pose proof (ERR (h - l)) as E1. set (s := rnd (h - l)) in *.
  assert (E1' : u * Rabs (h - l) <= u * (2 * B + 2 * w + 2 * t)) by (apply Rmult_le_compat_l; lra).
  replace (u * (2 * B + 2 * w + 2 * t)) with (2 * w + 2 * (u * w) + 2 * (u * t)) in E1' by (unfold w; lra).
  apply Rabs_le_inv in E1. pose proof S1 as S1'. apply Rabs_le_inv in S1'.
  assert (S2 : Rabs (s - (hi - lo)) <= 4.01 * w + 3.01 * t) by (apply Rabs_le; lra).
  assert (S3 : Rabs s <= 2 * B + 4.01 * w + 3.01 * t) by (apply Rabs_le_inv in S2; apply Rabs_le; lra).
  assert (P1 : Rabs (a * s - al * (hi - lo)) <= 12.03 * w + 3.02 * t).
  { replace (a * s - al * (hi - lo)) with ((a - al) * s + al * (s - (hi - lo))) by ring.
    eapply Rle_trans; [apply Rabs_triang|]. rewrite !Rabs_mult, (Rabs_pos_eq al) by lra.
    assert (X : Rabs (a - al) * Rabs s <= 4 * u * (2 * B + 4.01 * w + 3.01 * t)).
    { apply Rmult_le_compat; auto using Rabs_pos. apply Rabs_le. lra. }
    replace (4 * u * (2 * B + 4.01 * w + 3.01 * t)) with (8 * w + 16.04 * (u * w) + 12.04 * (u * t)) in X by (unfold w; lra).
    assert (Y : al * Rabs (s - (hi - lo)) <= 1 * (4.01 * w + 3.01 * t)) by (apply Rmult_le_compat; auto using Rabs_pos; lra).
    lra. }
  assert (M : - B <= lo + al * (hi - lo) <= B).
  { replace (lo + al * (hi - lo)) with ((1 - al) * lo + al * hi) by ring.
    assert (X1 : (1 - al) * (- B) <= (1 - al) * lo <= (1 - al) * B) by (split; apply Rmult_le_compat_l; lra).
    assert (X2 : al * (- B) <= al * hi <= al * B) by (split; apply Rmult_le_compat_l; lra). lra. }
  assert (M2 : - (2 * B) <= al * (hi - lo) <= 2 * B).
  { assert (X : 1 * (- (2 * B)) <= al * (- (2 * B))) by (rewrite 2!(Rmult_comm _ (- (2 * B))); apply Rmult_le_compat_neg_l; lra).
    assert (X1 : al * (- (2 * B)) <= al * (hi - lo)) by (apply Rmult_le_compat_l; lra).
    assert (X2 : al * (hi - lo) <= al * (2 * B)) by (apply Rmult_le_compat_l; lra).
    assert (X3 : al * (2 * B) <= 1 * (2 * B)) by (apply Rmult_le_compat_r; lra). lra. }
  apply Rabs_le_inv in P1.
  assert (P2 : Rabs (a * s) <= 2 * B + 12.03 * w + 3.02 * t) by (apply Rabs_le; lra).
  pose proof (ERR (a * s)) as E2. set (m := rnd (a * s)) in *.
  assert (E2' : u * Rabs (a * s) <= u * (2 * B + 12.03 * w + 3.02 * t)) by (apply Rmult_le_compat_l; lra).
  replace (u * (2 * B + 12.03 * w + 3.02 * t)) with (2 * w + 12.03 * (u * w) + 3.02 * (u * t)) in E2' by (unfold w; lra).
  apply Rabs_le_inv in E2.
  assert (P3 : Rabs (m + l - (lo + al * (hi - lo))) <= 15.1 * w + 5.1 * t) by (apply Rabs_le; lra).
  apply Rabs_le_inv in P3.
  assert (P4 : Rabs (m + l) <= B + 15.1 * w + 5.1 * t) by (apply Rabs_le; lra).
  pose proof (ERR (m + l)) as E3.
  assert (E3' : u * Rabs (m + l) <= u * (B + 15.1 * w + 5.1 * t)) by (apply Rmult_le_compat_l; lra).
  replace (u * (B + 15.1 * w + 5.1 * t)) with (w + 15.1 * (u * w) + 5.1 * (u * t)) in E3' by (unfold w; lra).
  apply Rabs_le_inv in E3.
  split; [|split; [|split]]; [lra|lra|lra|apply Rabs_le; lra].
Qed.

(** The radius computed from a rounded height. *)
Lemma radius_err z ze : 0 <= z <= 1 -> 0 <= ze <= 1 -> Rabs (z - ze) <= 4 * u -> 0 <= rnd (1 - rnd (z * z)) ->
  Rabs (rnd (sqrt (rnd (1 - rnd (z * z)))) - sqrt (1 - ze * ze)) <= sqrt (11 * u) + 1.1 * u.
Proof.
  intros Hz Hze D P. apply Rabs_le_inv in D.
  assert (ZZ : 0 <= z * z <= 1) by (split; [apply Rmult_le_pos; lra|rewrite <- (Rmult_1_l 1); apply Rmult_le_compat; lra]).
  assert (ZE : 0 <= ze * ze <= 1) by (split; [apply Rmult_le_pos; lra|rewrite <- (Rmult_1_l 1); apply Rmult_le_compat; lra]).
  assert (DD : Rabs (z * z - ze * ze) <= 8 * u).
  { replace (z * z - ze * ze) with ((z - ze) * (z + ze)) by ring. rewrite Rabs_mult.
    replace (8 * u) with (4 * u * 2) by ring. apply Rmult_le_compat; auto using Rabs_pos; apply Rabs_le; lra. }
  apply Rabs_le_inv in DD.
  pose proof (ERR (z * z)) as E1. rewrite (Rabs_pos_eq (z * z)) in E1 by lra. pose proof (mul_small _ _ ZZ) as M1.
  apply Rabs_le_inv in E1. set (a := rnd (z * z)) in *.
  assert (A1 : Rabs (1 - a) <= 1.01) by (apply Rabs_le; lra).
  pose proof (ERR (1 - a)) as E2. assert (E2' : u * Rabs (1 - a) <= u * 1.01) by (apply Rmult_le_compat_l; lra).
  apply Rabs_le_inv in E2. set (b := rnd (1 - a)) in *.
  assert (BD : Rabs (b - (1 - ze * ze)) <= 11 * u) by (apply Rabs_le; lra).
  assert (SQ : forall x y, 0 <= x -> 0 <= y -> x <= y -> sqrt y - sqrt x <= sqrt (y - x)).
  { intros x y X Y XY. apply sqrt_le_1_alt in XY as XY'. pose proof (sqrt_pos x) as SX. pose proof (sqrt_pos (y - x)) as SD.
    assert (SY : sqrt y <= sqrt x + sqrt (y - x)); [|lra].
    rewrite <- (sqrt_square (sqrt x + sqrt (y - x))) by lra. apply sqrt_le_1_alt.
    replace ((sqrt x + sqrt (y - x)) * (sqrt x + sqrt (y - x))) with (sqrt x * sqrt x + sqrt (y - x) * sqrt (y - x) + 2 * (sqrt x * sqrt (y - x))) by ring.
    rewrite !sqrt_sqrt by lra. assert (0 <= sqrt x * sqrt (y - x)) by now apply Rmult_le_pos. lra. }
  assert (SB : Rabs (sqrt b - sqrt (1 - ze * ze)) <= sqrt (11 * u)).
  { apply Rabs_le_inv in BD. destruct (Rle_lt_dec b (1 - ze * ze)) as [L|L].
    - pose proof (SQ b (1 - ze * ze) P ltac:(lra) L) as S.
      assert (sqrt (1 - ze * ze - b) <= sqrt (11 * u)) by (apply sqrt_le_1_alt; lra). apply sqrt_le_1_alt in L. apply Rabs_le. lra.
    - pose proof (SQ (1 - ze * ze) b ltac:(lra) P ltac:(lra)) as S.
      assert (sqrt (b - (1 - ze * ze)) <= sqrt (11 * u)) by (apply sqrt_le_1_alt; lra).
      assert (sqrt (1 - ze * ze) <= sqrt b) by (apply sqrt_le_1_alt; lra). apply Rabs_le. lra. }
  apply Rabs_le_inv in SB.
  assert (S1 : sqrt b <= 1.01).
  { rewrite <- (sqrt_square 1.01) by lra. apply sqrt_le_1_alt. apply Rabs_le_inv in BD. lra. }
  pose proof (ERR (sqrt b)) as E3. pose proof (sqrt_pos b) as S0. rewrite (Rabs_pos_eq (sqrt b)) in E3 by lra.
  assert (E3' : u * sqrt b <= u * 1.01) by (apply Rmult_le_compat_l; lra).
  apply Rabs_le_inv in E3. apply Rabs_le. lra.
Qed.

(** A component of a normal. *)
Lemma part_err s r si ro e f : Rabs si <= 1 -> 0 <= ro <= 1 -> Rabs (s - si) <= e -> Rabs (r - ro) <= f -> e <= / 1000 -> f <= / 1000 ->
  Rabs (s * r) <= 1.01 /\ Rabs (rnd (s * r) - si * ro) <= 1.01 * e + f + 1.1 * u.
Proof.
  intros Hs Hr Es Er He Hf.
  assert (E0 : 0 <= e) by (eapply Rle_trans; [apply Rabs_pos|exact Es]). assert (F0 : 0 <= f) by (eapply Rle_trans; [apply Rabs_pos|exact Er]).
  apply Rabs_le_inv in Er as Er'.
  assert (D : Rabs (s * r - si * ro) <= 1.01 * e + f).
  { replace (s * r - si * ro) with ((s - si) * r + si * (r - ro)) by ring. eapply Rle_trans; [apply Rabs_triang|]. rewrite !Rabs_mult.
    assert (A1 : Rabs (s - si) * Rabs r <= e * 1.01) by (apply Rmult_le_compat; auto using Rabs_pos; apply Rabs_le; lra).
    assert (A2 : Rabs si * Rabs (r - ro) <= 1 * f) by (apply Rmult_le_compat; auto using Rabs_pos). lra. }
  assert (P : Rabs (si * ro) <= 1).
  { rewrite Rabs_mult, (Rabs_pos_eq ro) by lra. rewrite <- (Rmult_1_l 1). apply Rmult_le_compat; auto using Rabs_pos; lra. }
  apply Rabs_le_inv in D, P. assert (B : Rabs (s * r) <= 1.01) by (apply Rabs_le; lra).
  split; [exact B|]. pose proof (ERR (s * r)) as E3. assert (E3' : u * Rabs (s * r) <= u * 1.01) by (apply Rmult_le_compat_l; lra).
  apply Rabs_le_inv in E3. apply Rabs_le. lra.
Qed.
End Rnd.
