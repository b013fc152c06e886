(** Property C77: what saving a loaded mesh again changes, and what has settled. *)
From Coq Require Import List NArith ZArith Arith Lia Bool Reals Lra.
From Flocq Require Import Core IEEE754.BinarySingleNaN.
From Verif Require Import Base UnalignedRW ReadExt Floats Floats_proofs FloatReal_proofs Utilis Vertices Uv Normals CustomData Mesh Tmf File FileSpec SaveSpec
  ValueSpec Demo Save_proofs Save2_proofs Codec_proofs Image_proofs Quant_proofs Log2_proofs Trig_proofs NormalReal_proofs Again_proofs VertexReal_proofs P_Vertices
  P_Save P_Uv P_Normals.
Import ListNotations.
Open Scope res_scope.
Local Open Scope R_scope.

(** One cycle: [l] is saved, on some platform with some precisions of which [ok] holds, and
    [l1] is what some platform loads from that. *)
Definition cycle (ok : libm -> prec_info -> Prop) (l l1 : list (mesh * list N)) : Prop :=
  exists lm lm' oc' p out, ok lm p /\ precision_ok p /\ Forall (fun mn => (segment_count lm true (fst mn) < 65536)%N) l /\
    saved lm true p l = Ok out /\ read_tmf lm' oc' out = Ok l1.
Inductive cycles_of (ok : libm -> prec_info -> Prop) : nat -> list (mesh * list N) -> list (mesh * list N) -> Prop :=
| cycles_stop l : cycles_of ok 0 l l
| cycles_more n l l1 l2 : cycle ok l l1 -> cycles_of ok n l1 l2 -> cycles_of ok (S n) l l2.
(** Meshes that can be saved. *)
Definition good (l : list (mesh * list N)) : Prop :=
  (len l < 2 ^ 32)%N /\ Forall (fun mn => storable (fst mn) /\ name_ok (snd mn)) l.

Lemma cycle_image ok l l1 : good l -> cycle ok l l1 -> good l1 /\
  exists lm lm' p, ok lm p /\ Forall2 (fun a b => loaded_as lm lm' p (fst a) (fst b)) l l1.
Proof.
  intros [GL GF] (lm & lm' & oc' & p & out & O & HP & HC & S & R).
  assert (SV : savable lm l).
  { split; auto. rewrite Forall_forall in *. intros x X. specialize (HC x X). specialize (GF x X). tauto. }
  destruct (reload lm lm' oc' p l out l1 HP SV S R) as (_ & G1 & G2). split; [split; auto|].
  destruct (saved_loads_as lm lm' oc' p l out HP SV S) as (l' & R' & F). rewrite R in R'. apply Ok_inj in R'. subst l'.
  exists lm, lm', p. split; auto. eapply F2_impl; [|exact F]. tauto.
Qed.

(** Something that holds between the meshes of one cycle and of the next. *)
Lemma F2_join {A B C} (P : A -> B -> Prop) (Q : B -> C -> Prop) l m n : Forall2 P l m -> Forall2 Q m n ->
  Forall2 (fun b c => (exists a, P a b) /\ Q b c) m n.
Proof.
  intros H. revert n. induction H as [|a b l m AB _ IH]; intros n K; inversion K; subst; constructor; eauto.
Qed.
Lemma settle (ok : libm -> prec_info -> Prop) (P : mesh -> mesh -> Prop) : (forall a, P a a) -> (forall a b c, P a b -> P b c -> P a c) ->
  (forall lm1 lm2 p lm3 lm4 p' a b c, ok lm1 p -> ok lm3 p' -> loaded_as lm1 lm2 p a b -> loaded_as lm3 lm4 p' b c -> P b c) ->
  forall n l0 l1 l2, good l0 -> cycle ok l0 l1 -> cycles_of ok n l1 l2 -> Forall2 (fun a b => P (fst a) (fst b)) l1 l2.
Proof.
  intros HR HT H n l0 l1 l2 G C K. revert l0 G C. induction K as [l|n l l1 l2 C1 K IH]; intros l0 G C.
  - clear G C. induction l; constructor; auto.
  - destruct (cycle_image ok l0 l G C) as (G1 & lm1 & lm2 & p & O & F1).
    destruct (cycle_image ok l l1 G1 C1) as (G2 & lm3 & lm4 & p' & O' & F2).
    pose proof (F2_join _ _ _ _ _ F1 F2) as J. specialize (IH l G1 C1).
    assert (S : Forall2 (fun a b => P (fst a) (fst b)) l l1).
    { eapply F2_impl; [|exact J]. intros a b [[z Z] Q]. eapply H; [exact O|exact O'|exact Z|exact Q]. }
    clear - HT IH S. revert l2 IH. induction S as [|a b l l1 AB _ IHS]; intros l2 IH; inversion IH; subst; constructor; eauto.
Qed.
Lemma arrays_refl {A} (P : A -> A -> Prop) o : (forall a, P a a) -> arrays P o o.
Proof. intros H. destruct o as [l|]; cbn; auto. induction l; constructor; auto. Qed.
Lemma arrays_trans {A} (P : A -> A -> Prop) x y z : (forall a b c, P a b -> P b c -> P a c) -> arrays P x y -> arrays P y z -> arrays P x z.
Proof.
  intros H. destruct x as [x|], y as [y|], z as [z|]; cbn; try tauto. intros F. revert z.
  induction F; intros z G; inversion G; subst; constructor; eauto.
Qed.
Lemma orel_join {A} (R R' P : A -> A -> Prop) a b c : (forall x y z, R x y -> R' y z -> P y z) ->
  orel R a b -> orel R' b c -> arrays P b c.
Proof.
  intros H. destruct a as [a|], b as [b|], c as [c|]; cbn; try tauto. intros F G. pose proof (F2_join _ _ _ _ _ F G) as J.
  eapply F2_impl; [|exact J]. intros x y [[z Z] Q]. eauto.
Qed.
Lemma arrays_eq {A} (a b : option (list A)) : arrays eq a b -> b = a.
Proof.
  destruct a as [a|], b as [b|]; cbn; try tauto. intros F. f_equal. induction F; subst; congruence.
Qed.

(** C77. UV coordinates saved with the same width (at most 24 bits) every time are, bit by bit,
    what the first load gave: the error of C33 is made once. *)
Theorem C77_uvs_settle : forall w n l0 l1 l2, (w <= 24)%nat -> good l0 ->
  cycle (fun _ p => uv_prec p = w) l0 l1 -> cycles_of (fun _ p => uv_prec p = w) n l1 l2 ->
  map (fun mn => uvs (fst mn)) l2 = map (fun mn => uvs (fst mn)) l1.
Proof.
  intros w n l0 l1 l2 W G C K.
  assert (F : Forall2 (fun a b => uvs (fst b) = uvs (fst a)) l1 l2).
  { apply (settle (fun _ p => uv_prec p = w) (fun a b => uvs b = uvs a)) with (n := n) (l0 := l0); auto; [congruence|].
    intros lm1 lm2 p lm3 lm4 p' a b c O O' (e & _ & [_ _ M _ _]) (e' & _ & [_ _ M' _ _]).
    cbn [with_custom_data uvs image_rels ru] in M, M'. rewrite O in M. rewrite O' in M'.
    apply arrays_eq. eapply orel_join; [|exact M|exact M']. cbv beta. intros x y z X Y. symmetry. now apply (uv_settled w x). }
  clear - F. induction F; cbn [map]; congruence.
Qed.
Print Assumptions C77_uvs_settle.

(** The z component of normals and tangents is the same number from the first load on, and so
    is the handedness of tangents. *)
Definition same_z (v v' : vec3) : Prop := finite (vz v) /\ finite (vz v') /\ val (vz v') = val (vz v).
Definition keeps_z (v v' : vec3) : Prop := finite (vz v) -> finite (vz v') /\ val (vz v') = val (vz v).
Lemma keeps_refl v : keeps_z v v. Proof. unfold keeps_z. auto. Qed.
Lemma keeps_trans a b c : keeps_z a b -> keeps_z b c -> keeps_z a c.
Proof. unfold keeps_z. intros H K F. destruct (H F) as [A B]. destruct (K A). split; congruence. Qed.
Lemma arrays_with {A} (P Q : A -> A -> Prop) (R : A -> Prop) (a b c : option (list A)) :
  (forall x y, R x -> P x y -> Q x y) -> orel (fun _ x => R x) a b -> arrays P b c -> arrays Q b c.
Proof.
  intros H. destruct a as [a|], b as [b|], c as [c|]; cbn; try tauto. intros F G.
  pose proof (F2_join _ _ _ _ _ F G) as J. eapply F2_impl; [|exact J]. intros x y [[z Z] K]. auto.
Qed.
Lemma orel_impl {A} (R S : A -> A -> Prop) a b : (forall x y, R x y -> S x y) -> orel R a b -> orel S a b.
Proof. intros H. destruct a, b; cbn; auto. apply F2_impl. exact H. Qed.
Lemma normal_z_finite lm lm' w a b : (1 <= w <= 24)%nat -> normal_rel lm lm' w a b -> finite (vz b).
Proof.
  intros W (c & _ & ->). destruct (normal_z lm' w c W) as (E & F & _). unfold finite. rewrite E, sg_fin. exact F.
Qed.
Theorem C77_normal_z_settles : forall w n l0 l1 l2, (1 <= w <= 24)%nat -> good l0 ->
  cycle (fun _ p => normal_precision p = w) l0 l1 -> cycles_of (fun _ p => normal_precision p = w) n l1 l2 ->
  Forall2 (on_normals same_z) l1 l2.
Proof.
  intros w n l0 l1 l2 W G C K.
  assert (S : Forall2 (fun a b => arrays keeps_z (normals (fst a)) (normals (fst b))) l1 l2).
  { apply (settle (fun _ p => normal_precision p = w) (fun a b => arrays keeps_z (normals a) (normals b))) with (n := n) (l0 := l0); auto.
    - intros a. apply arrays_refl, keeps_refl.
    - intros a b c. apply arrays_trans. apply keeps_trans.
    - intros k1 k2 q k3 k4 q' a b c H1 H2 (e & _ & [_ M _ _ _]) (e' & _ & [_ M' _ _ _]).
      cbn [with_custom_data normals image_rels rn] in M, M'. rewrite H1 in M. rewrite H2 in M'.
      eapply orel_join; [|exact M|exact M']. intros x y z X Y _. now apply (normal_again k1 k2 k3 k4 w x). }
  destruct (cycle_image _ l0 l1 G C) as (_ & lm1 & lm2 & p & O & F).
  pose proof (F2_join _ _ _ _ _ F S) as J. eapply F2_impl; [|exact J].
  intros b c [[a (e & _ & [_ M _ _ _])] H]. cbn [with_custom_data normals image_rels rn] in M. rewrite O in M.
  unfold on_normals. eapply (arrays_with keeps_z same_z (fun v => finite (vz v))); [| |exact H].
  - intros x y X Y. split; auto.
  - eapply orel_impl; [|exact M]. cbv beta. intros x y. now apply normal_z_finite.
Qed.
Print Assumptions C77_normal_z_settles.
(** With width 0, where only the signs are stored, normals are the same altogether. *)
Theorem C77_signs_settle : forall n l0 l1 l2, good l0 ->
  cycle (fun _ p => normal_precision p = 0%nat) l0 l1 -> cycles_of (fun _ p => normal_precision p = 0%nat) n l1 l2 ->
  map (fun mn => normals (fst mn)) l2 = map (fun mn => normals (fst mn)) l1.
Proof.
  intros n l0 l1 l2 G C K.
  assert (F : Forall2 (fun a b => normals (fst b) = normals (fst a)) l1 l2).
  { apply (settle (fun _ p => normal_precision p = 0%nat) (fun a b => normals b = normals a)) with (n := n) (l0 := l0); auto; [congruence|].
    intros lm1 lm2 p lm3 lm4 p' a b c O O' (e & _ & [_ M _ _ _]) (e' & _ & [_ M' _ _ _]).
    cbn [with_custom_data normals image_rels rn] in M, M'. rewrite O in M. rewrite O' in M'.
    apply arrays_eq. eapply orel_join; [|exact M|exact M']. cbv beta. intros x y z X Y. symmetry. now apply (normal_again_0 lm1 lm2 lm3 lm4 x). }
  clear - F. induction F; cbn [map]; congruence.
Qed.
Print Assumptions C77_signs_settle.

Theorem C77_tangents_settle : forall w n l0 l1 l2, (1 <= w <= 24)%nat -> good l0 ->
  cycle (fun _ p => tangent_prec p = w) l0 l1 -> cycles_of (fun _ p => tangent_prec p = w) n l1 l2 ->
  Forall2 (on_tangents (fun t t' => same_z (fst t) (fst t') /\ snd t' = snd t)) l1 l2.
Proof.
  intros w n l0 l1 l2 W G C K. set (P := fun t t' : tangent => keeps_z (fst t) (fst t') /\ snd t' = snd t).
  assert (S : Forall2 (fun a b => arrays P (tangents (fst a)) (tangents (fst b))) l1 l2).
  { apply (settle (fun _ p => tangent_prec p = w) (fun a b => arrays P (tangents a) (tangents b))) with (n := n) (l0 := l0); auto.
    - intros a. apply arrays_refl. intros t. split; [apply keeps_refl|reflexivity].
    - intros a b c. apply arrays_trans. intros x y z [X1 X2] [Y1 Y2]. split; [eapply keeps_trans; eauto|congruence].
    - intros k1 k2 q k3 k4 q' a b c H1 H2 (e & _ & [_ _ _ M _]) (e' & _ & [_ _ _ M' _]).
      cbn [with_custom_data tangents image_rels rt] in M, M'. rewrite H1 in M. rewrite H2 in M'.
      eapply orel_join; [|exact M|exact M']. intros x y z [X X'] [Y Y']. split.
      + intros _. now apply (normal_again k1 k2 k3 k4 w (fst x)).
      + rewrite Y', X'. apply handed_again. }
  destruct (cycle_image _ l0 l1 G C) as (_ & lm1 & lm2 & p & O & F).
  pose proof (F2_join _ _ _ _ _ F S) as J. eapply F2_impl; [|exact J].
  intros b c [[a (e & _ & [_ _ _ M _])] H]. cbn [with_custom_data tangents image_rels rt] in M. rewrite O in M.
  unfold on_tangents. eapply (arrays_with P _ (fun v => finite (vz (fst v)))); [| |exact H].
  - intros x y X [Y Y']. split; [split; auto|exact Y'].
  - eapply orel_impl; [|exact M]. cbv beta. intros x y [X _]. now apply (normal_z_finite lm1 lm2 w (fst x)).
Qed.
Print Assumptions C77_tangents_settle.

(** ** The direction does not settle *)

(** The x and y components do not: a platform as accurate as C35 asks for, on which the normal
    below first loads with x = 0.0505 and, saved and loaded once more, with x = 0. *)
Definition d_x : f32 := flit 74746 1000000.
Definition d_y : f32 := flit 994743 1000000.
Definition d_z : f32 := flit 7 100.
Definition drifting : vec3 := (d_x, d_y, d_z).
Definition ratio_of (v : vec3) : f32 := fdiv (vx v) (fsqrt (fadd (fmul (vx v) (vx v)) (fmul (vy v) (vy v)))).
Definition step_angle : f32 := flit 13601852 (2 ^ 28).
Definition step_sin : f32 := flit 13596032 (2 ^ 28).
Definition step_cos : f32 := flit 16755683 (2 ^ 24).
Definition first_ratio : f32 := ratio_of drifting.
Definition second_ratio : f32 := flit 13596031 (2 ^ 28).
Definition second_angle : f32 := flit 13601851 (2 ^ 28).
Definition first_angle : f32 := flit 10066339 (2 ^ 27).
Definition drift_libm : libm :=
  mk_libm (m_log2 exact_libm)
    (fun x => if feq x first_ratio then first_angle else if feq x second_ratio then second_angle
              else if feq x f0 then f0 else m_asin exact_libm x)
    (fun x => if feq x step_angle then (step_sin, step_cos) else if feq x f0 then (f0, f1) else m_sin_cos exact_libm x).

Lemma sin_near x : 0 <= x <= 1 -> x - x * x * x / 6 <= sin x <= x - x * x * x / 6 + x * x * x * x * x / 120.
Proof.
  intros X. pose proof PI_bounds. destruct (sin_bound x 0) as [A B]; [lra|lra|].
  unfold sin_approx, sin_term in A, B. cbn in A, B. lra.
Qed.
Lemma cos_near x : 0 <= x <= 1 -> 1 - x * x / 2 <= cos x <= 1 - x * x / 2 + x * x * x * x / 24.
Proof.
  intros X. pose proof PI_bounds. destruct (cos_bound x 0) as [A B]; [lra|lra|].
  unfold cos_approx, cos_term in A, B. cbn in A, B. lra.
Qed.
Lemma asin_near r a e : 0 <= r <= 1 -> 0 <= a - e -> a + e <= 1 -> 0 <= e -> sin (a - e) <= r <= sin (a + e) -> Rabs (a - asin r) <= e.
Proof.
  intros R A1 A2 E [S1 S2]. pose proof PI_bounds. pose proof (asin_bound r) as B. rewrite <- (sin_asin r) in S1, S2 by lra.
  apply Rabs_le. split.
  - destruct (Rle_lt_dec (asin r) (a + e)) as [G|G]; [lra|]. exfalso. apply sin_increasing_1 in G; lra.
  - destruct (Rle_lt_dec (a - e) (asin r)) as [G|G]; [lra|]. exfalso. apply sin_increasing_1 in G; lra.
Qed.
Lemma feq_val x y : finite x -> finite y -> feq x y = true -> val x = val y.
Proof.
  intros F G H. unfold feq in H. rewrite Beqb_correct in H by assumption. now apply Req_bool_spec in H as [] || (destruct (Req_bool_spec (B2R x) (B2R y)); [assumption|discriminate H]).
Qed.
Tactic Notation "float_value" constr(x) "as" ident(A) ident(B) :=
  let v := eval vm_compute in (B2SF x) in
  let r := eval unfold SF2R, F2R in (SF2R radix2 v) in let r := eval cbn in r in
  destruct (R32_SF x v) as [A B]; [vm_compute; reflexivity|]; change (R32 x = r) in A.
Lemma cube_mono a b : 0 <= a <= b -> a * a * a <= b * b * b.
Proof.
  intros H. assert (a * a <= b * b) by (apply mul_le; lra). assert (0 <= a * a) by (apply Rmult_le_pos; lra). apply mul_le; lra.
Qed.
Lemma drift_sin_cos_ok : sin_cos_ok drift_libm.
Proof.
  intros x F P. cbn [drift_libm m_sin_cos]. destruct (feq x step_angle) eqn:E1.
  { float_value step_angle as A1 A2. float_value step_sin as B1 B2. float_value step_cos as C1 C2.
    apply (feq_val x step_angle F A2) in E1. rewrite E1. cbn [fst snd]. unfold finite. split; [exact B2|]. split; [exact C2|].
    change val with R32. rewrite A1, B1, C1. set (s := 13601852 * / 268435456) in *.
    assert (S : s = 13601852 / 268435456) by (unfold s; lra).
    pose proof (sin_near s ltac:(lra)) as SN. pose proof (cos_near s ltac:(lra)) as CN. rewrite S in SN, CN. simpl pow.
    split; apply Rabs_le; rewrite S; lra. }
  destruct (feq x f0) eqn:E2; [|apply exact_sin_cos_ok; auto].
  apply (feq_val x f0 F eq_refl) in E2. rewrite E2. cbn [fst snd]. destruct f1_R as [O1 O2].
  split; [reflexivity|]. split; [exact O2|]. change (val f1) with (R32 f1). rewrite O1, val_0, sin_0, cos_0, !Rminus_0_r, Rminus_eq_0, Rabs_R0.
  assert (0 < / 2 ^ 20) by (apply Rinv_0_lt_compat, pow_lt; lra). split; lra.
Qed.
Lemma drift_asin_ok : asin_ok drift_libm.
Proof.
  intros x F P. cbn [drift_libm m_asin]. destruct half_pi_R as [HP _]. change (val f32_FRAC_PI_2) with (R32 f32_FRAC_PI_2).
  assert (K : forall r a, finite x -> finite r -> finite a -> feq x r = true -> 0.05 <= val a <= 0.08 -> 0 <= val r <= 1 ->
     Rabs (val r - (val a - val a * val a * val a / 6)) <= / 2000000 ->
     finite a /\ 0 <= val a <= R32 f32_FRAC_PI_2 /\ Rabs (val a - asin (val x)) <= / 2 ^ 20).
  { intros r a _ Fr Fa E A R D. apply (feq_val x r F Fr) in E. rewrite E. split; [exact Fa|]. split; [rewrite HP; lra|].
    apply Rabs_le_inv in D. assert (I : / 2 ^ 20 = / 1048576) by (simpl pow; lra). rewrite I.
    set (y := val a) in *. set (e := / 1048576).
    assert (E' : 0 < e < 0.000001) by (unfold e; lra).
    apply asin_near; try lra. 
    pose proof (sin_near (y - e) ltac:(lra)) as [_ S1]. pose proof (sin_near (y + e) ltac:(lra)) as [S2 _].
    assert (C1 : (y - e) * (y - e) * (y - e) = y * y * y - 3 * (y * y) * e + 3 * y * (e * e) - e * (e * e)) by ring.
    assert (C2 : (y + e) * (y + e) * (y + e) = y * y * y + 3 * (y * y) * e + 3 * y * (e * e) + e * (e * e)) by ring.
    assert (Y2 : 0 <= y * y <= 0.0064) by (split; [apply Rmult_le_pos; lra|replace 0.0064 with (0.08 * 0.08) by lra; apply mul_le; lra]).
    assert (YE : 0 <= (y * y) * e <= 0.0064 * e) by (split; [apply Rmult_le_pos; lra|apply Rmult_le_compat_r; lra]).
    assert (EE : 0 <= e * e <= 0.000001 * e) by (split; [apply Rmult_le_pos; lra|apply Rmult_le_compat_r; lra]).
    assert (YEE : 0 <= y * (e * e) <= 0.08 * (e * e)) by (split; [apply Rmult_le_pos; lra|apply Rmult_le_compat_r; lra]).
    assert (EEE : 0 <= e * (e * e) <= 0.000001 * (e * e)) by (split; [apply Rmult_le_pos; lra|apply Rmult_le_compat_r; lra]).
    assert (Q : (y - e) * (y - e) * (y - e) * (y - e) * (y - e) / 120 <= 0.00000003).
    { set (t := y - e) in *. assert (T : 0 <= t <= 0.08) by (unfold t; lra).
      assert (0 <= t * t <= 0.0064) by (split; [apply Rmult_le_pos; lra|replace 0.0064 with (0.08 * 0.08) by lra; apply mul_le; lra]).
      assert (0 <= t * t * t <= 0.000512) by (split; [apply Rmult_le_pos; lra|replace 0.000512 with (0.0064 * 0.08) by lra; apply mul_le; lra]).
      assert (t * t * t * (t * t) <= 0.000512 * 0.0064) by (apply mul_le; lra).
      replace (t * t * t * t * t) with (t * t * t * (t * t)) by ring. lra. }
    unfold e in *. lra. }
  destruct (feq x first_ratio) eqn:E1.
  { float_value first_ratio as A1 A2. float_value first_angle as B1 B2. apply (K first_ratio first_angle); auto; change val with R32; rewrite ?A1, ?B1; try lra.
    apply Rabs_le. lra. }
  destruct (feq x second_ratio) eqn:E2.
  { float_value second_ratio as A1 A2. float_value second_angle as B1 B2. apply (K second_ratio second_angle); auto; change val with R32; rewrite ?A1, ?B1; try lra.
    apply Rabs_le. lra. }
  destruct (feq x f0) eqn:E3; [|apply exact_asin_ok; auto].
  apply (feq_val x f0 F eq_refl) in E3. rewrite E3. split; [reflexivity|]. rewrite val_0, asin_0, Rminus_eq_0, Rabs_R0, HP.
  assert (0 < / 2 ^ 20) by (apply Rinv_0_lt_compat, pow_lt; lra). split; lra.
Qed.
Lemma drifting_unit : unit_vector drifting.
Proof.
  float_value d_x as A1 A2. float_value d_y as B1 B2. float_value d_z as C1 C2.
  unfold unit_vector, finite3, dot3, drifting, finite. cbn [fst snd]. change val with R32. rewrite A1, B1, C1.
  split; [auto|]. simpl pow. split; [apply Rabs_le; lra|]. repeat split; apply Rabs_le; lra.
Qed.

Definition prec5 : prec_info := mk_prec (flit 1 10) 5 14 8.
Definition xs_of (l : list (mesh * list N)) : list (option (list SpecFloat.spec_float)) :=
  map (fun mn => option_map (map (fun v => B2SF (vx v))) (normals (fst mn))) l.
Lemma one_x l sf : xs_of l = [Some [sf]] -> exists v, map (fun mn => normals (fst mn)) l = [Some [v]] /\ B2SF (vx v) = sf.
Proof.
  unfold xs_of. intros K. destruct l as [|a [|]]; try discriminate K. cbn [map] in *. destruct (normals (fst a)) as [[|v [|]]|]; try discriminate K.
  cbn [option_map map] in K. injection K as K. eauto.
Qed.
Theorem C77_direction_refuted : exists lm n out1 l1 out2 l2 v1 v2, asin_ok lm /\ sin_cos_ok lm /\ unit_vector n /\
  good [(normal_mesh n, [])] /\ precision_ok prec5 /\
  saved lm true prec5 [(normal_mesh n, [])] = Ok out1 /\ read_tmf lm true out1 = Ok l1 /\
  saved lm true prec5 l1 = Ok out2 /\ read_tmf lm true out2 = Ok l2 /\
  map (fun mn => normals (fst mn)) l1 = [Some [v1]] /\ map (fun mn => normals (fst mn)) l2 = [Some [v2]] /\
  finite (vx v1) /\ 0.05 <= val (vx v1) /\ finite (vx v2) /\ val (vx v2) = 0.
Proof.
  assert (K : match saved drift_libm true prec5 [(normal_mesh drifting, [])] with
    | Ok out1 => match read_tmf drift_libm true out1 with
      | Ok l1 => match saved drift_libm true prec5 l1 with
        | Ok out2 => match read_tmf drift_libm true out2 with Ok l2 => Some (xs_of l1, xs_of l2) | _ => None end
        | _ => None end
      | _ => None end
    | _ => None end = Some ([Some [B2SF (flit 13567707 (2 ^ 28))]], [Some [B2SF f0]])) by (vm_compute; reflexivity).
  destruct (saved drift_libm true prec5 [(normal_mesh drifting, [])]) as [out1|e|] eqn:S1; try discriminate K.
  destruct (read_tmf drift_libm true out1) as [l1|e|] eqn:R1; try discriminate K.
  destruct (saved drift_libm true prec5 l1) as [out2|e|] eqn:S2; try discriminate K.
  destruct (read_tmf drift_libm true out2) as [l2|e|] eqn:R2; try discriminate K.
  apply (f_equal (fun o => match o with Some p => p | None => ([], []) end)) in K. apply pair_equal_spec in K as [K1 K2].
  apply one_x in K1 as (v1 & N1 & V1). apply one_x in K2 as (v2 & N2 & V2). apply B2SF_inj in V1, V2.
  exists drift_libm, drifting, out1, l1, out2, l2, v1, v2. split; [apply drift_asin_ok|]. split; [apply drift_sin_cos_ok|].
  split; [apply drifting_unit|]. assert (P : precision_ok prec5) by (split; cbn; lia).
  destruct (normal_mesh_saved drift_libm prec5 drifting P) as ([L1 L2] & _); [cbn; lia|].
  split. { split; [exact L1|]. eapply Forall_impl; [|exact L2]. cbv beta. tauto. }
  split; [exact P|]. repeat (split; [assumption|]). rewrite V1, V2.
  float_value (flit 13567707 (2 ^ 28)) as A1 A2. split; [exact A2|]. split; [change val with R32; rewrite A1; lra|]. split; reflexivity.
Qed.
Print Assumptions C77_direction_refuted.

(** Three cycles of the demo meshes (UVs with 14 bits, normals with 7, tangents with 8) meet the
    hypotheses. *)
Lemma demo_good : good demo_list.
Proof. destruct demo_ok as (_ & A & B). split; [exact A|]. eapply Forall_impl; [|exact B]. cbv beta. tauto. Qed.
Lemma demo_cycle_ok k n l : (forall l1, k l1 = true -> exists l2, cycles_of (fun _ p => p = demo_prec) n l1 l2) ->
  try_cycle k l = true -> exists l1 l2, cycle (fun _ p => p = demo_prec) l l1 /\ cycles_of (fun _ p => p = demo_prec) n l1 l2.
Proof.
  intros H T. apply andb_prop in T as [T1 T2].
  destruct (saved demo true demo_prec l) as [out| |] eqn:S; try discriminate T2.
  destruct (read_tmf demo true out) as [l1| |] eqn:R; try discriminate T2.
  destruct (H l1 T2) as [l2 C]. exists l1, l2. split; [|exact C]. exists demo, demo, true, demo_prec, out.
  split; [reflexivity|]. split; [exact (proj1 demo_ok)|]. split; [|split; assumption].
  apply Forall_forall. intros x X. rewrite forallb_forall in T1. apply N.ltb_lt. auto.
Qed.
Example C77_case : good demo_list /\ uv_prec demo_prec = 14%nat /\ normal_precision demo_prec = 7%nat /\ tangent_prec demo_prec = 8%nat /\
  exists l1 l2, cycle (fun _ p => p = demo_prec) demo_list l1 /\ cycles_of (fun _ p => p = demo_prec) 2 l1 l2.
Proof.
  split; [apply demo_good|]. repeat (split; [reflexivity|]).
  apply (demo_cycle_ok (try_cycle (try_cycle (fun _ => true)))); [|vm_compute; reflexivity].
  intros l1 H1. destruct (demo_cycle_ok _ 1 l1 (fun l2 H2 => let '(ex_intro _ la (ex_intro _ lb (conj A B))) := demo_cycle_ok (fun _ => true) 0 l2 (fun l3 _ => ex_intro _ l3 (cycles_stop _ l3)) H2 in ex_intro _ lb (cycles_more _ _ _ _ _ A B)) H1) as (la & lb & A & B).
  exists lb. econstructor; eauto.
Qed.
