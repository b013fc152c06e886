(** Facts about the float operations, in terms of real numbers. *)
From Coq Require Import ZArith NArith List Bool Reals Lra Lia.
From Flocq Require Import Core IEEE754.BinarySingleNaN.
From Verif Require Import Base Floats.
Import ListNotations.
Local Open Scope R_scope.

Notation fexp32 := (SpecFloat.fexp 24 128).
Notation fexp64 := (SpecFloat.fexp 53 1024).
Notation rnd32 := (round radix2 fexp32 ZnearestE).
Notation rnd64 := (round radix2 fexp64 ZnearestE).
Definition R32 (x : f32) : R := B2R x.
Definition R64 (x : f64) : R := B2R x.
Notation fin x := (is_finite x = true).

#[global] Instance valid_exp32 : Valid_exp fexp32.
Proof. apply fexp_correct. reflexivity. Qed.
#[global] Instance valid_exp64 : Valid_exp fexp64.
Proof. apply fexp_correct. reflexivity. Qed.

Lemma format32_64 x : generic_format radix2 fexp32 x -> generic_format radix2 fexp64 x.
Proof.
  apply generic_inclusion_mag. intros _. unfold SpecFloat.fexp, SpecFloat.emin. lia.
Qed.

Lemma f64_of_f32_correct (x : f32) :
  is_finite x = true ->
  R64 (f64_of_f32 x) = R32 x /\ is_finite (f64_of_f32 x) = true /\ Bsign (f64_of_f32 x) = Bsign x.
Proof.
  destruct x as [s|s| |s m e H]; try discriminate; intros _.
  - repeat split.
  - unfold f64_of_f32.
    pose proof (binary_normalize_correct 53 1024 gt0_53 lt_53_1024 mode_NE (cond_Zopp s (Zpos m)) e s) as C.
    assert (G : generic_format radix2 fexp32 (F2R (Float radix2 (cond_Zopp s (Zpos m)) e))).
    { apply (generic_format_B2R 24 128 (B754_finite s m e H)). }
    cbv zeta in C. simpl round_mode in C. rewrite round_generic in C; [|apply valid_rnd_N|now apply format32_64].
    assert (B : Rabs (F2R (Float radix2 (cond_Zopp s (Zpos m)) e)) < bpow radix2 1024).
    { eapply Rlt_trans; [apply (abs_B2R_lt_emax 24 128 (B754_finite s m e H))|].
      apply bpow_lt. lia. }
    rewrite Rlt_bool_true in C by exact B. destruct C as (C1 & C2 & C3).
    unfold R64, R32. split; [exact C1|]. split; [exact C2|]. rewrite C3. cbn [Bsign].
    destruct s; cbn [cond_Zopp].
    + rewrite Rcompare_Lt; auto. now apply F2R_lt_0.
    + rewrite Rcompare_Gt; auto. now apply F2R_gt_0.
Qed.

Lemma f32_of_f64_exact (x : f64) :
  is_finite x = true -> generic_format radix2 fexp32 (R64 x) -> Rabs (R64 x) < bpow radix2 128 ->
  R32 (f32_of_f64 x) = R64 x /\ is_finite (f32_of_f64 x) = true /\ Bsign (f32_of_f64 x) = Bsign x.
Proof.
  destruct x as [s|s| |s m e H]; try discriminate; intros _ G B.
  - repeat split.
  - unfold f32_of_f64.
    pose proof (binary_normalize_correct 24 128 gt0_24 lt_24_128 mode_NE (cond_Zopp s (Zpos m)) e s) as C.
    cbv zeta in C. simpl round_mode in C. change (F2R _) with (R64 (B754_finite s m e H)) in C.
    rewrite round_generic in C; [|apply valid_rnd_N|exact G].
    rewrite Rlt_bool_true in C by exact B. destruct C as (C1 & C2 & C3).
    split; [exact C1|]. split; [exact C2|]. rewrite C3. cbn [Bsign]. unfold R64, B2R.
    destruct s; cbn [cond_Zopp].
    + rewrite Rcompare_Lt; auto. now apply F2R_lt_0.
    + rewrite Rcompare_Gt; auto. now apply F2R_gt_0.
Qed.

(** Widening to f64 and narrowing back is the identity. *)
Lemma f32_f64_f32 (x : f32) : f32_of_f64 (f64_of_f32 x) = x.
Proof.
  destruct (is_finite x) eqn:F.
  - destruct (f64_of_f32_correct x F) as (A & B & C).
    destruct (f32_of_f64_exact (f64_of_f32 x) B) as (A' & B' & C').
    + rewrite A. apply generic_format_B2R.
    + rewrite A. apply abs_B2R_lt_emax.
    + apply B2R_Bsign_inj; auto; [|congruence]. unfold R32, R64 in *. congruence.
  - destruct x; try discriminate; reflexivity.
Qed.
