(** Little-endian integers and exact reads. *)
From Coq Require Import List NArith ZArith Arith Lia Bool ZifyN ZifyNat ZifyBool.
From Verif Require Import Base UnalignedRW ReadExt.
Import ListNotations.
Open Scope res_scope.
Ltac Zify.zify_post_hook ::= Z.div_mod_to_equations.

Lemma le_bytes_length n v : length (le_bytes n v) = n.
Proof. revert v; induction n; simpl; auto. Qed.

Lemma le_bytes_ok n v : bytes_ok (le_bytes n v).
Proof.
  revert v; induction n; intros v; cbn [le_bytes]; [apply Forall_nil|].
  apply Forall_cons; [apply N.mod_lt; discriminate|apply IHn].
Qed.

Lemma of_le_bytes_le n v : (v < 256 ^ N.of_nat n)%N -> of_le_bytes (le_bytes n v) = v.
Proof.
  revert v; induction n; intros v H.
  - cbn in *. lia.
  - cbn [le_bytes of_le_bytes]. rewrite IHn.
    + pose proof (N.div_mod v 256 ltac:(lia)). lia.
    + rewrite Nat2N.inj_succ, N.pow_succ_r' in H.
      apply N.div_lt_upper_bound; lia.
Qed.

Lemma of_le_bytes_mod n v : of_le_bytes (le_bytes n v) = (v mod 256 ^ N.of_nat n)%N.
Proof.
  revert v; induction n; intros v.
  - cbn. now rewrite N.mod_1_r.
  - cbn [le_bytes of_le_bytes]. rewrite IHn, Nat2N.inj_succ, N.pow_succ_r'.
    rewrite N.mod_mul_r by (try lia; apply N.pow_nonzero; lia). lia.
Qed.

Lemma of_le_bytes_lt l : bytes_ok l -> (of_le_bytes l < 256 ^ N.of_nat (length l))%N.
Proof.
  induction l; intros H; [cbn; lia|].
  apply Forall_cons_iff in H as [Ha Hl]. unfold byte_ok in Ha.
  cbn [of_le_bytes length]. rewrite Nat2N.inj_succ, N.pow_succ_r'. specialize (IHl Hl). lia.
Qed.

Lemma le_of_le_bytes l : bytes_ok l -> le_bytes (length l) (of_le_bytes l) = l.
Proof.
  induction l as [|a l IH]; intros H; auto.
  apply Forall_cons_iff in H as [Ha Hl]. unfold byte_ok in Ha.
  cbn [of_le_bytes length le_bytes].
  replace ((a + 256 * of_le_bytes l) mod 256)%N with a by lia.
  replace ((a + 256 * of_le_bytes l) / 256)%N with (of_le_bytes l) by lia.
  now rewrite IH.
Qed.

Lemma read_exact_app a b n : N.of_nat (length a) = n -> read_exact n (a ++ b) = Ok (a, b).
Proof.
  intros <-. unfold read_exact. rewrite app_length.
  destruct (N.ltb_spec (N.of_nat (length a + length b)) (N.of_nat (length a))); [lia|].
  rewrite Nat2N.id, firstn_app, skipn_app, Nat.sub_diag, firstn_all, skipn_all.
  rewrite firstn_O, skipn_O, app_nil_r. reflexivity.
Qed.

Lemma read_exact_inv n src a rest :
  read_exact n src = Ok (a, rest) -> src = a ++ rest /\ N.of_nat (length a) = n.
Proof.
  unfold read_exact. destruct (N.ltb_spec (N.of_nat (length src)) n); [discriminate|].
  intros [= <- <-]. split; [symmetry; apply firstn_skipn|]. rewrite firstn_length. lia.
Qed.

Lemma read_exact_short n src : (N.of_nat (length src) < n)%N -> read_exact n src = Err UnexpectedEof.
Proof. intros. unfold read_exact. destruct (N.ltb_spec (N.of_nat (length src)) n); [auto|lia]. Qed.

Lemma read_le_le_bytes n v rest :
  (v < 256 ^ N.of_nat n)%N -> read_le (N.of_nat n) (le_bytes n v ++ rest) = Ok (v, rest).
Proof.
  intros H. unfold read_le. rewrite read_exact_app by now rewrite le_bytes_length.
  cbn [bind]. now rewrite of_le_bytes_le.
Qed.

Lemma read_le_mod n v rest :
  read_le (N.of_nat n) (le_bytes n v ++ rest) = Ok ((v mod 256 ^ N.of_nat n)%N, rest).
Proof.
  unfold read_le. rewrite read_exact_app by now rewrite le_bytes_length.
  cbn [bind]. now rewrite of_le_bytes_mod.
Qed.

Lemma read_u8_w v rest : (v < 256)%N -> read_u8 (le_bytes 1 v ++ rest) = Ok (v, rest).
Proof. intros. apply (read_le_le_bytes 1). exact H. Qed.
Lemma read_u16_w v rest : (v < 65536)%N -> read_u16 (le_bytes 2 v ++ rest) = Ok (v, rest).
Proof. intros. apply (read_le_le_bytes 2). exact H. Qed.
Lemma read_u32_w v rest : (v < two32)%N -> read_u32 (le_bytes 4 v ++ rest) = Ok (v, rest).
Proof. intros. apply (read_le_le_bytes 4). exact H. Qed.
Lemma read_u64_w v rest : (v < two64)%N -> read_u64 (le_bytes 8 v ++ rest) = Ok (v, rest).
Proof. intros. apply (read_le_le_bytes 8). exact H. Qed.
Lemma read_u8_byte b rest : (b < 256)%N -> read_u8 (b :: rest) = Ok (b, rest).
Proof.
  intros. unfold read_u8, read_le.
  change (b :: rest) with ([b] ++ rest). rewrite read_exact_app by reflexivity.
  cbn [bind of_le_bytes]. now rewrite N.mul_0_r, N.add_0_r.
Qed.

Lemma read_le_inv n src v rest :
  read_le n src = Ok (v, rest) ->
  exists a, src = a ++ rest /\ N.of_nat (length a) = n /\ v = of_le_bytes a.
Proof.
  unfold read_le. destruct (read_exact n src) as [[a r]| |] eqn:E; try discriminate.
  cbn [bind]. intros [= <- <-]. apply read_exact_inv in E as [E1 E2]. eauto.
Qed.
