(** Properties C05 and C06: what the triple read does at width 32 and what the mixed-width pair
    read does with any widths. *)
From Coq Require Import List NArith Arith Lia.
From Verif Require Import Base BitSpec UnalignedRW BitIOSpec UnalignedRW_proofs.
Import ListNotations.
Open Scope res_scope.

Lemma pair_spec oc r a b : rok r -> 0 < a -> a + b < 64 ->
  (a + b <= length (rbits r) -> exists r', read_pair_unaligned oc r a b
     = Ok ((of_bits (firstn b (rbits r)), of_bits (firstn a (skipn b (rbits r)))), r') /\ rok r' /\ rbits r' = skipn (a + b) (rbits r)) /\
  (length (rbits r) < a + b -> read_pair_unaligned oc r a b = Err UnexpectedEof).
Proof.
  intros Hr Ha Hb. unfold read_pair_unaligned, add8, sub8. destruct (Nat.ltb_spec (a + b) 256); [|lia]. cbn [bind].
  destruct (Nat.ltb_spec 64 (a + b)); [lia|]. destruct (read_unaligned_spec r (a + b) Hr Hb) as [A B]. split.
  - intros Hl. destruct (A Hl) as (r1 & E1 & O1 & B1). rewrite E1. cbn [bind]. destruct (Nat.leb_spec a 64); [|lia]. cbn [bind].
    rewrite shr64_ok by lia. cbn [bind]. rewrite shl64_ok by lia. cbn [bind]. rewrite shr64_ok by lia. cbn [bind].
    rewrite shl_shr_mod by lia. replace (a + b) with (b + a) in * by lia. destruct (split_word (firstn (b + a) (rbits r)) b a) as [S1 S2]; [rewrite firstn_length; lia|].
    rewrite S1, S2, skipn_firstn', firstn_firstn. replace (Nat.min b (b + a)) with b by lia. eauto.
  - intros Hl. rewrite (B Hl). reflexivity.
Qed.
Lemma take_two l a b rest : take_fields l (b :: a :: rest) =
  if a + b <=? length l then option_map (fun t => of_bits (firstn b l) :: of_bits (firstn a (skipn b l)) :: t) (take_fields (skipn (a + b) l) rest) else None.
Proof.
  cbn [take_fields]. rewrite skipn_length. destruct (Nat.leb_spec b (length l)); destruct (Nat.leb_spec (a + b) (length l)); try lia; auto.
  - destruct (Nat.leb_spec a (length l - b)); [|lia]. replace (a + b) with (b + a) by lia. rewrite skipn_add. destruct (take_fields _ rest); reflexivity.
  - destruct (Nat.leb_spec a (length l - b)); [lia|]. reflexivity.
Qed.
Lemma pair_in_history oc a b post : Forall rop_ok post -> 0 < a -> a + b < 64 -> forall pre r, Forall rop_ok pre -> rok r ->
  run_rops oc r (pre ++ RPair a b :: post) = of_option (take_fields (rbits r) (flat_map rop_widths pre ++ b :: a :: flat_map rop_widths post)).
Proof.
  intros HP Ha Hb. induction pre as [|op pre IH]; intros r Ho Hr.
  - cbn [app flat_map run_rops run_rop]. rewrite take_two. destruct (pair_spec oc r a b Hr Ha Hb) as [A B].
    destruct (Nat.leb_spec (a + b) (length (rbits r))).
    + destruct A as (r' & E & O & Q); auto. rewrite E. cbn [bind fst snd]. rewrite run_rops_spec, Q by auto. destruct (take_fields _ _); reflexivity.
    + rewrite B by auto. reflexivity.
  - apply Forall_cons_iff in Ho as [Ho Ht]. cbn [app flat_map run_rops]. rewrite <- app_assoc, take_fields_app.
    destruct (run_rop_spec oc r op Hr Ho) as [A B]. destruct (take_fields (rbits r) (rop_widths op)) as [vs|].
    + destruct (A vs eq_refl) as (r' & E & O & Q). rewrite E. cbn [bind]. rewrite IH by auto. rewrite Q. destruct (take_fields _ _); reflexivity.
    + rewrite B by auto. reflexivity.
Qed.

(** C06. The mixed-width read reads its two fields with the widths swapped, whatever the widths. *)
Theorem C06_pair_swaps_widths : forall oc data sched pre post a b,
  bytes_ok data -> Forall rop_ok pre -> Forall rop_ok post -> 0 < a -> a + b < 64 ->
  run_rops oc (reader_new (mk_source data sched)) (pre ++ RPair a b :: post)
  = run_rops oc (reader_new (mk_source data sched)) (pre ++ [ROne b; ROne a] ++ post).
Proof.
  intros oc data sched pre post a b D P1 P2 Ha Hb. rewrite pair_in_history; auto; [|now apply rok_new].
  rewrite run_rops_spec; [|now apply rok_new|]. { rewrite flat_map_app. reflexivity. }
  apply Forall_app. split; auto. repeat (apply Forall_cons; [cbn [rop_ok]; lia|]). auto.
Qed.
Print Assumptions C06_pair_swaps_widths.

(** So for every two different widths there is a stream on which it is wrong. *)
Lemma of_bits_ones n : of_bits (repeat true n) = (2 ^ N.of_nat n - 1)%N.
Proof.
  induction n as [|n IH]; [reflexivity|]. replace (S n) with (n + 1) by lia. rewrite repeat_app. cbn [repeat].
  unfold of_bits in *. rewrite fold_left_app, IH. cbn [fold_left]. replace (N.of_nat (n + 1)) with (N.of_nat n + 1)%N by lia. rewrite N.pow_add_r.
  pose proof (N.pow_nonzero 2 (N.of_nat n)). destruct (2 ^ N.of_nat n)%N eqn:Q; [lia|]. cbn -[N.mul N.add N.sub]. lia.
Qed.
Lemma firstn_repeat {A} (x : A) k n : k <= n -> firstn k (repeat x n) = repeat x k.
Proof. revert n. induction k as [|k IH]; intros n L; [reflexivity|]. destruct n; [lia|]. cbn. rewrite IH by lia. reflexivity. Qed.
Lemma skipn_repeat {A} (x : A) k n : skipn k (repeat x n) = repeat x (n - k).
Proof. revert n. induction k as [|k IH]; intros n; [now rewrite Nat.sub_0_r|]. destruct n; [reflexivity|]. cbn. apply IH. Qed.
Theorem C06_pair_mixed_widths_differ : forall a b, 0 < a -> a <> b -> a + b < 64 ->
  exists data, bytes_ok data /\ forall oc sched, exists x y u v,
    run_rops oc (reader_new (mk_source data sched)) [RPair a b] = Ok [x; y] /\
    run_rops oc (reader_new (mk_source data sched)) [ROne a; ROne b] = Ok [u; v] /\ x <> u /\ y <> v.
Proof.
  intros a b Ha N Hb. exists (repeat 255%N 8). assert (D : bytes_ok (repeat 255%N 8)) by (repeat (apply Forall_cons; [reflexivity|]); apply Forall_nil).
  split; [exact D|]. intros oc sched.
  assert (T : forall c d, c + d < 64 -> run_rops oc (reader_new (mk_source (repeat 255%N 8) sched)) [ROne c; ROne d]
    = Ok [2 ^ N.of_nat c - 1; 2 ^ N.of_nat d - 1]%N).
  { intros c d L. rewrite run_rops_spec; [|now apply rok_new|repeat (apply Forall_cons; [cbn [rop_ok]; lia|]); apply Forall_nil].
    cbn [flat_map rop_widths app]. change (rbits (reader_new (mk_source (repeat 255%N 8) sched))) with (repeat true 64).
    rewrite (take_two _ d c). rewrite repeat_length. destruct (Nat.leb_spec (d + c) 64); [|lia]. cbn [take_fields option_map of_option].
    rewrite skipn_repeat, !firstn_repeat, !of_bits_ones by lia. reflexivity. }
  pose proof (C06_pair_swaps_widths oc (repeat 255%N 8) sched [] [] a b D ltac:(apply Forall_nil) ltac:(apply Forall_nil) Ha Hb) as S. cbn [app] in S.
  exists (2 ^ N.of_nat b - 1)%N, (2 ^ N.of_nat a - 1)%N, (2 ^ N.of_nat a - 1)%N, (2 ^ N.of_nat b - 1)%N.
  split; [rewrite S; apply T; lia|]. split; [apply T; lia|].
  assert (P : (2 ^ N.of_nat b - 1 <> 2 ^ N.of_nat a - 1)%N); [|split; auto].
  pose proof (N.pow_nonzero 2 (N.of_nat a)). pose proof (N.pow_nonzero 2 (N.of_nat b)). intros Q.
  assert (Q' : (2 ^ N.of_nat b = 2 ^ N.of_nat a)%N) by lia. apply N.pow_inj_r in Q'; lia.
Qed.
Print Assumptions C06_pair_mixed_widths_differ.

(** With a first width of 0 a checked build panics once the bits are there. *)
Theorem C06_pair_zero_width_panics : forall data sched b, bytes_ok data -> b < 64 -> b <= length (bits_of_bytes data) ->
  run_rops true (reader_new (mk_source data sched)) [RPair 0 b] = Panic.
Proof.
  intros data sched b D Hb L. assert (R : rok (reader_new (mk_source data sched))) by now apply rok_new. cbn [run_rops run_rop]. unfold read_pair_unaligned, add8, sub8.
  destruct (Nat.ltb_spec (0 + b) 256); [|lia]. cbn [bind]. destruct (Nat.ltb_spec 64 (0 + b)); [lia|].
  destruct (read_unaligned_spec _ (0 + b) R ltac:(lia)) as [A _]. destruct A as (r1 & E & _). { exact L. }
  rewrite E. cbn [bind]. rewrite shr64_ok by lia. cbn [bind]. assert (0 <=? 64 = true) as -> by reflexivity. cbn [bind]. unfold shl64. reflexivity.
Qed.
Print Assumptions C06_pair_zero_width_panics.

(** C05. At width 32 the triple read returns two zeros and the next field, anywhere in a history. *)
Lemma rop_count oc r op vs r' : run_rop oc r op = Ok (vs, r') -> length vs = length (rop_widths op).
Proof.
  destruct op as [|w|w|w|w1 w2]; cbn [run_rop rop_widths]; intros H.
  - destruct (read_bit r) as [[b q]| |]; cbn [bind] in H; try discriminate H. injection H as <- _. reflexivity.
  - destruct (read_unaligned r w) as [[b q]| |]; cbn [bind] in H; try discriminate H. injection H as <- _. reflexivity.
  - destruct (read2_unaligned oc r w) as [[b q]| |]; cbn [bind] in H; try discriminate H. injection H as <- _. reflexivity.
  - destruct (read3_unaligned oc r w) as [[b q]| |]; cbn [bind] in H; try discriminate H. injection H as <- _. reflexivity.
  - destruct (read_pair_unaligned oc r w1 w2) as [[b q]| |]; cbn [bind] in H; try discriminate H. injection H as <- _. reflexivity.
Qed.
Lemma read3_32 oc r : read3_unaligned oc r 32 = let* (c, r2) := read_unaligned r 32 in Ok ((0, 0, c)%N, r2).
Proof. unfold read3_unaligned. assert (21 <? 32 = true) as -> by reflexivity. rewrite read2_32. cbn [bind fst snd]. reflexivity. Qed.
Lemma triple_in_history w oc r pre post before v after : (forall r, read3_unaligned oc r w = let* (c, r2) := read_unaligned r w in Ok ((0, 0, c)%N, r2)) ->
  length before = length (flat_map rop_widths pre) -> run_rops oc r (pre ++ ROne w :: post) = Ok (before ++ v :: after) ->
  run_rops oc r (pre ++ RThree w :: post) = Ok (before ++ 0%N :: 0%N :: v :: after).
Proof.
  intros R3. revert r post before v after. induction pre as [|op pre IH]; intros r post before v after L H.
  - destruct before; [|discriminate L]. cbn [app run_rops run_rop] in *. rewrite R3.
    destruct (read_unaligned r w) as [[x q]| |]; cbn [bind] in *; try discriminate H.
    destruct (run_rops oc q post) as [ws| |]; cbn [bind] in *; try discriminate H. injection H as <- <-. cbn [fst snd app]. reflexivity.
  - cbn [app run_rops flat_map] in *. destruct (run_rop oc r op) as [[vs q]| |] eqn:E; cbn [bind] in *; try discriminate H.
    pose proof (rop_count _ _ _ _ _ E) as C. rewrite app_length in L.
    destruct (run_rops oc q (pre ++ ROne w :: post)) as [ws| |] eqn:W; cbn [bind] in H; try discriminate H. injection H as H.
    assert (B : exists t, before = vs ++ t /\ ws = t ++ v :: after).
    { exists (skipn (length vs) before). assert (F : firstn (length vs) before = vs).
      { apply (f_equal (firstn (length vs))) in H. rewrite firstn_app, Nat.sub_diag, firstn_all in H. cbn in H. rewrite app_nil_r in H.
        rewrite firstn_app in H. replace (length vs - length before) with 0 in H by lia. cbn in H. now rewrite app_nil_r in H. }
      split. { rewrite <- F at 1. symmetry. apply firstn_skipn. }
      apply (f_equal (skipn (length vs))) in H. rewrite skipn_app, Nat.sub_diag, skipn_all in H. cbn in H.
      rewrite skipn_app in H. replace (length vs - length before) with 0 in H by lia. exact H. }
    destruct B as (t & -> & ->). rewrite app_length in L. rewrite (IH q post t v after) by (auto; lia). cbn [bind]. now rewrite app_assoc.
Qed.
Theorem C05_read3_width32_result : forall oc r pre post before v after,
  length before = length (flat_map rop_widths pre) ->
  run_rops oc r (pre ++ ROne 32 :: post) = Ok (before ++ v :: after) ->
  run_rops oc r (pre ++ RThree 32 :: post) = Ok (before ++ 0%N :: 0%N :: v :: after).
Proof. intros oc r pre post before v after. apply triple_in_history, read3_32. Qed.
Print Assumptions C05_read3_width32_result.

Example C05_width32_case : exists before v after,
  run_rops true (reader_new (slice [255; 0; 0; 0; 1; 7]%N)) ([ROne 8] ++ ROne 32 :: [ROne 8]) = Ok (before ++ v :: after) /\
  length before = length (flat_map rop_widths [ROne 8]).
Proof. exists [255]%N, 1%N, [7]%N. split; vm_compute; reflexivity. Qed.
Example C06_swap_case : run_rops true (reader_new (slice [171; 205; 239]%N)) ([RBit] ++ RPair 4 8 :: [ROne 3])
  = run_rops true (reader_new (slice [171; 205; 239]%N)) ([RBit] ++ [ROne 8; ROne 4] ++ [ROne 3]).
Proof. vm_compute. reflexivity. Qed.
