(** Proofs about the index array codec. *)
From Coq Require Import List NArith ZArith Arith Lia Bool ZifyN ZifyNat ZifyBool.
From Verif Require Import Base BitSpec BitLemmas UnalignedRW BitIOSpec UnalignedRW_proofs
  ReadExt ByteLemmas Triangles TriSpec.
Import ListNotations.
Open Scope res_scope.
Ltac Zify.zify_post_hook ::= Z.div_mod_to_equations.

(** ** calc_prec *)

Lemma pos_ones_pos p : 1 <= pos_ones p.
Proof. induction p; simpl; lia. Qed.

Lemma pos_ones_1 p : pos_ones p = 1 -> exists k, N.pos p = (2 ^ k)%N.
Proof.
  induction p as [p IH|p IH|]; simpl; intros H.
  - pose proof (pos_ones_pos p). lia.
  - destruct (IH H) as [k E]. exists (N.succ k). rewrite N.pow_succ_r'. lia.
  - exists 0%N. reflexivity.
Qed.

Lemma pos_ones_pow k p : N.pos p = (2 ^ k)%N -> pos_ones p = 1.
Proof.
  revert p. induction k as [|k IH] using N.peano_ind; intros p H.
  - rewrite N.pow_0_r in H. injection H as ->. reflexivity.
  - rewrite N.pow_succ_r' in H. destruct p as [p|p|]; simpl.
    + exfalso. lia.
    + apply IH. lia.
    + exfalso. lia.
Qed.

Lemma calc_prec_spec max :
  (max < two64)%N ->
  (max < 2 ^ N.of_nat (calc_prec max))%N /\
  (forall k, (max < 2 ^ k)%N -> (N.of_nat (calc_prec max) <= k)%N) /\
  calc_prec max <= 64.
Proof.
  intros Hm. unfold calc_prec. destruct (N.eqb_spec max (two64 - 1)) as [->|E].
  - split; [reflexivity|]. split; [|lia]. intros k Hk.
    destruct (N.lt_ge_cases k 64) as [L|L]; [|lia]. exfalso.
    assert (2 ^ k <= 2 ^ 63)%N by (apply N.pow_le_mono_r; lia).
    change (2 ^ 63)%N with 9223372036854775808%N in H.
    change (two64 - 1)%N with 18446744073709551615%N in Hk. lia.
  - set (m1 := (max + 1)%N).
    assert (H1 : (1 <= m1 < two64)%N) by (unfold m1; lia).
    destruct m1 as [|p] eqn:Ep; [lia|].
    assert (Hlog : (N.log2 (N.pos p) < 64)%N).
    { apply N.log2_lt_pow2; [lia|]. exact (proj2 H1). }
    assert (Eoff : 64 - 1 - leading_zeros (N.pos p) = N.to_nat (N.log2 (N.pos p))).
    { cbn [leading_zeros]. lia. }
    rewrite Eoff. cbn [count_ones].
    set (off := N.log2 (N.pos p)) in *.
    destruct (N.log2_spec (N.pos p) ltac:(lia)) as [L1 L2]. fold off in L1, L2.
    pose proof (pos_ones_pos p).
    destruct (Nat.ltb_spec 1 (pos_ones p)) as [Hr|Hr].
    + assert (Hne : N.pos p <> (2 ^ off)%N).
      { intros C. apply pos_ones_pow in C. lia. }
      rewrite Nat2N.inj_add, N2Nat.id. change (N.of_nat 1) with 1%N.
      rewrite N.add_1_r. split; [unfold m1 in Ep; lia|]. split.
      * intros k Hk. destruct (N.lt_ge_cases off k); [lia|]. exfalso.
        assert (2 ^ k <= 2 ^ off)%N by (apply N.pow_le_mono_r; lia). unfold m1 in Ep. lia.
      * assert (off <> 64)%N by lia. lia.
    + assert (pos_ones p = 1) by lia. destruct (pos_ones_1 p H0) as [k E0].
      assert (off = k) by (unfold off; rewrite E0; apply N.log2_pow2; lia). subst k.
      rewrite Nat.add_0_r, N2Nat.id. split; [unfold m1 in Ep; lia|]. split.
      * intros k Hk. destruct (N.lt_ge_cases k off) as [L|L]; [|lia]. exfalso.
        assert (2 ^ N.succ k <= 2 ^ off)%N by (apply N.pow_le_mono_r; lia).
        rewrite N.pow_succ_r' in H2. pose proof (pow2_pos k). unfold m1 in Ep. lia.
      * lia.
Qed.

Lemma calc_prec_le max k : (max < 2 ^ N.of_nat k)%N -> k <= 64 -> calc_prec max <= k.
Proof.
  intros H Hk. destruct (calc_prec_spec max) as (_ & A & _).
  - eapply N.lt_le_trans; [exact H|]. rewrite two64_eq. apply N.pow_le_mono_r; lia.
  - specialize (A _ H). lia.
Qed.

Lemma calc_prec_ge max k : (max < two64)%N -> (2 ^ N.of_nat k <= max)%N -> k < calc_prec max.
Proof.
  intros Hm H. destruct (calc_prec_spec max Hm) as (A & _ & _).
  destruct (le_lt_dec (calc_prec max) k) as [L|L]; auto. exfalso.
  assert (2 ^ N.of_nat (calc_prec max) <= 2 ^ N.of_nat k)%N by (apply N.pow_le_mono_r; lia).
  lia.
Qed.

Lemma calc_prec_32 max : (2 ^ 31 <= max < 2 ^ 32)%N -> calc_prec max = 32.
Proof.
  intros [H1 H2].
  pose proof (calc_prec_le max 32 H2 ltac:(lia)).
  pose proof (calc_prec_ge max 31 ltac:(unfold two64; lia) H1). lia.
Qed.

(** ** min / max *)

Lemma fold_min_le l x : (fold_left N.min l x <= x)%N.
Proof. revert x; induction l; intros x; simpl; [lia|]. specialize (IHl (N.min x a)). lia. Qed.

Lemma fold_min_in l x y : In y l -> (fold_left N.min l x <= y)%N.
Proof.
  revert x; induction l; intros x; simpl; [tauto|].
  intros [->|H]; auto. pose proof (fold_min_le l (N.min x y)). lia.
Qed.

Lemma min_or_le d l y : In y l -> (min_or d l <= y)%N.
Proof.
  destruct l as [|x t]; simpl; [tauto|]. intros [->|H].
  - apply fold_min_le.
  - now apply fold_min_in.
Qed.

Lemma fold_max_ge l x : (x <= fold_left N.max l x)%N.
Proof. revert x; induction l; intros x; simpl; [lia|]. specialize (IHl (N.max x a)). lia. Qed.
Lemma fold_max_in l x y : In y l -> (y <= fold_left N.max l x)%N.
Proof.
  revert x; induction l; intros x; simpl; [tauto|].
  intros [->|H]; auto. pose proof (fold_max_ge l (N.max x y)). lia.
Qed.
Lemma max_or_ge d l y : In y l -> (y <= max_or d l)%N.
Proof.
  destruct l as [|x t]; simpl; [tauto|]. intros [->|H].
  - apply fold_max_ge.
  - now apply fold_max_in.
Qed.
Lemma fold_max_lt l x b : (x < b)%N -> Forall (fun y => (y < b)%N) l -> (fold_left N.max l x < b)%N.
Proof.
  revert x; induction l; intros x Hx Hl; simpl; auto.
  apply Forall_cons_iff in Hl as [Ha Hl]. apply IHl; auto. lia.
Qed.
Lemma max_or_lt d l b : (d < b)%N -> Forall (fun y => (y < b)%N) l -> (max_or d l < b)%N.
Proof.
  destruct l; simpl; auto. intros Hd Hl. apply Forall_cons_iff in Hl as [Ha Hl].
  now apply fold_max_lt.
Qed.
Lemma fold_min_lt l x b : (x < b)%N -> (fold_left N.min l x < b)%N.
Proof. intros. pose proof (fold_min_le l x). lia. Qed.
Lemma min_or_lt d l b : (d < b)%N -> Forall (fun y => (y < b)%N) l -> (min_or d l < b)%N.
Proof.
  destruct l; simpl; auto. intros Hd Hl. apply Forall_cons_iff in Hl as [Ha Hl].
  now apply fold_min_lt.
Qed.

(** ** Layout of a saved array *)

Definition tri_header (prec : nat) (len min : N) : list N :=
  le_bytes 1 (N.of_nat prec) ++ le_bytes 8 len ++ le_bytes 8 min.

Lemma tri_header_ok p l m : bytes_ok (tri_header p l m).
Proof. unfold tri_header. rewrite !bytes_ok_app. repeat split; apply le_bytes_ok. Qed.

Lemma tri_header_length p l m : length (tri_header p l m) = 17.
Proof. unfold tri_header. now rewrite !app_length, !le_bytes_length. Qed.

Lemma save_triangles_spec oc tris max_index sink :
  bytes_ok sink -> Forall (fun i => (i < two32)%N) tris -> (max_index < two64)%N ->
  let prec := calc_prec max_index in
  let min := min_or 0 tris in
  exists payload,
    save_triangles oc tris max_index sink
      = Ok (sink ++ tri_header prec (N.of_nat (length tris)) min ++ payload) /\
    packs payload (field_bits (map (fun i => (prec, i - min)%N) tris)).
Proof.
  intros Hs Ht Hm prec min. unfold save_triangles. fold min. fold prec.
  destruct (calc_prec_spec max_index Hm) as (_ & _ & Hp). fold prec in Hp.
  destruct (writer_packs_sink oc
     (((sink ++ le_bytes 1 (N.of_nat prec)) ++ le_bytes 8 (N.of_nat (length tris))) ++ le_bytes 8 min)
     (map (fun i => (prec, i - min)%N) tris)) as (w & bytes & E & F & Pk).
  - rewrite !bytes_ok_app. repeat split; auto; apply le_bytes_ok.
  - rewrite Forall_map. eapply Forall_impl; [|exact Ht]. intros i Hi. cbn [fst snd].
    split; auto. eapply N.le_lt_trans; [apply N.le_sub_l|].
    eapply N.lt_trans; [exact Hi|reflexivity].
  - exists bytes. cbv zeta. rewrite E. cbn [bind]. rewrite F. split; auto.
    unfold tri_header. now rewrite <- !app_assoc.
Qed.

(** ** Loading *)

Definition old_or_new_min (ctx : import_ctx) (min : N) : list N :=
  if should_read_min_index ctx then le_bytes 8 min else [].

(** Values produced by the pair loop when the bits are there. *)
Lemma read_tri_pairs_ok oc n r prec min acc vs rest :
  rok r -> prec < 64 -> prec <> 32 ->
  length vs = 2 * n ->
  Forall (fun v => (v < 2 ^ N.of_nat prec)%N /\ (v + min < two32)%N) vs ->
  rbits r = field_bits (map (fun v => (prec, v)) vs) ++ rest ->
  exists r', read_tri_pairs oc n r prec min acc = Ok (acc ++ map (fun v => v + min)%N vs, r') /\
             rok r' /\ rbits r' = rest.
Proof.
  intros Hr Hp H32. revert r acc vs Hr.
  induction n as [|n IH]; intros r acc vs Hr Hl Hv Hb.
  - destruct vs; [|discriminate]. simpl in *. rewrite app_nil_r. exists r. auto.
  - destruct vs as [|v1 [|v2 vs]]; try (simpl in Hl; lia).
    apply Forall_cons_iff in Hv as [[V1 V1'] Hv].
    apply Forall_cons_iff in Hv as [[V2 V2'] Hv].
    cbn [map field_bits flat_map fst snd] in Hb. fold (field_bits (map (fun v => (prec, v)) vs)) in Hb.
    destruct (read2_spec oc r prec Hr Hp H32) as [A _].
    destruct A as (r1 & E1 & O1 & B1).
    { rewrite Hb, !app_length, !bits_length. lia. }
    cbn [read_tri_pairs]. rewrite E1. cbn [io map_err bind fst snd].
    assert (F1 : of_bits (firstn prec (rbits r)) = v1).
    { rewrite Hb, <- app_assoc, firstn_app, bits_length, Nat.sub_diag, firstn_O, app_nil_r.
      rewrite firstn_all2 by (rewrite bits_length; lia). now apply of_bits_bits_id. }
    assert (S1 : skipn prec (rbits r) = bits prec v2 ++ field_bits (map (fun v => (prec, v)) vs) ++ rest).
    { rewrite Hb, <- app_assoc, skipn_app, bits_length, Nat.sub_diag, skipn_O.
      rewrite skipn_all2 by (rewrite bits_length; lia). simpl. now rewrite <- app_assoc. }
    assert (F2 : of_bits (firstn prec (skipn prec (rbits r))) = v2).
    { rewrite S1, firstn_app, bits_length, Nat.sub_diag, firstn_O, app_nil_r.
      rewrite firstn_all2 by (rewrite bits_length; lia). now apply of_bits_bits_id. }
    rewrite F1, F2. unfold add_min, add64.
    assert (K1 : (v1 + min <? two64)%N = true) by (apply N.ltb_lt; eapply N.lt_trans; [exact V1'|reflexivity]).
    assert (K2 : (v2 + min <? two64)%N = true) by (apply N.ltb_lt; eapply N.lt_trans; [exact V2'|reflexivity]).
    rewrite K1, K2. cbn [bind]. rewrite !N.mod_small by auto.
    destruct (IH r1 (acc ++ [(v1 + min)%N; (v2 + min)%N]) vs O1) as (r' & E & O & B); auto.
    { simpl in Hl. lia. }
    { rewrite B1, skipn_add, S1, skipn_app, bits_length, Nat.sub_diag, skipn_O.
      rewrite skipn_all2 by (rewrite bits_length; lia). reflexivity. }
    exists r'. split; auto. rewrite E. cbn [map]. now rewrite <- app_assoc.
Qed.

(** At width 32 the pair loop reads nothing. *)
Lemma read_tri_pairs_32 oc n r min acc :
  (min < two32)%N ->
  read_tri_pairs oc n r 32 min acc = Ok (acc ++ repeat min (2 * n), r).
Proof.
  intros Hm. revert acc. induction n as [|n IH]; intros acc.
  - simpl. now rewrite app_nil_r.
  - cbn [read_tri_pairs]. rewrite read2_32. cbn [io map_err bind fst snd].
    unfold add_min, add64. rewrite N.add_0_l.
    assert (K : (min <? two64)%N = true) by (apply N.ltb_lt; eapply N.lt_trans; [exact Hm|reflexivity]).
    rewrite K. cbn [bind]. rewrite N.mod_small by auto. rewrite IH, <- app_assoc.
    replace (2 * S n) with (S (S (2 * n))) by lia. reflexivity.
Qed.

(** The two loaders agree (except that a declared width of zero drops the offset). *)

Lemma set_cell_app pre x post v i :
  i = length pre -> set_cell (pre ++ x :: post) i v = Ok (pre ++ Some v :: post).
Proof.
  intros ->. induction pre as [|c pre IH]; simpl; auto. now rewrite IH.
Qed.

Lemma set_cell_length buf i v buf' : set_cell buf i v = Ok buf' -> length buf' = length buf.
Proof.
  revert i buf'; induction buf as [|c t IH]; intros [|i] buf'; simpl; try discriminate.
  - now intros [= <-].
  - destruct (set_cell t i v) as [t'| |] eqn:E; try discriminate. cbn.
    intros [= <-]. simpl. f_equal. eauto.
Qed.

(** Relation of the two pair loops, for any stream, any outcome. *)
Lemma default_pairs_rel oc n index r prec min (acc : list N) k :
  length acc = index * 2 ->
  default_tri_pairs oc n index r prec min (map Some acc ++ repeat None (2 * n + k)) =
  match read_tri_pairs oc n r prec min acc with
  | Ok (l, r') => Ok (map Some l ++ repeat None k, r')
  | Err e => Err e
  | Panic => Panic
  end.
Proof.
  revert index r acc. induction n as [|n IH]; intros index r acc Hl.
  - reflexivity.
  - cbn [default_tri_pairs read_tri_pairs].
    destruct (read2_unaligned oc r prec) as [[[a b] r1]|e|]; cbn [io map_err bind fst snd]; auto.
    destruct (add_min oc a min) as [a'|e|]; cbn [bind]; auto.
    replace (2 * S n + k) with (S (S (2 * n + k))) by lia. cbn [repeat].
    rewrite set_cell_app by (rewrite map_length; lia). cbn [bind].
    destruct (add_min oc b min) as [b'|e|]; cbn [bind]; auto.
    change (Some a' :: None :: repeat None (2 * n + k)) with ([Some a'] ++ None :: repeat None (2 * n + k)).
    rewrite app_assoc.
    rewrite set_cell_app by (rewrite app_length, map_length; simpl; lia). cbn [bind].
    replace ((map Some acc ++ [Some a']) ++ Some b' :: repeat None (2 * n + k))
      with (map Some (acc ++ [a'; b']) ++ repeat None (2 * n + k)).
    + rewrite IH; auto. rewrite app_length. simpl. lia.
    + rewrite map_app. simpl. now rewrite <- !app_assoc.
Qed.

Lemma read_tri_pairs_length oc n r prec min acc l r' :
  read_tri_pairs oc n r prec min acc = Ok (l, r') -> length l = length acc + 2 * n.
Proof.
  revert r acc; induction n as [|n IH]; intros r acc; cbn [read_tri_pairs].
  - intros [= <- <-]. lia.
  - destruct (read2_unaligned oc r prec) as [[[a b] r1]|e|]; cbn [io map_err bind fst snd]; try discriminate.
    destruct (add_min oc a min) as [a'|e|]; cbn [bind]; try discriminate.
    destruct (add_min oc b min) as [b'|e|]; cbn [bind]; try discriminate.
    intros H. apply IH in H. rewrite H, app_length. simpl. lia.
Qed.

(** Body of read_triangles after the three header fields. *)
Definition tri_body (oc : bool) (prec : nat) (len min : N) (src : list N) : res ierr (list N) :=
  let* (res, r) := read_tri_pairs oc (N.to_nat (len / 2)) (reader_new (slice src)) prec min [] in
  if (len mod 2 =? 0)%N then Ok res
  else
    let* (i, _) := io (read_unaligned r prec) in
    let* v := add_min oc i min in
    Ok (res ++ [v]).

Lemma tri_body_length oc prec len min src l :
  tri_body oc prec len min src = Ok l -> length l = N.to_nat len.
Proof.
  unfold tri_body.
  destruct (read_tri_pairs _ _ _ _ _ _) as [[l0 r]|e|] eqn:E; cbn [bind]; try discriminate.
  apply read_tri_pairs_length in E. simpl in E.
  destruct (N.eqb_spec (len mod 2) 0).
  - intros [= <-]. lia.
  - destruct (read_unaligned r prec) as [[i ?]|e|]; cbn [io map_err bind]; try discriminate.
    destruct (add_min oc i min) as [v|e|]; cbn [bind]; try discriminate.
    intros [= <-]. rewrite app_length. simpl. lia.
Qed.

Lemma default_cells_spec oc ctx spare src :
  read_default_cells oc ctx spare src =
  let* (precision, src) := io (read_u8 src) in
  let* (length, src) := io (read_u64 src) in
  let* (min, src) := io (read_triangle_min ctx src) in
  if (MAX_SEG_SIZE <? length)%N then Err ESegmentTooLong
  else if (precision =? 0)%N then Ok (repeat (Some 0%N) (N.to_nat length))
  else let* l := tri_body oc (N.to_nat precision) length min src in Ok (map Some l).
Proof.
  unfold read_default_cells.
  destruct (read_u8 src) as [[p s1]|e|]; cbn [io map_err bind]; auto.
  destruct (read_u64 s1) as [[len s2]|e|]; cbn [io map_err bind]; auto.
  destruct (read_triangle_min ctx s2) as [[min s3]|e|]; cbn [io map_err bind]; auto.
  destruct (MAX_SEG_SIZE <? len)%N; auto.
  destruct (N.eqb_spec p 0) as [->|Hp].
  - cbn [bind]. f_equal.
    assert (forall n, map (fun _ : option N => Some 0%N) (repeat None n) = repeat (Some 0%N) n) as M
      by (induction n; simpl; congruence).
    rewrite M, repeat_app, firstn_app, repeat_length, Nat.sub_diag, firstn_O, app_nil_r.
    apply firstn_all2. rewrite repeat_length. lia.
  - pose proof (default_pairs_rel oc (N.to_nat (len / 2)) 0 (reader_new (slice s3)) (N.to_nat p) min []
      (N.to_nat len + spare - 2 * N.to_nat (len / 2)) eq_refl) as R.
    cbn [map app] in R.
    replace (2 * N.to_nat (len / 2) + (N.to_nat len + spare - 2 * N.to_nat (len / 2)))
      with (N.to_nat len + spare) in R by lia.
    rewrite R. unfold tri_body.
    destruct (read_tri_pairs _ _ _ _ _ []) as [[l r]|e|] eqn:E; cbn [bind]; auto.
    apply read_tri_pairs_length in E. simpl in E.
    destruct (N.eqb_spec (len mod 2) 0) as [Hev|Hod].
    + cbn [bind]. f_equal. rewrite firstn_app, map_length.
      replace (N.to_nat len - length l) with 0 by lia.
      rewrite firstn_O, app_nil_r. apply firstn_all2. rewrite map_length. lia.
    + destruct (read_unaligned r (N.to_nat p)) as [[i r2]|e|]; cbn [io map_err bind]; auto.
      destruct (add_min oc i min) as [v|e|]; cbn [bind]; auto.
      replace (N.to_nat len + spare - 2 * N.to_nat (len / 2)) with (S spare) by lia.
      cbn [repeat]. rewrite set_cell_app by (rewrite map_length; lia). cbn [bind]. f_equal.
      rewrite map_app. cbn [map].
      replace (map Some l ++ Some v :: repeat None spare)
        with ((map Some l ++ [Some v]) ++ repeat None spare) by now rewrite <- app_assoc.
      rewrite firstn_app, app_length, map_length. simpl length.
      replace (N.to_nat len - (length l + 1)) with 0 by lia.
      rewrite firstn_O, app_nil_r. apply firstn_all2. rewrite app_length, map_length. simpl. lia.
Qed.

Lemma written_some l : written (map Some l) = Some l.
Proof. induction l; simpl; auto. now rewrite IHl. Qed.

Lemma written_repeat n v : written (repeat (Some v) n) = Some (repeat v n).
Proof. induction n; simpl; auto. now rewrite IHn. Qed.

Lemma read_default_spec oc ctx src :
  read_default_triangles oc ctx src =
  let* (precision, src) := io (read_u8 src) in
  let* (length, src) := io (read_u64 src) in
  let* (min, src) := io (read_triangle_min ctx src) in
  if (MAX_SEG_SIZE <? length)%N then Err ESegmentTooLong
  else if (precision =? 0)%N then Ok (repeat 0%N (N.to_nat length))
  else tri_body oc (N.to_nat precision) length min src.
Proof.
  unfold read_default_triangles. rewrite default_cells_spec.
  destruct (read_u8 src) as [[p s1]|e|]; cbn [io map_err bind]; auto.
  destruct (read_u64 s1) as [[len s2]|e|]; cbn [io map_err bind]; auto.
  destruct (read_triangle_min ctx s2) as [[min s3]|e|]; cbn [io map_err bind]; auto.
  destruct (MAX_SEG_SIZE <? len)%N; auto.
  destruct (N.eqb_spec p 0) as [->|Hp].
  - cbn [bind]. now rewrite written_repeat.
  - destruct (tri_body _ _ _ _ _) as [l|e|]; cbn [bind]; auto. now rewrite written_some.
Qed.

Lemma read_triangles_spec oc ctx src :
  read_triangles oc ctx src =
  let* (precision, src) := io (read_u8 src) in
  let* (length, src) := io (read_u64 src) in
  let* (min, src) := io (read_triangle_min ctx src) in
  if (MAX_SEG_SIZE <? length)%N then Err ESegmentTooLong
  else tri_body oc (N.to_nat precision) length min src.
Proof. reflexivity. Qed.

(** C10 *)
Lemma default_cells_written oc ctx spare src c :
  read_default_cells oc ctx spare src = Ok c -> Forall (fun x => x <> None) c.
Proof.
  rewrite default_cells_spec.
  destruct (read_u8 src) as [[p s1]|e|]; cbn [io map_err bind]; try discriminate.
  destruct (read_u64 s1) as [[len s2]|e|]; cbn [io map_err bind]; try discriminate.
  destruct (read_triangle_min ctx s2) as [[min s3]|e|]; cbn [io map_err bind]; try discriminate.
  destruct (MAX_SEG_SIZE <? len)%N; try discriminate.
  destruct (N.eqb_spec p 0) as [->|Hp].
  - intros [= <-]. apply Forall_forall. intros x Hx. apply repeat_spec in Hx. subst. discriminate.
  - destruct (tri_body _ _ _ _ _) as [l|e|]; cbn [bind]; try discriminate.
    intros [= <-]. apply Forall_map, Forall_forall. discriminate.
Qed.

(** ** Round trip *)

Lemma field_bits_app a b : field_bits (a ++ b) = field_bits a ++ field_bits b.
Proof. apply flat_map_app. Qed.

Lemma const_width_length (f : N -> N) w l :
  length (field_bits (map (fun i => (w, f i)) l)) = w * length l.
Proof.
  induction l; simpl; [lia|]. unfold field_bits in *. cbn [map flat_map fst snd].
  rewrite app_length, bits_length, IHl. lia.
Qed.

Lemma tri_body_ok oc prec min vs src pad :
  prec < 64 -> prec <> 32 -> bytes_ok src ->
  Forall (fun v => (v < 2 ^ N.of_nat prec)%N /\ (v + min < two32)%N) vs ->
  bits_of_bytes src = field_bits (map (fun v => (prec, v)) vs) ++ pad ->
  tri_body oc prec (N.of_nat (length vs)) min src = Ok (map (fun v => v + min)%N vs).
Proof.
  intros Hp H32 Hs Hv Hb. unfold tri_body.
  set (n := N.to_nat (N.of_nat (length vs) / 2)).
  assert (Hn : n = length vs / 2) by (unfold n; lia).
  assert (Hr : rok (reader_new (slice src))) by now apply rok_new.
  rewrite <- (firstn_skipn (2 * n) vs) in Hb, Hv.
  apply Forall_app in Hv as [Hv1 Hv2].
  rewrite map_app, field_bits_app, <- app_assoc in Hb.
  destruct (read_tri_pairs_ok oc n (reader_new (slice src)) prec min [] (firstn (2 * n) vs)
    (field_bits (map (fun v => (prec, v)) (skipn (2 * n) vs)) ++ pad) Hr Hp H32) as (r' & E & O & B).
  { rewrite firstn_length. lia. }
  { exact Hv1. }
  { rewrite rbits_new. exact Hb. }
  rewrite E. cbn [bind app].
  destruct (N.eqb_spec (N.of_nat (length vs) mod 2) 0) as [Hev|Hod].
  - do 2 f_equal. rewrite firstn_all2 by lia. auto.
  - assert (L : length (skipn (2 * n) vs) = 1) by (rewrite skipn_length; lia).
    destruct (skipn (2 * n) vs) as [|x [|? ?]] eqn:Es; try discriminate.
    apply Forall_cons_iff in Hv2 as [[X1 X2] _].
    destruct (read_unaligned_spec r' prec O Hp) as [A _].
    cbn [map field_bits flat_map fst snd] in B. rewrite app_nil_r in B.
    destruct A as (r2 & E2 & _ & _). { rewrite B, app_length, bits_length. lia. }
    rewrite E2. cbn [io map_err bind].
    rewrite B, firstn_app, bits_length, Nat.sub_diag, firstn_O, app_nil_r.
    rewrite firstn_all2 by (rewrite bits_length; lia). rewrite of_bits_bits_id by auto.
    unfold add_min, add64.
    assert (K : (x + min <? two64)%N = true) by (apply N.ltb_lt; eapply N.lt_trans; [exact X2|reflexivity]).
    rewrite K. cbn [bind]. rewrite N.mod_small by auto.
    f_equal. rewrite <- (firstn_skipn (2 * n) vs) at 2. rewrite map_app, Es. reflexivity.
Qed.

Lemma pow256_64 : (256 ^ N.of_nat 8 = two64)%N.
Proof. reflexivity. Qed.

Lemma read_header_new {A} prec len min src (k : N -> N -> N -> list N -> res ierr A) :
  (N.of_nat prec < 256)%N -> (len < two64)%N -> (min < two64)%N ->
  (let* (p, s) := io (read_u8 (tri_header prec len min ++ src)) in
   let* (l, s) := io (read_u64 s) in
   let* (m, s) := io (read_triangle_min new_ctx s) in k p l m s) = k (N.of_nat prec) len min src.
Proof.
  intros H1 H2 H3. unfold tri_header. rewrite <- !app_assoc.
  rewrite read_u8_w by auto. cbn [io map_err bind].
  rewrite read_u64_w by auto. cbn [io map_err bind read_triangle_min should_read_min_index new_ctx].
  rewrite read_u64_w by auto. reflexivity.
Qed.

Lemma shifted_ok tris prec :
  Forall (fun i => (i < two32)%N) tris ->
  Forall (fun i => (i - min_or 0 tris < 2 ^ N.of_nat prec)%N) tris ->
  Forall (fun v => (v < 2 ^ N.of_nat prec)%N /\ (v + min_or 0 tris < two32)%N)
         (map (fun i => i - min_or 0 tris)%N tris) /\
  map (fun v => v + min_or 0 tris)%N (map (fun i => i - min_or 0 tris)%N tris) = tris.
Proof.
  intros H1 H2. set (m := min_or 0 tris) in *.
  assert (Hm : forall i, In i tris -> (m <= i)%N) by (intros; now apply min_or_le).
  split.
  - rewrite Forall_map. apply Forall_forall. intros i Hi.
    rewrite Forall_forall in H1, H2. specialize (H1 i Hi). specialize (H2 i Hi). specialize (Hm i Hi).
    split; auto. replace (i - m + m)%N with i by lia. auto.
  - rewrite map_map. rewrite <- (map_id tris) at 2. apply map_ext_in.
    intros i Hi. specialize (Hm i Hi). lia.
Qed.

Lemma roundtrip_body oc tris max_index rest :
  Forall (fun i => (i < two32)%N) tris ->
  (N.of_nat (length tris) <= MAX_SEG_SIZE)%N ->
  (max_index < two64)%N ->
  calc_prec max_index <> 32 -> calc_prec max_index <> 64 ->
  Forall (fun i => (i - min_or 0 tris <= max_index)%N) tris ->
  bytes_ok rest ->
  exists payload,
    save_triangles oc tris max_index []
      = Ok (tri_header (calc_prec max_index) (N.of_nat (length tris)) (min_or 0 tris) ++ payload) /\
    bytes_ok payload /\ length payload = bytes_for_bits (calc_prec max_index * length tris) /\
    tri_body oc (calc_prec max_index) (N.of_nat (length tris)) (min_or 0 tris) (payload ++ rest) = Ok tris.
Proof.
  intros Ht Hl Hm H32 H64 Hi Hrest.
  destruct (save_triangles_spec oc tris max_index [] (Forall_nil _) Ht Hm) as (payload & E & Hok & Hlen & pad & Hb).
  exists payload. split; auto. split; auto.
  destruct (calc_prec_spec max_index Hm) as (P1 & _ & P3).
  set (prec := calc_prec max_index) in *. set (m := min_or 0 tris) in *.
  destruct (shifted_ok tris prec Ht) as [S1 S2].
  { apply Forall_forall. rewrite Forall_forall in Hi. intros i Hin. specialize (Hi i Hin).
    fold m. lia. }
  fold m in S1, S2. split.
  { rewrite Hlen. f_equal. now rewrite const_width_length. }
  rewrite <- (map_length (fun i => i - m)%N tris).
  rewrite <- S2 at 2.
  apply (tri_body_ok oc prec m _ (payload ++ rest) (repeat false pad ++ bits_of_bytes rest)); auto.
  - lia.
  - apply bytes_ok_app. auto.
  - rewrite bits_of_bytes_app, Hb, <- app_assoc. f_equal. f_equal. now rewrite map_map.
Qed.

Lemma triangles_roundtrip oc oc' tris max_index rest :
  Forall (fun i => (i < two32)%N) tris ->
  (N.of_nat (length tris) <= MAX_SEG_SIZE)%N ->
  (max_index < two64)%N ->
  calc_prec max_index <> 32 -> calc_prec max_index <> 64 ->
  Forall (fun i => (i - min_or 0 tris <= max_index)%N) tris ->
  bytes_ok rest ->
  exists bytes,
    save_triangles oc tris max_index [] = Ok bytes /\
    read_triangles oc' new_ctx (bytes ++ rest) = Ok tris /\
    (max_index <> 0%N \/ Forall (fun i => i = 0%N) tris ->
     read_default_triangles oc' new_ctx (bytes ++ rest) = Ok tris).
Proof.
  intros Ht Hl Hm H32 H64 Hi Hrest.
  destruct (roundtrip_body oc tris max_index rest Ht Hl Hm H32 H64 Hi Hrest) as (payload & E & _ & _ & _).
  destruct (roundtrip_body oc' tris max_index rest Ht Hl Hm H32 H64 Hi Hrest) as (payload' & E' & _ & _ & B).
  assert (payload' = payload).
  { destruct (save_triangles_spec oc tris max_index [] (Forall_nil _) Ht Hm) as (p1 & F1 & K1).
    destruct (save_triangles_spec oc' tris max_index [] (Forall_nil _) Ht Hm) as (p2 & F2 & K2).
    rewrite E in F1. rewrite E' in F2. injection F1 as F1. injection F2 as F2.
    subst. eapply packs_unique; eauto. }
  subst payload'. eexists. split; [exact E|].
  destruct (calc_prec_spec max_index Hm) as (P1 & P2 & P3).
  assert (M : (min_or 0 tris < two32)%N) by (apply min_or_lt; auto; reflexivity).
  rewrite <- app_assoc. split.
  - rewrite read_triangles_spec, read_header_new.
    + destruct (N.ltb_spec MAX_SEG_SIZE (N.of_nat (length tris))); [lia|].
      rewrite Nat2N.id. exact B.
    + lia.
    + unfold MAX_SEG_SIZE in Hl. unfold two64. lia.
    + eapply N.lt_trans; [exact M|reflexivity].
  - intros Hz. rewrite read_default_spec, read_header_new.
    + destruct (N.ltb_spec MAX_SEG_SIZE (N.of_nat (length tris))); [lia|].
      destruct (N.eqb_spec (N.of_nat (calc_prec max_index)) 0) as [Ez|Ez]; [|rewrite Nat2N.id; exact B].
      rewrite Ez in P1. simpl in P1. assert (max_index = 0%N) by lia.
      destruct Hz as [Hz|Hz]; [contradiction|]. f_equal. rewrite Nat2N.id.
      clear - Hz. induction Hz; simpl; congruence.
    + lia.
    + unfold MAX_SEG_SIZE in Hl. unfold two64. lia.
    + eapply N.lt_trans; [exact M|reflexivity].
Qed.

(** Exact behaviour at width 32. *)
Lemma fold_min_min t : forall x, t <> [] -> fold_left N.min t x = N.min x (smallest t).
Proof.
  induction t as [|y t IH]; intros x H; [congruence|]. cbn [fold_left].
  destruct t as [|z t]; [reflexivity|].
  rewrite IH by discriminate.
  change (smallest (y :: z :: t)) with (N.min y (smallest (z :: t))). lia.
Qed.

Lemma min_or_smallest l : min_or 0 l = smallest l.
Proof.
  destruct l as [|x [|y t]]; try reflexivity.
  unfold min_or. rewrite fold_min_min by discriminate. reflexivity.
Qed.

Lemma triangles_wide oc oc' tris max_index rest :
  Forall (fun i => (i < two32)%N) tris ->
  (N.of_nat (length tris) <= MAX_SEG_SIZE)%N ->
  (2 ^ 31 <= max_index < 2 ^ 32)%N ->
  bytes_ok rest ->
  exists bytes,
    save_triangles oc tris max_index [] = Ok bytes /\
    read_default_triangles oc' new_ctx (bytes ++ rest) = Ok (wide_loss tris) /\
    read_triangles oc' new_ctx (bytes ++ rest) = Ok (wide_loss tris).
Proof.
  intros Ht Hl Hm Hrest.
  pose proof (calc_prec_32 max_index Hm) as P32.
  destruct (save_triangles_spec oc tris max_index [] (Forall_nil _) Ht ltac:(unfold two64; lia))
    as (payload & E & Hok & Hlen & pad & Hb).
  rewrite P32 in *.
  assert (M : (min_or 0 tris < two32)%N) by (apply min_or_lt; auto; reflexivity).
  set (m := min_or 0 tris) in *.
  eexists. split; [exact E|]. cbn [app]. rewrite <- app_assoc.
  assert (K : tri_body oc' 32 (N.of_nat (length tris)) m (payload ++ rest) = Ok (wide_loss tris)).
  { unfold tri_body. rewrite read_tri_pairs_32 by auto. cbn [bind app].
    unfold wide_loss. rewrite <- min_or_smallest. fold m.
    replace (N.to_nat (N.of_nat (length tris) / 2)) with (length tris / 2) by lia.
    destruct (N.eqb_spec (N.of_nat (length tris) mod 2) 0) as [Z|Z];
      destruct (Nat.eqb_spec (length tris mod 2) 0) as [Z'|Z']; try lia.
    - now rewrite app_nil_r.
    - destruct tris as [|x t]; [simpl in Z'; lia|].
      assert (Hr : rok (reader_new (slice (payload ++ rest)))).
      { apply rok_new. cbn [slice s_data]. apply bytes_ok_app. auto. }
      assert (Hb' : rbits (reader_new (slice (payload ++ rest))) =
        bits 32 (x - m) ++ field_bits (map (fun i => (32, (i - m)%N)) t) ++ repeat false pad ++ bits_of_bytes rest).
      { rewrite rbits_new. cbn [slice s_data]. rewrite bits_of_bytes_app, Hb.
        cbn [map field_bits flat_map fst snd]. now rewrite <- !app_assoc. }
      destruct (read_unaligned_spec _ 32 Hr ltac:(lia)) as [A _].
      destruct A as (r2 & E2 & _ & _). { rewrite Hb', app_length, bits_length. lia. }
      rewrite E2. cbn [io map_err bind].
      rewrite Hb', firstn_app, bits_length, Nat.sub_diag, firstn_O, app_nil_r.
      rewrite firstn_all2 by (rewrite bits_length; lia).
      apply Forall_cons_iff in Ht as [Hx _].
      assert (Hmx : (m <= x)%N) by (apply min_or_le; left; auto).
      rewrite of_bits_bits_id by (change (2 ^ N.of_nat 32)%N with two32; lia).
      unfold add_min, add64. replace (x - m + m)%N with x by lia.
      assert (Kx : (x <? two64)%N = true) by (apply N.ltb_lt; eapply N.lt_trans; [exact Hx|reflexivity]).
      rewrite Kx. cbn [bind]. rewrite N.mod_small by auto. reflexivity. }
  split.
  - rewrite read_default_spec, read_header_new.
    + destruct (N.ltb_spec MAX_SEG_SIZE (N.of_nat (length tris))); [lia|]. exact K.
    + reflexivity.
    + unfold MAX_SEG_SIZE in Hl. unfold two64. lia.
    + eapply N.lt_trans; [exact M|reflexivity].
  - rewrite read_triangles_spec, read_header_new.
    + destruct (N.ltb_spec MAX_SEG_SIZE (N.of_nat (length tris))); [lia|]. exact K.
    + reflexivity.
    + unfold MAX_SEG_SIZE in Hl. unfold two64. lia.
    + eapply N.lt_trans; [exact M|reflexivity].
Qed.

Lemma calc_prec_small m : (m < 2 ^ 31)%N -> calc_prec m <= 31.
Proof. intros. apply calc_prec_le; auto. lia. Qed.

Lemma index_array_roundtrip oc oc' tris m rest :
  u32s tris -> (N.of_nat (length tris) <= 2 ^ 31)%N -> (m < 2 ^ 31)%N -> all_le m tris ->
  bytes_ok rest ->
  exists bytes,
    save_triangles oc tris m [] = Ok bytes /\
    read_triangles oc' new_ctx (bytes ++ rest) = Ok tris /\
    read_default_triangles oc' new_ctx (bytes ++ rest) = Ok tris.
Proof.
  intros H1 H2 H3 H4 H5. pose proof (calc_prec_small m H3).
  destruct (triangles_roundtrip oc oc' tris m rest) as (bytes & A & B & C); auto.
  - unfold two64. lia.
  - lia.
  - lia.
  - eapply Forall_impl; [|exact H4]. cbv beta. intros. lia.
  - exists bytes. split; auto. split; auto. apply C.
    destruct (N.eq_dec m 0) as [->|]; auto. right.
    eapply Forall_impl; [|exact H4]. cbv beta. intros. lia.
Qed.

Lemma index_array_roundtrip_spread oc oc' tris m rest :
  u32s tris -> (N.of_nat (length tris) <= 2 ^ 31)%N ->
  (m < 2 ^ 31 \/ 2 ^ 32 <= m < 2 ^ 63)%N ->
  (forall i j, In i tris -> In j tris -> (i - j <= m)%N) ->
  bytes_ok rest ->
  exists bytes,
    save_triangles oc tris m [] = Ok bytes /\
    read_triangles oc' new_ctx (bytes ++ rest) = Ok tris.
Proof.
  intros H1 H2 H3 H4 H5.
  assert (M : (m < 2 ^ 63)%N) by lia.
  assert (M' : (m < two64)%N) by (unfold two64; lia).
  pose proof (calc_prec_le m 63 M ltac:(lia)).
  destruct (triangles_roundtrip oc oc' tris m rest) as (bytes & A & B & C); auto.
  - destruct H3 as [H3|H3].
    + pose proof (calc_prec_small m H3). lia.
    + pose proof (calc_prec_ge m 32 M' (proj1 H3)). lia.
  - lia.
  - apply Forall_forall. intros i Hi.
    assert (min_or 0 tris = 0%N \/ In (min_or 0 tris) tris) as [E|E].
    { clear. destruct tris as [|x t]; auto. right. simpl. revert x.
      induction t as [|y t IH]; intros x; simpl; auto.
      destruct (IH (N.min x y)) as [E|E]; auto.
      rewrite <- E. destruct (N.min_spec x y) as [[_ K]|[_ K]]; rewrite K at 1; auto. }
    + destruct tris as [|x t]; [contradiction|].
      assert (In (min_or 0 (x :: t)) (x :: t)); [|auto].
      rewrite E. clear - E. simpl in E. revert x E.
      induction t as [|y t IH]; intros x E; simpl in *; auto.
      apply IH in E. destruct E as [E|E]; auto.
      destruct (N.min_spec x y) as [[_ K]|[_ K]]; rewrite K in E; auto.
    + auto.
  - exists bytes. auto.
Qed.

Lemma wide_arrays oc oc' tris m rest :
  u32s tris -> (N.of_nat (length tris) <= 2 ^ 31)%N -> (2 ^ 31 <= m < 2 ^ 32)%N ->
  bytes_ok rest ->
  exists bytes,
    save_triangles oc tris m [] = Ok bytes /\
    read_default_triangles oc' new_ctx (bytes ++ rest) = Ok (wide_loss tris) /\
    read_triangles oc' new_ctx (bytes ++ rest) = Ok (wide_loss tris).
Proof. intros. now apply triangles_wide. Qed.

(** Zero width: the default loader ignores the offset. *)
Lemma zero_width_default oc oc' tris :
  u32s tris -> (N.of_nat (length tris) <= 2 ^ 31)%N ->
  exists bytes,
    save_triangles oc tris 0 [] = Ok bytes /\
    read_default_triangles oc' new_ctx bytes = Ok (repeat 0%N (length tris)).
Proof.
  intros H1 H2.
  destruct (save_triangles_spec oc tris 0 [] (Forall_nil _) H1 ltac:(reflexivity)) as (payload & E & _).
  eexists. split; [exact E|]. cbn [app]. rewrite read_default_spec, read_header_new.
  - destruct (N.ltb_spec MAX_SEG_SIZE (N.of_nat (length tris))) as [L|L].
    + exfalso. unfold MAX_SEG_SIZE in L. lia.
    + cbn [N.eqb calc_prec]. change (N.of_nat (calc_prec 0) =? 0)%N with true. cbv iota.
      now rewrite Nat2N.id.
  - reflexivity.
  - unfold two64. lia.
  - eapply N.lt_trans; [apply (min_or_lt 0 tris two32); auto; reflexivity|reflexivity].
Qed.

Lemma index_array_size oc tris m :
  u32s tris -> (m < 2 ^ 64)%N ->
  exists bytes,
    save_triangles oc tris m [] = Ok bytes /\
    length bytes = 17 + bytes_for_bits (calc_prec m * length tris).
Proof.
  intros H1 Hm.
  destruct (save_triangles_spec oc tris m [] (Forall_nil _) H1 Hm) as (payload & E & _ & L & _).
  eexists. split; [exact E|]. cbn [app]. rewrite app_length, tri_header_length, L. do 2 f_equal.
  now rewrite const_width_length.
Qed.
