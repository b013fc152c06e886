(** Round trip of index arrays with 64-bit indices, hence with any index type. The proofs
    follow Triangles_proofs.v. *)
From Coq Require Import List NArith ZArith Arith Lia Bool ZifyN ZifyNat ZifyBool.
From Verif Require Import Base BitSpec BitLemmas UnalignedRW BitIOSpec UnalignedRW_proofs
  ReadExt ByteLemmas Triangles TriSpec Triangles_proofs PlatformSpec IndexWidth IndexSpec IndexWidth_proofs.
Import ListNotations.
Open Scope res_scope.
Ltac Zify.zify_post_hook ::= Z.div_mod_to_equations.

Lemma save_triangles_spec64 oc tris max_index sink :
  bytes_ok sink -> Forall (fun i => (i < two64)%N) tris -> (max_index < two64)%N ->
  let prec := calc_prec max_index in
  let min := min_or 0 tris in
  exists payload,
    save_triangles oc tris max_index sink
      = Ok (sink ++ tri_header prec (N.of_nat (length tris)) min ++ payload) /\
    packs payload (field_bits (map (fun i => (prec, i - min)%N) tris)).
Proof.
  intros Hs Ht Hm prec min. unfold save_triangles. fold min. fold prec.
  destruct (calc_prec_spec max_index Hm) as (_ & _ & Hp). fold prec in Hp.
  destruct (writer_packs_sink oc
     (((sink ++ le_bytes 1 (N.of_nat prec)) ++ le_bytes 8 (N.of_nat (length tris))) ++ le_bytes 8 min)
     (map (fun i => (prec, i - min)%N) tris)) as (w & bytes & E & F & Pk).
  - rewrite !bytes_ok_app. repeat split; auto; apply le_bytes_ok.
  - rewrite Forall_map. eapply Forall_impl; [|exact Ht]. intros i Hi. cbn [fst snd].
    split; auto. eapply N.le_lt_trans; [apply N.le_sub_l|].
    exact Hi.
  - exists bytes. cbv zeta. rewrite E. cbn [bind]. rewrite F. split; auto.
    unfold tri_header. now rewrite <- !app_assoc.
Qed.

Lemma read_tri_pairs_ok64 oc n r prec min acc vs rest :
  rok r -> prec < 64 -> prec <> 32 ->
  length vs = 2 * n ->
  Forall (fun v => (v < 2 ^ N.of_nat prec)%N /\ (v + min < two64)%N) vs ->
  rbits r = field_bits (map (fun v => (prec, v)) vs) ++ rest ->
  exists r', read_tri_pairs_w 64 oc n r prec min acc = Ok (acc ++ map (fun v => v + min)%N vs, r') /\
             rok r' /\ rbits r' = rest.
Proof.
  intros Hr Hp H32. revert r acc vs Hr.
  induction n as [|n IH]; intros r acc vs Hr Hl Hv Hb.
  - destruct vs; [|discriminate]. simpl in *. rewrite app_nil_r. exists r. auto.
  - destruct vs as [|v1 [|v2 vs]]; try (simpl in Hl; lia).
    apply Forall_cons_iff in Hv as [[V1 V1'] Hv].
    apply Forall_cons_iff in Hv as [[V2 V2'] Hv].
    cbn [map field_bits flat_map fst snd] in Hb. fold (field_bits (map (fun v => (prec, v)) vs)) in Hb.
    destruct (read2_spec oc r prec Hr Hp H32) as [A _].
    destruct A as (r1 & E1 & O1 & B1).
    { rewrite Hb, !app_length, !bits_length. lia. }
    cbn [read_tri_pairs_w]. rewrite E1. cbn [io map_err bind fst snd].
    assert (F1 : of_bits (firstn prec (rbits r)) = v1).
    { rewrite Hb, <- app_assoc, firstn_app, bits_length, Nat.sub_diag, firstn_O, app_nil_r.
      rewrite firstn_all2 by (rewrite bits_length; lia). now apply of_bits_bits_id. }
    assert (S1 : skipn prec (rbits r) = bits prec v2 ++ field_bits (map (fun v => (prec, v)) vs) ++ rest).
    { rewrite Hb, <- app_assoc, skipn_app, bits_length, Nat.sub_diag, skipn_O.
      rewrite skipn_all2 by (rewrite bits_length; lia). simpl. now rewrite <- app_assoc. }
    assert (F2 : of_bits (firstn prec (skipn prec (rbits r))) = v2).
    { rewrite S1, firstn_app, bits_length, Nat.sub_diag, firstn_O, app_nil_r.
      rewrite firstn_all2 by (rewrite bits_length; lia). now apply of_bits_bits_id. }
    rewrite F1, F2. unfold add_min_w, add64.
    assert (K1 : (v1 + min <? two64)%N = true) by (apply N.ltb_lt; exact V1').
    assert (K2 : (v2 + min <? two64)%N = true) by (apply N.ltb_lt; exact V2').
    rewrite K1, K2. cbn [bind]. rewrite !N.mod_small by auto.
    destruct (IH r1 (acc ++ [(v1 + min)%N; (v2 + min)%N]) vs O1) as (r' & E & O & B); auto.
    { simpl in Hl. lia. }
    { rewrite B1, skipn_add, S1, skipn_app, bits_length, Nat.sub_diag, skipn_O.
      rewrite skipn_all2 by (rewrite bits_length; lia). reflexivity. }
    exists r'. split; auto. rewrite E. cbn [map]. now rewrite <- app_assoc.
Qed.

Lemma default_pairs_rel64 oc n index r prec min (acc : list N) k :
  length acc = index * 2 ->
  default_tri_pairs_w 64 oc n index r prec min (map Some acc ++ repeat None (2 * n + k)) =
  match read_tri_pairs_w 64 oc n r prec min acc with
  | Ok (l, r') => Ok (map Some l ++ repeat None k, r')
  | Err e => Err e
  | Panic => Panic
  end.
Proof.
  revert index r acc. induction n as [|n IH]; intros index r acc Hl.
  - reflexivity.
  - cbn [default_tri_pairs_w read_tri_pairs_w].
    destruct (read2_unaligned oc r prec) as [[[a b] r1]|e|]; cbn [io map_err bind fst snd]; auto.
    destruct (add_min_w 64 oc a min) as [a'|e|]; cbn [bind]; auto.
    replace (2 * S n + k) with (S (S (2 * n + k))) by lia. cbn [repeat].
    rewrite set_cell_app by (rewrite map_length; lia). cbn [bind].
    destruct (add_min_w 64 oc b min) as [b'|e|]; cbn [bind]; auto.
    change (Some a' :: None :: repeat None (2 * n + k)) with ([Some a'] ++ None :: repeat None (2 * n + k)).
    rewrite app_assoc.
    rewrite set_cell_app by (rewrite app_length, map_length; simpl; lia). cbn [bind].
    replace ((map Some acc ++ [Some a']) ++ Some b' :: repeat None (2 * n + k))
      with (map Some (acc ++ [a'; b']) ++ repeat None (2 * n + k)).
    + rewrite IH; auto. rewrite app_length. simpl. lia.
    + rewrite map_app. simpl. now rewrite <- !app_assoc.
Qed.

Lemma read_tri_pairs_length64 oc n r prec min acc l r' :
  read_tri_pairs_w 64 oc n r prec min acc = Ok (l, r') -> length l = length acc + 2 * n.
Proof.
  revert r acc; induction n as [|n IH]; intros r acc; cbn [read_tri_pairs_w].
  - intros [= <- <-]. lia.
  - destruct (read2_unaligned oc r prec) as [[[a b] r1]|e|]; cbn [io map_err bind fst snd]; try discriminate.
    destruct (add_min_w 64 oc a min) as [a'|e|]; cbn [bind]; try discriminate.
    destruct (add_min_w 64 oc b min) as [b'|e|]; cbn [bind]; try discriminate.
    intros H. apply IH in H. rewrite H, app_length. simpl. lia.
Qed.

Definition tri_body64 (oc : bool) (prec : nat) (len min : N) (src : list N) : res ierr (list N) :=
  let* (res, r) := read_tri_pairs_w 64 oc (N.to_nat (len / 2)) (reader_new (slice src)) prec min [] in
  if (len mod 2 =? 0)%N then Ok res
  else
    let* (i, _) := io (read_unaligned r prec) in
    let* v := add_min_w 64 oc i min in
    Ok (res ++ [v]).

Lemma tri_body_length64 oc prec len min src l :
  tri_body64 oc prec len min src = Ok l -> length l = N.to_nat len.
Proof.
  unfold tri_body64.
  destruct (read_tri_pairs_w 64 _ _ _ _ _ _) as [[l0 r]|e|] eqn:E; cbn [bind]; try discriminate.
  apply read_tri_pairs_length64 in E. simpl in E.
  destruct (N.eqb_spec (len mod 2) 0).
  - intros [= <-]. lia.
  - destruct (read_unaligned r prec) as [[i ?]|e|]; cbn [io map_err bind]; try discriminate.
    destruct (add_min_w 64 oc i min) as [v|e|]; cbn [bind]; try discriminate.
    intros [= <-]. rewrite app_length. simpl. lia.
Qed.

Lemma default_cells_spec64 oc ctx spare src :
  read_default_cells_w 64 oc ctx spare src =
  let* (precision, src) := io (read_u8 src) in
  let* (length, src) := io (read_u64 src) in
  let* (min, src) := io (read_triangle_min ctx src) in
  if (MAX_SEG_SIZE <? length)%N then Err ESegmentTooLong
  else if (precision =? 0)%N then Ok (repeat (Some 0%N) (N.to_nat length))
  else let* l := tri_body64 oc (N.to_nat precision) length min src in Ok (map Some l).
Proof.
  unfold read_default_cells_w.
  destruct (read_u8 src) as [[p s1]|e|]; cbn [io map_err bind]; auto.
  destruct (read_u64 s1) as [[len s2]|e|]; cbn [io map_err bind]; auto.
  destruct (read_triangle_min ctx s2) as [[min s3]|e|]; cbn [io map_err bind]; auto.
  destruct (MAX_SEG_SIZE <? len)%N; auto.
  destruct (N.eqb_spec p 0) as [->|Hp].
  - cbn [bind]. f_equal.
    assert (forall n, map (fun _ : option N => Some 0%N) (repeat None n) = repeat (Some 0%N) n) as M
      by (induction n; simpl; congruence).
    rewrite M, repeat_app, firstn_app, repeat_length, Nat.sub_diag, firstn_O, app_nil_r.
    apply firstn_all2. rewrite repeat_length. lia.
  - pose proof (default_pairs_rel64 oc (N.to_nat (len / 2)) 0 (reader_new (slice s3)) (N.to_nat p) min []
      (N.to_nat len + spare - 2 * N.to_nat (len / 2)) eq_refl) as R.
    cbn [map app] in R.
    replace (2 * N.to_nat (len / 2) + (N.to_nat len + spare - 2 * N.to_nat (len / 2)))
      with (N.to_nat len + spare) in R by lia.
    rewrite R. unfold tri_body64.
    destruct (read_tri_pairs_w 64 _ _ _ _ _ []) as [[l r]|e|] eqn:E; cbn [bind]; auto.
    apply read_tri_pairs_length64 in E. simpl in E.
    destruct (N.eqb_spec (len mod 2) 0) as [Hev|Hod].
    + cbn [bind]. f_equal. rewrite firstn_app, map_length.
      replace (N.to_nat len - length l) with 0 by lia.
      rewrite firstn_O, app_nil_r. apply firstn_all2. rewrite map_length. lia.
    + destruct (read_unaligned r (N.to_nat p)) as [[i r2]|e|]; cbn [io map_err bind]; auto.
      destruct (add_min_w 64 oc i min) as [v|e|]; cbn [bind]; auto.
      replace (N.to_nat len + spare - 2 * N.to_nat (len / 2)) with (S spare) by lia.
      cbn [repeat]. rewrite set_cell_app by (rewrite map_length; lia). cbn [bind]. f_equal.
      rewrite map_app. cbn [map].
      replace (map Some l ++ Some v :: repeat None spare)
        with ((map Some l ++ [Some v]) ++ repeat None spare) by now rewrite <- app_assoc.
      rewrite firstn_app, app_length, map_length. simpl length.
      replace (N.to_nat len - (length l + 1)) with 0 by lia.
      rewrite firstn_O, app_nil_r. apply firstn_all2. rewrite app_length, map_length. simpl. lia.
Qed.

Lemma read_default_spec64 oc ctx src :
  read_default_triangles_w 64 oc ctx src =
  let* (precision, src) := io (read_u8 src) in
  let* (length, src) := io (read_u64 src) in
  let* (min, src) := io (read_triangle_min ctx src) in
  if (MAX_SEG_SIZE <? length)%N then Err ESegmentTooLong
  else if (precision =? 0)%N then Ok (repeat 0%N (N.to_nat length))
  else tri_body64 oc (N.to_nat precision) length min src.
Proof.
  unfold read_default_triangles_w. rewrite default_cells_spec64.
  destruct (read_u8 src) as [[p s1]|e|]; cbn [io map_err bind]; auto.
  destruct (read_u64 s1) as [[len s2]|e|]; cbn [io map_err bind]; auto.
  destruct (read_triangle_min ctx s2) as [[min s3]|e|]; cbn [io map_err bind]; auto.
  destruct (MAX_SEG_SIZE <? len)%N; auto.
  destruct (N.eqb_spec p 0) as [->|Hp].
  - cbn [bind]. now rewrite written_repeat.
  - destruct (tri_body64 _ _ _ _ _) as [l|e|]; cbn [bind]; auto. now rewrite written_some.
Qed.

Lemma read_triangles_spec64 oc ctx src :
  read_triangles_w 64 oc ctx src =
  let* (precision, src) := io (read_u8 src) in
  let* (length, src) := io (read_u64 src) in
  let* (min, src) := io (read_triangle_min ctx src) in
  if (MAX_SEG_SIZE <? length)%N then Err ESegmentTooLong
  else tri_body64 oc (N.to_nat precision) length min src.
Proof. reflexivity. Qed.

Lemma tri_body_ok64 oc prec min vs src pad :
  prec < 64 -> prec <> 32 -> bytes_ok src ->
  Forall (fun v => (v < 2 ^ N.of_nat prec)%N /\ (v + min < two64)%N) vs ->
  bits_of_bytes src = field_bits (map (fun v => (prec, v)) vs) ++ pad ->
  tri_body64 oc prec (N.of_nat (length vs)) min src = Ok (map (fun v => v + min)%N vs).
Proof.
  intros Hp H32 Hs Hv Hb. unfold tri_body64.
  set (n := N.to_nat (N.of_nat (length vs) / 2)).
  assert (Hn : n = length vs / 2) by (unfold n; lia).
  assert (Hr : rok (reader_new (slice src))) by now apply rok_new.
  rewrite <- (firstn_skipn (2 * n) vs) in Hb, Hv.
  apply Forall_app in Hv as [Hv1 Hv2].
  rewrite map_app, field_bits_app, <- app_assoc in Hb.
  destruct (read_tri_pairs_ok64 oc n (reader_new (slice src)) prec min [] (firstn (2 * n) vs)
    (field_bits (map (fun v => (prec, v)) (skipn (2 * n) vs)) ++ pad) Hr Hp H32) as (r' & E & O & B).
  { rewrite firstn_length. lia. }
  { exact Hv1. }
  { rewrite rbits_new. exact Hb. }
  rewrite E. cbn [bind app].
  destruct (N.eqb_spec (N.of_nat (length vs) mod 2) 0) as [Hev|Hod].
  - do 2 f_equal. rewrite firstn_all2 by lia. auto.
  - assert (L : length (skipn (2 * n) vs) = 1) by (rewrite skipn_length; lia).
    destruct (skipn (2 * n) vs) as [|x [|? ?]] eqn:Es; try discriminate.
    apply Forall_cons_iff in Hv2 as [[X1 X2] _].
    destruct (read_unaligned_spec r' prec O Hp) as [A _].
    cbn [map field_bits flat_map fst snd] in B. rewrite app_nil_r in B.
    destruct A as (r2 & E2 & _ & _). { rewrite B, app_length, bits_length. lia. }
    rewrite E2. cbn [io map_err bind].
    rewrite B, firstn_app, bits_length, Nat.sub_diag, firstn_O, app_nil_r.
    rewrite firstn_all2 by (rewrite bits_length; lia). rewrite of_bits_bits_id by auto.
    unfold add_min_w, add64.
    assert (K : (x + min <? two64)%N = true) by (apply N.ltb_lt; exact X2).
    rewrite K. cbn [bind]. rewrite N.mod_small by auto.
    f_equal. rewrite <- (firstn_skipn (2 * n) vs) at 2. rewrite map_app, Es. reflexivity.
Qed.

Lemma shifted_ok64 tris prec :
  Forall (fun i => (i < two64)%N) tris ->
  Forall (fun i => (i - min_or 0 tris < 2 ^ N.of_nat prec)%N) tris ->
  Forall (fun v => (v < 2 ^ N.of_nat prec)%N /\ (v + min_or 0 tris < two64)%N)
         (map (fun i => i - min_or 0 tris)%N tris) /\
  map (fun v => v + min_or 0 tris)%N (map (fun i => i - min_or 0 tris)%N tris) = tris.
Proof.
  intros H1 H2. set (m := min_or 0 tris) in *.
  assert (Hm : forall i, In i tris -> (m <= i)%N) by (intros; now apply min_or_le).
  split.
  - rewrite Forall_map. apply Forall_forall. intros i Hi.
    rewrite Forall_forall in H1, H2. specialize (H1 i Hi). specialize (H2 i Hi). specialize (Hm i Hi).
    split; auto. replace (i - m + m)%N with i by lia. auto.
  - rewrite map_map. rewrite <- (map_id tris) at 2. apply map_ext_in.
    intros i Hi. specialize (Hm i Hi). lia.
Qed.

Lemma roundtrip_body64 oc tris max_index rest :
  Forall (fun i => (i < two64)%N) tris ->
  (N.of_nat (length tris) <= MAX_SEG_SIZE)%N ->
  (max_index < two64)%N ->
  calc_prec max_index <> 32 -> calc_prec max_index <> 64 ->
  Forall (fun i => (i - min_or 0 tris <= max_index)%N) tris ->
  bytes_ok rest ->
  exists payload,
    save_triangles oc tris max_index []
      = Ok (tri_header (calc_prec max_index) (N.of_nat (length tris)) (min_or 0 tris) ++ payload) /\
    bytes_ok payload /\ length payload = bytes_for_bits (calc_prec max_index * length tris) /\
    tri_body64 oc (calc_prec max_index) (N.of_nat (length tris)) (min_or 0 tris) (payload ++ rest) = Ok tris.
Proof.
  intros Ht Hl Hm H32 H64 Hi Hrest.
  destruct (save_triangles_spec64 oc tris max_index [] (Forall_nil _) Ht Hm) as (payload & E & Hok & Hlen & pad & Hb).
  exists payload. split; auto. split; auto.
  destruct (calc_prec_spec max_index Hm) as (P1 & _ & P3).
  set (prec := calc_prec max_index) in *. set (m := min_or 0 tris) in *.
  destruct (shifted_ok64 tris prec Ht) as [S1 S2].
  { apply Forall_forall. rewrite Forall_forall in Hi. intros i Hin. specialize (Hi i Hin).
    fold m. lia. }
  fold m in S1, S2. split.
  { rewrite Hlen. f_equal. now rewrite const_width_length. }
  rewrite <- (map_length (fun i => i - m)%N tris).
  rewrite <- S2 at 2.
  apply (tri_body_ok64 oc prec m _ (payload ++ rest) (repeat false pad ++ bits_of_bytes rest)); auto.
  - lia.
  - apply bytes_ok_app. auto.
  - rewrite bits_of_bytes_app, Hb, <- app_assoc. f_equal. f_equal. now rewrite map_map.
Qed.

Lemma triangles_roundtrip64 oc oc' tris max_index rest :
  Forall (fun i => (i < two64)%N) tris ->
  (N.of_nat (length tris) <= MAX_SEG_SIZE)%N ->
  (max_index < two64)%N ->
  calc_prec max_index <> 32 -> calc_prec max_index <> 64 ->
  Forall (fun i => (i - min_or 0 tris <= max_index)%N) tris ->
  bytes_ok rest ->
  exists bytes,
    save_triangles oc tris max_index [] = Ok bytes /\
    read_triangles_w 64 oc' new_ctx (bytes ++ rest) = Ok tris /\
    (max_index <> 0%N \/ Forall (fun i => i = 0%N) tris ->
     read_default_triangles_w 64 oc' new_ctx (bytes ++ rest) = Ok tris).
Proof.
  intros Ht Hl Hm H32 H64 Hi Hrest.
  destruct (roundtrip_body64 oc tris max_index rest Ht Hl Hm H32 H64 Hi Hrest) as (payload & E & _ & _ & _).
  destruct (roundtrip_body64 oc' tris max_index rest Ht Hl Hm H32 H64 Hi Hrest) as (payload' & E' & _ & _ & B).
  assert (payload' = payload).
  { destruct (save_triangles_spec64 oc tris max_index [] (Forall_nil _) Ht Hm) as (p1 & F1 & K1).
    destruct (save_triangles_spec64 oc' tris max_index [] (Forall_nil _) Ht Hm) as (p2 & F2 & K2).
    rewrite E in F1. rewrite E' in F2. injection F1 as F1. injection F2 as F2.
    subst. eapply packs_unique; eauto. }
  subst payload'. eexists. split; [exact E|].
  destruct (calc_prec_spec max_index Hm) as (P1 & P2 & P3).
  assert (M : (min_or 0 tris < two64)%N) by (apply min_or_lt; auto; reflexivity).
  rewrite <- app_assoc. split.
  - rewrite read_triangles_spec64, read_header_new.
    + destruct (N.ltb_spec MAX_SEG_SIZE (N.of_nat (length tris))); [lia|].
      rewrite Nat2N.id. exact B.
    + lia.
    + unfold MAX_SEG_SIZE in Hl. unfold two64. lia.
    + exact M.
  - intros Hz. rewrite read_default_spec64, read_header_new.
    + destruct (N.ltb_spec MAX_SEG_SIZE (N.of_nat (length tris))); [lia|].
      destruct (N.eqb_spec (N.of_nat (calc_prec max_index)) 0) as [Ez|Ez]; [|rewrite Nat2N.id; exact B].
      rewrite Ez in P1. simpl in P1. assert (max_index = 0%N) by lia.
      destruct Hz as [Hz|Hz]; [contradiction|]. f_equal. rewrite Nat2N.id.
      clear - Hz. induction Hz; simpl; congruence.
    + lia.
    + unfold MAX_SEG_SIZE in Hl. unfold two64. lia.
    + exact M.
Qed.

