(** Property C17: exactly which complete index arrays make a load panic, and what the others load as. *)
From Coq Require Import List NArith ZArith Arith Lia Bool ZifyN ZifyNat ZifyBool.
From Verif Require Import Base BitSpec BitLemmas UnalignedRW UnalignedRW_proofs ReadExt ByteLemmas Triangles TriSpec
  Triangles_proofs Floats Utilis Unify Vertices Uv Normals CustomData Mesh Tmf File FileSpec Parse_proofs File_proofs NoPanic_proofs Load_proofs Demo.
Import ListNotations.
Open Scope res_scope.
Ltac Zify.zify_post_hook ::= Z.div_mod_to_equations.

Definition over (min v : N) : bool := (two64 <=? v + min)%N.
Lemma add_min_cases oc v min : add_min oc v min = if (oc && over min v)%bool then Panic else Ok ((v + min) mod two32)%N.
Proof.
  unfold add_min, add64, over. destruct (N.ltb_spec (v + min) two64); destruct (N.leb_spec two64 (v + min)); try lia.
  - rewrite andb_false_r. reflexivity.
  - rewrite andb_true_r. destruct oc; cbn [bind]; auto. f_equal. change two64 with (two32 * two32)%N.
    rewrite N.mod_mul_r by discriminate. rewrite N.mul_comm, N.mod_add by discriminate. now rewrite N.mod_mod.
Qed.
Lemma pairs_any oc n r prec min acc vs rest : rok r -> prec < 64 -> prec <> 32 -> length vs = 2 * n -> Forall (fun v => (v < 2 ^ N.of_nat prec)%N) vs ->
  rbits r = field_bits (map (fun v => (prec, v)) vs) ++ rest ->
  if (oc && existsb (over min) vs)%bool then read_tri_pairs oc n r prec min acc = Panic
  else exists r', read_tri_pairs oc n r prec min acc = Ok (acc ++ map (fun v => ((v + min) mod two32)%N) vs, r') /\ rok r' /\ rbits r' = rest.
Proof.
  intros Hr Hp H32. revert r acc vs Hr. induction n as [|n IH]; intros r acc vs Hr Hl Hv Hb.
  - destruct vs; [|discriminate]. cbn [existsb]. rewrite andb_false_r. cbn in *. rewrite app_nil_r. exists r. auto.
  - destruct vs as [|v1 [|v2 vs]]; try (simpl in Hl; lia). apply Forall_cons_iff in Hv as [V1 Hv]. apply Forall_cons_iff in Hv as [V2 Hv].
    cbn [map field_bits flat_map fst snd] in Hb. fold (field_bits (map (fun v => (prec, v)) vs)) in Hb.
    destruct (read2_spec oc r prec Hr Hp H32) as [A _]. destruct A as (r1 & E1 & O1 & B1). { rewrite Hb, !app_length, !bits_length. lia. }
    cbn [read_tri_pairs]. rewrite E1. cbn [io map_err bind fst snd].
    assert (F1 : of_bits (firstn prec (rbits r)) = v1).
    { rewrite Hb, <- app_assoc, firstn_app, bits_length, Nat.sub_diag, firstn_O, app_nil_r.
      rewrite firstn_all2 by (rewrite bits_length; lia). now apply of_bits_bits_id. }
    assert (S1 : skipn prec (rbits r) = bits prec v2 ++ field_bits (map (fun v => (prec, v)) vs) ++ rest).
    { rewrite Hb, <- app_assoc, skipn_app, bits_length, Nat.sub_diag, skipn_O.
      rewrite skipn_all2 by (rewrite bits_length; lia). simpl. now rewrite <- app_assoc. }
    assert (F2 : of_bits (firstn prec (skipn prec (rbits r))) = v2).
    { rewrite S1, firstn_app, bits_length, Nat.sub_diag, firstn_O, app_nil_r.
      rewrite firstn_all2 by (rewrite bits_length; lia). now apply of_bits_bits_id. }
    rewrite F1, F2, !add_min_cases. cbn [existsb]. destruct oc; cbn [andb].
    + destruct (over min v1); cbn [bind orb]; auto. destruct (over min v2); cbn [bind orb]; auto.
      specialize (IH r1 (acc ++ [((v1 + min) mod two32)%N; ((v2 + min) mod two32)%N]) vs O1). cbn [andb] in IH.
      destruct (existsb (over min) vs); [apply IH|destruct IH as (r' & E & O & B)]; auto; try (simpl in Hl; lia).
      1,2: rewrite B1, skipn_add, S1, skipn_app, bits_length, Nat.sub_diag, skipn_O; rewrite skipn_all2 by (rewrite bits_length; lia); reflexivity.
      exists r'. split; auto. rewrite E. cbn [map]. now rewrite <- app_assoc.
    + cbn [bind]. specialize (IH r1 (acc ++ [((v1 + min) mod two32)%N; ((v2 + min) mod two32)%N]) vs O1). cbn [andb] in IH.
      destruct IH as (r' & E & O & B); auto; try (simpl in Hl; lia).
      { rewrite B1, skipn_add, S1, skipn_app, bits_length, Nat.sub_diag, skipn_O; rewrite skipn_all2 by (rewrite bits_length; lia); reflexivity. }
      exists r'. split; auto. rewrite E. cbn [map]. now rewrite <- app_assoc.
Qed.
Lemma tri_body_any oc prec min vs src pad : prec < 64 -> prec <> 32 -> bytes_ok src -> Forall (fun v => (v < 2 ^ N.of_nat prec)%N) vs ->
  bits_of_bytes src = field_bits (map (fun v => (prec, v)) vs) ++ pad ->
  tri_body oc prec (N.of_nat (length vs)) min src = if (oc && existsb (over min) vs)%bool then Panic else Ok (map (fun v => ((v + min) mod two32)%N) vs).
Proof.
  intros Hp H32 Hs Hv Hb. unfold tri_body. set (n := N.to_nat (N.of_nat (length vs) / 2)). assert (Hn : n = length vs / 2) by (unfold n; lia).
  assert (Hr : rok (reader_new (slice src))) by now apply rok_new.
  rewrite <- (firstn_skipn (2 * n) vs) in Hb, Hv. apply Forall_app in Hv as [Hv1 Hv2]. rewrite map_app, field_bits_app, <- app_assoc in Hb.
  pose proof (pairs_any oc n (reader_new (slice src)) prec min [] (firstn (2 * n) vs)
    (field_bits (map (fun v => (prec, v)) (skipn (2 * n) vs)) ++ pad) Hr Hp H32 ltac:(rewrite firstn_length; lia) Hv1 ltac:(rewrite rbits_new; exact Hb)) as P.
  assert (EX : existsb (over min) vs = (existsb (over min) (firstn (2 * n) vs) || existsb (over min) (skipn (2 * n) vs))%bool).
  { now rewrite <- existsb_app, firstn_skipn. }
  assert (MP : forall f : N -> N, map f vs = map f (firstn (2 * n) vs) ++ map f (skipn (2 * n) vs)) by (intros f; now rewrite <- map_app, firstn_skipn).
  destruct (oc && existsb (over min) (firstn (2 * n) vs))%bool eqn:Q.
  - rewrite P. cbn [bind]. apply andb_true_iff in Q as [-> Q]. rewrite EX, Q. reflexivity.
  - destruct P as (r' & E & O & B). rewrite E. cbn [bind app].
    destruct (N.eqb_spec (N.of_nat (length vs) mod 2) 0) as [Hev|Hod].
    + assert (Z : skipn (2 * n) vs = []) by (apply skipn_all2; lia). rewrite EX, MP, Z, app_nil_r. cbn [existsb]. now rewrite orb_false_r, Q.
    + assert (L : length (skipn (2 * n) vs) = 1) by (rewrite skipn_length; lia).
      destruct (skipn (2 * n) vs) as [|x [|? ?]] eqn:Es; try discriminate. apply Forall_cons_iff in Hv2 as [X1 _].
      destruct (read_unaligned_spec r' prec O Hp) as [A _]. cbn [map field_bits flat_map fst snd] in B. rewrite app_nil_r in B.
      destruct A as (r2 & E2 & _ & _). { rewrite B, app_length, bits_length. lia. }
      rewrite E2. cbn [io map_err bind]. rewrite B, firstn_app, bits_length, Nat.sub_diag, firstn_O, app_nil_r.
      rewrite firstn_all2 by (rewrite bits_length; lia). rewrite of_bits_bits_id, add_min_cases by auto.
      rewrite EX, MP. cbn [existsb map]. rewrite orb_false_r, andb_orb_distrib_r, Q. cbn [orb]. destruct (oc && over min x)%bool; reflexivity.
Qed.
Lemma index_payload oc w l offset bytes more : (1 <= w < 64)%N -> w <> 32%N -> Forall (fun v => (v < 2 ^ w)%N) l -> (len l <= 2 ^ 31)%N -> (offset < 2 ^ 64)%N ->
  packs bytes (field_bits (map (fun v => (N.to_nat w, v)) l)) -> bytes_ok more ->
  let src := [w] ++ lend 8 (len l) ++ lend 8 offset ++ bytes ++ more in
  let out := if (oc && existsb (over offset) l)%bool then Panic else Ok (map (fun v => ((v + offset) mod two32)%N) l) in
  read_default_triangles oc new_ctx src = out /\ read_triangles oc new_ctx src = out.
Proof.
  intros W W32 L LL OF (B1 & B2 & pad & B3) M src out.
  assert (T : tri_body oc (N.to_nat w) (len l) offset (bytes ++ more) = out).
  { unfold out. apply (tri_body_any oc (N.to_nat w) offset l (bytes ++ more) (repeat false pad ++ bits_of_bytes more)); try lia.
    - apply bytes_ok_app. split; auto.
    - rewrite N2Nat.id. exact L.
    - unfold bits_of_bytes in *. rewrite flat_map_app. rewrite B3. now rewrite <- app_assoc. }
  rewrite read_default_spec, read_triangles_spec.
  assert (H : forall (k : N -> N -> N -> list N -> res ierr (list N)),
    (let* (p, s) := io (read_u8 src) in let* (l, s) := io (read_u64 s) in let* (m, s) := io (read_triangle_min new_ctx s) in k p l m s) = k w (len l) offset (bytes ++ more)).
  { intros k. unfold src. cbn [app]. rewrite read_u8_byte by lia. cbn [io map_err bind]. rewrite !lend_le.
    rewrite read_u64_w by (unfold two64; lia). cbn [io map_err bind]. unfold read_triangle_min. cbn [should_read_min_index new_ctx].
    rewrite read_u64_w by exact OF. reflexivity. }
  rewrite !H, max_seg. destruct (N.ltb_spec (2 ^ 31) (len l)); [lia|]. destruct (N.eqb_spec w 0); [lia|]. auto.
Qed.
Lemma over_exists offset l : existsb (over offset) l = true <-> Exists (fun v => (2 ^ 64 <= v + offset)%N) l.
Proof.
  rewrite existsb_exists, Exists_exists. unfold over. change two64 with (2 ^ 64)%N.
  split; intros (v & I & H); exists v; split; auto; [now apply N.leb_le|now apply N.leb_le].
Qed.
Lemma one_seg_iff lm oc name s : name_ok name -> frameable s ->
  (read_tmf lm oc (file_bytes [(name, [s])]) = Panic <-> decode lm oc new_ctx (eseg_of s) = Panic).
Proof.
  intros Hn Hs. rewrite read_tmf_new.
  - cbn [map collect]. unfold load_raw, join_collect. cbn [snd map existsb collect]. destruct (decode lm oc new_ctx (eseg_of s)); cbn; split; intros; auto; discriminate.
  - split; [reflexivity|]. constructor; auto. split; auto. split; [reflexivity|]. constructor; auto.
Qed.

(** In a checked build a file with a complete index array of any kind panics exactly when the sum of
    a stored number and the offset is not a 64-bit number; without the checks it never does. *)
Theorem C17_index_overflow : forall lm oc name kind pre w l offset bytes more,
  name_ok name -> index_prefix kind pre -> bytes_ok pre -> (1 <= w < 64)%N -> w <> 32%N -> Forall (fun v => (v < 2 ^ w)%N) l ->
  (len l <= 2 ^ 31)%N -> (offset < 2 ^ 64)%N -> packs bytes (field_bits (map (fun v => (N.to_nat w, v)) l)) -> bytes_ok more ->
  (len (bytes ++ more) < 2 ^ 30)%N ->
  (read_tmf lm oc (file_bytes [(name, [mk_raw kind 0 (pre ++ [w] ++ lend 8 (len l) ++ lend 8 offset ++ bytes ++ more)])]) = Panic <->
   oc = true /\ Exists (fun v => (2 ^ 64 <= v + offset)%N) l).
Proof.
  intros lm oc name kind pre w l offset bytes more Hn K PB W W32 L LL OF P M SZ.
  destruct (index_payload oc w l offset bytes more W W32 L LL OF P M) as [D G]. cbv zeta in D, G. set (src := [w] ++ _) in *.
  assert (PL : (len pre <= 256)%N).
  { destruct K as [[_ ->]|[[_ E]|[_ (nm & ->)]]]; [cbn; lia|lia|]. apply bytes_ok_app in PB as [B _]. apply Forall_inv in B. cbv beta in B.
    clear -B. unfold byte_ok, len in *. rewrite app_length. cbn [length]. lia. }
  assert (KB : (kind < 256)%N) by (destruct K as [[H _]|[[-> _]|[H _]]]; [cbn in H; intuition subst; reflexivity|reflexivity|cbn in H; intuition subst; reflexivity]).
  rewrite one_seg_iff; auto.
  2:{ split; [exact KB|]. split; [now left|]. cbn [r_payload]. unfold src, len in *. rewrite !app_length, !lend_length in *. cbn [length]. lia. }
  rewrite <- over_exists, <- andb_true_iff.
  assert (X : forall {A} (f : list N -> A), (let* l0 := (if (oc && existsb (over offset) l)%bool then Panic else Ok (map (fun v => ((v + offset) mod two32)%N) l) : res ierr (list N)) in Ok (f l0)) = Panic
    <-> (oc && existsb (over offset) l)%bool = true) by (intros A f; destruct (oc && existsb (over offset) l)%bool; cbn [bind]; split; intros; auto; discriminate).
  unfold decode, eseg_of, decode_triangle_data. cbn [r_kind r_comp r_payload e_type e_data e_comp].
  destruct K as [[H ->]|[[-> E]|[H (nm & ->)]]].
  - cbn [In] in H. destruct H as [<-|[<-|[<-|[<-|[]]]]]; cbn [section_from_u8 comp_of]; cbn [app]; rewrite D; apply X.
  - destruct pre as [|b [|? ?]]; try (unfold len in E; cbn in E; lia). cbn [section_from_u8 comp_of app]. rewrite D. apply X.
  - assert (NB : (len nm < 256)%N) by (apply bytes_ok_app in PB as [B _]; exact (Forall_inv B)).
    assert (C : forall k (f : list N -> cdata), (k = KIndex /\ f = new_index \/ k = KInteger /\ f = new_integer) ->
      cseg_read oc new_ctx k ((([len nm] ++ nm) ++ src)) = let* d := (let* l := read_triangles oc new_ctx src in Ok (f l)) in Ok (new_raw d nm (len nm))).
    { intros k f Q. unfold cseg_read. rewrite <- app_assoc. cbn [app]. rewrite read_u8_byte by exact NB. cbn [io map_err bind]. rewrite read_exact_app by reflexivity. cbn [io map_err bind].
      destruct Q as [[-> ->]|[-> ->]]; reflexivity. }
    cbn [In] in H. destruct H as [<-|[<-|[]]]; cbn [section_from_u8].
    all: erewrite C by (first [left; split; reflexivity|right; split; reflexivity]); rewrite G; destruct (oc && existsb (over offset) l)%bool; cbn [bind]; split; intros; auto; discriminate.
Qed.
Print Assumptions C17_index_overflow.

(** What the array loads as when it does not panic: the sums, cut to 32 bits. *)
Theorem C17_index_values : forall oc w l offset bytes more, (1 <= w < 64)%N -> w <> 32%N -> Forall (fun v => (v < 2 ^ w)%N) l ->
  (len l <= 2 ^ 31)%N -> (offset < 2 ^ 64)%N -> packs bytes (field_bits (map (fun v => (N.to_nat w, v)) l)) -> bytes_ok more ->
  (oc = true -> Forall (fun v => (v + offset < 2 ^ 64)%N) l) ->
  read_default_triangles oc new_ctx ([w] ++ lend 8 (len l) ++ lend 8 offset ++ bytes ++ more) = Ok (map (fun v => ((v + offset) mod 2 ^ 32)%N) l).
Proof.
  intros oc w l offset bytes more W W32 L LL OF P M N. destruct (index_payload oc w l offset bytes more W W32 L LL OF P M) as [D _]. cbv zeta in D.
  rewrite D. destruct (oc && existsb (over offset) l)%bool eqn:Q; [|reflexivity]. apply andb_true_iff in Q as [-> Q]. apply over_exists, Exists_exists in Q as (v & I & B).
  specialize (N eq_refl). rewrite Forall_forall in N. specialize (N v I). lia.
Qed.
Print Assumptions C17_index_values.

(** A file that meets the hypotheses and panics. *)
Example C17_index_overflow_case : name_ok demo_name /\ index_prefix 25 [7]%N /\ packs [0x1C]%N (field_bits (map (fun v => (3, v)) [0; 7]%N)) /\
  Exists (fun v => (2 ^ 64 <= v + (2 ^ 64 - 7))%N) [0; 7]%N /\
  read_tmf demo true (file_bytes [(demo_name, [mk_raw 25 0 ([7]%N ++ [3]%N ++ lend 8 2 ++ lend 8 (2 ^ 64 - 7) ++ [0x1C]%N ++ [])])]) = Panic.
Proof.
  split; [|split; [right; left; split; reflexivity|split; [|split]]].
  - split; [|reflexivity]. unfold demo_name. repeat (apply utf8_1; [discriminate|]). constructor.
  - split; [repeat constructor|]. split; [reflexivity|]. exists 2. reflexivity.
  - apply Exists_cons_tl, Exists_cons_hd. discriminate.
  - vm_compute. reflexivity.
Qed.
