(** What loading arbitrary bytes can end in. *)
From Coq Require Import List NArith ZArith Arith Lia Bool ZifyN ZifyNat ZifyBool.
From Verif Require Import Base BitSpec BitLemmas UnalignedRW UnalignedRW_proofs ReadExt ByteLemmas Triangles
  TriSpec Triangles_proofs Floats Utilis Unify Vertices Uv Normals CustomData Mesh Tmf File FileSpec
  Parse_proofs File_proofs.
Import ListNotations.
Open Scope res_scope.
Ltac Zify.zify_post_hook ::= Z.div_mod_to_equations.

(** The errors that can come after the header. *)
Definition later (e : ierr) : Prop :=
  match e with
  | ENotTMFFile | ENewerVersionRequired | ENoMeshes | ETooManyMeshes => False
  | _ => True
  end.
(** [r] is a value satisfying [Q], an error of the body, or, if [bad], a panic. *)
Definition outc {A} (bad : Prop) (Q : A -> Prop) (r : res ierr A) : Prop :=
  match r with Ok a => Q a | Err e => later e | Panic => bad end.

Lemma outc_bind {A B} bad Q Q' (m : res ierr A) (k : A -> res ierr B) :
  outc bad Q m -> (forall a, Q a -> outc bad Q' (k a)) -> outc bad Q' (bind m k).
Proof. destruct m; cbn; auto. Qed.

Lemma outc_weaken {A} bad (Q Q' : A -> Prop) m :
  outc bad Q m -> (forall a, Q a -> Q' a) -> outc bad Q' m.
Proof. destruct m; cbn; auto. Qed.

Definition any {A} : A -> Prop := fun _ => True.
Definition good {A B} (x : A * list B) := True.

Lemma outc_read_exact bad n src :
  outc bad (fun x => src = fst x ++ snd x /\ N.of_nat (length (fst x)) = n) (io (read_exact n src)).
Proof.
  destruct (read_exact n src) as [[a r]|e|] eqn:E; cbn.
  - now apply read_exact_inv.
  - exact I.
  - unfold read_exact in E. destruct (_ <? _)%N; discriminate.
Qed.

Lemma outc_read_le bad n src :
  bytes_ok src ->
  outc bad (fun x => bytes_ok (snd x) /\ src = le_bytes n (fst x) ++ snd x /\ (fst x < 256 ^ N.of_nat n)%N)
       (io (read_le (N.of_nat n) src)).
Proof.
  intros Hs. unfold read_le. pose proof (outc_read_exact bad (N.of_nat n) src) as H.
  destruct (read_exact _ src) as [[a r]|e|]; cbn in *; auto.
  destruct H as [-> H]. apply bytes_ok_app in Hs as [Ha Hr]. split; [exact Hr|].
  apply Nat2N.inj in H. subst n. rewrite le_of_le_bytes by auto. split; auto. now apply of_le_bytes_lt.
Qed.

Lemma outc_u8 bad src : bytes_ok src ->
  outc bad (fun x => bytes_ok (snd x) /\ src = [fst x] ++ snd x /\ (fst x < 256)%N) (io (read_u8 src)).
Proof.
  intros H. eapply outc_weaken; [exact (outc_read_le bad 1 src H)|].
  intros [v r] (A & B & C). cbn [fst snd] in *. split; auto. split; auto. rewrite B.
  cbn [le_bytes app]. f_equal. apply N.mod_small. exact C.
Qed.
Lemma outc_u64 bad src : bytes_ok src ->
  outc bad (fun x => bytes_ok (snd x) /\ src = le_bytes 8 (fst x) ++ snd x /\ (fst x < 2 ^ 64)%N) (io (read_u64 src)).
Proof. intros H. exact (outc_read_le bad 8 src H). Qed.

Lemma outc_f32 bad src : bytes_ok src -> outc bad (fun x => bytes_ok (snd x)) (read_f64_as_f32 src).
Proof.
  intros H. unfold read_f64_as_f32, read_f64. pose proof (outc_u64 bad src H) as A.
  destruct (read_u64 src) as [[v r]|e|]; cbn in *; tauto.
Qed.
Lemma outc_f64 bad src : bytes_ok src -> outc bad (fun x => bytes_ok (snd x)) (io (read_f64 src)).
Proof.
  intros H. unfold read_f64. pose proof (outc_u64 bad src H) as A.
  destruct (read_u64 src) as [[v r]|e|]; cbn in *; tauto.
Qed.
Lemma outc_prec bad src : bytes_ok src ->
  outc bad (fun x => bytes_ok (snd x) /\ fst x < 64) (read_prec src).
Proof.
  intros H. unfold read_prec. eapply outc_bind; [apply outc_u8; exact H|].
  intros [p s] (A & _ & _). destruct (N.leb_spec 64 p); cbn; [exact I|]. split; [exact A|lia].
Qed.

Definition fits (n : nat) (v : N) : Prop := v = 0%N \/ (n < 64 /\ (v < 2 ^ N.of_nat n)%N).

Lemma outc_one bad r n : rok r ->
  outc bad (fun x => rok (snd x) /\ fits n (fst x)) (io (read_unaligned r n)).
Proof.
  intros Hr. destruct (le_lt_dec 64 n) as [H|H].
  { rewrite read_unaligned_wide by auto. cbn. split; [auto|now left]. }
  destruct (read_unaligned_spec r n Hr H) as [A B].
  destruct (le_lt_dec n (length (rbits r))) as [L|L].
  - destruct (A L) as (r' & E & O & _). rewrite E. cbn. split; auto. right. split; [lia|].
    eapply N.lt_le_trans; [apply of_bits_lt|]. apply N.pow_le_mono_r; [lia|]. rewrite firstn_length. lia.
  - rewrite (B L). exact I.
Qed.

Lemma outc_two bad oc r n : rok r ->
  outc bad (fun x => rok (snd x) /\ fits n (fst (fst x)) /\
              fits n (snd (fst x))) (io (read2_unaligned oc r n)).
Proof.
  intros Hr. destruct (Nat.eq_dec n 32) as [->|N32].
  { rewrite read2_32. cbn. split; [auto|split; now left]. }
  destruct (le_lt_dec 64 n) as [H|H].
  { unfold read2_unaligned. destruct (Nat.eqb_spec n 0); [lia|]. destruct (Nat.ltb_spec 32 n); [|lia].
    rewrite !read_unaligned_wide by auto. cbn [bind]. rewrite !read_unaligned_wide by auto. cbn. split; [auto|split; now left]. }
  destruct (read2_spec oc r n Hr H N32) as [A B].
  destruct (le_lt_dec (n + n) (length (rbits r))) as [L|L].
  - destruct (A L) as (r' & E & O & _). rewrite E. cbn. split; auto. split; right; (split; [lia|]);
    (eapply N.lt_le_trans; [apply of_bits_lt|]; apply N.pow_le_mono_r; [lia|]; rewrite firstn_length; lia).
  - rewrite (B L). exact I.
Qed.

Lemma outc_bit bad r : rok r -> outc bad (fun x => rok (snd x)) (io (read_bit r)).
Proof.
  intros Hr. destruct (read_bit_spec r Hr) as [A B]. destruct (rbits r) as [|b l].
  - rewrite B; [exact I|auto].
  - destruct (A _ _ eq_refl) as (r' & E & O & _). rewrite E. exact O.
Qed.

Lemma rok_slice src : bytes_ok src -> rok (reader_new (slice src)).
Proof. intros. now apply rok_new. Qed.

(** *** The array readers *)

Ltac ob L := eapply outc_bind; [apply L; auto|].

Lemma outc_vertices bad src : bytes_ok src -> outc bad any (read_tmf_vertices src).
Proof.
  intros H. unfold read_tmf_vertices. ob outc_u64. intros [n s0] (H0 & _).
  ob outc_f32. intros [? s1] H1. ob outc_f32. intros [? s2] H2. ob outc_f32. intros [? s3] H3.
  ob outc_f32. intros [? s4] H4. ob outc_f32. intros [? s5] H5. ob outc_f32. intros [? s6] H6.
  ob outc_prec. intros [? s7] [H7 _]. ob outc_prec. intros [? s8] [H8 _]. ob outc_prec. intros [? s9] [H9 _].
  cbn [fst snd] in *. destruct (_ <? _)%N; [exact I|].
  match goal with |- outc _ _ (read_vertex_loop _ _ ?a ?b ?c ?mk ?acc) =>
    generalize mk, acc; intros g l end.
  generalize (rok_slice s9 H9). generalize (reader_new (slice s9)). revert l.
  generalize (N.to_nat n). intros k. induction k as [|k IH]; intros l r Hr; [exact I|].
  cbn [read_vertex_loop]. ob outc_one. intros [? r1] [R1 _]. ob outc_one. intros [? r2] [R2 _].
  ob outc_one. intros [? r3] [R3 _]. now apply IH.
Qed.

Lemma outc_normals bad lm oc src : bytes_ok src -> outc bad any (read_normal_array lm oc src).
Proof.
  intros H. unfold read_normal_array. ob outc_u64. intros [n s0] (H0 & _).
  cbn [fst snd] in *. destruct (_ <? _)%N; [exact I|].
  ob outc_prec. intros [p s1] [H1 _]. cbn [fst snd] in *.
  generalize (rok_slice s1 H1). generalize (reader_new (slice s1)). generalize (@nil vec3).
  generalize (N.to_nat n). intros k. induction k as [|k IH]; intros l r Hr; [exact I|].
  cbn [read_normal_loop]. apply outc_bind with (Q := fun x => rok (snd x)).
  - unfold read_normal. ob outc_bit. intros [? r1] R1. ob outc_bit. intros [? r2] R2.
    ob outc_bit. intros [? r3] R3. ob outc_two. intros [? r4] [R4 _]. exact R4.
  - intros [? r1] R1. now apply IH.
Qed.

Lemma outc_tangents bad lm src : bytes_ok src -> outc bad any (read_tangents lm src).
Proof.
  intros H. unfold read_tangents. ob outc_u64. intros [n s0] (H0 & _).
  cbn [fst snd] in *. destruct (_ <? _)%N; [exact I|].
  ob outc_prec. intros [p s1] [H1 _]. cbn [fst snd] in *.
  generalize (rok_slice s1 H1). generalize (reader_new (slice s1)). generalize (@nil tangent).
  generalize (N.to_nat n). intros k. induction k as [|k IH]; intros l r Hr; [exact I|].
  cbn [read_tangent_loop]. ob outc_bit. intros [? r1] R1. ob outc_bit. intros [? r2] R2.
  ob outc_bit. intros [? r3] R3. ob outc_bit. intros [? r4] R4. ob outc_one. intros [? r5] [R5 _].
  ob outc_one. intros [? r6] [R6 _]. now apply IH.
Qed.

Lemma outc_uvs bad oc src : bytes_ok src -> outc bad any (read_uvs oc src).
Proof.
  intros H. unfold read_uvs. ob outc_u8. intros [p s0] (H0 & _). ob outc_u64. intros [n s1] (H1 & _).
  cbn [fst snd] in *. destruct (_ <? _)%N; [exact I|]. destruct (_ =? _)%N; [exact I|].
  destruct (_ <=? _)%N; [exact I|]. generalize (f32_of_N (mask_u64 (N.to_nat p))). intros d.
  generalize (rok_slice s1 H1). generalize (reader_new (slice s1)). generalize (@nil vec2).
  generalize (N.to_nat n). intros k. induction k as [|k IH]; intros l r Hr; [exact I|].
  cbn [read_uv_loop]. ob outc_two. intros [? r1] [R1 _]. now apply IH.
Qed.

Lemma outc_add_min oc i m :
  (m < 2 ^ 64)%N -> outc (oc = true /\ (2 ^ 64 <= i + m)%N) any (add_min oc i m).
Proof.
  intros Hm. unfold add_min, add64. destruct (N.ltb_spec (i + m) two64) as [|L]; [exact I|].
  destruct oc; [|exact I]. cbn. split; [reflexivity|exact L].
Qed.

Definition idx_bad (oc : bool) (prec : nat) (m : N) : Prop :=
  oc = true /\ 1 <= prec < 64 /\ (m < 2 ^ 64)%N /\ (2 ^ 64 < m + 2 ^ N.of_nat prec)%N.

Lemma outc_add_bad oc prec i m :
  (m < 2 ^ 64)%N -> fits prec i ->
  outc (idx_bad oc prec m) any (add_min oc i m).
Proof.
  intros Hm Hi. pose proof (outc_add_min oc i m Hm) as A.
  destruct (add_min oc i m); cbn in *; auto. destruct A as [-> A].
  destruct Hi as [->|[Hp Hi]]; [lia|]. split; [reflexivity|].
  split; [split; [|lia]|split; [auto|lia]].
  destruct prec; [cbn in Hi; lia|lia].
Qed.

Lemma outc_tri_body oc prec n m src :
  bytes_ok src -> (m < 2 ^ 64)%N -> outc (idx_bad oc prec m) any (tri_body oc prec n m src).
Proof.
  intros Hs Hm. unfold tri_body.
  apply outc_bind with (Q := fun x => rok (snd x)).
  - generalize (rok_slice src Hs). generalize (reader_new (slice src)). generalize (@nil N).
    generalize (N.to_nat (n / 2)). intros k. induction k as [|k IH]; intros l r Hr; [exact Hr|].
    cbn [read_tri_pairs]. ob outc_two. intros [[a b] r1] (R1 & Ha & Hb). cbn [fst snd] in *.
    eapply outc_bind; [apply outc_add_bad; eassumption|]. intros ? _.
    eapply outc_bind; [apply outc_add_bad; eassumption|]. intros ? _. now apply IH.
  - intros [l r] Hr. cbn [snd] in Hr. destruct (_ =? _)%N; [exact I|].
    ob outc_one. intros [i r1] [R1 Hi]. cbn [fst snd] in *.
    eapply outc_bind; [apply outc_add_bad; eassumption|]. intros ? _. exact I.
Qed.

(** Payloads of index arrays that overflow. *)
Definition idx_payload (oc : bool) (src : list N) : Prop :=
  oc = true /\ exists w count offset bits,
    src = [w] ++ lend 8 count ++ lend 8 offset ++ bits /\ (1 <= w < 64)%N /\
    (offset < 2 ^ 64)%N /\ (2 ^ 64 < offset + 2 ^ w)%N.

Lemma outc_bad_impl {A} (bad bad' : Prop) (Q : A -> Prop) m :
  outc bad Q m -> (bad -> bad') -> outc bad' Q m.
Proof. destruct m; cbn; auto. Qed.

Lemma outc_tri_min bad ctx src : bytes_ok src ->
  outc bad (fun x => bytes_ok (snd x) /\ (fst x < 2 ^ 64)%N /\
                     (src = le_bytes 8 (fst x) ++ snd x \/ fst x = 0%N)) (io (read_triangle_min ctx src)).
Proof.
  intros H. unfold read_triangle_min. destruct (should_read_min_index ctx).
  - eapply outc_weaken; [apply outc_u64; exact H|]. intros [v r] (A & B & C). auto.
  - cbn. split; auto. split; [lia|auto].
Qed.

Lemma outc_index oc ctx src (k : N -> N -> N -> list N -> res ierr (list N)) :
  bytes_ok src ->
  (forall p n m s, bytes_ok s -> (m < 2 ^ 64)%N -> outc (idx_bad oc (N.to_nat p) m) any (k p n m s)) ->
  outc (idx_payload oc src) any
    (let* (p, s) := io (read_u8 src) in
     let* (n, s) := io (read_u64 s) in
     let* (m, s) := io (read_triangle_min ctx s) in k p n m s).
Proof.
  intros Hs Hk. ob outc_u8. intros [p s0] (H0 & E0 & L0). ob outc_u64. intros [n s1] (H1 & E1 & L1).
  ob outc_tri_min. intros [m s2] (H2 & L2 & E2). cbn [fst snd] in *.
  eapply outc_bad_impl; [apply Hk; auto|]. intros (-> & A & B & C). split; [reflexivity|].
  destruct E2 as [E2|E2]; [|subst m; exfalso].
  - exists p, n, m, s2. rewrite !lend_le, E0, E1, E2. split; [reflexivity|].
    rewrite N2Nat.id in C. split; [lia|]. split; auto.
  - assert (2 ^ N.of_nat (N.to_nat p) <= 2 ^ 63)%N by (apply N.pow_le_mono_r; lia). cbn in *; lia.
Qed.

Lemma outc_triangles oc ctx src : bytes_ok src ->
  outc (idx_payload oc src) any (read_triangles oc ctx src).
Proof.
  intros H. rewrite read_triangles_spec. apply (outc_index oc ctx src (fun precision length min src =>
    if (MAX_SEG_SIZE <? length)%N then Err ESegmentTooLong
    else tri_body oc (N.to_nat precision) length min src)); auto.
  intros p n m s Hs Hm. destruct (_ <? _)%N; [exact I|]. now apply outc_tri_body.
Qed.
Lemma outc_default oc ctx src : bytes_ok src ->
  outc (idx_payload oc src) any (read_default_triangles oc ctx src).
Proof.
  intros H. rewrite read_default_spec. apply (outc_index oc ctx src (fun precision length min src =>
    if (MAX_SEG_SIZE <? length)%N then Err ESegmentTooLong
    else if (precision =? 0)%N then Ok (repeat 0%N (N.to_nat length))
    else tri_body oc (N.to_nat precision) length min src)); auto.
  intros p n m s Hs Hm. destruct (_ <? _)%N; [exact I|]. destruct (_ =? _)%N; [exact I|].
  now apply outc_tri_body.
Qed.

Lemma outc_float bad src : bytes_ok src -> outc bad any (read_custom_float src).
Proof.
  intros H. unfold read_custom_float. ob outc_u64. intros [n s0] (H0 & _). cbn [fst snd] in *.
  destruct (_ <? _)%N; [exact I|]. ob outc_f64. intros [mn s1] H1. ob outc_f64. intros [mx s2] H2.
  ob outc_prec. intros [p s3] [H3 _]. cbn [fst snd] in *.
  apply outc_bind with (Q := any); [|intros ? _; exact I].
  match goal with |- outc _ _ (read_float_loop _ _ _ ?mk _) => generalize mk; intros g end.
  generalize (rok_slice s3 H3). generalize (reader_new (slice s3)). generalize (@nil f32).
  generalize (N.to_nat n). intros k. induction k as [|k IH]; intros l r Hr; [exact I|].
  cbn [read_float_loop]. ob outc_one. intros [? r1] [R1 _]. now apply IH.
Qed.

Definition color_payload (oc : bool) (src : list N) : Prop :=
  exists count w bits, src = lend 8 count ++ [w] ++ bits /\ (count < 2 ^ 64)%N /\
    ((2 ^ 59 <= count)%N \/ (oc = true /\ (64 <= w)%N)).

Lemma outc_color oc src : bytes_ok src -> outc (color_payload oc src) any (read_custom_color oc src).
Proof.
  intros H. unfold read_custom_color. ob outc_u64. intros [n s0] (H0 & E0 & L0).
  ob outc_u8. intros [p s1] (H1 & E1 & L1). cbn [fst snd] in *.
  unfold color_alloc_ok. destruct (N.ltb_spec (n * 16) (2 ^ 63)) as [L|L]; cbn [negb].
  - eapply outc_bind with (Q := any).
    + unfold shl64. destruct (Nat.ltb_spec (N.to_nat p) 64); [exact I|]. destruct oc; [|exact I].
      cbn. exists n, p, s1. rewrite lend_le, E0, E1. split; [reflexivity|]. split; auto. right. lia.
    + intros one _. apply outc_bind with (Q := any); [|intros ? _; exact I].
      match goal with |- outc _ _ (read_color_loop _ _ _ _ ?mk _) => generalize mk; intros g end.
      generalize (rok_slice s1 H1). generalize (reader_new (slice s1)). generalize (@nil vec4).
      generalize (N.to_nat n). intros k. induction k as [|k IH]; intros l r Hr; [exact I|].
      cbn [read_color_loop]. ob outc_two. intros [? r1] [R1 _]. ob outc_two. intros [? r2] [R2 _].
      now apply IH.
  - cbn. exists n, p, s1. rewrite lend_le, E0, E1. split; [reflexivity|]. split; auto. left. lia.
Qed.

(** *** Segments *)

Lemma sec_code_inv k : (k < 256)%N ->
  match section_from_u8 k with
  | SVertexTri => k = 2 | SNormalTri => k = 4 | SUvTri => k = 6 | STangentTri => k = 10
  | SShared => k = 25 | SCustom KColor => k = 23 | SCustom KIndex => k = 15
  | SCustom KInteger => k = 24 | _ => True
  end%N.
Proof.
  intros _. destruct k as [|k]; [exact I|].
  do 5 (destruct k as [k|k|]; try exact I; try reflexivity).
Qed.

Lemma outc_cseg oc ctx kind src :
  bytes_ok src ->
  outc (exists name src', src = [len name] ++ name ++ src' /\
          match kind with
          | KColor => color_payload oc src'
          | KIndex | KInteger => idx_payload oc src'
          | KFloat => False
          end) any (cseg_read oc ctx kind src).
Proof.
  intros H. unfold cseg_read. ob outc_u8. intros [n s0] (H0 & E0 & L0). cbn [fst snd] in *.
  eapply outc_bind; [apply outc_read_exact|]. intros [name s1] [E1 L1]. cbn [fst snd] in *.
  assert (H1 : bytes_ok s1) by (rewrite E1 in H0; apply bytes_ok_app in H0; tauto).
  assert (EE : src = [len name] ++ name ++ s1) by (rewrite E0, E1, <- L1; reflexivity).
  eapply outc_bind with (Q := any); [|intros ? _; exact I].
  destruct kind.
  - eapply outc_bind with (Q := any); [|intros ? _; exact I].
    eapply outc_bad_impl; [apply outc_triangles; auto|]. intros. exists name, s1. auto.
  - eapply outc_bind with (Q := any); [|intros ? _; exact I].
    eapply outc_bad_impl; [apply outc_triangles; auto|]. intros. exists name, s1. auto.
  - apply outc_float; auto.
  - eapply outc_bad_impl; [apply outc_color; auto|]. intros. exists name, s1. auto.
Qed.

Lemma outc_decode lm oc ctx s :
  (r_kind s < 256)%N -> bytes_ok (r_payload s) ->
  outc (panic_payload oc (r_kind s) (r_payload s)) any (decode lm oc ctx (eseg_of s)).
Proof.
  destruct s as [k c p]. cbn [r_kind r_payload]. intros Hk Hp.
  pose proof (sec_code_inv k Hk) as S.
  assert (IDX : forall pre, index_prefix k pre -> forall src, p = pre ++ src -> idx_payload oc src ->
                panic_payload oc k p).
  { intros pre Hpre src -> (-> & w & count & off & bits & -> & A & B & C). right. split; [reflexivity|].
    exists pre, w, count, off, bits. auto. }
  assert (TRI : forall (f : list N -> dseg), In k [2; 4; 6; 10]%N ->
    outc (panic_payload oc k p) any
      (let* l := decode_triangle_data oc ctx (mk_eseg (section_from_u8 k) (comp_of c) p) in Ok (f l))).
  { intros f Hin. eapply outc_bind with (Q := any); [|intros ? _; exact I].
    unfold decode_triangle_data. cbn [e_comp e_data]. destruct (comp_of c); try exact I.
    eapply outc_bad_impl; [apply outc_default; auto|]. intros B.
    apply (IDX [] (or_introl (conj Hin eq_refl)) p); auto. }
  unfold eseg_of, decode. cbn [e_type e_comp e_data r_kind r_comp r_payload].
  destruct (section_from_u8 k) as [| | | | | | | | |ck|] eqn:SE; try subst k.
  - exact I.
  - eapply outc_bind; [apply outc_vertices; auto|]. intros ? _; exact I.
  - apply TRI. cbn; tauto.
  - eapply outc_bind; [apply outc_normals; auto|]. intros ? _; exact I.
  - apply TRI. cbn; tauto.
  - eapply outc_bind; [apply outc_uvs; auto|]. intros ? _; exact I.
  - apply TRI. cbn; tauto.
  - eapply outc_bind; [apply outc_tangents; auto|]. intros ? _; exact I.
  - apply TRI. cbn; tauto.
  - eapply outc_bind with (Q := any); [|intros ? _; exact I].
    eapply outc_bad_impl; [apply outc_cseg; auto|]. intros (name & src' & E & B).
    destruct ck; try contradiction; subst k.
    + apply (IDX ([len name] ++ name)) with (src := src'); [|rewrite E, <- app_assoc; reflexivity|exact B].
      right. right. split; [cbn; tauto|]. eauto.
    + apply (IDX ([len name] ++ name)) with (src := src'); [|rewrite E, <- app_assoc; reflexivity|exact B].
      right. right. split; [cbn; tauto|]. eauto.
    + left. split; auto. destruct B as (count & w & bits & -> & B). exists name, count, w, bits. auto.
  - destruct p as [|b p]; [exact I|]. destruct (comp_of c); try exact I.
    eapply outc_bind with (Q := any); [|intros ? _; exact I].
    eapply outc_bad_impl; [apply outc_default|].
    + now apply Forall_cons_iff in Hp.
    + intros B. apply (IDX [b]) with (src := p); auto. right. left. auto.
Qed.

(** *** Streams of segments and meshes *)

Definition frame_of (ctx : import_ctx) : raw_seg -> list N :=
  match segment_type_width ctx with TypeU8 => seg_bytes | TypeU16 => old_seg_bytes end.

(** A panicking segment somewhere in [src]. *)
Definition panic_in (oc : bool) (ctx : import_ctx) (src : list N) : Prop :=
  exists s pre post, src = pre ++ frame_of ctx s ++ post /\ frameable s /\
    panic_payload oc (r_kind s) (r_payload s).

Definition ctx_ok (ctx : import_ctx) : Prop := ctx = new_ctx \/ ctx = old_ctx.

Lemma max_seg : MAX_SEG_SIZE = (2 ^ 31)%N.
Proof. reflexivity. Qed.

(** A segment that was read: either framed as [s], or of an unassigned wide kind. *)
Lemma outc_eseg bad ctx src :
  ctx_ok ctx -> bytes_ok src ->
  outc bad (fun x => bytes_ok (snd x) /\
     ((exists s, src = frame_of ctx s ++ snd x /\ frameable s /\ fst x = eseg_of s /\ bytes_ok (r_payload s)) \/
      ((exists pre, src = pre ++ snd x) /\ e_type (fst x) = SInvalid))) (eseg_read ctx src).
Proof.
  intros Hc Hs. unfold eseg_read.
  assert (T : outc bad (fun x => bytes_ok (snd x) /\ exists k, fst x =
                (if (k <? 256)%N then section_from_u8 k else SInvalid) /\
                src = match segment_type_width ctx with TypeU8 => le_bytes 1 k | TypeU16 => le_bytes 2 k end
                      ++ snd x /\ (segment_type_width ctx = TypeU8 -> k < 256)%N)
              (io (seg_type_read (segment_type_width ctx) src))).
  { destruct Hc as [-> | ->]; cbn [segment_type_width new_ctx old_ctx seg_type_read].
    - pose proof (outc_read_le bad 1 src Hs) as A. change (N.of_nat 1) with 1%N in A.
      change (read_le 1) with read_u8 in A. destruct (read_u8 src) as [[v r]|e|]; cbn in *; auto.
      destruct A as (A & B & C). split; auto. exists v. assert (v < 256)%N by exact C.
      destruct (N.ltb_spec v 256); [|lia]. auto.
    - pose proof (outc_read_le bad 2 src Hs) as A. change (N.of_nat 2) with 2%N in A.
      change (read_le 2) with read_u16 in A. destruct (read_u16 src) as [[v r]|e|]; cbn in *; auto.
      destruct A as (A & B & C). split; auto. exists v. split; [|split; [auto|discriminate]].
      unfold section_from_u16. destruct (N.ltb_spec 255 v), (N.ltb_spec v 256); auto; lia. }
  eapply outc_bind; [exact T|]. clear T. intros [ty s0] (H0 & k & E0 & B0 & K0). cbn [fst snd] in *.
  assert (L : outc bad (fun x => bytes_ok (snd x) /\ s0 =
                match segment_length_width ctx with LenU32 => le_bytes 4 (fst x) | LenU64 => le_bytes 8 (fst x) end
                ++ snd x) (io (seg_len_read (segment_length_width ctx) s0))).
  { destruct (segment_length_width ctx); cbn [seg_len_read].
    - eapply outc_weaken; [exact (outc_read_le bad 4 s0 H0)|]. intros [v r] (A & B & C). auto.
    - eapply outc_weaken; [exact (outc_read_le bad 8 s0 H0)|]. intros [v r] (A & B & C). auto. }
  eapply outc_bind; [exact L|]. clear L. intros [n s1] (H1 & B1). cbn [fst snd] in *.
  destruct (N.ltb_spec MAX_SEG_SIZE n) as [|L]; [exact I|]. rewrite max_seg in L.
  ob outc_u8. intros [c s2] (H2 & B2 & C2). cbn [fst snd] in *.
  eapply outc_bind with (Q := fun x => In c comp_codes /\ x = comp_of c).
  { destruct (compression_from_u8 c) as [x|e|] eqn:E; cbn.
    - now apply comp_ok_inv.
    - unfold compression_from_u8 in E. destruct c as [|c]; [discriminate|].
      repeat (destruct c as [c|c|]; try discriminate; try (injection E as <-; exact I)).
    - unfold compression_from_u8 in E. destruct c as [|c]; [discriminate|].
      repeat (destruct c as [c|c|]; try discriminate). }
  intros x [Hx ->]. eapply outc_bind; [apply outc_read_exact|]. intros [d s3] [B3 L3]. cbn in *.
  assert (bytes_ok d /\ bytes_ok s3) as [Hd H3] by (rewrite B3 in H2; now apply bytes_ok_app).
  split; auto. destruct (N.ltb_spec k 256) as [K|K].
  - left. exists (mk_raw k c d). unfold frame_of, seg_bytes, old_seg_bytes, frameable, eseg_of, len.
    cbn [r_kind r_comp r_payload].
    split; [|split; [rewrite L3; auto|split; [now rewrite E0|auto]]].
    destruct Hc as [-> | ->]; cbn [segment_type_width segment_length_width new_ctx old_ctx] in *;
      cbn [r_kind r_comp r_payload]; rewrite L3, !lend_le, B0, B1, B2, B3, <- !app_assoc; cbn [app];
      [|reflexivity].
    cbn [le_bytes]. rewrite (N.mod_small k) by auto. reflexivity.
  - right. split; [|now rewrite E0].
    exists (match segment_type_width ctx with TypeU8 => le_bytes 1 k | TypeU16 => le_bytes 2 k end ++
            match segment_length_width ctx with LenU32 => le_bytes 4 n | LenU64 => le_bytes 8 n end ++ [c] ++ d).
    rewrite B0, B1, B2, B3, <- !app_assoc. reflexivity.
Qed.

Definition from_stream oc ctx src (e : eseg) : Prop :=
  (exists s, e = eseg_of s /\ (r_kind s < 256)%N /\ bytes_ok (r_payload s) /\
     (panic_payload oc (r_kind s) (r_payload s) -> panic_in oc ctx src)) \/ e_type e = SInvalid.

Lemma panic_in_suffix oc ctx pre src : panic_in oc ctx src -> panic_in oc ctx (pre ++ src).
Proof.
  intros (s & p & q & -> & H). exists s, (pre ++ p), q. now rewrite <- app_assoc.
Qed.

Lemma from_stream_suffix oc ctx pre src e : from_stream oc ctx src e -> from_stream oc ctx (pre ++ src) e.
Proof.
  intros [(s & H1 & H2 & H3 & H4)|H]; [left|right; auto].
  exists s. split; auto. split; auto. split; auto. intros. apply panic_in_suffix. auto.
Qed.

Lemma outc_segments bad oc ctx n : forall src, ctx_ok ctx -> bytes_ok src ->
  outc bad (fun x => bytes_ok (snd x) /\ (exists pre, src = pre ++ snd x) /\
                     Forall (from_stream oc ctx src) (fst x)) (read_segments ctx n src).
Proof.
  induction n as [|n IH]; intros src Hc Hs; cbn [read_segments].
  - cbn. split; auto. split; [now exists []|constructor].
  - eapply outc_bind; [apply outc_eseg; auto|]. intros [e s1] (H1 & HE). cbn [fst snd] in *.
    assert (exists pre, src = pre ++ s1) as [pre Epre].
    { destruct HE as [(s & -> & _)|[[pre ->] _]]; eauto. }
    eapply outc_bind; [apply IH; auto|]. intros [l s2] (H2 & [pre2 E2] & HF). cbn [fst snd] in *.
    cbn. split; auto. split; [exists (pre ++ pre2); now rewrite Epre, E2, app_assoc|]. constructor.
    + destruct HE as [(s & E & F & -> & B)|[_ T]]; [left|right; auto].
      exists s. split; auto. split; [apply F|]. split; auto. intros P.
      exists s, [], s1. split; [exact E|]. auto.
    + eapply Forall_impl; [|exact HF]. intros a Ha. rewrite Epre. now apply from_stream_suffix.
Qed.

Lemma outc_join lm oc ctx src l :
  Forall (from_stream oc ctx src) l ->
  outc (panic_in oc ctx src) any (join_collect (map (decode lm oc ctx) l)).
Proof.
  intros HF. unfold join_collect. destruct (existsb is_panic _) eqn:EP.
  - cbn. apply existsb_exists in EP as (r & Hin & Hp). apply in_map_iff in Hin as (e & <- & Hin).
    rewrite Forall_forall in HF. destruct (HF e Hin) as [(s & -> & K & B & P)|T].
    + pose proof (outc_decode lm oc ctx s K B) as O.
      destruct (decode lm oc ctx (eseg_of s)); try discriminate. apply P. exact O.
    + unfold decode in Hp. rewrite T in Hp. discriminate.
  - clear EP. induction HF as [|e l He HF IH]; [exact I|]. cbn [map collect].
    eapply outc_bind with (Q := any).
    + destruct He as [(s & -> & K & B & P)|T].
      * eapply outc_bad_impl; [apply outc_decode; auto|auto].
      * unfold decode. rewrite T. exact I.
    + intros d _. eapply outc_bind; [exact IH|]. intros ? _. exact I.
Qed.

Lemma io_string bad src : bytes_ok src ->
  outc bad (fun x => bytes_ok (snd x) /\ exists pre, src = pre ++ snd x) (io (read_string src)).
Proof.
  intros Hs. unfold read_string. pose proof (outc_read_le bad 2 src Hs) as A.
  change (N.of_nat 2) with 2%N in A. change (read_le 2) with read_u16 in A.
  destruct (read_u16 src) as [[n s1]|e|]; cbn in A |- *; auto.
  destruct A as (H1 & E1 & _). pose proof (outc_read_exact bad n s1) as B.
  destruct (read_exact n s1) as [[nm s2]|e|]; cbn in B |- *; auto.
  destruct B as [E2 _]. destruct (utf8_valid nm); cbn; auto. cbn in E1.
  split; [rewrite E2 in H1; apply bytes_ok_app in H1; tauto|].
  exists (le_bytes 2 n ++ nm). rewrite <- app_assoc, <- E2. exact E1.
Qed.

Lemma outc_mesh lm oc ctx src : ctx_ok ctx -> bytes_ok src ->
  outc (panic_in oc ctx src) (fun x => bytes_ok (snd x) /\ exists pre, src = pre ++ snd x)
    (import_mesh lm oc ctx src).
Proof.
  intros Hc Hs. unfold import_mesh. eapply outc_bind; [apply io_string; exact Hs|].
  intros [name s1] [H1 [p1 E1]]. cbn [fst snd] in *.
  eapply outc_bind; [exact (outc_read_le _ 2 s1 H1)|]. intros [n s2] (H2 & E2 & _). cbn [fst snd] in *.
  eapply outc_bind; [apply (outc_segments _ oc); auto|]. intros [l s3] (H3 & [p3 E3] & HF). cbn [fst snd] in *.
  eapply outc_bind with (Q := any).
  - eapply outc_bad_impl; [apply outc_join; exact HF|]. intros P. rewrite E1, E2.
    now do 2 apply panic_in_suffix.
  - intros d _. cbn. split; auto. exists (p1 ++ le_bytes 2 n ++ p3).
    rewrite <- !app_assoc, <- E3, <- E2. exact E1.
Qed.

Lemma outc_meshes lm oc ctx n : forall src, ctx_ok ctx -> bytes_ok src ->
  outc (panic_in oc ctx src) any (import_meshes lm oc ctx n src).
Proof.
  induction n as [|n IH]; intros src Hc Hs; cbn [import_meshes]; [exact I|].
  eapply outc_bind; [apply outc_mesh; auto|]. intros [m s1] (H1 & [p1 E1]). cbn [fst snd] in *.
  eapply outc_bind with (Q := any).
  - eapply outc_bad_impl; [apply IH; auto|]. intros P. rewrite E1. now apply panic_in_suffix.
  - intros [? ?] _. exact I.
Qed.

Lemma init_header_ok h : ctx_ok (init_header h).
Proof. unfold init_header, ctx_ok, new_ctx, old_ctx. destruct (_ <? _)%N; auto. Qed.
