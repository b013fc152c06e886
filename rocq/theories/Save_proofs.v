(** From saved bytes back to the mesh: every segment written is read back with the
    same indices and lengths; writing as a function of the room in the sink. *)
From Coq Require Import List NArith ZArith Arith Lia Bool ZifyN ZifyNat ZifyBool.
From Verif Require Import Base BitSpec BitLemmas UnalignedRW BitIOSpec UnalignedRW_proofs ReadExt ByteLemmas
  Triangles TriSpec Triangles_proofs OptTris Floats Floats_proofs Utilis Unify OptVertices Vertices Uv
  Normals CustomData Mesh Tmf File FileSpec Codec_proofs Parse_proofs File_proofs Load_proofs SaveSpec Merge_proofs.
Import ListNotations.
Open Scope res_scope.
Ltac Zify.zify_post_hook ::= Z.div_mod_to_equations.

Lemma Ok_inj {E A} (a b : A) : @Ok E A a = Ok b -> a = b.
Proof. now intros [= ->]. Qed.

Lemma F2_length {A B} (R : A -> B -> Prop) l l' : Forall2 R l l' -> length l = length l'.
Proof. induction 1; cbn; auto. Qed.

(** ** Sizes *)

Lemma field_bits_len w fs :
  Forall (fun f => fst f <= w) fs -> length (field_bits fs) <= w * length fs.
Proof.
  induction 1 as [|f fs H _ IH]; [cbn; lia|]. rewrite field_bits_cons, app_length, bits_length.
  cbn [length]. lia.
Qed.

Lemma packs_len payload fs w n :
  packs payload (field_bits fs) -> Forall (fun f => fst f <= w) fs -> length fs <= n ->
  8 * length payload <= w * n + 7.
Proof.
  intros (_ & H & _) F L. apply field_bits_len in F. rewrite H. unfold bytes_for_bits.
  assert (w * length fs <= w * n) by (apply Nat.mul_le_mono_l; auto). lia.
Qed.

Lemma mask_30 {E} p m : mask_f32 (E:=E) true p = Ok m -> p <= 30.
Proof.
  unfold mask_f32, mask_i32. destruct (Nat.ltb_spec p 32) as [H|H]; [|discriminate]. cbn [bind].
  destruct (Nat.eq_dec p 31) as [->|]; [vm_compute; discriminate|]. lia.
Qed.

Lemma flat_len {A B} (f : A -> list B) k l :
  (forall a, length (f a) = k) -> length (flat_map f l) = k * length l.
Proof.
  intros H. induction l as [|a l IH]; cbn [flat_map length]; [lia|].
  rewrite app_length, H, IH. lia.
Qed.
Lemma flat_Forall {A B} (f : A -> list B) (P : B -> Prop) l :
  (forall a, Forall P (f a)) -> Forall P (flat_map f l).
Proof.
  intros H. induction l as [|a l IH]; cbn [flat_map]; [constructor|]. apply Forall_app. auto.
Qed.

Lemma packs_flat {A} payload (f : A -> list (nat * N)) w l :
  packs payload (field_bits (flat_map f l)) -> (forall a, length (field_bits (f a)) <= w) ->
  8 * length payload <= w * length l + 7.
Proof.
  intros (_ & H & _) F. rewrite H. unfold bytes_for_bits.
  assert (length (field_bits (flat_map f l)) <= w * length l); [|lia].
  clear H. induction l as [|a l IH]; [cbn; lia|]. cbn [flat_map length].
  rewrite field_bits_app, app_length. pose proof (F a). lia.
Qed.

(** ** Storable segments *)

Definition idx_ok (l : list N) : Prop := (len l <= 2 ^ 27)%N /\ Forall (fun i => (i < 2 ^ 31)%N) l.
Definition dok (d : dseg) : Prop :=
  match d with
  | DNothing => True
  | DVertex l => (len l <= 2 ^ 27)%N
  | DNormal l => (len l <= 2 ^ 27)%N
  | DUV l => (len l <= 2 ^ 27)%N
  | DTangent l => (len l <= 2 ^ 27)%N
  | DTriVertex l | DTriNormal l | DTriUV l | DTriTangent l => idx_ok l
  | DShared k l => (0 < k < 8)%N /\ idx_ok l
  | DCustom s => custom_ok s
  end.

Lemma idx_ok_app a b : idx_ok (a ++ b) -> idx_ok a /\ idx_ok b.
Proof.
  unfold idx_ok, len. rewrite app_length, Forall_app. intros (H & A & B). split; split; auto; lia.
Qed.
Lemma dok_sub : sub_ok dok.
Proof.
  unfold sub_ok. cbn [dok]. split; [|split; [|split; [|split; [|split]]]]; intros.
  - unfold len in *. rewrite app_length in H. lia.
  - now apply idx_ok_app.
  - now apply idx_ok_app.
  - now apply idx_ok_app.
  - now apply idx_ok_app.
  - destruct H as [H1 H2]. apply idx_ok_app in H2. tauto.
Qed.

Lemma dok_merged m : storable m -> Forall dok (merge_segments (tmf_segs m)) /\
  Forall (fun d => is_something d = true) (merge_segments (tmf_segs m)).
Proof.
  intros S.
  assert (F : Forall (fun d => dok d /\ is_something d = true) (merge_segments (tmf_segs m))).
  { apply merge_loop_keeps.
    - exact I.
    - cbn [dok]. intros l H k Hk. split; auto. destruct H as [H|[H|[H|[? [_ H]]]]]; auto.
    - cbn [dok]. tauto.
    - apply Forall_rev. destruct S. unfold tmf_segs. rewrite !Forall_app.
      assert (O : forall A (f : A -> dseg) (o : option A), (forall x, o = Some x -> dok (f x)) -> Forall dok (opt_seg f o)).
      { intros A f [x|] HH; constructor; auto. }
      do 8 (split; [apply O; intros x HX; cbn [dok]; first [exact (st_vertices _ HX)|exact (st_normals _ HX)|exact (st_uvs _ HX)|exact (st_tangents _ HX)
        |exact (st_vertex_triangles _ HX)|exact (st_normal_triangles _ HX)|exact (st_uv_triangles _ HX)
        |exact (st_tangent_triangles _ HX)]|]).
      rewrite Forall_map. exact st_custom. }
  split; (eapply Forall_impl; [|exact F]); cbv beta; tauto.
Qed.

(** The same segment, up to what is lossy. *)
Definition dsame (a b : dseg) : Prop :=
  match a, b with
  | DNothing, DNothing => True
  | DVertex l, DVertex l' => length l = length l'
  | DNormal l, DNormal l' => length l = length l'
  | DUV l, DUV l' => length l = length l'
  | DTangent l, DTangent l' => length l = length l'
  | DTriVertex l, DTriVertex l' => l = l'
  | DTriNormal l, DTriNormal l' => l = l'
  | DTriUV l, DTriUV l' => l = l'
  | DTriTangent l, DTriTangent l' => l = l'
  | DShared k l, DShared k' l' => k = k' /\ l = l'
  | DCustom s, DCustom s' => same_custom s s'
  | _, _ => False
  end.

Lemma same_len_append {A} (a a' : option (list A)) (l l' : list A) :
  same_len a a' -> length l = length l' ->
  same_len (match a with Some v => Some (v ++ l) | None => Some l end)
           (match a' with Some v => Some (v ++ l') | None => Some l' end).
Proof.
  destruct a, a'; cbn; try tauto. intros H1 H2. rewrite !app_length. lia.
Qed.

Lemma apply_same m m' d d' : same_shape m m' -> dsame d d' -> same_shape (apply m d) (apply m' d').
Proof.
  destruct m as [n nt v vt u ut t tt cd], m' as [n' nt' v' vt' u' ut' t' tt' cd'].
  intros [[A1 A2 A3 A4 A5 A6 A7 A8] A9] H. cbn in *. subst nt' vt' ut' tt'.
  destruct d, d'; cbn [dsame] in H; try contradiction.
  - split; [constructor|]; auto.
  - pose proof (same_len_append _ _ _ _ A5 H). destruct v, v'; try contradiction; (split; [constructor|]; auto).
  - pose proof (same_len_append _ _ _ _ A6 H). destruct n, n'; try contradiction; (split; [constructor|]; auto).
  - pose proof (same_len_append _ _ _ _ A7 H). destruct u, u'; try contradiction; (split; [constructor|]; auto).
  - pose proof (same_len_append _ _ _ _ A8 H). destruct t, t'; try contradiction; (split; [constructor|]; auto).
  - subst. destruct vt; (split; [constructor|]; auto).
  - subst. destruct nt; (split; [constructor|]; auto).
  - subst. destruct ut; (split; [constructor|]; auto).
  - subst. destruct tt; (split; [constructor|]; auto).
  - destruct H as [<- <-]. cbn [apply].
    destruct (has_mask mask MASK_VERTEX), (has_mask mask MASK_NORMAL), (has_mask mask MASK_UV);
    destruct vt, nt, ut; (split; [constructor|]; auto).
  - split; [constructor; auto|]. cbn [apply add_custom_data_seg with_custom_data custom_data].
    apply Forall2_app; auto.
Qed.

Lemma build_same ds ds' : Forall2 dsame ds ds' -> forall m m', same_shape m m' ->
  same_shape (build ds m) (build ds' m').
Proof.
  induction 1 as [|d d' ds ds' H _ IH]; intros m m' S; auto. cbn [build fold_left].
  apply IH. now apply apply_same.
Qed.

(** ** One segment *)

(** [good lm oc e d]: the encoded segment is well formed and decodes to the like of [d]. *)
Definition good (lm : libm) (oc : bool) (e : eseg) (d : dseg) : Prop :=
  (len (e_data e) <= 2 ^ 31)%N /\ bytes_ok (e_data e) /\ e_comp e = CNone /\
  exists d', decode lm oc new_ctx e = Ok d' /\ dsame d d'.

Lemma app_nil_eq (l : list N) : l = l ++ []. Proof. now rewrite app_nil_r. Qed.

Lemma save_index_ok oc oc' l :
  idx_ok l -> exists bytes, save_triangles oc l (max_or 0 l) [] = Ok bytes /\
    (len bytes + 1 <= 2 ^ 31)%N /\ bytes_ok bytes /\ read_default_triangles oc' new_ctx bytes = Ok l.
Proof.
  intros [H1 H2]. unfold len in *.
  assert (U : u32s l). { eapply Forall_impl; [|exact H2]. cbv beta. lia. }
  assert (M : (max_or 0 l < 2 ^ 31)%N) by (apply max_or_lt; auto; lia).
  destruct (index_array_roundtrip oc oc' l (max_or 0 l) [] U) as (bytes & S & _ & R); auto.
  { lia. }
  { unfold all_le. apply Forall_forall. intros. now apply max_or_ge. }
  { constructor. }
  exists bytes. split; auto. rewrite app_nil_r in R. split; [|split; auto].
  - destruct (index_array_size oc l (max_or 0 l) U) as (b & S' & L); [lia|].
    rewrite S in S'. injection S' as <-. rewrite L. pose proof (calc_prec_small _ M).
    unfold bytes_for_bits.
    assert (calc_prec (max_or 0 l) * length l <= 31 * length l) by (apply Nat.mul_le_mono_r; auto). lia.
  - destruct (save_triangles_spec oc l (max_or 0 l) [] (Forall_nil _) U) as (pl & S' & Pk);
      [unfold two64; lia|].
    rewrite S in S'. apply Ok_inj in S'. subst bytes. cbn [app]. apply bytes_ok_app. split; [|apply Pk].
    unfold tri_header. rewrite !bytes_ok_app. repeat split; try apply le_bytes_ok.
Qed.

Lemma good_index oc oc' lm l sec mk :
  idx_ok l ->
  (forall s : eseg, e_type s = sec -> decode lm oc' new_ctx s = let* x := decode_triangle_data oc' new_ctx s in Ok (mk x)) ->
  dsame (mk l) (mk l) ->
  forall b, save_triangles oc l (max_or 0 l) [] = Ok b -> good lm oc' (mk_eseg sec CNone b) (mk l).
Proof.
  intros H D R b S. destruct (save_index_ok oc oc' l H) as (b' & S' & L & B & Rd).
  rewrite S in S'. injection S' as <-. split; [cbn [e_data]; lia|]. split; auto. split; auto.
  exists (mk l). split; auto. rewrite D by reflexivity. unfold decode_triangle_data. cbn [e_comp e_data].
  now rewrite Rd.
Qed.

Lemma save_triangles_sink oc l m sink b :
  u32s l -> (m < 2 ^ 64)%N -> bytes_ok sink -> save_triangles oc l m [] = Ok b ->
  save_triangles oc l m sink = Ok (sink ++ b).
Proof.
  intros U M B S.
  destruct (save_triangles_spec oc l m [] (Forall_nil _) U M) as (p & S1 & P1).
  destruct (save_triangles_spec oc l m sink B U M) as (p' & S2 & P2).
  rewrite S in S1. apply Ok_inj in S1. subst b. rewrite S2. cbn [app]. do 3 f_equal. eapply packs_unique; eauto.
Qed.

Lemma good_vertices lm lm' oc' vs prec edge b :
  (len vs <= 2 ^ 27)%N -> save_tmf_vertices lm true vs prec edge [] = Ok b ->
  good lm' oc' (mk_eseg SVertex CNone b) (DVertex vs).
Proof.
  unfold len. intros H S.
  assert (exists p mx my mz, vertex_params lm vs prec edge = Some p /\
    mask_f32 (E:=ioerr) true (vp_px p) = Ok mx /\ mask_f32 (E:=ioerr) true (vp_py p) = Ok my /\
    mask_f32 (E:=ioerr) true (vp_pz p) = Ok mz) as (p & mx & my & mz & V & Mx & My & Mz).
  { unfold save_tmf_vertices in S. unfold vertex_params.
    destruct (bounding_box (E:=ioerr) vs) as [bb| |]; try discriminate. cbn [bind] in S. cbv zeta in S.
    eexists. match type of S with context [mask_f32 true ?a] => destruct (mask_f32 (E:=ioerr) true a) as [mx| |] eqn:Mx end; try discriminate.
    cbn [bind] in S. match type of S with context [mask_f32 true ?a] => destruct (mask_f32 (E:=ioerr) true a) as [my| |] eqn:My end; try discriminate.
    exists mx, my, my. split; [reflexivity|]. cbn [vp_px vp_py vp_pz]. auto. }
  pose proof (mask_30 _ _ Mx). pose proof (mask_30 _ _ My). pose proof (mask_30 _ _ Mz).
  destruct (vertices_roundtrip lm true vs prec edge p mx my mz []) as (b' & S' & B & R); auto; try lia.
  { constructor. }
  rewrite S in S'. injection S' as <-. rewrite app_nil_r in R.
  destruct (save_vertices_spec lm true vs prec edge [] p mx my mz) as (pl & S' & Pk); auto; try lia.
  { constructor. }
  rewrite S in S'. apply Ok_inj in S'. subst b. cbn [app] in *. split; [|split; [auto|split; [auto|]]].
  - cbn [e_data]. unfold len. rewrite app_length.
    assert (length (vertex_header (N.of_nat (length vs)) p) = 59).
    { unfold vertex_header, le_f64. rewrite !app_length, !le_bytes_length. reflexivity. }
    eapply (packs_len _ _ 30 (3 * length vs)) in Pk.
    + lia.
    + apply flat_Forall. intros v. repeat (apply Forall_cons; [cbn [fst]; lia|]); apply Forall_nil.
    + unfold vertex_fields. rewrite (flat_len _ 3); auto.
  - eexists. split; [unfold decode; cbn [e_type e_data]; rewrite R; reflexivity|]. cbn [dsame]. now rewrite map_length.
Qed.

Lemma good_uvs lm oc' l p b :
  (len l <= 2 ^ 27)%N -> save_uvs true l p [] = Ok b -> good lm oc' (mk_eseg SUv CNone b) (DUV l).
Proof.
  unfold len. intros H S.
  assert (exists mul, mask_f32 (E:=ioerr) true p = Ok mul) as [mul M].
  { unfold save_uvs in S. destruct (mask_f32 (E:=ioerr) true p); try discriminate. eauto. }
  pose proof (mask_30 _ _ M).
  assert (exists l', read_uvs oc' b = Ok l' /\ length l' = length l /\ bytes_ok b) as (l' & R & L & B).
  { destruct (Nat.eq_dec p 0) as [->|].
    - destruct (uvs_roundtrip_0 true oc' l []) as (b' & S' & B & R); [lia|constructor|].
      rewrite S in S'. injection S' as <-. rewrite app_nil_r in R.
      eexists. split; [exact R|]. split; auto. apply map_length.
    - destruct (uvs_roundtrip true oc' l p mul []) as (b' & S' & B & R); auto; try lia; [constructor|].
      rewrite S in S'. injection S' as <-. rewrite app_nil_r in R.
      eexists. split; [exact R|]. split; auto. apply map_length. }
  split; [|split; [auto|split; [auto|]]].
  - cbn [e_data]. unfold len.
    destruct (save_uvs_spec true l p mul []) as (pl & S' & Pk); auto; try lia; [constructor|].
    rewrite S in S'. apply Ok_inj in S'. subst b. cbn [app length]. rewrite app_length, le_bytes_length.
    eapply (packs_len _ _ 30 (2 * length l)) in Pk; [lia| |].
    + apply flat_Forall. intros v. repeat (apply Forall_cons; [cbn [fst]; lia|]); apply Forall_nil.
    + unfold uv_fields. rewrite (flat_len _ 2); auto.
  - eexists. split; [unfold decode; cbn [e_type e_data]; rewrite R; reflexivity|]. cbn [dsame]. auto.
Qed.

Lemma good_normals lm lm' oc' l p b :
  (len l <= 2 ^ 27)%N -> p <= 30 -> save_normal_array lm true l p [] = Ok b ->
  good lm' oc' (mk_eseg SNormal CNone b) (DNormal l).
Proof.
  unfold len. intros H Hp S.
  assert (exists codes, map_res (E:=ioerr) (fun n => normal_to_encoding lm true n p) l = Ok codes) as [codes C].
  { unfold save_normal_array in S. cbv zeta in S.
    destruct (map_res (E:=ioerr) (fun n => normal_to_encoding lm true n p) l); try discriminate. eauto. }
  pose proof (map_res_length _ _ _ C) as Lc.
  destruct (normals_roundtrip lm lm' true oc' l p codes []) as (b' & S' & B & R); auto; try lia; [constructor|].
  rewrite S in S'. injection S' as <-. rewrite app_nil_r in R.
  split; [|split; [auto|split; [auto|]]].
  - cbn [e_data]. unfold len.
    destruct (save_normals_spec lm true l p codes []) as (pl & S' & Pk); auto; try lia; [constructor| |].
    { eapply map_res_Forall; [|exact C]. intros a c. apply normal_to_encoding_range. }
    rewrite S in S'. apply Ok_inj in S'. subst b. cbn [app]. rewrite app_length.
    unfold narr_header. rewrite app_length, le_bytes_length. cbn [length].
    eapply (packs_flat _ _ 63) in Pk; [lia|].
    intros c. unfold tangent_fields, normal_fields. rewrite !field_bits_cons, !app_length, !bits_length. cbn [fst bit].
    cbn [field_bits flat_map length]. lia.
  - eexists. split; [unfold decode; cbn [e_type e_data]; rewrite R; reflexivity|]. cbn [dsame].
    rewrite map_length. auto.
Qed.

Lemma good_tangents lm lm' oc' l p b :
  (len l <= 2 ^ 27)%N -> p <= 30 -> save_tangents lm true l p [] = Ok b ->
  good lm' oc' (mk_eseg STangent CNone b) (DTangent l).
Proof.
  unfold len. intros H Hp S.
  assert (exists codes, map_res (tangent_code lm true p) l = Ok codes) as [codes C].
  { unfold save_tangents in S. cbv zeta in S. fold (tangent_code lm true p) in S.
    change (map_res (E:=ioerr) (fun t => let* c := normal_to_encoding lm true (fst t) p in Ok (ht_to_bool (snd t), c)) l)
      with (map_res (tangent_code lm true p) l) in S.
    destruct (map_res (tangent_code lm true p) l); try discriminate. eauto. }
  pose proof (map_res_length _ _ _ C) as Lc.
  destruct (tangents_roundtrip lm lm' true l p codes []) as (b' & S' & B & R); auto; try lia; [constructor|].
  rewrite S in S'. injection S' as <-. rewrite app_nil_r in R.
  split; [|split; [auto|split; [auto|]]].
  - cbn [e_data]. unfold len.
    destruct (save_tangents_spec lm true l p codes []) as (pl & S' & Pk); auto; try lia; [constructor| |].
    { eapply map_res_Forall; [|exact C]. intros a c. unfold tangent_code.
      destruct (normal_to_encoding lm true (fst a) p) eqn:EN; try discriminate. intros [= <-].
      eapply normal_to_encoding_range. exact EN. }
    rewrite S in S'. apply Ok_inj in S'. subst b. cbn [app]. rewrite app_length.
    unfold narr_header. rewrite app_length, le_bytes_length. cbn [length].
    eapply (packs_flat _ _ 64) in Pk; [lia|].
    intros c. unfold tangent_fields, normal_fields. rewrite !field_bits_cons, !app_length, !bits_length. cbn [fst bit].
    cbn [field_bits flat_map length]. lia.
  - eexists. split; [unfold decode; cbn [e_type e_data]; rewrite R; reflexivity|]. cbn [dsame].
    rewrite map_length. auto.
Qed.

(** ** Custom data *)

Lemma name_header s : custom_ok s ->
  (N.of_nat (length (c_name s)) <? c_name_len s)%N = false /\
  le_bytes 1 (c_name_len s) ++ firstn (N.to_nat (c_name_len s)) (c_name s) = c_name_len s :: c_name s /\
  bytes_ok (c_name_len s :: c_name s) /\
  (forall d, new_raw d (c_name s) (c_name_len s) = mk_cseg (c_name s) (c_name_len s) d) /\
  (forall rest, read_u8 (c_name_len s :: c_name s ++ rest) = Ok (c_name_len s, c_name s ++ rest)) /\
  (forall rest, read_exact (c_name_len s) (c_name s ++ rest) = Ok (c_name s, rest)).
Proof.
  intros (H1 & H2 & H3 & _). unfold len in H2.
  assert (T : N.to_nat (c_name_len s) = length (c_name s)) by lia.
  split; [lia|]. split; [|split; [|split; [|split]]].
  - rewrite T, firstn_all. cbn [le_bytes app]. now rewrite N.mod_small by lia.
  - constructor; [unfold byte_ok; lia|exact H1].
  - intros d. unfold new_raw. f_equal. rewrite T, firstn_app, Nat.sub_diag, firstn_O, app_nil_r. apply firstn_all.
  - intros rest. apply read_u8_byte. lia.
  - intros rest. apply read_exact_app. auto.
Qed.

Lemma good_integers oc oc' l m b :
  integers_ok l m -> save_triangles oc l m [] = Ok b ->
  (len b + 300 <= 2 ^ 31)%N /\ bytes_ok b /\ read_triangles oc' new_ctx b = Ok l.
Proof.
  intros (H1 & H2 & H3) S. unfold len in *.
  assert (U : u32s l). { eapply Forall_impl; [|exact H2]. cbv beta. lia. }
  destruct (index_array_roundtrip_spread oc oc' l m [] U) as (b' & S' & R); auto.
  { lia. }
  { intros i j Hi Hj. rewrite Forall_forall in H2. pose proof (H2 i Hi). cbv beta in *. lia. }
  { constructor. }
  rewrite S in S'. injection S' as <-. rewrite app_nil_r in R. split; [|split; auto].
  - destruct (index_array_size oc l m U) as (b2 & S' & L); [lia|].
    rewrite S in S'. injection S' as <-. rewrite L.
    assert (calc_prec m <= 63) by (apply calc_prec_le; lia).
    unfold bytes_for_bits.
    assert (calc_prec m * length l <= 63 * length l) by (apply Nat.mul_le_mono_r; auto). lia.
  - destruct (save_triangles_spec oc l m [] (Forall_nil _) U) as (pl & S' & Pk); [unfold two64; lia|].
    rewrite S in S'. apply Ok_inj in S'. subst b. cbn [app]. apply bytes_ok_app. split; [|apply Pk].
    unfold tri_header. rewrite !bytes_ok_app. repeat split; try apply le_bytes_ok.
Qed.

Lemma good_custom lm lm' oc' s b :
  custom_ok s -> cseg_encode lm true s [] = Ok b ->
  good lm' oc' (mk_eseg (SCustom (cdata_kind (c_data s))) CNone b) (DCustom s).
Proof.
  intros C S. pose proof (name_header s C) as (N1 & N2 & N3 & N4 & N5 & N6).
  unfold cseg_encode in S. rewrite N1 in S. cbn [app] in S. rewrite N2 in S.
  pose proof C as (C1 & C2 & C3 & C4). unfold len in *.
  assert (Main : exists body d', b = (c_name_len s :: c_name s) ++ body /\ (len body + 300 <= 2 ^ 31)%N /\ bytes_ok body /\
    same_data (c_data s) d' /\
    match cdata_kind (c_data s) with
    | KIndex => let* l := read_triangles oc' new_ctx body in Ok (new_index l)
    | KInteger => let* l := read_triangles oc' new_ctx body in Ok (new_integer l)
    | KFloat => read_custom_float body
    | KColor => read_custom_color oc' body
    end = Ok d').
  { set (hd := c_name_len s :: c_name s) in *.
    destruct (c_data s) as [l m|l m|l p|l p]; cbn [cdata_write cdata_kind] in *.
    - assert (U : u32s l). { eapply Forall_impl; [|exact (proj1 (proj2 C4))]. cbv beta. lia. }
      assert (M : (m < 2 ^ 64)%N) by (destruct C4 as (_ & _ & ?); lia).
      destruct (save_triangles_spec true l m [] (Forall_nil _) U M) as (p & S1 & _).
      rewrite (save_triangles_sink true l m hd _ U M N3 S1) in S. apply Ok_inj in S. symmetry in S.
      destruct (good_integers true oc' l m _ C4 S1) as (G1 & G2 & G3).
      eexists. exists (new_index l). split; [exact S|]. split; auto. split; auto. split; [reflexivity|].
      now rewrite G3.
    - assert (U : u32s l). { eapply Forall_impl; [|exact (proj1 (proj2 C4))]. cbv beta. lia. }
      assert (M : (m < 2 ^ 64)%N) by (destruct C4 as (_ & _ & ?); lia).
      destruct (save_triangles_spec true l m [] (Forall_nil _) U M) as (p & S1 & _).
      rewrite (save_triangles_sink true l m hd _ U M N3 S1) in S. apply Ok_inj in S. symmetry in S.
      destruct (good_integers true oc' l m _ C4 S1) as (G1 & G2 & G3).
      eexists. exists (new_integer l). split; [exact S|]. split; auto. split; auto. split; [reflexivity|].
      now rewrite G3.
    - assert (exists mul, mask_f32 (E:=ioerr) true (float_width lm l p) = Ok mul) as [mul M].
      { change (cdata_write lm true (CFloat l p) hd = Ok b) in S. cbn [cdata_write] in S.
        unfold float_width. destruct (float_range l) as [mx mn] eqn:FR. cbv zeta in S. cbn [fst snd].
        match type of S with context [mask_f32 true ?a] => destruct (mask_f32 (E:=ioerr) true a) end;
          try discriminate. eauto. }
      pose proof (mask_30 _ _ M) as W.
      destruct (save_float_spec lm true l p mul hd N3) as (pl & S1 & Pk); auto; [lia|].
      change (cdata_write lm true (CFloat l p) hd = Ok b) in S. rewrite S in S1. apply Ok_inj in S1.
      destruct Pk as (P1 & P2 & [pad P3]).
      destruct (read_float_ok l (float_width lm l p) (float_code l mul) pl) with (pad := repeat false pad) as (q & R & QE); auto; try lia.
      eexists. eexists. split; [exact S1|]. split; [|split; [|split; [|exact R]]].
      + unfold len, float_header, le_f64. rewrite !app_length, !le_bytes_length. cbn [length].
        rewrite P2. unfold bytes_for_bits.
        match goal with |- context [field_bits ?x] => assert (length (field_bits x) <= 30 * length x) as Q end.
        { apply field_bits_len. rewrite Forall_map. apply Forall_forall. intros. cbn [fst]. lia. }
        rewrite map_length in Q. lia.
      + unfold float_header. rewrite !bytes_ok_app. repeat split; auto; try apply le_f64_ok; try apply le_bytes_ok.
        constructor; [unfold byte_ok; lia|constructor].
      + cbn [same_data]. now rewrite map_length.
    - assert (exists mul, mask_f32 (E:=ioerr) true (color_width lm p) = Ok mul) as [mul M].
      { unfold color_width. cbv zeta in S.
        match type of S with context [mask_f32 true ?a] => destruct (mask_f32 (E:=ioerr) true a) end;
          try discriminate. eauto. }
      pose proof (mask_30 _ _ M) as W.
      destruct (save_color_spec lm true l p mul hd N3) as (pl & S1 & Pk); auto; [lia|].
      change (cdata_write lm true (CColor l p) hd = Ok b) in S. rewrite S in S1. apply Ok_inj in S1.
      pose proof Pk as (P1 & P2 & P3). 
      eapply (packs_flat _ _ 120) in Pk.
      2:{ intros v. unfold c4. cbn [map]. rewrite !field_bits_cons, !app_length, !bits_length. cbn [fst field_bits flat_map length]. lia. }
      destruct P3 as [pad P3].
      destruct (read_color_ok oc' l (color_width lm p) mul pl) with (pad := repeat false pad) as (q & R & QE); auto; try lia.
      eexists. eexists. split; [exact S1|]. split; [|split; [|split; [|exact R]]].
      + unfold len, color_header. rewrite !app_length, !le_bytes_length. cbn [length]. lia.
      + unfold color_header. rewrite !bytes_ok_app. repeat split; auto; try apply le_bytes_ok.
        constructor; [unfold byte_ok; lia|constructor].
      + cbn [same_data]. now rewrite map_length. }
  destruct Main as (body & d' & -> & L & B & SD & R).
  split; [|split; [|split; [reflexivity|]]].
  - cbn [e_data]. unfold len in *. rewrite app_length. cbn [length]. lia.
  - cbn [e_data]. apply bytes_ok_app. auto.
  - exists (DCustom (mk_cseg (c_name s) (c_name_len s) d')). split.
    + unfold decode. cbn [e_type e_data]. unfold cseg_read. cbn [app]. rewrite N5. cbn [io map_err bind].
      rewrite N6. cbn [io map_err bind].
      match goal with |- bind (bind ?x _) _ = _ => replace x with (@Ok ierr _ d') end.
      cbn [bind]. now rewrite N4.
    + cbn [dsame]. split; auto.
Qed.

(** ** Any segment *)

(** Widths a debug build can write. *)
Definition prec_fine (p : prec_info) : Prop := normal_precision p <= 30 /\ tangent_prec p <= 30.

Lemma encode_good lm lm' oc' p edge d e :
  prec_fine p -> dok d -> is_something d = true -> encode lm true p edge d = Ok e -> good lm' oc' e d.
Proof.
  intros [Hn Ht] D Sm E. unfold encode in E.
  destruct d as [|l|l|l|l|l|l|l|l|k l|s]; [discriminate| | | | | | | | | |]; cbn [dok] in D.
  - destruct (save_tmf_vertices lm true l _ edge []) as [b| |] eqn:S; try discriminate. injection E as <-.
    eapply good_vertices; eauto.
  - destruct (save_normal_array lm true l _ []) as [b| |] eqn:S; try discriminate. injection E as <-.
    exact (good_normals lm lm' oc' l _ b D Hn S).
  - destruct (save_uvs true l _ []) as [b| |] eqn:S; try discriminate. injection E as <-.
    eapply good_uvs; eauto.
  - destruct (save_tangents lm true l _ []) as [b| |] eqn:S; try discriminate. injection E as <-.
    exact (good_tangents lm lm' oc' l _ b D Ht S).
  - destruct (save_triangles true l _ []) as [b| |] eqn:S; try discriminate. injection E as <-.
    eapply (good_index true oc' lm' l SVertexTri DTriVertex); eauto; [|reflexivity].
    intros [ty c dt] HH. cbn [e_type] in HH. subst ty. reflexivity.
  - destruct (save_triangles true l _ []) as [b| |] eqn:S; try discriminate. injection E as <-.
    eapply (good_index true oc' lm' l SNormalTri DTriNormal); eauto; [|reflexivity].
    intros [ty c dt] HH. cbn [e_type] in HH. subst ty. reflexivity.
  - destruct (save_triangles true l _ []) as [b| |] eqn:S; try discriminate. injection E as <-.
    eapply (good_index true oc' lm' l SUvTri DTriUV); eauto; [|reflexivity].
    intros [ty c dt] HH. cbn [e_type] in HH. subst ty. reflexivity.
  - destruct (save_triangles true l _ []) as [b| |] eqn:S; try discriminate. injection E as <-.
    eapply (good_index true oc' lm' l STangentTri DTriTangent); eauto; [|reflexivity].
    intros [ty c dt] HH. cbn [e_type] in HH. subst ty. reflexivity.
  - destruct D as [Hk D]. pose proof D as [D1 D2].
    destruct (save_index_ok true oc' l D) as (b & S & L & B & R).
    assert (U : u32s l). { eapply Forall_impl; [|exact D2]. cbv beta. lia. }
    assert (M : (max_or 0 l < 2 ^ 64)%N).
    { apply (N.lt_trans _ (2 ^ 31)); [|reflexivity]. apply max_or_lt; auto. lia. }
    rewrite (save_triangles_sink true l (max_or 0 l) [k] b U M) in E; [|constructor; [unfold byte_ok; lia|constructor]|exact S].
    cbn [bind app] in E. injection E as <-. split; [|split; [|split; [reflexivity|]]].
    + cbn [e_data]. unfold len in *. cbn [length]. lia.
    + cbn [e_data]. constructor; auto. unfold byte_ok. lia.
    + exists (DShared k l). split; [|cbn; auto]. unfold decode. cbn [e_type e_data e_comp]. now rewrite R.
  - destruct (cseg_encode lm true s []) as [b| |] eqn:S; try discriminate. injection E as <-.
    eapply good_custom; eauto.
Qed.

(** ** Actions *)

(** [traced a out r]: with enough room the action writes [out] and returns [r];
    otherwise it writes as much of it as fits and fails. *)
Definition traced {A} (a : action A) (out : list N) (r : res xerr A) : Prop :=
  (forall d, a (mk_sink d None) = (mk_sink (d ++ out) None, r)) /\
  (forall d room, a (mk_sink d (Some room)) =
    if (len out <=? room)%N then (mk_sink (d ++ out) (Some (room - len out)%N), r)
    else (mk_sink (d ++ firstn (N.to_nat room) out) (Some 0%N), Err (XIo WriteFailed))).

Lemma traced_pure {A} (r : res xerr A) : traced (pure r) [] r.
Proof.
  split; intros; unfold pure; cbn [len length N.of_nat]; rewrite app_nil_r; auto.
  change (len (@nil N)) with 0%N.
  destruct (N.leb_spec 0 room); [|lia]. now rewrite N.sub_0_r.
Qed.
Lemma traced_ret {A} (a : A) : traced (ret a) [] (Ok a).
Proof. exact (traced_pure (Ok a)). Qed.
Lemma traced_write b : traced (write_all b) b (Ok tt).
Proof. split; intros; reflexivity. Qed.

Lemma traced_bind {A B} (m : action A) (f : A -> action B) o1 a o2 r :
  traced m o1 (Ok a) -> traced (f a) o2 r -> traced (abind m f) (o1 ++ o2) r.
Proof.
  intros [M1 M2] [F1 F2]. split; intros; unfold abind.
  - now rewrite M1, F1, <- app_assoc.
  - rewrite M2. unfold len in *. rewrite app_length.
    destruct (N.leb_spec (N.of_nat (length o1)) room) as [L|L].
    + rewrite F2. destruct (N.leb_spec (N.of_nat (length o2)) (room - N.of_nat (length o1))) as [L'|L'].
      * destruct (N.leb_spec (N.of_nat (length o1 + length o2)) room); [|lia].
        rewrite <- app_assoc.
        replace (room - N.of_nat (length o1) - N.of_nat (length o2))%N
          with (room - N.of_nat (length o1 + length o2))%N by lia. reflexivity.
      * destruct (N.leb_spec (N.of_nat (length o1 + length o2)) room); [lia|].
        rewrite <- app_assoc, firstn_app, (firstn_all2 o1) by lia.
        replace (N.to_nat (room - N.of_nat (length o1))) with (N.to_nat room - length o1) by lia. reflexivity.
    + destruct (N.leb_spec (N.of_nat (length o1 + length o2)) room); [lia|].
      rewrite firstn_app. replace (N.to_nat room - length o1) with 0 by lia.
      now rewrite firstn_O, app_nil_r.
Qed.
Lemma traced_bind_err {A B} (m : action A) (f : A -> action B) o e :
  traced m o (Err e) -> traced (abind m f) o (Err e).
Proof.
  intros [M1 M2]. split; intros; unfold abind.
  - now rewrite M1.
  - rewrite M2. destruct (len o <=? room)%N; auto.
Qed.
Lemma traced_bind_panic {A B} (m : action A) (f : A -> action B) o :
  traced m o Panic -> traced (abind m f) o Panic.
Proof.
  intros [M1 M2]. split; intros; unfold abind.
  - now rewrite M1.
  - rewrite M2. destruct (len o <=? room)%N; auto.
Qed.
Lemma traced_chunks l : traced (write_chunks l) (concat l) (Ok tt).
Proof.
  induction l as [|b l IH]; cbn [write_chunks concat]; [apply traced_ret|].
  apply (traced_bind _ _ b tt (concat l)); auto. apply traced_write.
Qed.

(** Something is traced whatever happens. *)
Definition has_trace {A} (a : action A) : Prop := exists out r, traced a out r.
Lemma has_trace_bind {A B} (m : action A) (f : A -> action B) :
  has_trace m -> (forall a, has_trace (f a)) -> has_trace (abind m f).
Proof.
  intros (o & r & T) F. destruct r as [a|e|].
  - destruct (F a) as (o2 & r2 & T2). exists (o ++ o2), r2. eapply traced_bind; eauto.
  - exists o, (Err e). now apply traced_bind_err.
  - exists o, Panic. now apply traced_bind_panic.
Qed.
Lemma has_trace_segments l : has_trace (write_segments l).
Proof.
  induction l as [|r l IH]; cbn [write_segments]; [eexists _, _; apply traced_ret|].
  apply has_trace_bind; [eexists _, _; apply traced_pure|]. intros s.
  apply has_trace_bind; [eexists _, _; apply traced_chunks|]. auto.
Qed.
Lemma has_trace_mesh lm oc p m name : has_trace (write_mesh lm oc p m name).
Proof.
  unfold write_mesh.
  apply has_trace_bind; [eexists _, _; apply traced_chunks|]. intros _.
  apply has_trace_bind; [eexists _, _; apply traced_pure|]. intros edge.
  apply has_trace_bind; [eexists _, _; apply traced_pure|]. intros segs. cbv zeta.
  apply has_trace_bind; [eexists _, _; apply traced_pure|]. intros _.
  apply has_trace_bind; [eexists _, _; apply traced_write|]. intros _.
  apply has_trace_segments.
Qed.
Lemma has_trace_meshes lm oc p l : has_trace (write_meshes lm oc p l).
Proof.
  induction l as [|[m name] l IH]; cbn [write_meshes]; [eexists _, _; apply traced_ret|].
  apply has_trace_bind; [apply has_trace_mesh|]. auto.
Qed.
Lemma has_trace_tmf lm oc p l : has_trace (write_tmf lm oc p l).
Proof.
  apply has_trace_bind; [eexists _, _; apply traced_chunks|]. intros _. apply has_trace_meshes.
Qed.

Lemma saved_traced lm oc p l b : saved lm oc p l = Ok b <-> traced (write_tmf lm oc p l) b (Ok tt).
Proof.
  unfold saved. split.
  - destruct (has_trace_tmf lm oc p l) as (o & r & T). pose proof T as [T1 _]. rewrite T1.
    destruct r as [[]|e|]; try discriminate. cbn. intros [= <-]. exact T.
  - intros [T _]. rewrite T. reflexivity.
Qed.

Lemma traced_ok_inv {A B} (m : action A) (f : A -> action B) out b :
  has_trace m -> (forall a, has_trace (f a)) -> traced (abind m f) out (Ok b) ->
  exists o1 a o2, traced m o1 (Ok a) /\ traced (f a) o2 (Ok b) /\ out = o1 ++ o2.
Proof.
  intros (o & r & T) F (B1 & _). specialize (B1 []). unfold abind in B1. pose proof T as (T1 & _). rewrite T1 in B1.
  destruct r as [a|e|]; try discriminate. destruct (F a) as (o2 & r2 & T2). pose proof T2 as (T2' & _).
  rewrite T2' in B1. injection B1 as E1 E2. exists o, a, o2. subst r2. split; auto.
Qed.
Lemma traced_det {A} (a : action A) o r o' r' : traced a o r -> traced a o' r' -> o = o' /\ r = r'.
Proof. intros [H _] [H' _]. specialize (H []). specialize (H' []). rewrite H in H'. cbn in H'. now injection H' as -> ->. Qed.

Lemma segments_inv l out :
  traced (write_segments l) out (Ok tt) ->
  exists es, l = map Ok es /\ out = concat (map (fun s => concat (eseg_chunks s)) es).
Proof.
  revert out. induction l as [|r l IH]; cbn [write_segments]; intros out T.
  - destruct (traced_det _ _ _ _ _ T (traced_ret tt)) as [-> _]. exists []. auto.
  - apply traced_ok_inv in T as (o1 & s & o2 & T1 & T2 & ->);
      [|eexists _, _; apply traced_pure|].
    2:{ intros s. apply has_trace_bind; [eexists _, _; apply traced_chunks|]. intros _. apply has_trace_segments. }
    destruct (traced_det _ _ _ _ _ T1 (traced_pure r)) as [-> <-].
    apply traced_ok_inv in T2 as (o3 & x & o4 & T3 & T4 & ->);
      [|eexists _, _; apply traced_chunks|intros _; apply has_trace_segments].
    destruct (traced_det _ _ _ _ _ T3 (traced_chunks _)) as [-> E]. destruct x.
    destruct (IH _ T4) as (es & -> & ->). exists (s :: es). auto.
Qed.

Lemma mesh_inv lm oc p m name out :
  traced (write_mesh lm oc p m name) out (Ok tt) ->
  exists edge segs es, calc_shortest_edge (vertex_triangles m) (vertices m) = Ok edge /\
    optimize_all lm oc (merge_segments (tmf_segs m)) = Ok segs /\
    Forall2 (fun s e => encode lm oc p edge s = Ok e) segs es /\
    out = le_bytes 2 (len name) ++ name ++ le_bytes 2 (len segs) ++
          concat (map (fun s => concat (eseg_chunks s)) es).
Proof.
  unfold write_mesh. intros T.
  apply traced_ok_inv in T as (o1 & x & o2 & T1 & T2 & ->); [|eexists _, _; apply traced_chunks|].
  2:{ intros _. apply has_trace_bind; [eexists _, _; apply traced_pure|]. intros edge.
      apply has_trace_bind; [eexists _, _; apply traced_pure|]. intros segs. cbv zeta.
      apply has_trace_bind; [eexists _, _; apply traced_pure|]. intros _.
      apply has_trace_bind; [eexists _, _; apply traced_write|]. intros _. apply has_trace_segments. }
  destruct (traced_det _ _ _ _ _ T1 (traced_chunks _)) as [-> _]. clear T1 x.
  apply traced_ok_inv in T2 as (o1 & edge & o3 & T1 & T2 & ->); [|eexists _, _; apply traced_pure|].
  2:{ intros edge. apply has_trace_bind; [eexists _, _; apply traced_pure|]. intros segs. cbv zeta.
      apply has_trace_bind; [eexists _, _; apply traced_pure|]. intros _.
      apply has_trace_bind; [eexists _, _; apply traced_write|]. intros _. apply has_trace_segments. }
  destruct (traced_det _ _ _ _ _ T1 (traced_pure _)) as [-> E]. clear T1.
  apply traced_ok_inv in T2 as (o1 & segs & o4 & T1 & T2 & ->); [|eexists _, _; apply traced_pure|].
  2:{ intros segs. cbv zeta. apply has_trace_bind; [eexists _, _; apply traced_pure|]. intros _.
      apply has_trace_bind; [eexists _, _; apply traced_write|]. intros _. apply has_trace_segments. }
  destruct (traced_det _ _ _ _ _ T1 (traced_pure _)) as [-> O]. clear T1. cbv zeta in T2.
  apply traced_ok_inv in T2 as (o1 & x & o5 & T1 & T2 & ->); [|eexists _, _; apply traced_pure|].
  2:{ intros _. apply has_trace_bind; [eexists _, _; apply traced_write|]. intros _. apply has_trace_segments. }
  destruct (traced_det _ _ _ _ _ T1 (traced_pure _)) as [-> _]. clear T1 x.
  apply traced_ok_inv in T2 as (o1 & x & o6 & T1 & T2 & ->);
    [|eexists _, _; apply traced_write|intros _; apply has_trace_segments].
  destruct (traced_det _ _ _ _ _ T1 (traced_write _)) as [-> _]. clear T1 x.
  apply segments_inv in T2 as (es & M & ->). exists edge, segs, es. split; auto. split; auto. split.
  - clear -M. revert es M. induction segs as [|s segs IH]; intros [|e es] M; try discriminate; constructor.
    + cbn [map] in M. apply (f_equal (@hd_error _)) in M. cbn [hd_error] in M. injection M as M.
      destruct (encode lm oc p edge s); try discriminate. now injection M as ->.
    + cbn [map] in M. apply (f_equal (@tl _)) in M. cbn [tl] in M. auto.
  - cbn [concat app]. rewrite app_nil_r, <- !app_assoc. unfold len. now rewrite map_length.
Qed.

(** ** Whole files *)

Definition segment_list (lm : libm) (oc : bool) (m : mesh) : res xerr (list dseg) :=
  optimize_all lm oc (merge_segments (tmf_segs m)).
(** The number of segments a mesh is stored in. *)
Definition segment_count (lm : libm) (oc : bool) (m : mesh) : N :=
  match segment_list lm oc m with Ok l => len l | _ => 0%N end.

Definition raw_of (e : eseg) : raw_seg :=
  mk_raw (section_code (e_type e)) (compression_code (e_comp e)) (e_data e).
Lemma eseg_of_raw e : eseg_of (raw_of e) = e.
Proof.
  unfold eseg_of, raw_of. cbn [r_kind r_comp r_payload].
  rewrite (proj1 (section_code_ok _)), (proj2 (compression_code_ok _)). now destruct e.
Qed.

Lemma meshes_inv lm oc p l : forall out,
  traced (write_meshes lm oc p l) out (Ok tt) ->
  exists outs, out = concat outs /\
    Forall2 (fun mn o => traced (write_mesh lm oc p (fst mn) (snd mn)) o (Ok tt)) l outs.
Proof.
  induction l as [|[m name] l IH]; cbn [write_meshes]; intros out T.
  - destruct (traced_det _ _ _ _ _ T (traced_ret tt)) as [-> _]. exists []. auto.
  - apply traced_ok_inv in T as (o1 & x & o2 & T1 & T2 & ->);
      [|apply has_trace_mesh|intros _; apply has_trace_meshes].
    destruct x. destruct (IH _ T2) as (outs & -> & F). exists (o1 :: outs). auto.
Qed.

Lemma saved_inv lm oc p l out :
  saved lm oc p l = Ok out ->
  exists outs, out = header_bytes 0 2 0 2 ++ lend 4 (len l) ++ concat outs /\
    Forall2 (fun mn o => traced (write_mesh lm oc p (fst mn) (snd mn)) o (Ok tt)) l outs.
Proof.
  intros S. apply saved_traced in S. unfold write_tmf in S.
  apply traced_ok_inv in S as (o1 & x & o2 & T1 & T2 & ->);
    [|eexists _, _; apply traced_chunks|intros _; apply has_trace_meshes].
  destruct (traced_det _ _ _ _ _ T1 (traced_chunks _)) as [-> _].
  apply meshes_inv in T2 as (outs & -> & F). exists outs. split; auto.
  unfold header_bytes. rewrite !lend_le. unfold len. cbn [concat].
  rewrite app_nil_r, <- !app_assoc. reflexivity.
Qed.

Lemma join_ok {A} (l : list (res ierr A)) r : l = map Ok r -> join_collect l = Ok r.
Proof.
  intros ->. unfold join_collect.
  replace (existsb is_panic (map Ok r)) with false.
  - induction r as [|a r IH]; [reflexivity|]. cbn [map collect bind]. now rewrite IH.
  - induction r as [|a r IH]; [reflexivity|]. cbn [map existsb is_panic orb]. exact IH.
Qed.

(** One mesh: the bytes written are those of a raw mesh that loads. *)
Lemma mesh_loads lm lm' oc' p m name out :
  prec_fine p -> storable m -> name_ok name -> (segment_count lm true m < 65536)%N ->
  traced (write_mesh lm true p m name) out (Ok tt) ->
  exists raw m', out = mesh_bytes seg_bytes raw /\ mesh_ok raw /\ fst raw = name /\
    Forall (fun s => bytes_ok (r_payload s)) (snd raw) /\
    load_raw lm' oc' new_ctx raw = Ok (m', name) /\ same_shape_rev m m'.
Proof.
  intros HP HS HN HC T. apply mesh_inv in T as (edge & segs & es & E1 & E2 & E3 & ->).
  unfold segment_count, segment_list in HC. rewrite E2 in HC.
  destruct (dok_merged m HS) as [D1 D2].
  pose proof (optimize_all_all dok lm true _ _ dok_sub D1 E2) as D3.
  assert (D4 : Forall (fun d => is_something d = true) segs).
  { eapply (optimize_all_all (fun d => is_something d = true)); eauto.
    unfold sub_ok. cbn. tauto. }
  assert (G : exists ds, Forall2 dsame segs ds /\ map (decode lm' oc' new_ctx) es = map Ok ds).
  { clear -E3 D3 D4 HP. induction E3 as [|s e segs es H _ IH]; [exists []; split; auto|].
    apply Forall_cons_iff in D3 as [Da D3]. apply Forall_cons_iff in D4 as [Db D4].
    destruct (IH D3 D4) as (ds & F & M).
    destruct (encode_good lm lm' oc' p edge s e HP Da Db H) as (_ & _ & _ & d' & Dd & Ds).
    exists (d' :: ds). split; auto. cbn [map]. now rewrite Dd, M. }
  assert (F : Forall (fun e => (len (e_data e) <= 2 ^ 31)%N /\ bytes_ok (e_data e) /\ e_comp e = CNone) es).
  { clear -E3 D3 D4 HP. induction E3 as [|s e segs es H _ IH]; constructor.
    - apply Forall_cons_iff in D3 as [Da D3]. apply Forall_cons_iff in D4 as [Db D4].
      destruct (encode_good lm lm true p edge s e HP Da Db H) as (A & B & C & _). auto.
    - apply Forall_cons_iff in D3 as [Da D3]. apply Forall_cons_iff in D4 as [Db D4]. auto. }
  destruct G as (ds & G1 & G2).
  assert (Le : length es = length segs) by (symmetry; exact (F2_length _ _ _ E3)).
  exists (name, map raw_of es), (build ds empty).
  split; [|split; [|split; [|split; [|split]]]].
  - unfold mesh_bytes. cbn [fst snd]. rewrite !lend_le. unfold len. rewrite map_length, Le.
    do 3 f_equal. rewrite !map_map. f_equal.
    clear -F. induction F as [|e es (H & _) _ IH]; [reflexivity|]. cbn [map]. f_equal; auto.
    now apply segment_layout.
  - split; [exact HN|]. cbn [snd]. split.
    + unfold len in *. rewrite map_length, Le. auto.
    + rewrite Forall_map. eapply Forall_impl; [|exact F]. intros e (H1 & H2 & H3).
      unfold frameable, raw_of. cbn [r_kind r_comp r_payload]. split; [apply section_code_ok|].
      split; [apply compression_code_ok|auto].
  - reflexivity.
  - cbn [snd]. rewrite Forall_map. eapply Forall_impl; [|exact F]. intros e (H1 & H2 & H3). exact H2.
  - unfold load_raw. cbn [fst snd].
    assert (EM : map eseg_of (map raw_of es) = es).
    { clear. induction es as [|e es IH]; [reflexivity|]. cbn [map]. now rewrite eseg_of_raw, IH. }
    rewrite EM.
    rewrite (join_ok _ ds) by auto. reflexivity.
  - assert (SS : same_shape (build segs empty) (build ds empty)).
    { apply build_same; auto. split; [constructor; cbn; auto|constructor]. }
    rewrite (build_optimize_all lm true _ _ _ E2), build_merged in SS.
    destruct SS as [[? ? ? ? ? ? ? ?] SC]. destruct m. split; [constructor; auto|exact SC].
Qed.

Lemma collect_ok {A} (l : list (res ierr A)) r : l = map Ok r -> collect l = Ok r.
Proof. intros ->. induction r as [|a r IH]; [reflexivity|]. cbn [map collect bind]. now rewrite IH. Qed.

(** A saved file: what it looks like and what it loads as. *)
Lemma saved_loads lm lm' oc' p l out :
  prec_fine p -> (len l < 2 ^ 32)%N ->
  Forall (fun mn => storable (fst mn) /\ name_ok (snd mn) /\ (segment_count lm true (fst mn) < 65536)%N) l ->
  saved lm true p l = Ok out ->
  exists raws l', out = file_bytes raws /\ file_ok raws /\
    Forall2 (fun mn raw => fst raw = snd mn) l raws /\
    Forall (fun raw => Forall (fun s => bytes_ok (r_payload s)) (snd raw)) raws /\
    import lm' oc' out = Ok (l', []) /\
    Forall2 (fun a b => snd a = snd b /\ same_shape_rev (fst a) (fst b)) l l'.
Proof.
  intros HP HL HF S. apply saved_inv in S as (outs & -> & F).
  assert (G : exists raws l', concat outs = concat (map (mesh_bytes seg_bytes) raws) /\ Forall mesh_ok raws /\
    length raws = length l /\ Forall2 (fun mn raw => fst raw = snd mn) l raws /\
    Forall (fun raw => Forall (fun s => bytes_ok (r_payload s)) (snd raw)) raws /\
    map (load_raw lm' oc' new_ctx) raws = map Ok l' /\
    Forall2 (fun a b => snd a = snd b /\ same_shape_rev (fst a) (fst b)) l l').
  { clear HL. induction F as [|[m name] o l outs H _ IH].
    - exists [], []. repeat split; constructor.
    - apply Forall_cons_iff in HF as [(A & B & C) HF]. destruct (IH HF) as (raws & l' & E1 & E2 & E3 & E4 & E5 & E6 & E7).
      destruct (mesh_loads lm lm' oc' p m name o) as (raw & m' & R1 & R2 & R3 & R4 & R5 & R6); auto.
      exists (raw :: raws), ((m', name) :: l'). cbn [concat map length]. rewrite R1, E1, E3, R5, E6.
      repeat split; auto. }
  destruct G as (raws & l' & E1 & E2 & E3 & E4 & E5 & E6 & E7).
  assert (FO : file_ok raws). { split; auto. unfold len in *. lia. }
  exists raws, l'.
  assert (EB : header_bytes 0 2 0 2 ++ lend 4 (len l) ++ concat outs = file_bytes raws).
  { unfold file_bytes. rewrite E1. unfold len. now rewrite E3. }
  rewrite EB. repeat split; auto; try apply FO.
  rewrite <- (app_nil_r (file_bytes raws)), import_new by auto. rewrite (collect_ok _ l') by auto. reflexivity.
Qed.
