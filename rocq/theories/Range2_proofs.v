(** The ranges of the values a load can produce. *)
From Coq Require Import List NArith ZArith Arith Lia Bool Reals Lra.
From Flocq Require Import Core IEEE754.BinarySingleNaN.
From Verif Require Import Base BitSpec BitLemmas UnalignedRW UnalignedRW_proofs ReadExt ByteLemmas Triangles
  TriSpec Triangles_proofs Floats Floats_proofs FloatReal_proofs Utilis Unify Vertices Uv Normals CustomData Mesh Tmf File FileSpec
  Parse_proofs File_proofs NoPanic_proofs ValueSpec RangeSpec Quant_proofs NormalReal_proofs PlatformSpec Platform_proofs Range_proofs.
Import ListNotations.
Open Scope res_scope.

Lemma in_unit_0 : in_unit f0.
Proof. split; [reflexivity|]. change (val f0) with 0%R. lra. Qed.
Lemma uv_unit p q : (1 <= p < 64)%nat -> fits p q -> in_unit (uv_value (f32_of_N (mask_u64 p)) q).
Proof.
  intros B F. apply fits_lt in F. pose proof (pow_le_64 p ltac:(lia)). pose proof (mask_pos p ltac:(lia)).
  destruct (quot_any q (mask_u64 p)) as [A1 A2]; [unfold mask_u64; lia|auto| |split; auto].
  change (2 ^ 64)%N with (2 * 2 ^ 63)%N. unfold mask_u64. lia.
Qed.
Lemma in_uvs bad oc src : bytes_ok src ->
  outc bad (Forall (fun u => in_unit (fst u) /\ in_unit (snd u))) (read_uvs oc src).
Proof.
  intros H. unfold read_uvs. ob outc_u8. intros [p s0] (H0 & _). ob outc_u64. intros [n s1] (H1 & _).
  cbn [fst snd] in *. destruct (_ <? _)%N; [exact I|]. destruct (N.eqb_spec p 0) as [E|E].
  { cbn. apply Forall_forall. intros u I. apply repeat_spec in I. subst u. split; apply in_unit_0. }
  destruct (N.leb_spec 64 p) as [L|L]; [exact I|].
  generalize (rok_slice s1 H1). generalize (reader_new (slice s1)).
  assert (G : Forall (fun u : vec2 => in_unit (fst u) /\ in_unit (snd u)) []) by constructor. revert G.
  generalize (@nil vec2).
  generalize (N.to_nat n). intros k. induction k as [|k IH]; intros l G r Hr; [exact G|].
  cbn [read_uv_loop]. ob outc_two. intros [[a b] r1] (R1 & Fa & Fb). cbn [fst snd] in *. apply IH; auto.
  apply Forall_app. split; auto. constructor; [|constructor]. cbn [fst snd]. split; apply uv_unit; auto; lia.
Qed.

Lemma sign_of (b : bool) : is_sign (if b then fneg f1 else f1).
Proof. destruct b; [now right|now left]. Qed.
Lemma normal_in lm p c : sin_cos_ok lm -> (p < 64)%nat ->
  (n_asine c < 2 ^ N.of_nat p)%N -> (n_z c < 2 ^ N.of_nat p)%N -> unit_or_corner (normal_from_encoding lm c p).
Proof.
  intros SC B Ha Hz. destruct (Nat.eq_dec p 0) as [->|P0].
  - right. unfold normal_from_encoding. cbn [Nat.eqb fst snd]. auto using sign_of.
  - left. apply unit_any; auto. lia.
Qed.
(** What a library has to provide: decoded normals in range. *)
Definition normals_ok (lm : libm) : Prop := forall p c, (p < 64)%nat ->
  (n_asine c < 2 ^ N.of_nat p)%N -> (n_z c < 2 ^ N.of_nat p)%N -> unit_or_corner (normal_from_encoding lm c p).
Lemma accurate_ok lm : sin_cos_ok lm -> normals_ok lm.
Proof. intros SC p c. now apply normal_in. Qed.
Lemma in_normals bad lm oc src : normals_ok lm -> bytes_ok src -> outc bad (Forall unit_or_corner) (read_normal_array lm oc src).
Proof.
  intros SC H. unfold read_normal_array. ob outc_u64. intros [n s0] (H0 & _).
  cbn [fst snd] in *. destruct (_ <? _)%N; [exact I|].
  ob outc_prec. intros [p s1] [H1 Hp]. cbn [fst snd] in *.
  generalize (rok_slice s1 H1). generalize (reader_new (slice s1)).
  assert (G : Forall unit_or_corner []) by constructor. revert G. generalize (@nil vec3).
  generalize (N.to_nat n). intros k. induction k as [|k IH]; intros l G r Hr; [exact G|].
  cbn [read_normal_loop]. apply outc_bind with (Q := fun x => unit_or_corner (fst x) /\ rok (snd x)).
  - unfold read_normal. ob outc_bit. intros [? r1] R1. ob outc_bit. intros [? r2] R2.
    ob outc_bit. intros [? r3] R3. ob outc_two. intros [[a z] r4] (R4 & Fa & Fz). cbn [fst snd] in *.
    cbn. split; auto. apply SC; cbn [n_asine n_z]; auto using fits_lt.
  - intros [v r1] [V R1]. cbn [fst snd] in *. apply IH; auto. apply Forall_app. split; auto.
Qed.
Lemma in_tangents bad lm src : normals_ok lm -> bytes_ok src ->
  outc bad (Forall (fun t => unit_or_corner (fst t) /\ is_sign (snd t))) (read_tangents lm src).
Proof.
  intros SC H. unfold read_tangents. ob outc_u64. intros [n s0] (H0 & _).
  cbn [fst snd] in *. destruct (_ <? _)%N; [exact I|].
  ob outc_prec. intros [p s1] [H1 Hp]. cbn [fst snd] in *.
  generalize (rok_slice s1 H1). generalize (reader_new (slice s1)).
  assert (G : Forall (fun t : tangent => unit_or_corner (fst t) /\ is_sign (snd t)) []) by constructor.
  revert G. generalize (@nil tangent).
  generalize (N.to_nat n). intros k. induction k as [|k IH]; intros l G r Hr; [exact G|].
  cbn [read_tangent_loop]. ob outc_bit. intros [? r1] R1. ob outc_bit. intros [? r2] R2.
  ob outc_bit. intros [? r3] R3. ob outc_bit. intros [? r4] R4. ob outc_one. intros [? r5] [R5 F5].
  ob outc_one. intros [? r6] [R6 F6]. cbn [fst snd] in *. apply IH; auto. apply Forall_app. split; auto.
  constructor; [|constructor]. cbn [fst snd]. split; [|apply sign_of].
  apply SC; cbn [n_asine n_z]; auto using fits_lt.
Qed.

(** Colours. *)
Lemma code_bound64 (q : N) : (q < 2 ^ 64)%N -> (Rabs (IZR (Z.of_N q)) <= big64)%R.
Proof.
  intros H. rewrite <- abs_IZR. eapply Rle_trans; [|apply big64_ge]. apply IZR_le.
  change (2 ^ 64)%N with (Z.to_N (2 ^ 64)) in H. assert (Z.of_N q < 2 ^ 64)%Z by lia.
  rewrite Z.abs_eq by lia. transitivity (2 ^ 64)%Z; [lia|]. now apply Z.pow_le_mono_r.
Qed.
Lemma fits64 x : (0 <= x <= 1)%R -> (Rabs x <= big64)%R.
Proof. intros H. rewrite Rabs_pos_eq by lra. eapply Rle_trans; [|apply big64_ge]. change 1%R with (IZR 1) in H. eapply Rle_trans; [apply H|]. apply IZR_le. lia. Qed.
Lemma channel_unit (q d : N) : (q <= d)%N -> (1 <= d)%N -> (d < 2 ^ 64)%N ->
  in_unit (f32_of_f64 (ddiv (f64_of_N q) (f64_of_N d))).
Proof.
  intros Hq Hd Hb. assert (R1 : rnd64 1 = 1%R) by (apply (rnd64_Z 1); lia).
  destruct (f64_of_Z_R (Z.of_N q)) as [Q1 Q2]; [apply code_bound64; lia|]. fold (f64_of_N q) in Q1, Q2.
  destruct (f64_of_Z_R (Z.of_N d)) as [D1 D2]; [apply code_bound64; lia|]. fold (f64_of_N d) in D1, D2.
  assert (L0 : (0 <= R64 (f64_of_N q))%R). { rewrite Q1, <- rnd64_0. apply rnd64_le, IZR_le. lia. }
  assert (L1 : (R64 (f64_of_N q) <= R64 (f64_of_N d))%R). { rewrite Q1, D1. apply rnd64_le, IZR_le. lia. }
  assert (L2 : (1 <= R64 (f64_of_N d))%R). { rewrite D1, <- R1. apply rnd64_le, (IZR_le 1). lia. }
  assert (B : (0 <= R64 (f64_of_N q) / R64 (f64_of_N d) <= 1)%R).
  { split; [apply Rmult_le_pos; [exact L0|left; apply Rinv_0_lt_compat; lra]|].
    apply Rmult_le_reg_r with (R64 (f64_of_N d)); [lra|]. unfold Rdiv. rewrite Rmult_assoc, Rinv_l by lra. lra. }
  destruct (ddiv_R (f64_of_N q) (f64_of_N d) Q2) as [A1 A2]; [lra|now apply fits64|].
  assert (AB : (0 <= R64 (ddiv (f64_of_N q) (f64_of_N d)) <= 1)%R).
  { rewrite A1. apply rnd64_between; [apply rnd64_0|exact R1|exact B]. }
  destruct (f32_of_f64_R _ A2) as [C1 C2]; [now apply fits1|].
  split; [exact C2|]. change val with R32. rewrite C1. apply rnd32_between; [apply rnd32_0|apply rnd32_1|exact AB].
Qed.
Lemma colour_mk p one a b c d : (1 <= one < 2 ^ 64)%N -> ((p < 64)%nat -> one = 2 ^ N.of_nat p)%N ->
  fits p a -> fits p b -> fits p c -> fits p d ->
  let mk := fun v => f32_of_f64 (ddiv (f64_of_N v) (f64_of_N (one - 1))) in
  colour_ok (mk a, mk b, mk c, mk d).
Proof.
  intros B E Fa Fb Fc Fd mk. destruct (N.eq_dec one 1) as [->|N1].
  - right.
    assert (Z : forall v, fits p v -> mk v = B754_nan).
    { intros v F. enough (v = 0%N) as -> by reflexivity. destruct F as [->|[L V]]; auto.
      rewrite <- (E L) in V. lia. }
    now rewrite !Z.
  - left. assert (Z : forall v, fits p v -> in_unit (mk v)).
    { intros v F. apply channel_unit; try lia. destruct F as [->|[L V]]; [lia|]. rewrite <- (E L) in V. lia. }
    cbn [fst snd]. auto.
Qed.
Lemma shl_one oc p : outc True (fun one => (1 <= one < 2 ^ 64)%N /\ ((p < 64)%nat -> one = 2 ^ N.of_nat p)%N) (shl64 oc 1 p).
Proof.
  assert (K : forall k, (k < 64)%nat -> (N.shiftl 1 (N.of_nat k) mod two64 = 2 ^ N.of_nat k /\ 1 <= 2 ^ N.of_nat k < 2 ^ 64)%N).
  { intros k L. rewrite N.shiftl_mul_pow2, N.mul_1_l. pose proof (pow_le_64 k L).
    assert (1 <= 2 ^ N.of_nat k)%N by (change 1%N with (2 ^ 0)%N; apply N.pow_le_mono_r; lia).
    change two64 with (2 * 2 ^ 63)%N. change (2 ^ 64)%N with (2 * 2 ^ 63)%N. rewrite N.mod_small; lia. }
  unfold shl64. destruct (Nat.ltb_spec p 64) as [L|L].
  - cbn [outc]. destruct (K p L) as [-> B]. auto.
  - destruct oc; cbn [outc]; auto. destruct (K (p mod 64)%nat) as [-> B]; [apply Nat.mod_upper_bound; lia|].
    split; [exact B|lia].
Qed.
Definition data_ok (d : cdata) : Prop := forall l p, d = CColor l p -> Forall colour_ok l.
Lemma in_colour oc src : bytes_ok src -> outc True data_ok (read_custom_color oc src).
Proof.
  intros H. unfold read_custom_color. ob outc_u64. intros [n s0] (H0 & E0 & L0).
  ob outc_u8. intros [p s1] (H1 & E1 & L1). cbn [fst snd] in *.
  destruct (color_alloc_ok n); cbn [negb]; [|exact I].
  eapply outc_bind; [apply shl_one|]. intros one [B E].
  apply outc_bind with (Q := Forall colour_ok).
  2:{ intros l F. cbn. intros l' q X. injection X as <- _. exact F. }
  generalize (rok_slice s1 H1). generalize (reader_new (slice s1)).
  assert (G : Forall colour_ok []) by constructor. revert G. generalize (@nil vec4).
  generalize (N.to_nat n). intros k. induction k as [|k IH]; intros l G r Hr; [exact G|].
  cbn [read_color_loop]. ob outc_two. intros [[a b] r1] (R1 & Fa & Fb). ob outc_two. intros [[c d] r2] (R2 & Fc & Fd).
  cbn [fst snd] in *. apply IH; auto. apply Forall_app. split; auto. constructor; [|constructor].
  now apply (colour_mk (N.to_nat p) one a b c d).
Qed.
Lemma float_is src d : read_custom_float src = Ok d -> data_ok d.
Proof.
  unfold read_custom_float, io. intros E.
  destruct (read_u64 src) as [[n s0]| |]; cbn [map_err bind] in E; try discriminate E.
  destruct (_ <? _)%N; [discriminate E|].
  destruct (read_f64 s0) as [[mn s1]| |]; cbn [map_err bind] in E; try discriminate E.
  destruct (read_f64 s1) as [[mx s2]| |]; cbn [map_err bind] in E; try discriminate E.
  destruct (read_prec s2) as [[p s3]| |]; cbn [map_err bind] in E; try discriminate E.
  match type of E with bind ?m _ = _ => destruct m as [x| |] end; cbn [bind] in E; try discriminate E.
  injection E as <-. intros l q X. discriminate X.
Qed.
Lemma in_cseg oc ctx kind src : bytes_ok src -> outc True (fun s => data_ok (c_data s)) (cseg_read oc ctx kind src).
Proof.
  intros H. unfold cseg_read. ob outc_u8. intros [n s0] (H0 & E0 & L0). cbn [fst snd] in *.
  eapply outc_bind; [apply outc_read_exact|]. intros [name s1] [E1 L1]. cbn [fst snd] in *.
  assert (H1 : bytes_ok s1) by (rewrite E1 in H0; apply bytes_ok_app in H0; tauto).
  eapply outc_bind with (Q := data_ok); [|intros d D; exact D].
  destruct kind.
  - eapply outc_bind with (Q := any); [|intros ? _; cbn; intros l p X; discriminate X].
    eapply outc_bad_impl; [apply outc_triangles; auto|auto].
  - eapply outc_bind with (Q := any); [|intros ? _; cbn; intros l p X; discriminate X].
    eapply outc_bad_impl; [apply outc_triangles; auto|auto].
  - pose proof (outc_float True s1 H1) as O. destruct (read_custom_float s1) as [d| |] eqn:E; cbn in *; auto.
    now apply (float_is s1).
  - now apply in_colour.
Qed.

Definition dseg_ok (d : dseg) : Prop :=
  match d with
  | DUV l => Forall (fun u => in_unit (fst u) /\ in_unit (snd u)) l
  | DNormal l => Forall unit_or_corner l
  | DTangent l => Forall (fun t => unit_or_corner (fst t) /\ is_sign (snd t)) l
  | DCustom s => data_ok (c_data s)
  | _ => True
  end.
Lemma in_decode lm oc ctx s : normals_ok lm -> bytes_ok (e_data s) ->
  match decode lm oc ctx s with Ok d => dseg_ok d | _ => True end.
Proof.
  intros SC H. unfold decode.
  assert (B : forall A (Q : A -> Prop) (m : res ierr A) f, outc True Q m -> (forall a, Q a -> dseg_ok (f a)) ->
    match (let* a := m in Ok (f a)) with Ok d => dseg_ok d | _ => True end).
  { intros A Q m f O F. destruct m; cbn in *; auto. }
  assert (T : forall A (m : res ierr A) f, (forall a, dseg_ok (f a)) ->
    match (let* a := m in Ok (f a)) with Ok d => dseg_ok d | _ => True end).
  { intros A m f F. destruct m; cbn in *; auto. }
  destruct (e_type s) eqn:ET; try (apply T; intros; exact I); try exact I.
  - eapply B; [apply in_normals; auto|]. auto.
  - eapply B; [apply in_uvs; auto|]. auto.
  - eapply B; [apply in_tangents; auto|]. auto.
  - eapply B; [apply in_cseg; auto|]. auto.
  - destruct (e_data s); [exact I|]. destruct (e_comp s); try exact I. apply T. intros. exact I.
Qed.

Lemma apply_ok m d : values_in_range m -> dseg_ok d -> values_in_range (apply m d).
Proof.
  intros [U Nn T C] D. destruct m; cbn [Mesh.normals Mesh.uvs Mesh.tangents Mesh.custom_data] in *.
  destruct d; cbn [apply dseg_ok] in *;
    unfold append_vertices, append_uvs, append_normals, append_tangents, append_vertex_triangles, append_normal_triangles,
     append_uv_triangles, append_tangent_triangles, add_custom_data_seg, set_vertices, set_uvs, set_normals, set_tangents,
     set_vertex_triangles, set_normal_triangles, set_uv_triangles, set_tangent_triangles;
     repeat match goal with |- context [has_mask ?a ?b] => destruct (has_mask a b) end;
     cbn [Mesh.normals Mesh.normal_triangles Mesh.vertices Mesh.vertex_triangles Mesh.uvs Mesh.uv_triangles Mesh.tangents
      Mesh.tangent_triangles Mesh.custom_data with_vertices with_uvs with_normals with_tangents with_vertex_triangles
      with_normal_triangles with_uv_triangles with_tangent_triangles with_custom_data fst snd];
     repeat (match goal with |- context [match ?x with Some _ => _ | None => _ end] => is_var x; destruct x end;
     cbn [Mesh.normals Mesh.normal_triangles Mesh.vertices Mesh.vertex_triangles Mesh.uvs Mesh.uv_triangles Mesh.tangents
      Mesh.tangent_triangles Mesh.custom_data with_vertices with_uvs with_normals with_tangents with_vertex_triangles
      with_normal_triangles with_uv_triangles with_tangent_triangles with_custom_data fst snd]);
     constructor; cbn [Mesh.normals Mesh.uvs Mesh.tangents Mesh.custom_data]; auto.
  all: try (intros l' X; injection X as <-; try exact D; apply Forall_app; split; auto; fail).
  intros s' l' p I X. apply in_app_or in I as [I|[<-|[]]]; [now apply (C s' l' p)|]. now apply (D l' p).
Qed.
Lemma fold_ok ds : Forall dseg_ok ds -> forall m, values_in_range m -> values_in_range (fold_left apply ds m).
Proof. induction 1 as [|d ds D F IH]; intros m M; cbn [fold_left]; auto. apply IH. now apply apply_ok. Qed.
Lemma empty_ok : values_in_range empty.
Proof. constructor; cbn; intros; try discriminate; contradiction. Qed.

Lemma collect_ok {E A} (Q : A -> Prop) (l : list (res E A)) out :
  (forall r, In r l -> match r with Ok a => Q a | _ => True end) -> collect l = Ok out -> Forall Q out.
Proof.
  revert out. induction l as [|r l IH]; intros out H E0; cbn [collect] in E0.
  - injection E0 as <-. constructor.
  - pose proof (H r (or_introl eq_refl)) as R. destruct r as [a| |]; try discriminate E0. cbn [bind] in E0.
    destruct (collect l) as [o| |]; try discriminate E0. cbn [bind] in E0. injection E0 as <-.
    constructor; auto. apply IH; auto. intros r I. apply H. now right.
Qed.

Section Loaded.
Variables (lm : libm) (oc : bool).
Hypothesis SC : normals_ok lm.
Lemma mesh_ok ctx src x s : ctx_ok ctx -> bytes_ok src -> import_mesh lm oc ctx src = Ok (x, s) ->
  values_in_range (fst x) /\ bytes_ok s.
Proof.
  intros Hc Hs E. pose proof (outc_mesh lm oc ctx src Hc Hs) as OM. rewrite E in OM. cbn in OM.
  split; [|tauto]. unfold import_mesh in E.
  pose proof (io_string True src Hs) as O1. destruct (io (read_string src)) as [[nm s1]| |]; try discriminate E.
  cbn [bind] in E. cbn in O1. destruct O1 as [H1 _].
  pose proof (outc_read_le True 2 s1 H1 : outc True _ (io (read_u16 s1))) as O2.
  destruct (io (read_u16 s1)) as [[n s2]| |]; try discriminate E. cbn [bind] in E. cbn in O2. destruct O2 as [H2 _].
  pose proof (outc_segments True oc ctx (N.to_nat n) s2 Hc H2) as O3.
  destruct (read_segments ctx (N.to_nat n) s2) as [[l s3]| |]; try discriminate E. cbn [bind] in E.
  cbn in O3. destruct O3 as (H3 & _ & HF).
  destruct (join_collect _) as [ds| |] eqn:J; try discriminate E. cbn [bind] in E. injection E as <- _. cbn [fst].
  apply fold_ok; [|apply empty_ok]. unfold join_collect in J. destruct (existsb _ _); [discriminate J|].
  eapply collect_ok; [|exact J]. intros r I. apply in_map_iff in I as (e & <- & I).
  rewrite Forall_forall in HF. destruct (HF e I) as [(sg & -> & _ & B & _)|T].
  - now apply in_decode.
  - unfold decode. rewrite T. exact Logic.I.
Qed.
Lemma meshes_ok ctx n : forall src l s, ctx_ok ctx -> bytes_ok src -> import_meshes lm oc ctx n src = Ok (l, s) ->
  Forall (fun x => values_in_range (fst x)) l.
Proof.
  induction n as [|n IH]; intros src l s Hc Hs E; cbn [import_meshes] in E.
  - injection E as <- _. constructor.
  - destruct (import_mesh lm oc ctx src) as [[x s1]| |] eqn:E1; try discriminate E. cbn [bind] in E.
    destruct (mesh_ok _ _ _ _ Hc Hs E1) as [A B].
    destruct (import_meshes lm oc ctx n s1) as [[l' s2]| |] eqn:E2; try discriminate E. cbn [bind] in E.
    injection E as <- _. constructor; [exact A|]. exact (IH s1 l' s2 Hc B E2).
Qed.
Lemma read_ok src l : bytes_ok src -> read_tmf lm oc src = Ok l -> Forall (fun x => values_in_range (fst x)) l.
Proof.
  intros Hs E. unfold read_tmf, import in E.
  destruct (read_tmf_header src) as [[h s]| |] eqn:EH; try discriminate E. cbn [bind] in E.
  assert (bytes_ok s) as H0.
  { unfold read_tmf_header in EH. destruct (read_exact 3 src) as [[mg s0]|e|] eqn:E0; try discriminate EH.
    apply read_exact_inv in E0 as [E0 _]. assert (H0 : bytes_ok s0) by (rewrite E0 in Hs; apply bytes_ok_app in Hs; tauto).
    cbn [io map_err bind] in EH. destruct (negb _); [discriminate EH|].
    assert (U16 : forall s, bytes_ok s -> match read_u16 s with Ok (_, r) => bytes_ok r | _ => True end).
    { intros t H. pose proof (outc_read_le True 2 t H) as A. change (N.of_nat 2) with 2%N in A.
      change (read_le 2) with read_u16 in A. destruct (read_u16 t) as [[v r]|e|]; cbn in A; tauto. }
    pose proof (U16 s0 H0) as A1. destruct (read_u16 s0) as [[v1 s1]|e|]; try discriminate EH. cbn [io map_err bind] in EH.
    pose proof (U16 s1 A1) as A2. destruct (read_u16 s1) as [[v2 s2]|e|]; try discriminate EH. cbn [io map_err bind] in EH.
    pose proof (U16 s2 A2) as A3. destruct (read_u16 s2) as [[v3 s3]|e|]; try discriminate EH. cbn [io map_err bind] in EH.
    pose proof (U16 s3 A3) as A4. destruct (read_u16 s3) as [[v4 s4]|e|]; try discriminate EH. cbn [io map_err bind] in EH.
    match type of EH with (if ?b then _ else _) = _ => destruct b end; [discriminate EH|]. injection EH as _ <-. exact A4. }
  pose proof (outc_read_le True 4 s H0 : outc True _ (io (read_u32 s))) as O.
  destruct (io (read_u32 s)) as [[n s5]| |]; try discriminate E. cbn [bind] in E. cbn in O. destruct O as [H5 _].
  destruct (import_meshes _ _ _ _ _) as [[ms r]| |] eqn:EM; try discriminate E. cbn [bind] in E. injection E as <-.
  eapply meshes_ok; [apply init_header_ok|exact H5|exact EM].
Qed.
End Loaded.
