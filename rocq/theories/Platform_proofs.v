(** Loading depends on the mathematics library only in the normals and tangents. *)
From Coq Require Import List NArith ZArith Arith Lia Bool.
From Verif Require Import Base BitSpec BitLemmas UnalignedRW UnalignedRW_proofs ReadExt ByteLemmas Triangles
  TriSpec Triangles_proofs Floats Utilis Unify Vertices Uv Normals CustomData Mesh Tmf File FileSpec
  Parse_proofs File_proofs NoPanic_proofs ValueSpec PlatformSpec.
Import ListNotations.
Open Scope res_scope.

Lemma so_bind {E A A' B B'} (R : A -> A' -> Prop) (S : B -> B' -> Prop) (m : res E A) (m' : res E A') (k : A -> res E B) (k' : A' -> res E B') :
  same_outcome R m m' -> (forall a a', R a a' -> same_outcome S (k a) (k' a')) ->
  same_outcome S (bind m k) (bind m' k').
Proof. destruct m, m'; cbn; try tauto; auto. Qed.
Lemma so_same {A B B'} (Q : A -> Prop) (S : B -> B' -> Prop) (m : res ierr A) (k : A -> res ierr B) (k' : A -> res ierr B') :
  outc True Q m -> (forall a, Q a -> same_outcome S (k a) (k' a)) ->
  same_outcome S (bind m k) (bind m k').
Proof. destruct m; cbn; auto. Qed.
Lemma so_refl {E A} (R : A -> A -> Prop) (m : res E A) : (forall a, R a a) -> same_outcome R m m.
Proof. destruct m; cbn; auto. Qed.

Definition dlike (P : vec3 -> vec3 -> Prop) (d d' : dseg) : Prop :=
  match d, d' with
  | DNormal l, DNormal l' => Forall2 P l l'
  | DTangent l, DTangent l' => Forall2 (fun t t' => P (fst t) (fst t') /\ snd t = snd t') l l'
  | _, _ => d = d'
  end.

Section Twin.
Variables (lm lm' : libm) (P : vec3 -> vec3 -> Prop).
Hypothesis HP : forall p c, p < 64 -> (n_asine c < 2 ^ N.of_nat p)%N -> (n_z c < 2 ^ N.of_nat p)%N ->
  P (normal_from_encoding lm c p) (normal_from_encoding lm' c p).

Lemma fits_lt p v : fits p v -> (v < 2 ^ N.of_nat p)%N.
Proof. intros [->|[_ H]]; auto. apply N.neq_0_lt_0, N.pow_nonzero. discriminate. Qed.

Lemma so_normals oc src : bytes_ok src ->
  same_outcome (Forall2 P) (read_normal_array lm oc src) (read_normal_array lm' oc src).
Proof.
  intros H. unfold read_normal_array. eapply so_same; [apply outc_u64; auto|]. intros [n s0] (H0 & _).
  cbn [fst snd] in *. destruct (_ <? _)%N; [reflexivity|].
  eapply so_same; [apply outc_prec; auto|]. intros [p s1] [H1 Hp]. cbn [fst snd] in *.
  assert (G : Forall2 P [] []) by constructor. revert G.
  generalize (rok_slice s1 H1). generalize (reader_new (slice s1)). generalize (@nil vec3) at 1 3.
  generalize (@nil vec3).
  generalize (N.to_nat n). intros k. induction k as [|k IH]; intros l l' r Hr G; [exact G|].
  cbn [read_normal_loop].
  apply so_bind with (R := fun x y => P (fst x) (fst y) /\ snd x = snd y /\ rok (snd x)).
  - unfold read_normal.
    eapply so_same; [apply outc_bit; auto|]. intros [b1 r1] R1.
    eapply so_same; [apply outc_bit; auto|]. intros [b2 r2] R2.
    eapply so_same; [apply outc_bit; auto|]. intros [b3 r3] R3.
    eapply so_same; [apply outc_two; auto|]. intros [[a z] r4] (R4 & Fa & Fz). cbn [fst snd] in *.
    cbn [same_outcome fst snd]. split; [|auto]. apply HP; cbn [n_asine n_z]; auto using fits_lt.
  - intros [v r1] [v' r1'] (A & B & C). cbn [fst snd] in *. subst r1'. apply IH; auto.
    apply Forall2_app; auto.
Qed.

Lemma so_tangents src : bytes_ok src ->
  same_outcome (Forall2 (fun t t' => P (fst t) (fst t') /\ snd t = snd t')) (read_tangents lm src) (read_tangents lm' src).
Proof.
  intros H. unfold read_tangents. eapply so_same; [apply outc_u64; auto|]. intros [n s0] (H0 & _).
  cbn [fst snd] in *. destruct (_ <? _)%N; [reflexivity|].
  eapply so_same; [apply outc_prec; auto|]. intros [p s1] [H1 Hp]. cbn [fst snd] in *.
  set (Q := fun t t' : tangent => P (fst t) (fst t') /\ snd t = snd t').
  assert (G : Forall2 Q [] []) by constructor. revert G.
  generalize (rok_slice s1 H1). generalize (reader_new (slice s1)). generalize (@nil tangent) at 1 3.
  generalize (@nil tangent).
  generalize (N.to_nat n). intros k. induction k as [|k IH]; intros l l' r Hr G; [exact G|].
  cbn [read_tangent_loop].
  eapply so_same; [apply outc_bit; auto|]. intros [b1 r1] R1.
  eapply so_same; [apply outc_bit; auto|]. intros [b2 r2] R2.
  eapply so_same; [apply outc_bit; auto|]. intros [b3 r3] R3.
  eapply so_same; [apply outc_bit; auto|]. intros [b4 r4] R4.
  eapply so_same; [apply outc_one; auto|]. intros [a r5] [R5 Fa].
  eapply so_same; [apply outc_one; auto|]. intros [z r6] [R6 Fz]. cbn [fst snd] in *.
  apply IH; auto. apply Forall2_app; auto. constructor; [|constructor]. split; [|reflexivity]. cbn [fst].
  apply HP; cbn [n_asine n_z]; auto using fits_lt.
Qed.

Lemma dlike_other d : match d with DNormal _ | DTangent _ => False | _ => True end -> dlike P d d.
Proof. destruct d; cbn; tauto. Qed.
Lemma so_decode oc ctx s : bytes_ok (e_data s) -> same_outcome (dlike P) (decode lm oc ctx s) (decode lm' oc ctx s).
Proof.
  intros H. unfold decode.
  destruct (e_type s) eqn:ET;
    try (eapply so_bind; [apply so_refl with (R := eq); reflexivity|intros ? ? ->; reflexivity]);
    try reflexivity.
  - eapply so_bind; [apply so_normals; auto|]. intros ? ? G. exact G.
  - eapply so_bind; [apply so_tangents; auto|]. intros ? ? G. exact G.
  - destruct (e_data s); [reflexivity|]. destruct (e_comp s); try reflexivity.
    eapply so_bind; [apply so_refl with (R := eq); reflexivity|]. intros ? ? ->. reflexivity.
Qed.

Lemma so_collect {E A} (R : A -> A -> Prop) (l l' : list (res E A)) :
  Forall2 (same_outcome R) l l' -> same_outcome (Forall2 R) (collect l) (collect l').
Proof.
  induction 1 as [|a b l l' H F IH]; cbn [collect]; [constructor|].
  eapply so_bind; [exact H|]. intros x y XY. eapply so_bind; [exact IH|]. intros u v UV. cbn. now constructor.
Qed.
Lemma so_join {E A} (R : A -> A -> Prop) (l l' : list (res E A)) :
  Forall2 (same_outcome R) l l' -> same_outcome (Forall2 R) (join_collect l) (join_collect l').
Proof.
  intros F. unfold join_collect.
  assert (EQ : existsb is_panic l = existsb is_panic l').
  { induction F as [|a b l l' H F IH]; cbn; [reflexivity|]. rewrite IH. f_equal. destruct a, b; cbn in *; tauto. }
  rewrite EQ. clear EQ. destruct (existsb is_panic l'); [exact I|]. now apply so_collect.
Qed.

Lemma apply_like d d' m m' nm : dlike P d d' -> same_but P (m, nm) (m', nm) ->
  same_but P (apply m d, nm) (apply m' d', nm).
Proof.
  intros D [N1 V U T1 T2 T3 T4 C NN TT]. cbn [fst snd] in *.
  assert (K : match d with DNormal _ | DTangent _ => True | _ => d = d' end).
  { destruct d, d'; cbn in D; auto; try discriminate D. }
  destruct m, m'; cbn [Mesh.normals Mesh.normal_triangles Mesh.vertices Mesh.vertex_triangles Mesh.uvs Mesh.uv_triangles Mesh.tangents
    Mesh.tangent_triangles Mesh.custom_data] in *. subst.
  destruct d; try subst d'; cbn [apply].
  all: try (unfold append_vertices, append_uvs, append_vertex_triangles, append_normal_triangles, append_uv_triangles,
     append_tangent_triangles, add_custom_data_seg, set_vertices, set_uvs, set_vertex_triangles, set_normal_triangles,
     set_uv_triangles, set_tangent_triangles;
     repeat match goal with |- context [has_mask ?a ?b] => destruct (has_mask a b) end;
     cbn [Mesh.normals Mesh.normal_triangles Mesh.vertices Mesh.vertex_triangles Mesh.uvs Mesh.uv_triangles Mesh.tangents
      Mesh.tangent_triangles Mesh.custom_data with_vertices with_uvs with_vertex_triangles with_normal_triangles with_uv_triangles
      with_tangent_triangles with_custom_data fst snd];
     repeat (match goal with |- context [match ?x with Some _ => _ | None => _ end] => is_var x; destruct x end;
     cbn [Mesh.normals Mesh.normal_triangles Mesh.vertices Mesh.vertex_triangles Mesh.uvs Mesh.uv_triangles Mesh.tangents
      Mesh.tangent_triangles Mesh.custom_data with_vertices with_uvs with_vertex_triangles with_normal_triangles with_uv_triangles
      with_tangent_triangles with_custom_data fst snd]);
     constructor; cbn; auto; fail).
  - destruct d'; cbn in D; try discriminate D; try contradiction. cbn [apply]. unfold append_normals, set_normals.
    cbn [Mesh.normals]. destruct normals, normals0; cbn in NN; try contradiction;
    constructor; cbn; auto. apply Forall2_app; auto.
  - destruct d'; cbn in D; try discriminate D; try contradiction. cbn [apply]. unfold append_tangents, set_tangents.
    cbn [Mesh.tangents]. destruct tangents, tangents0; cbn in TT; try contradiction;
    constructor; cbn; auto. apply Forall2_app; auto.
Qed.
Lemma fold_like ds ds' nm : Forall2 (dlike P) ds ds' -> forall m m', same_but P (m, nm) (m', nm) ->
  same_but P (fold_left apply ds m, nm) (fold_left apply ds' m', nm).
Proof.
  induction 1 as [|d d' ds ds' D F IH]; intros m m' H; cbn [fold_left]; auto. apply IH. now apply apply_like.
Qed.

Lemma so_mesh oc ctx src : ctx_ok ctx -> bytes_ok src ->
  same_outcome (fun x y => same_but P (fst x) (fst y) /\ snd x = snd y /\ bytes_ok (snd x))
    (import_mesh lm oc ctx src) (import_mesh lm' oc ctx src).
Proof.
  intros Hc Hs. unfold import_mesh. eapply so_same; [apply io_string; exact Hs|].
  intros [name s1] [H1 [p1 E1]]. cbn [fst snd] in *.
  eapply so_same; [exact (outc_read_le _ 2 s1 H1)|]. intros [n s2] (H2 & E2 & _). cbn [fst snd] in *.
  eapply so_same; [apply (outc_segments _ oc); auto|]. intros [l s3] (H3 & [p3 E3] & HF). cbn [fst snd] in *.
  apply so_bind with (R := Forall2 (dlike P)).
  - apply so_join. clear E3. induction HF as [|e l He HF IH]; cbn [map]; constructor; auto.
    destruct He as [(s & -> & K & B & _)|T].
    + now apply so_decode.
    + unfold decode. rewrite T. reflexivity.
  - intros ds ds' F. cbn [same_outcome fst snd]. split; [|auto]. apply fold_like; auto.
    constructor; cbn; auto.
Qed.
Lemma so_meshes oc ctx n : forall src, ctx_ok ctx -> bytes_ok src ->
  same_outcome (fun x y => Forall2 (same_but P) (fst x) (fst y))
    (import_meshes lm oc ctx n src) (import_meshes lm' oc ctx n src).
Proof.
  induction n as [|n IH]; intros src Hc Hs; cbn [import_meshes]; [constructor|].
  eapply so_bind; [apply so_mesh; auto|]. intros [m s1] [m' s1'] (A & B & C). cbn [fst snd] in *. subst s1'.
  eapply so_bind; [apply IH; auto|]. intros [l s] [l' s'] F. cbn [fst] in *. now constructor.
Qed.
Lemma so_read oc src : bytes_ok src ->
  same_outcome (Forall2 (same_but P)) (read_tmf lm oc src) (read_tmf lm' oc src).
Proof.
  intros Hs. unfold read_tmf, import.
  apply so_bind with (R := fun x y => Forall2 (same_but P) (fst x) (fst y)).
  2:{ intros [l s] [l' s'] F. exact F. }
  unfold read_tmf_header.
  destruct (read_exact 3 src) as [[mg s0]|e|] eqn:E0; try reflexivity.
  apply read_exact_inv in E0 as [E0 _]. assert (H0 : bytes_ok s0) by (rewrite E0 in Hs; apply bytes_ok_app in Hs; tauto).
  cbn [io map_err bind]. destruct (negb _); [reflexivity|].
  assert (U16 : forall s, bytes_ok s -> match read_u16 s with Ok (_, r) => bytes_ok r | _ => True end).
  { intros s H. pose proof (outc_read_le True 2 s H) as A. change (N.of_nat 2) with 2%N in A.
    change (read_le 2) with read_u16 in A. destruct (read_u16 s) as [[v r]|e|]; cbn in A; tauto. }
  pose proof (U16 s0 H0) as A1. destruct (read_u16 s0) as [[v1 s1]|e|]; try reflexivity. cbn [io map_err bind].
  pose proof (U16 s1 A1) as A2. destruct (read_u16 s1) as [[v2 s2]|e|]; try reflexivity. cbn [io map_err bind].
  pose proof (U16 s2 A2) as A3. destruct (read_u16 s2) as [[v3 s3]|e|]; try reflexivity. cbn [io map_err bind].
  pose proof (U16 s3 A3) as A4. destruct (read_u16 s3) as [[v4 s4]|e|]; try reflexivity. cbn [io map_err bind].
  match goal with |- context [if ?b then _ else _] => destruct b end; [reflexivity|]. cbn [bind].
  eapply so_same; [exact (outc_read_le True 4 s4 A4)|]. intros [n s5] (H5 & _). cbn [fst snd] in *.
  apply so_meshes; [apply init_header_ok|auto].
Qed.
Lemma so_read_one oc src : bytes_ok src ->
  same_outcome (same_but P) (read_tmf_one lm oc src) (read_tmf_one lm' oc src).
Proof.
  intros Hs. unfold read_tmf_one. eapply so_bind; [apply so_read; auto|]. intros l l' F.
  destruct F as [|a a' l l' A F]; [reflexivity|]. destruct F; [exact A|reflexivity].
Qed.
End Twin.
