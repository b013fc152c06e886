(** Property C80: saving and loading with the default settings. *)
From Coq Require Import List NArith ZArith Arith Lia Bool Reals Lra ZifyN ZifyNat ZifyBool.
From Flocq Require Import Core IEEE754.BinarySingleNaN.
From Verif Require Import Base UnalignedRW ReadExt Floats Floats_proofs FloatReal_proofs Utilis Vertices Uv Normals CustomData Mesh Tmf File FileSpec SaveSpec
  File_proofs ValueSpec VertexSpec CheckedSpec Demo Save_proofs Save2_proofs Codec_proofs Quant_proofs NormalReal_proofs Log2_proofs VertexReal_proofs
  Panic_proofs Image_proofs Trig_proofs P_Save P_Uv P_Normals P_Vertices P_Checked.
Import ListNotations.
Open Scope res_scope.
Local Open Scope R_scope.

(* src/lib.rs L115-125, src/vertices.rs L25-30, src/normals.rs L46-59, src/uv.rs L27-32,
   src/tangents.rs L29-33 : TMFPrecisionInfo::default *)
Definition default_precision (lm : libm) : prec_info :=
  mk_prec (flit 1 10) (normal_default lm) (uv_default lm) (normal_default lm).

Lemma log2_pow x n : 0 < x -> log2 (x ^ n) = INR n * log2 x.
Proof. intros P. unfold log2. rewrite ln_pow by exact P. unfold Rdiv. ring. Qed.
Lemma log2_root x n e : 0 < x -> (0 < n)%nat -> (x ^ n <= bpow radix2 e -> INR n * log2 x <= IZR e) /\ (bpow radix2 e <= x ^ n -> IZR e <= INR n * log2 x).
Proof.
  intros P N. rewrite <- log2_pow by exact P. rewrite <- (log2_bpow e).
  split; intros L; apply log2_le; auto; [now apply pow_lt|apply bpow_gt_0].
Qed.
Lemma log2_10240 : 13.2 <= log2 10240 <= 13.6.
Proof.
  destruct (log2_root 10240 2 27) as [A _]; [lra|lia|]. destruct (log2_root 10240 4 53) as [_ B]; [lra|lia|].
  assert (A' := A ltac:(simpl; lra)). assert (B' := B ltac:(simpl; lra)). cbn in A', B'. lra.
Qed.
Lemma log2_90 : 6.3 <= log2 90 <= 6.6.
Proof.
  destruct (log2_root 90 2 13) as [A _]; [lra|lia|]. destruct (log2_root 90 3 19) as [_ B]; [lra|lia|].
  assert (A' := A ltac:(simpl; lra)). assert (B' := B ltac:(simpl; lra)). cbn in A', B'. lra.
Qed.
Lemma near_log2 lm z lo hi : log2_ok lm -> (1 <= z <= 2 ^ 24)%Z -> lo <= log2 (IZR z) <= hi -> 0 <= lo -> hi <= 100 ->
  finite (m_log2 lm (f32_of_Z z)) /\ lo - 0.001 <= val (m_log2 lm (f32_of_Z z)) <= hi + 0.001.
Proof.
  intros LG Z B L H. destruct (f32_of_Z_exact z) as [E F]; [lia|].
  destruct (LG (f32_of_Z z) F) as [A1 A2]; [change val with R32; rewrite E; apply IZR_lt; lia|].
  split; [exact A1|]. change (val (f32_of_Z z)) with (R32 (f32_of_Z z)) in A2. rewrite E in A2. rewrite (Rabs_pos_eq (log2 (IZR z))) in A2 by lra.
  simpl pow in A2. apply Rabs_le_iff in A2. lra.
Qed.
Lemma uv_bits lm : log2_ok lm -> uv_default lm = 14%nat.
Proof.
  intros LG. destruct (near_log2 lm 10240 13.2 13.6 LG ltac:(lia) log2_10240 ltac:(lra) ltac:(lra)) as [F1 F2].
  unfold uv_default, uv_from_resolution. replace (fdiv (f32_of_Z 1024) (flit 1 10)) with (f32_of_Z 10240) by (apply B2SF_inj; vm_compute; reflexivity).
  apply Nat2Z.inj. rewrite u8_ceil by exact F1. rewrite (Zceil_imp 14); [reflexivity|]. change (14 - 1)%Z with 13%Z. unfold val in F2. unfold R32. lra.
Qed.
Lemma normal_bits lm : log2_ok lm -> normal_default lm = 7%nat.
Proof.
  intros LG. destruct (near_log2 lm 90 6.3 6.6 LG ltac:(lia) log2_90 ltac:(lra) ltac:(lra)) as [F1 F2].
  unfold normal_default, normal_from_deg_dev. replace (fdiv (f32_of_Z 90) f1) with (f32_of_Z 90) by (apply B2SF_inj; vm_compute; reflexivity).
  enough (u8_of_f32 (fceil (m_log2 lm (f32_of_Z 90))) = 7%nat) as -> by reflexivity.
  apply Nat2Z.inj. rewrite u8_ceil by exact F1. rewrite (Zceil_imp 7); [reflexivity|]. change (7 - 1)%Z with 6%Z. unfold val in F2. unfold R32. lra.
Qed.

Lemma tenth_R : finite (flit 1 10) /\ 0.09999 <= val (flit 1 10) <= 0.10001.
Proof.
  let v := eval vm_compute in (B2SF (flit 1 10)) in destruct (R32_SF (flit 1 10) v) as [A B]; [vm_compute; reflexivity|].
  split; [exact B|]. change val with R32. rewrite A. unfold SF2R, F2R. cbn. lra.
Qed.
Lemma default_fine lm : log2_ok lm -> precision_ok (default_precision lm).
Proof. intros LG. unfold precision_ok, default_precision. cbn [normal_precision tangent_prec]. rewrite (normal_bits lm LG). lia. Qed.

(** A mesh as models usually have them: its triangles name existing vertices, its
    shortest edge [s] is not below 2^-20, and no coordinate is above 100000 times that. *)
Definition usual_vertices (m : mesh) : Prop :=
  forall v, vertices m = Some v ->
    v <> [] /\ (forall t, vertex_triangles m = Some t -> corners_exist v t) /\
    exists B s, Forall (bounded B) v /\ B <= 2 ^ 50 /\
      shortest_edge (Some v) (vertex_triangles m) s /\ / 2 ^ 20 <= s /\ B <= 100000 * s.

Lemma storable_any m : storable m -> any_mesh m.
Proof.
  intros S. assert (I : forall o l, indices_ok o -> o = Some l -> Forall (fun i => (i < 2 ^ 32)%N) l /\ (len l < 2 ^ 57)%N).
  { intros o l H E. destruct (H l E) as [H1 H2]. split; [|lia]. eapply Forall_impl; [|exact H2]. cbv beta. lia. }
  destruct S. intros l [H|[H|[H|[H|[]]]]]; (eapply I; [|exact H]); assumption.
Qed.

(** C80. Such meshes are saved with the default settings in every build, load in every
    build, and come back with their names and indices, every UV within a tenth of a
    pixel of a texture of 1024, every unit normal and tangent within 7.3 degrees, and
    vertices moved as in C40 with a tenth of the shortest edge. *)
Theorem C80_default_settings : forall lm lm' oc oc' l,
  log2_ok lm -> log2_standard lm -> asin_ok lm -> sin_cos_ok lm' -> list_ok lm l ->
  Forall (fun mn => usual_vertices (fst mn) /\ Forall (custom_widths_ok lm) (custom_data (fst mn))) l ->
  exists out l', saved lm oc (default_precision lm) l = Ok out /\ read_tmf lm' oc' out = Ok l' /\
    map snd l' = map snd l /\
    Forall2 (fun a b => same_arrays (fst a) (fst b)) l l' /\
    Forall2 (fun a b => Forall2 same_custom (rev (custom_data (fst a))) (custom_data (fst b))) l l' /\
    Forall2 (on_uvs (fun x y => in_unit x -> in_unit y /\ Rabs (val y - val x) * 1024 < / 10)) l l' /\
    Forall2 (on_normals (fun n n' => unit_vector n -> 0.9919 <= cosine n n')) l l' /\
    Forall2 (on_tangents (fun t t' => unit_vector (fst t) -> 0.9919 <= cosine (fst t) (fst t'))) l l' /\
    Forall2 (fun a b => forall B s, Forall (bounded B) (vlist (vertices (fst a))) -> B <= 2 ^ 50 ->
      shortest_edge (vertices (fst a)) (vertex_triangles (fst a)) s -> / 2 ^ 20 <= s -> B <= 100000 * s ->
      on_vertices (piece_moved B (s * val (flit 1 10))) a b) l l'.
Proof.
  intros lm lm' oc oc' l LG LS AS SC HL F. destruct tenth_R as [T1 T2].
  pose proof (default_fine lm LG) as HP. set (p := default_precision lm) in *.
  assert (WN : normal_precision p = 7%nat) by (apply normal_bits; auto).
  assert (WT : tangent_prec p = 7%nat) by (apply normal_bits; auto).
  assert (WU : uv_prec p = 14%nat) by (apply uv_bits; auto).
  assert (BS : forall B s, / 2 ^ 20 <= s -> B <= 100000 * s -> B + 0.000001 <= 2 ^ 20 * (s * val (vertex_precision p))).
  { intros B s Hs HB. cbn [vertex_precision p default_precision].
    assert (s * 0.09999 <= s * val (flit 1 10)) by (apply Rmult_le_compat_l; simpl pow in Hs; lra). simpl pow in *. lra. }
  assert (exists out, saved lm true p l = Ok out) as [out S].
  { apply C53_with_vertices_saved; auto; try lia; [cbn [vertex_precision p default_precision]; lra|].
    destruct HL as [_ HL]. clear -HL F BS. induction HL as [|[m n] l (ST & _) _ IH]; [constructor|].
    apply Forall_cons_iff in F as [[U C] F]. constructor; [|auto]. cbn [fst] in *.
    split; [now apply storable_any|]. split; [exact C|]. intros v V.
    destruct (U v V) as (NE & CE & B & s & U1 & U2 & U3 & U4 & U5). split; [exact NE|]. split; [|split; [exact CE|]].
    - destruct ST. specialize (st_vertices v V). lia.
    - exists B, s. repeat split; auto. }
  assert (S' : saved lm oc p l = Ok out).
  { destruct oc; [exact S|]. destruct (C56_save lm p l) as [E|E]; congruence. }
  destruct (C19_names_survive lm lm' oc' p l out HP HL S) as (l' & R & A1).
  assert (G : forall P : list (mesh * list N) -> Prop, (exists l'', read_tmf lm' oc' out = Ok l'' /\ P l'') -> P l').
  { intros P (l'' & R' & H). rewrite R in R'. injection R' as <-. exact H. }
  exists out, l'. split; [exact S'|]. split; [exact R|]. split; [exact A1|].
  split; [apply G, (C20_arrays_survive lm lm' oc' p l out HP HL S)|].
  split; [apply G, (C21_custom_data_survives lm lm' oc' p l out HP HL S)|].
  split.
  { apply G. apply (C34_default_pixel_deviation lm lm' oc' p l out); auto; destruct (near_log2 lm 10240 13.2 13.6 LG ltac:(lia) log2_10240 ltac:(lra) ltac:(lra)); auto; lra. }
  split.
  { apply G. apply (C35_default_setting lm lm' oc' p l out); auto; destruct (near_log2 lm 90 6.3 6.6 LG ltac:(lia) log2_90 ltac:(lra) ltac:(lra)); auto; lra. }
  split.
  { apply G. destruct (C35_tangent_cosine_bound lm lm' oc' p l out AS SC) as (l'' & R' & H); auto; [rewrite WT; lia|].
    exists l''. split; auto. eapply F2_impl; [|exact H]. intros a b H0. unfold on_tangents, arrays in *.
    destruct (tangents (fst a)), (tangents (fst b)); auto. eapply F2_impl; [|exact H0]. cbv beta. intros n n' K U.
    eapply Rle_trans; [|apply K, U]. rewrite WT. unfold least_cosine. simpl pow. lra. }
  destruct (C40_movement_bound lm lm' oc' p l out LG HP HL S) as (l'' & R' & V); [exact T1|cbn [vertex_precision p default_precision]; lra|].
  rewrite R in R'. injection R' as <-. eapply F2_impl; [|exact V]. intros a b H B s H1 H2 H3 H4 H5. apply H; auto.
Qed.
Print Assumptions C80_default_settings.

(** A triangle with normals, UVs, tangents and tags. *)
Definition scene : mesh :=
  mk_mesh (Some [v3 0 0 1]) (Some [0; 0; 0]%N) (vertices tri_mesh) (vertex_triangles tri_mesh)
          (Some [(f0, f1); (f1, f0)]) (Some [0; 1; 1]%N) (Some [(v3 1 0 0, f1)]) (Some [0; 0; 0]%N) [tags].
Lemma scene_storable : storable scene.
Proof. 
  unfold scene, tri_mesh, point_mesh. storable_tac.
  apply Forall_cons; [|apply Forall_nil]; unfold custom_ok; cbn [c_name c_name_len c_data tags].
  split; [repeat (apply Forall_cons; [reflexivity|]); apply Forall_nil|]. split; [reflexivity|]. split; [lia|].
  split; [vm_compute; discriminate|]. split; [|left; reflexivity].
  repeat (apply Forall_cons; [split; lia|]); apply Forall_nil.
Qed.
Example C80_case : log2_ok ieee_libm /\ log2_standard ieee_libm /\ asin_ok ieee_libm /\ sin_cos_ok ieee_libm /\
  list_ok ieee_libm [(scene, demo_name)] /\
  Forall (fun mn => usual_vertices (fst mn) /\ Forall (custom_widths_ok ieee_libm) (custom_data (fst mn))) [(scene, demo_name)].
Proof.
  destruct C40_case as (_ & _ & _ & _ & _ & _ & A3 & A4 & A5 & A6). destruct leg_R as [L1 L2].
  split; [apply ieee_log2_ok|]. split; [apply ieee_log2_standard|].
  split; [exact exact_asin_ok|]. split; [exact exact_sin_cos_ok|].
  split.
  - split; [reflexivity|]. apply Forall_cons; [|apply Forall_nil]. cbn [fst snd].
    split; [apply scene_storable|]. split; [apply name_ok_ascii; reflexivity|].
    eapply N.le_lt_trans; [apply C54_few_segments, storable_any, scene_storable|]. vm_compute. reflexivity.
  - apply Forall_cons; [|apply Forall_nil]. cbn [fst]. split.
    2:{ apply Forall_cons; [|apply Forall_nil]. split; [repeat (apply Forall_cons; [reflexivity|]); apply Forall_nil|].
        split; [reflexivity|]. split; [cbn; lia|]. cbn [c_data tags]. split; [|reflexivity]. repeat (apply Forall_cons; [reflexivity|]); apply Forall_nil. }
    intros v V. split; [intros ->; discriminate V|].
    split; [intros t T; injection V as <-; injection T as <-; apply Forall_cons; [repeat split|apply Forall_nil]|].
    exists 1, (val leg). rewrite <- V. split; [|split; [|split; [exact A4|split; [exact A5|lra]]]].
    + cbn [scene vertices] in V. unfold vlist in A3. rewrite V in A3. exact A3.
    + apply Rle_trans with (2 ^ 0); [simpl; lra|apply pow2_le; lia].
Qed.
