(** Property C85: saving and loading with the default settings in double precision. *)
From Coq Require Import List NArith ZArith Arith Lia Bool Reals Lra ZifyN ZifyNat ZifyBool.
From Flocq Require Import Core IEEE754.BinarySingleNaN.
From Verif Require Import Base UnalignedRW ReadExt Floats Floats_proofs FloatReal_proofs Utilis Vertices Uv Normals CustomData Mesh Tmf File FileSpec SaveSpec
  File_proofs ValueSpec VertexSpec CheckedSpec Demo Save_proofs Save2_proofs Codec_proofs Quant_proofs NormalReal_proofs Log2_proofs VertexReal_proofs
  Panic_proofs Image_proofs Trig_proofs P_Save P_Uv P_Checked P_Default
  Double DoubleSpec Double2_proofs DoubleSave DoubleSaveSpec DoubleValueSpec DoubleNormalSpec DSave_proofs DQuant_proofs DVertex_proofs DPiece_proofs
  P_Double P_DoubleSave P_DoubleValue P_DoubleNormals DoublePanicSpec P_DoubleChecked.
Import ListNotations.
Open Scope res_scope.
Local Open Scope R_scope.

(* src/lib.rs L115-125, src/vertices.rs L25-30, src/normals.rs L46-59, src/uv.rs L16-18, L27-32,
   src/tangents.rs L29-33 : TMFPrecisionInfo::default with the feature. The width of texture
   coordinates is computed with f32 also then ([form_texture_resolution] takes f32), by [lf]. *)
Definition default_precision_d (lf : libm) (lm : libm64) : dprec_info :=
  mk_dprec (dlit 1 10) (normal_from_deg_dev_d lm d1) (uv_default lf) (normal_from_deg_dev_d lm d1).

Lemma tenth_d_R : finite64 (dlit 1 10) /\ 0.09999 <= val64 (dlit 1 10) <= 0.10001.
Proof.
  let v := eval vm_compute in (B2SF (dlit 1 10)) in destruct (R64_SF (dlit 1 10) v) as [A B]; [vm_compute; reflexivity|].
  split; [exact B|]. change val64 with R64. rewrite A. unfold SF2R, F2R. cbn. lra.
Qed.

(** A mesh as models usually have them: its triangles name existing vertices, its
    shortest edge [s] is not below 2^-20, and no coordinate is above 25 million times that. *)
Definition usual_vertices_d (m : dmesh) : Prop :=
  forall v, d_vertices m = Some v ->
    v <> [] /\ (forall t, d_vertex_triangles m = Some t -> corners_exist_d v t) /\
    exists B s, Forall (bounded_d B) v /\ B <= 2 ^ 50 /\
      shortest_edge_d (Some v) (d_vertex_triangles m) s /\ / 2 ^ 20 <= s /\ B <= 25000000 * s.

Lemma storable_any_d m : storable_d m -> any_mesh_d m.
Proof.
  intros S. assert (I : forall o l, indices_ok o -> o = Some l -> Forall (fun i => (i < 2 ^ 32)%N) l /\ (len l < 2 ^ 57)%N).
  { intros o l H E. destruct (H l E) as [H1 H2]. split; [|lia]. eapply Forall_impl; [|exact H2]. cbv beta. lia. }
  destruct S. intros l [H|[H|[H|[H|[]]]]]; (eapply I; [|exact H]); assumption.
Qed.

(** C85. Such meshes are saved with the default settings in every build with the
    feature, load in every such build, and come back with their names, indices and
    custom data, every UV within a tenth of a pixel of a texture of 1024, every unit
    normal and tangent within 7.3 degrees, and vertices moved as in C74 with a tenth
    of the shortest edge. *)
Theorem C85_default_settings : forall lf lm sc oc oc' l,
  log2_ok lf -> log2_64_ok lm -> log2_64_standard lm -> asin_64_ok lm -> sin_cos64_sharp sc -> list_ok_d lm l ->
  Forall (fun mn => usual_vertices_d (fst mn) /\ Forall (custom_widths_ok_d lm) (d_custom_data (fst mn))) l ->
  exists out l', saved_d lm oc (default_precision_d lf lm) l = Ok out /\ read_tmf_d sc oc' out = Ok l' /\
    Forall2 (fun a b => snd a = snd b /\ same_shape_rev_d (fst a) (fst b)) l l' /\
    Forall2 (on_uvs_d (fun x y => in_unit_d x -> in_unit_d y /\ Rabs (val64 y - val64 x) * 1024 < / 10)) l l' /\
    Forall2 (on_normals_d (fun n n' => unit_vector_d n -> 0.9919 <= cosine_d n n')) l l' /\
    Forall2 (on_tangents_d (fun t t' => unit_vector_d (fst t) -> 0.9919 <= cosine_d (fst t) (fst t'))) l l' /\
    Forall2 (fun a b => forall B s, Forall (bounded_d B) (vlist_d (d_vertices (fst a))) -> B <= 2 ^ 50 ->
      shortest_edge_d (d_vertices (fst a)) (d_vertex_triangles (fst a)) s -> / 2 ^ 20 <= s ->
      on_vertices_d (piece_moved_d B (s * val64 (dlit 1 10))) a b) l l'.
Proof.
  intros lf lm sc oc oc' l LF LG LS AS SC HL F. destruct tenth_d_R as [T1 T2].
  set (p := default_precision_d lf lm).
  assert (WN : d_normal_precision p = 7%nat) by (apply one_degree_bits; auto).
  assert (WT : d_tangent_prec p = 7%nat) by (apply one_degree_bits; auto).
  assert (WU : d_uv_prec p = 14%nat) by (apply uv_bits; auto).
  assert (HP : precision_ok_d p) by (split; lia).
  assert (BS : forall B s, / 2 ^ 20 <= s -> B <= 25000000 * s -> B + 0.000001 <= 2 ^ 28 * (s * val64 (d_vertex_precision p))).
  { intros B s Hs HB. cbn [d_vertex_precision p default_precision_d].
    assert (s * 0.09999 <= s * val64 (dlit 1 10)) by (apply Rmult_le_compat_l; simpl pow in Hs; lra). simpl pow in *. lra. }
  assert (exists out, saved_d lm true p l = Ok out) as [out S].
  { apply C84_with_vertices_saved; auto; try lia; [cbn [d_vertex_precision p default_precision_d]; lra|].
    destruct HL as [_ HL]. clear -HL F BS. induction HL as [|[m n] l (ST & _) _ IH]; [constructor|].
    apply Forall_cons_iff in F as [[U C] F]. constructor; [|auto]. cbn [fst] in *.
    split; [now apply storable_any_d|]. split; [exact C|]. intros v V.
    destruct (U v V) as (NE & CE & B & s & U1 & U2 & U3 & U4 & U5). split; [exact NE|]. split; [|split; [exact CE|]].
    - destruct ST. match goal with H : small (d_vertices m) |- _ => specialize (H v V) end. lia.
    - exists B, s. repeat split; auto. }
  assert (S' : saved_d lm oc p l = Ok out).
  { destruct oc; [exact S|]. destruct (C73_release lm p l) as [E|E]; congruence. }
  destruct (C73_round_trip lm sc oc' p l out HP HL S) as (l' & R & A1).
  assert (G : forall P : list (dmesh * list N) -> Prop, (exists l'', read_tmf_d sc oc' out = Ok l'' /\ P l'') -> P l').
  { intros P (l'' & R' & H). rewrite R in R'. injection R' as <-. exact H. }
  exists out, l'. split; [exact S'|]. split; [exact R|]. split; [exact A1|].
  split.
  { apply G. destruct (C74_uv_error_bound lm sc oc' p l out HP HL S ltac:(lia)) as (l'' & R' & H). exists l''. split; [exact R'|].
    eapply F2_impl; [|exact H]. intros a b H0. unfold on_uvs_d, arrays in *. destruct (d_uvs (fst a)), (d_uvs (fst b)); auto.
    eapply F2_impl; [|exact H0]. cbv beta. rewrite WU.
    assert (K : forall x y, (in_unit_d x -> in_unit_d y /\ within_d (/ (2 ^ 14 - 1) + / 2 ^ 51) x y /\
       (val64 x = 0 -> val64 y = 0) /\ (val64 x = 1 -> val64 y = 1)) -> in_unit_d x -> in_unit_d y /\ Rabs (val64 y - val64 x) * 1024 < / 10).
    { intros x y H1 H2. destruct (H1 H2) as (H3 & H4 & _). split; [exact H3|]. unfold within_d in H4. simpl pow in H4. lra. }
    intros u u' [K1 K2]. split; apply K; assumption. }
  split.
  { apply G. destruct (C76_normal_cosine_bound lm sc oc' p l out AS SC) as (l'' & R' & H); auto; [rewrite WN; lia|].
    exists l''. split; auto. eapply F2_impl; [|exact H]. intros a b H0. unfold on_normals_d, arrays in *.
    destruct (d_normals (fst a)), (d_normals (fst b)); auto. eapply F2_impl; [|exact H0]. cbv beta. intros n n' K U.
    eapply Rle_trans; [|apply K, U]. rewrite WN. unfold least_cosine_d. simpl pow. lra. }
  split.
  { apply G. destruct (C76_tangent_cosine_bound lm sc oc' p l out AS SC) as (l'' & R' & H); auto; [rewrite WT; lia|].
    exists l''. split; auto. eapply F2_impl; [|exact H]. intros a b H0. unfold on_tangents_d, arrays in *.
    destruct (d_tangents (fst a)), (d_tangents (fst b)); auto. eapply F2_impl; [|exact H0]. cbv beta. intros n n' K U.
    eapply Rle_trans; [|apply K, U]. rewrite WT. unfold least_cosine_d. simpl pow. lra. }
  destruct (C74_movement_bound lm sc oc' p l out LG HP HL S) as (l'' & R' & V); [exact T1|cbn [d_vertex_precision p default_precision_d]; simpl pow; lra|].
  rewrite R in R'. injection R' as <-. exact V.
Qed.
Print Assumptions C85_default_settings.

(** A triangle with normals, UVs, tangents and tags. *)
Definition scene_d : dmesh :=
  mk_dmesh (Some [dv3 0 0 1]) (Some [0; 0; 0]%N) (Some legs) (Some [0; 1; 2]%N)
          (Some [(d0, d1); (d1, d0)]) (Some [0; 1; 1]%N) (Some [(dv3 1 0 0, d1)]) (Some [0; 0; 0]%N)
          [mk_dcseg [97; 98]%N 2 (XIndex [5; 0; 7]%N 7)].
Lemma scene_storable_d : storable_d scene_d.
Proof.
  constructor; unfold scene_d; cbn [d_normals d_normal_triangles d_vertices d_vertex_triangles d_uvs d_uv_triangles d_tangents d_tangent_triangles d_custom_data]; first [apply small_none | apply indices_none | apply small_some; vm_compute; reflexivity
        | apply indices_some; vm_compute; reflexivity | idtac].
  apply Forall_cons; [|apply Forall_nil]; unfold custom_ok_d; cbn [x_name x_name_len x_data].
  split; [repeat (apply Forall_cons; [reflexivity|]); apply Forall_nil|]. split; [reflexivity|]. split; [lia|].
  split; [vm_compute; discriminate|]. split; [|left; reflexivity].
  repeat (apply Forall_cons; [split; lia|]); apply Forall_nil.
Qed.
Lemma ieee_asin_ok_d : asin_64_ok ieee_d.
Proof. intros x F B. cbn [l_asin ieee_d exact_d]. now apply exact_asin_d. Qed.
Example C85_case : log2_ok ieee_libm /\ log2_64_ok ieee_d /\ log2_64_standard ieee_d /\ asin_64_ok ieee_d /\ sin_cos64_sharp exact_sin_cos64 /\
  list_ok_d ieee_d [(scene_d, demo_name)] /\
  Forall (fun mn => usual_vertices_d (fst mn) /\ Forall (custom_widths_ok_d ieee_d) (d_custom_data (fst mn))) [(scene_d, demo_name)].
Proof.
  destruct C74_case as (_ & _ & _ & _ & _ & _ & A3 & _ & A4 & A5 & _). destruct leg_d_R as [L1 L2].
  split; [apply ieee_log2_ok|]. split; [apply ieee_log2_ok_d|]. split; [apply ieee_log2_standard_d|].
  split; [exact ieee_asin_ok_d|]. split; [exact exact_sc_sharp|].
  split.
  - split; [reflexivity|]. apply Forall_cons; [|apply Forall_nil]. cbn [fst snd].
    split; [apply scene_storable_d|]. split; [apply name_ok_ascii; reflexivity|].
    eapply N.le_lt_trans; [apply C84_few_segments, storable_any_d, scene_storable_d|]. vm_compute. reflexivity.
  - apply Forall_cons; [|apply Forall_nil]. cbn [fst]. split.
    2:{ apply Forall_cons; [|apply Forall_nil]. split; [repeat (apply Forall_cons; [reflexivity|]); apply Forall_nil|].
        split; [reflexivity|]. split; [cbn; lia|]. cbn [x_data]. split; [|reflexivity]. repeat (apply Forall_cons; [reflexivity|]); apply Forall_nil. }
    intros v V. split; [intros ->; discriminate V|].
    split; [intros t T; injection V as <-; injection T as <-; apply Forall_cons; [repeat split|apply Forall_nil]|].
    exists 1, (val64 leg_d). rewrite <- V. split; [|split; [|split; [exact A4|split; [exact A5|lra]]]].
    + injection V as <-. exact A3.
    + apply Rle_trans with (2 ^ 0); [simpl; lra|apply pow2_le; lia].
Qed.
