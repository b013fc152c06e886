(** Property C91, for vertices: how far they move when one build saves them and the other loads them. *)
From Coq Require Import List NArith ZArith Arith Lia Bool Reals Lra.
From Flocq Require Import Core IEEE754.BinarySingleNaN.
From Verif Require Import Base UnalignedRW ReadExt Floats Floats_proofs FloatReal_proofs Utilis Normals CustomData Mesh Tmf File FileSpec SaveSpec
  ValueSpec VertexSpec Demo Save_proofs Save2_proofs Codec_proofs Image_proofs Quant_proofs Log2_proofs Trig_proofs NormalReal_proofs VertexReal_proofs CustomReal_proofs P_Save P_Uv
  P_Normals P_Custom LayoutSpec PlatformSpec Agree_proofs DAgree_proofs Double DoubleSpec DoubleSave DoubleSaveSpec DoubleValueSpec DoubleNormalSpec Double2_proofs DMerge_proofs DCodec_proofs DSave_proofs
  DQuant_proofs DVertex_proofs DPiece_proofs DNormal_proofs Exchange_proofs ExchangeBox_proofs P_Layout P_Vertices P_Double P_DoubleSave P_DoubleValue P_DoubleDefault P_Default ExchangeValueSpec P_ExchangeValue.
Import ListNotations.
Open Scope res_scope.
Local Open Scope R_scope.

Lemma near_in B raw v v' : raw_within B raw -> B <= 2 ^ 125 -> near_vertex raw v v' ->
  (finite64 (fst (fst v')) -> close (/ 2 ^ 19 * B + / 2 ^ 140) (fst (fst v)) (fst (fst v'))) /\
  (finite64 (snd (fst v')) -> close (/ 2 ^ 19 * B + / 2 ^ 140) (snd (fst v)) (snd (fst v'))) /\
  (finite64 (snd v') -> close (/ 2 ^ 19 * B + / 2 ^ 140) (snd v) (snd v')).
Proof.
  intros W HB (s & lx & hx & ly & hy & lz & hz & I & K & X & Y & Z & NX & NY & NZ). specialize (W s I K).
  destruct (W 0%nat lx hx ltac:(lia) X) as (X1 & X2 & X3 & X4). destruct (W 1%nat ly hy ltac:(lia) Y) as (Y1 & Y2 & Y3 & Y4). destruct (W 2%nat lz hz ltac:(lia) Z) as (Z1 & Z2 & Z3 & Z4).
  assert (G : forall lo hi x y, finite64 lo -> finite64 hi -> Rabs (val64 lo) <= B -> Rabs (val64 hi) <= B -> near_coord lo hi x y -> finite64 y ->
    close (/ 2 ^ 19 * B + / 2 ^ 140) x y).
  { intros lo hi x y F1 F2 B1 B2 N Fy. assert (M : Rmax (Rabs (val64 lo)) (Rabs (val64 hi)) <= B) by (apply Rmax_lub; assumption).
    destruct (N F1 F2 ltac:(lra)) as [[_ ->]|(A1 & A2 & A3)]; [discriminate Fy|]. split; [exact A1|]. split; [exact A2|]. eapply Rle_trans; [exact A3|].
    apply Rplus_le_compat_r. rewrite Rmult_comm. apply Rmult_le_compat_l; [|exact M]. apply Rlt_le, Rinv_0_lt_compat, pow_lt. lra. }
  split; [|split]; intros Fy; [exact (G lx hx _ _ X1 X2 X3 X4 NX Fy)|exact (G ly hy _ _ Y1 Y2 Y3 Y4 NY Fy)|exact (G lz hz _ _ Z1 Z2 Z3 Z4 NZ Fy)].
Qed.

Lemma near_in' B raw v v' : raw_within B raw -> B <= 2 ^ 125 -> near_vertex raw v v' ->
  (finite (fst (fst v)) -> close (/ 2 ^ 19 * B + / 2 ^ 140) (fst (fst v)) (fst (fst v'))) /\
  (finite (snd (fst v)) -> close (/ 2 ^ 19 * B + / 2 ^ 140) (snd (fst v)) (snd (fst v'))) /\
  (finite (snd v) -> close (/ 2 ^ 19 * B + / 2 ^ 140) (snd v) (snd v')).
Proof.
  intros W HB (s & lx & hx & ly & hy & lz & hz & I & K & X & Y & Z & NX & NY & NZ). specialize (W s I K).
  destruct (W 0%nat lx hx ltac:(lia) X) as (X1 & X2 & X3 & X4). destruct (W 1%nat ly hy ltac:(lia) Y) as (Y1 & Y2 & Y3 & Y4). destruct (W 2%nat lz hz ltac:(lia) Z) as (Z1 & Z2 & Z3 & Z4).
  assert (G : forall lo hi x y, finite64 lo -> finite64 hi -> Rabs (val64 lo) <= B -> Rabs (val64 hi) <= B -> near_coord lo hi x y -> finite x ->
    close (/ 2 ^ 19 * B + / 2 ^ 140) x y).
  { intros lo hi x y F1 F2 B1 B2 N Fy. assert (M : Rmax (Rabs (val64 lo)) (Rabs (val64 hi)) <= B) by (apply Rmax_lub; assumption).
    destruct (N F1 F2 ltac:(lra)) as [[-> _]|(A1 & A2 & A3)]; [discriminate Fy|]. split; [exact A1|]. split; [exact A2|]. eapply Rle_trans; [exact A3|].
    apply Rplus_le_compat_r. rewrite Rmult_comm. apply Rmult_le_compat_l; [|exact M]. apply Rlt_le, Rinv_0_lt_compat, pow_lt. lra. }
  split; [|split]; intros Fy; [exact (G lx hx _ _ X1 X2 X3 X4 NX Fy)|exact (G ly hy _ _ Y1 Y2 Y3 Y4 NY Fy)|exact (G lz hz _ _ Z1 Z2 Z3 Z4 NZ Fy)].
Qed.

Lemma cross_df_raw lm lm' oc' p l out (P : dmesh * list N -> dmesh * list N -> Prop) (Q : dmesh * list N -> mesh * list N -> Prop) :
  sin_cos_ok lm' -> precision_ok_d p -> list_ok_d lm l -> saved_d lm true p l = Ok out ->
  (exists ld, read_tmf_d exact_sin_cos64 oc' out = Ok ld /\ Forall2 P l ld) ->
  (forall a b raw c, P a b -> same_mesh raw c b -> (forall B, Forall (bounded_d B) (vlist_d (d_vertices (fst a))) -> raw_within B raw) -> Q a c) ->
  exists l', read_tmf lm' oc' out = Ok l' /\ Forall2 Q l l'.
Proof.
  intros HM HP [HL HF] S (ld & R & F) H. destruct (saved_plain_d lm p l out HP HL HF S) as [B _].
  destruct (saved_boxed_d lm p l out HP HL HF S) as (raws & HO & W).
  destruct (C66_same_file lm' exact_sin_cos64 oc' out HM exact_sin_cos64_ok B) as [X|[X _]]; rewrite R in X; [|discriminate X].
  destruct (read_tmf lm' oc' out) as [l'|e|]; cbn [same_outcome] in X; try contradiction. exists l'. split; [reflexivity|].
  destruct X as (ms & HO' & X). rewrite (C68_unambiguous _ _ _ HO HO') in W. clear -F X H W. revert l F W.
  induction X as [|raw a b ms l' ld M _ IH]; intros l F W; inversion F; subst; inversion W; subst; constructor; eauto.
Qed.
Lemma cross_fd_raw lm sc oc' p l out (P : mesh * list N -> mesh * list N -> Prop) (Q : mesh * list N -> dmesh * list N -> Prop) :
  sin_cos64_ok sc -> precision_ok p -> list_ok lm l -> saved lm true p l = Ok out ->
  (exists lf, read_tmf exact_libm oc' out = Ok lf /\ Forall2 P l lf) ->
  (forall a b raw c, P a b -> same_mesh raw b c -> (forall B, Forall (bounded B) (vlist (vertices (fst a))) -> raw_within B raw) -> Q a c) ->
  exists l', read_tmf_d sc oc' out = Ok l' /\ Forall2 Q l l'.
Proof.
  intros HM HP HL S (lf & R & F) H.
  destruct (C73_from_default lm exact_libm sc oc' p l out exact_sin_cos_ok HM HP HL S) as (l1 & ld & R1 & R2 & X & _).
  destruct HL as [HL HF]. destruct (saved_boxed lm p l out HP HL HF S) as (raws & HO & W).
  rewrite R in R1. apply Ok_inj in R1. subst l1. exists ld. split; [exact R2|].
  destruct X as (ms & HO' & X). rewrite (C68_unambiguous _ _ _ HO HO') in W. clear -F X H W. revert l F W.
  induction X as [|raw a b ms l' ld M _ IH]; intros l F W; inversion F; subst; inversion W; subst; constructor; eauto.
Qed.

Lemma F2_split {A B} (P : A -> B -> Prop) z1 z2 y : Forall2 P y (z1 ++ z2) -> exists y1 y2, y = y1 ++ y2 /\ Forall2 P y1 z1 /\ Forall2 P y2 z2.
Proof.
  revert y. induction z1 as [|a z1 IH]; intros y F; [exists [], y; repeat split; auto|]. cbn [app] in F. inversion F; subst.
  destruct (IH _ H3) as (y1 & y2 & -> & F1 & F2). exists (x :: y1), y2. repeat split; auto.
Qed.
Lemma pieces_through {A B C} (G : A -> Prop) (P : list A -> list B -> Prop) (N : C -> B -> Prop) (R : list A -> list C -> Prop) x y z :
  (forall a b c, Forall G a -> P a b -> Forall2 N c b -> R a c) -> Forall G x -> in_pieces P x y -> Forall2 N z y -> in_pieces R x z.
Proof.
  intros H FG (ps & -> & -> & FP) F. revert z F FG. induction FP as [|[a b] ps Pab _ IH]; intros z F FG; cbn [map concat fst snd] in *.
  - inversion F; subst. exists []. repeat split. constructor.
  - apply F2_split in F as (z1 & z2 & -> & F1 & F2). apply Forall_app in FG as [G1 G2]. destruct (IH z2 F2 G2) as (qs & E1 & E2 & FQ).
    exists ((a, z1) :: qs). cbn [map concat fst snd]. rewrite <- E1, <- E2. repeat split. constructor; auto. cbn [fst snd]. eauto.
Qed.
Lemma F2_flip {A B} (P : A -> B -> Prop) x y : Forall2 P x y -> Forall2 (fun b a => P a b) y x.
Proof. intros F. induction F; constructor; auto. Qed.
Lemma tiny_140 : 0 < / 2 ^ 140 <= 0.000000001. Proof. split; [apply Rinv_0_lt_compat, pow_lt; lra|simpl pow; lra]. Qed.

(** With an accurate log2 and a precision from 2^-60 to 1: as C74_movement_bound, with 2^-18 of the
    largest coordinate in place of 2^-48. *)
Theorem C91_vertices_to_default : forall lm lm' oc' p l out,
  log2_64_ok lm -> sin_cos_ok lm' -> precision_ok_d p -> list_ok_d lm l -> saved_d lm true p l = Ok out ->
  finite64 (d_vertex_precision p) -> / 2 ^ 60 <= val64 (d_vertex_precision p) <= 1 ->
  exists l', read_tmf lm' oc' out = Ok l' /\
    Forall2 (fun a b => forall B s,
      Forall (bounded_d B) (vlist_d (d_vertices (fst a))) -> B <= 2 ^ 50 ->
      shortest_edge_d (d_vertices (fst a)) (d_vertex_triangles (fst a)) s -> / 2 ^ 20 <= s ->
      array_pieces (piece_moved_df B (s * val64 (d_vertex_precision p))) (d_vertices (fst a)) (vertices (fst b))) l l'.
Proof.
  intros lm lm' oc' p l out LG HM HP HL S Fp Hp.
  eapply (cross_df_raw lm lm' oc' p l out _ _ HM HP HL S (C74_movement_bound lm _ oc' p l out LG HP HL S Fp Hp)).
  intros a b raw c U M W B s FB HB SE Hs. specialize (U B s FB HB SE Hs). specialize (W B FB). pose proof (sm_vertices _ _ _ M) as V.
  unfold on_vertices_d, array_pieces, arrays in *. destruct (d_vertices (fst a)) as [va|], (d_vertices (fst b)) as [vb|], (vertices (fst c)) as [vc|]; try contradiction; auto.
  cbn [vlist_d] in FB. eapply (pieces_through (bounded_d B)); [|exact FB|exact U|exact V].
  intros x y z GX (x0 & x1 & y0 & y1 & z0 & z1 & BX & F) N. exists x0, x1, y0, y1, z0, z1. split; [exact BX|].
  pose proof (F2_with _ _ _ _ GX F) as F'. eapply F2_df; [|exact F'|exact N].
  intros v v' w ((FV & B1 & B2 & B3) & C1 & C2 & C3 & C4) NV. destruct FV as (V1 & V2 & V3).
  assert (HB' : B <= 2 ^ 125) by (eapply Rle_trans; [exact HB|apply pow2_le; lia]).
  destruct (near_in B raw w v' W HB' NV) as (N1 & N2 & N3).
  assert (B0 : 0 <= B) by (eapply Rle_trans; [apply Rabs_pos|exact B1]). pose proof tiny_140 as T.
  assert (G : forall e (x y : f64) (z : f32), finite64 x -> within_d (e + 0.000001001 + / 2 ^ 48 * B) x y -> close (/ 2 ^ 19 * B + / 2 ^ 140) z y ->
    close (e + 0.000001002 + / 2 ^ 18 * B) z x).
  { clear -B0 T. set (t := / 2 ^ 140) in *. clearbody t. intros e x' y' z' Fx Wi (A1 & A2 & A3). split; [exact A1|]. split; [exact Fx|]. unfold within_d in Wi.
    apply Rabs_le_iff in Wi, A3. apply Rabs_le_iff. simpl pow in *. lra. }
  split; [|split].
  - intros K. destruct (C1 K) as [K1 K2]. eapply G; eauto.
  - intros K. destruct (C2 K) as [K1 K2]. eapply G; eauto.
  - eapply G; eauto.
Qed.
Print Assumptions C91_vertices_to_default.
(** As C40_movement_bound, with twice its rounding error. *)
Theorem C91_vertices_to_double : forall lm sc oc' p l out,
  log2_ok lm -> sin_cos64_ok sc -> precision_ok p -> list_ok lm l -> saved lm true p l = Ok out ->
  finite (vertex_precision p) -> 0 < val (vertex_precision p) <= 1 ->
  exists l', read_tmf_d sc oc' out = Ok l' /\
    Forall2 (fun a b => forall B s,
      Forall (bounded B) (vlist (vertices (fst a))) -> B <= 2 ^ 50 ->
      shortest_edge (vertices (fst a)) (vertex_triangles (fst a)) s -> / 2 ^ 20 <= s ->
      B + 0.000001 <= 2 ^ 20 * (s * val (vertex_precision p)) ->
      array_pieces (piece_moved_fd B (s * val (vertex_precision p))) (vertices (fst a)) (d_vertices (fst b))) l l'.
Proof.
  intros lm sc oc' p l out LG HM HP HL S Fp Hp.
  eapply (cross_fd_raw lm sc oc' p l out _ _ HM HP HL S (C40_movement_bound lm _ oc' p l out LG HP HL S Fp Hp)).
  intros a b raw c U M W B s FB HB SE Hs HE. specialize (U B s FB HB SE Hs HE). specialize (W B FB). pose proof (sm_vertices _ _ _ M) as V.
  unfold on_vertices, array_pieces, arrays in *. destruct (vertices (fst a)) as [va|], (vertices (fst b)) as [vb|], (d_vertices (fst c)) as [vc|]; try contradiction; auto.
  cbn [vlist] in FB. eapply (pieces_through (bounded B)); [|exact FB|exact U|exact (F2_flip _ _ _ V)].
  intros x y z GX (x0 & x1 & y0 & y1 & z0 & z1 & BX & F) N. exists x0, x1, y0, y1, z0, z1. split; [exact BX|].
  pose proof (F2_with _ _ _ _ GX F) as F'. eapply F2_df; [|exact F'|exact N].
  intros v v' w ((FV & B1 & B2 & B3) & C1 & C2 & C3 & C4) NV. destruct FV as (V1 & V2 & V3).
  assert (HB' : B <= 2 ^ 125) by (eapply Rle_trans; [exact HB|apply pow2_le; lia]).
  assert (B0 : 0 <= B) by (eapply Rle_trans; [apply Rabs_pos|exact B1]). pose proof tiny_140 as T.
  assert (G : forall e (x y : f32) (z : f64), finite x -> within (e + 0.000001001 + / 2 ^ 19 * B) x y -> close (/ 2 ^ 19 * B + / 2 ^ 140) y z ->
    close (e + 0.000001002 + / 2 ^ 18 * B) x z).
  { clear -B0 T. set (t := / 2 ^ 140) in *. clearbody t. intros e x' y' z' Fx Wi (A1 & A2 & A3). split; [exact Fx|]. split; [exact A2|]. unfold within in Wi.
    apply Rabs_le_iff in Wi, A3. apply Rabs_le_iff. simpl pow in *. lra. }
  destruct (near_in' B raw v' w W HB' NV) as (N1 & N2 & N3).
  split; [|split].
  - intros K. destruct (C1 K) as [K1 K2]. eapply G; eauto.
  - intros K. destruct (C2 K) as [K1 K2]. eapply G; eauto.
  - eapply G; eauto.
Qed.
Print Assumptions C91_vertices_to_double.

(** The triangles of C74 and C40, with two legs of 0.64, at a sixteenth of the shortest edge. *)
Example C91_vertices_case : exists out l', log2_64_ok grid_d /\ sin_cos_ok exact_libm /\ precision_ok_d sixteenth_d /\ list_ok_d grid_d [(tri_d, [])] /\
  saved_d grid_d true sixteenth_d [(tri_d, [])] = Ok out /\ read_tmf exact_libm true out = Ok l' /\
  Forall2 (fun a b => array_pieces (piece_moved_df 1 (val64 leg_d * val64 (d_vertex_precision sixteenth_d))) (d_vertices (fst a)) (vertices (fst b))) [(tri_d, @nil N)] l'.
Proof.
  destruct C74_case as (A1 & A2 & A3 & (out & A4) & A5 & A6 & A7 & A8 & A9 & A10 & _).
  destruct (C91_vertices_to_default grid_d exact_libm true sixteenth_d _ out A1 exact_sin_cos_ok A2 A3 A4 A5 A6) as (l' & R & F).
  exists out, l'. split; [exact A1|]. split; [exact exact_sin_cos_ok|]. split; [exact A2|]. split; [exact A3|]. split; [exact A4|]. split; [exact R|].
  inversion F as [|a b la lb H F2]; subst. inversion F2; subst. constructor; [|constructor]. exact (H 1 (val64 leg_d) A7 A8 A9 A10).
Qed.
Example C91_vertices_case_back : exists out l', log2_ok grid_libm /\ sin_cos64_ok exact_sin_cos64 /\ precision_ok sixteenth /\ list_ok grid_libm [(tri_mesh, [])] /\
  saved grid_libm true sixteenth [(tri_mesh, [])] = Ok out /\ read_tmf_d exact_sin_cos64 true out = Ok l' /\
  Forall2 (fun a b => array_pieces (piece_moved_fd 1 (val leg * val (vertex_precision sixteenth))) (vertices (fst a)) (d_vertices (fst b))) [(tri_mesh, @nil N)] l'.
Proof.
  destruct C40_case as (A1 & A2 & A3 & (out & A4) & A5 & A6 & A7 & A8 & A9 & A10).
  destruct (C91_vertices_to_double grid_libm exact_sin_cos64 true sixteenth _ out A1 exact_sin_cos64_ok A2 A3 A4 A5 A6) as (l' & R & F).
  exists out, l'. split; [exact A1|]. split; [exact exact_sin_cos64_ok|]. split; [exact A2|]. split; [exact A3|]. split; [exact A4|]. split; [exact R|].
  inversion F as [|a b la lb H F2]; subst. inversion F2; subst. constructor; [|constructor]. apply (H 1 (val leg)); auto. simpl pow; lra.
Qed.
