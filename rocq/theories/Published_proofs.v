(** Loading files laid out as TMF_SPEC.md publishes the format. *)
From Coq Require Import ZArith NArith Arith List Bool Reals Lra Lia.
From Flocq Require Import Core IEEE754.BinarySingleNaN.
From Verif Require Import Base UnalignedRW UnalignedRW_proofs ReadExt Floats Floats_proofs FloatReal_proofs ValueSpec Normals NormalReal_proofs
  Vertices Uv CustomData Log2_proofs Trig_proofs Range_proofs Range2_proofs NoPanic_proofs Platform_proofs Double DoubleSpec Double_proofs Double2_proofs
  BitSpec FileSpec Mesh Triangles Triangles_proofs Codec_proofs Tmf File ByteLemmas File_proofs TriSpec Layout3_proofs PublishedSpec.
Import ListNotations.

Local Open Scope R_scope.
Lemma coord_read B lo hi p q : B <= 2 ^ 125 -> bound_ok B lo -> bound_ok B hi -> (1 <= p < 64)%nat -> fits_in p q ->
  coord_near B (coordinate lo hi p q)
    (dequantize q (f32_of_N (mask_u64 p)) (fsub (f32_of_f64 (f64_of_bits hi)) (f32_of_f64 (f64_of_bits lo))) (f32_of_f64 (f64_of_bits lo))).
Proof.
  intros HM (_ & Fl & Hl) (_ & Fh & Hh) P F. unfold coordinate. unfold number in *. change val64 with R64 in *. red in Fl, Fh.
  set (lo' := f64_of_bits lo) in *. set (hi' := f64_of_bits hi) in *. clearbody lo' hi'. clear lo hi.
  rename lo' into lo. rename hi' into hi. rename B into M.
  pose proof (mask_lt p ltac:(lia)) as L. pose proof (mask_pos p ltac:(lia)) as L1.
  assert (Fm : (q <= mask_u64 p)%N) by (unfold fits_in in F; unfold mask_u64; lia).
  destruct (quot32 q (mask_u64 p) Fm L1 L) as (A1 & A2 & A3).
  destruct (ratio_unit q (mask_u64 p) Fm L1) as (_ & _ & AL). cbv zeta in *.
  replace (IZR (Z.of_N q) / (2 ^ p - 1)) with (ratio q (mask_u64 p)).
  2:{ unfold ratio, mask_u64. f_equal. rewrite N2Z.inj_sub by (pose proof (N.pow_nonzero 2 (N.of_nat p)); lia).
      rewrite minus_IZR. f_equal. rewrite N2Z.inj_pow, nat_N_Z. rewrite <- pow_IZR. reflexivity. }
  unfold dequantize. set (al := ratio q (mask_u64 p)) in *. set (a := fdiv (f32_of_N q) _) in *.
  assert (M0 : 0 <= M) by (eapply Rle_trans; [apply Rabs_pos|exact Hl]).
  clearbody a al. pose proof pow_127 as P27. pose proof U32. pose proof T32.
  assert (P1 : 1 <= 2 ^ 125) by (apply pow_R1_Rle; lra). set (K := 2 ^ 125) in *. clearbody K.
  destruct (f32_of_f64_R lo Fl) as [l1 l2]; [lra|]. destruct (f32_of_f64_R hi Fh) as [h1 h2]; [lra|].
  set (l := f32_of_f64 lo) in *. set (h := f32_of_f64 hi) in *. clearbody l h.
  assert (UM : forall x, Rabs x <= M -> u32 * Rabs x <= u32 * M) by (intros x X; apply Rmult_le_compat_l; lra).
  assert (E1 : Rabs (R32 l - R64 lo) <= u32 * M + tiny32).
  { rewrite l1. eapply Rle_trans; [apply rnd32_err|]. specialize (UM _ Hl). lra. }
  assert (E2 : Rabs (R32 h - R64 hi) <= u32 * M + tiny32).
  { rewrite h1. eapply Rle_trans; [apply rnd32_err|]. specialize (UM _ Hh). lra. }
  destruct (coord_err rnd32 u32 tiny32 U32 T32 rnd32_err M (R64 lo) (R64 hi) (R32 l) (R32 h) (R32 a) al) as (C1 & C2 & C3 & C4);
    auto; [lra|].
  destruct (fsub_R h l h2 l2) as [S1 S2]; [lra|]. rewrite <- S1 in C2, C3, C4.
  destruct (fmul_R a (fsub h l) A1 S2) as [S3 S4]; [lra|]. rewrite <- S3 in C3, C4.
  destruct (fadd_R (fmul a (fsub h l)) l S4 l2) as [S5 S6]; [lra|]. rewrite <- S5 in C4.
  split; [exact S6|]. change val with R32. eapply Rle_trans; [exact C4|]. rewrite tiny_140.
  assert (UU : u32 * M = / 16777216 * M) by (unfold u32; lra).
  replace (/ 2 ^ 19) with (/ 524288) by (f_equal; simpl; lra). lra.
Qed.
Local Close Scope R_scope.

Lemma read_loop_codes px py pz mk (vs : list (N * N * N)) : forall r acc rest,
  rok r -> px < 64 -> py < 64 -> pz < 64 ->
  Forall (fun c => fits_in px (fst (fst c)) /\ fits_in py (snd (fst c)) /\ fits_in pz (snd c)) vs ->
  rbits r = field_bits (flat_map (fun c => [(px, fst (fst c)); (py, snd (fst c)); (pz, snd c)]) vs) ++ rest ->
  read_vertex_loop (length vs) r px py pz mk acc
    = Ok (acc ++ map (fun c => mk (fst (fst c)) (snd (fst c)) (snd c)) vs).
Proof.
  induction vs as [|v t IH]; intros r acc rest Hr Hx Hy Hz HF Hb.
  - cbn. now rewrite app_nil_r.
  - inversion HF as [|? ? (F1 & F2 & F3) HF']; subst. cbn [length read_vertex_loop]. cbn [flat_map app] in Hb.
    rewrite !field_bits_cons in Hb. cbn [fst snd] in Hb. rewrite <- !app_assoc in Hb.
    destruct (read_one r px _ _ Hr Hx Hb) as (r1 & E1 & O1 & B1). rewrite E1. cbn [io map_err bind].
    destruct (read_one r1 py _ _ O1 Hy B1) as (r2 & E2 & O2 & B2). rewrite E2. cbn [io map_err bind].
    destruct (read_one r2 pz _ _ O2 Hz B2) as (r3 & E3 & O3 & B3). rewrite E3. cbn [io map_err bind].
    rewrite (IH r3 _ rest O3 Hx Hy Hz HF' B3). rewrite <- app_assoc. unfold low, fits_in in *.
    rewrite !N.mod_small by assumption. reflexivity.
Qed.

Lemma read_f64_bits n s : (n < 2 ^ 64)%N -> read_f64_as_f32 (lend 8 n ++ s) = Ok (f32_of_f64 (f64_of_bits n), s).
Proof.
  intros H. unfold read_f64_as_f32, read_f64. rewrite lend_le, read_u64_w by exact H. reflexivity.
Qed.

Lemma points_read B x0 x1 y0 y1 z0 z1 px py pz codes payload :
  (B <= 2 ^ 125)%R -> pseg_ok B (PPoints x0 x1 y0 y1 z0 z1 px py pz codes) ->
  ppayload (PPoints x0 x1 y0 y1 z0 z1 px py pz codes) payload ->
  exists l, read_tmf_vertices payload = Ok l /\
    arrays (point_near B) (points (PPoints x0 x1 y0 y1 z0 z1 px py pz codes)) (Some l).
Proof.
  intros HB (B1 & P1 & C1 & L1) (uba & -> & HU).
  repeat match goal with H : Forall _ (_ :: _) |- _ => inversion H; clear H; subst end.
  repeat match goal with H : Forall _ [] |- _ => clear H end.
  unfold read_tmf_vertices. unfold len. rewrite lend_le, read_u64_w by now apply len64. cbn [io map_err bind].
  do 6 (rewrite read_f64_bits by (match goal with H : bound_ok _ ?x |- (?x < _)%N => apply H end); cbn [bind]).
  cbn [app]. do 3 (rewrite read_prec_w by lia; cbn [bind]).
  rewrite len_seg by auto. rewrite Nat2N.id.
  destruct (packs_bits _ _ [] HU) as [pad Hpad]. rewrite app_nil_r in Hpad.
  rewrite (read_loop_codes px py pz _ codes _ [] pad); try lia; auto.
  2:{ apply rok_new. exact (packs_ok _ _ HU). }
  cbn [app]. eexists. split; [reflexivity|]. cbn [points arrays].
  clear L1 HU Hpad. induction C1 as [|c t (F1 & F2 & F3) _ IH]; cbn [map]; constructor; [|exact IH].
  unfold point_near. cbn [fst snd]. split; [|split]; apply coord_read; auto.
Qed.

Lemma indices_read oc k w l payload B : pseg_ok B (PIndices k w l) -> ppayload (PIndices k w l) payload ->
  read_default_triangles oc old_ctx payload = Ok l.
Proof.
  intros (K & W & W32 & F & L) (uba & -> & HU). rewrite read_default_spec. cbn [app].
  rewrite read_u8_cons by lia. cbn [io map_err bind]. unfold len. rewrite lend_le, read_u64_w by now apply len64.
  cbn [io map_err bind]. change (read_triangle_min old_ctx uba) with (@Ok ioerr _ (0%N, uba)). cbn [io map_err bind].
  rewrite len_seg by auto. destruct (N.eqb_spec (N.of_nat w) 0) as [E|E].
  - assert (w = 0) by lia. subst w. f_equal. rewrite Nat2N.id. clear -F. induction F as [|i t [H _] _ IH]; [reflexivity|].
    cbn [length repeat]. f_equal; [|exact IH]. unfold fits_in in H. change (2 ^ N.of_nat 0)%N with 1%N in H. lia.
  - rewrite Nat2N.id. destruct (packs_bits _ _ [] HU) as [pad Hpad]. rewrite app_nil_r in Hpad.
    rewrite (tri_body_ok oc w 0 l uba pad); auto.
    + f_equal. rewrite <- (map_id l) at 2. apply map_ext. intros; lia.
    + exact (packs_ok _ _ HU).
    + eapply Forall_impl; [|exact F]. intros i [H1 H2]. split; [exact H1|]. rewrite N.add_0_r. exact H2.
Qed.

Lemma F2_len {A B} (P : A -> B -> Prop) l l' : Forall2 P l l' -> length l = length l'.
Proof. induction 1; cbn; congruence. Qed.

(** What a segment becomes. *)
Definition becomes (B : R) (s : pseg) (d : dseg) : Prop :=
  match d with
  | DVertex l => arrays (point_near B) (points s) (Some l) /\ (forall k, indices_of k s = None)
  | DTriVertex l => s = PIndices 2 (match s with PIndices _ w _ => w | _ => 0 end) l
  | DTriNormal l => s = PIndices 4 (match s with PIndices _ w _ => w | _ => 0 end) l
  | DTriUV l => s = PIndices 6 (match s with PIndices _ w _ => w | _ => 0 end) l
  | DNothing => points s = None /\ (forall k, indices_of k s = None)
  | _ => False
  end.

Lemma decode_published lm oc B s r : (B <= 2 ^ 125)%R -> pseg_ok B s -> pframe s r ->
  exists d, decode lm oc old_ctx (eseg_of r) = Ok d /\ becomes B s d.
Proof.
  intros HB OK (K & C & P & _). unfold eseg_of. rewrite K, C. set (pl := r_payload r) in *. clearbody pl. clear r K C.
  destruct s as [x0 x1 y0 y1 z0 z1 px py pz codes|k w l|k p].
  - destruct (points_read _ _ _ _ _ _ _ _ _ _ _ _ HB OK P) as (l & E & A).
    exists (DVertex l). split; [|split; [exact A|reflexivity]].
    change (decode lm oc old_ctx _) with (let* l := read_tmf_vertices pl in Ok (DVertex l)). now rewrite E.
  - pose proof (indices_read oc _ _ _ _ _ OK P) as E. destruct OK as (K & _). cbn [pkind].
    destruct K as [<-|[<-|[<-|[]]]].
    + exists (DTriVertex l). split; [|reflexivity].
      change (decode lm oc old_ctx _) with (let* l := read_default_triangles oc old_ctx pl in Ok (DTriVertex l)). now rewrite E.
    + exists (DTriNormal l). split; [|reflexivity].
      change (decode lm oc old_ctx _) with (let* l := read_default_triangles oc old_ctx pl in Ok (DTriNormal l)). now rewrite E.
    + exists (DTriUV l). split; [|reflexivity].
      change (decode lm oc old_ctx _) with (let* l := read_default_triangles oc old_ctx pl in Ok (DTriUV l)). now rewrite E.
  - exists DNothing. split; [|split; reflexivity]. cbn [pkind]. destruct OK as [<-|[<-|[<-|[]]]]; reflexivity.
Qed.

(** Appending to what is there. *)
Definition app2 {A} (a b : option (list A)) : option (list A) :=
  match a, b with Some x, Some y => Some (x ++ y) | Some x, None => Some x | None, r => r end.
Lemma gather_cons {A} (f : pseg -> option (list A)) s t : gather f (s :: t) = app2 (f s) (gather f t).
Proof. reflexivity. Qed.
Lemma app2_assoc {A} (a b c : option (list A)) : app2 a (app2 b c) = app2 (app2 a b) c.
Proof. destruct a, b, c; cbn; rewrite ?app_assoc; reflexivity. Qed.
Lemma app2_none {A} (a : option (list A)) : app2 a None = a. Proof. destruct a; reflexivity. Qed.

Lemma arrays_app2 {A B} (P : A -> B -> Prop) a b a' b' : arrays P a a' -> arrays P b b' -> arrays P (app2 a b) (app2 a' b').
Proof. destruct a, b, a', b'; cbn; try tauto. apply Forall2_app. Qed.

Lemma fold_published B segs ds : Forall2 (becomes B) segs ds -> forall m pre,
  mesh_is B pre m -> mesh_is B (pre ++ segs) (fold_left apply ds m).
Proof.
  intros H. induction H as [|s d segs ds HD _ IH]; intros m pre M; [now rewrite app_nil_r|].
  cbn [fold_left]. change (s :: segs) with ([s] ++ segs). rewrite app_assoc. apply IH. clear IH.
  assert (G : forall A (f : pseg -> option (list A)), gather f (pre ++ [s]) = app2 (gather f pre) (f s)).
  { intros A f. clear. induction pre as [|x t IHt]; [cbn [app]; rewrite gather_cons; apply app2_none|].
    cbn [app]. rewrite !gather_cons, IHt. apply app2_assoc. }
  destruct M as (M1 & M2 & M3 & M4 & M5 & M6 & M7 & M8 & M9).
  unfold mesh_is. rewrite !G.
  destruct d; cbn [becomes] in HD; try contradiction.
  - destruct HD as [HD HI]. rewrite !HI, HD, !app2_none. cbn [apply]. auto 10.
  - destruct HD as [HD HI]. rewrite !HI, !app2_none.
    assert (E : vertices (append_vertices m l) = app2 (vertices m) (Some l)) by (unfold append_vertices; destruct (vertices m); reflexivity).
    cbn [apply]. rewrite E. split; [apply arrays_app2; auto|].
    unfold append_vertices; destruct (vertices m); cbn; auto 10.
  - cbn [apply]. rewrite HD at 1 2 3 4. cbn [points indices_of]. cbn. rewrite !app2_none.
    rewrite <- M2, <- M3, <- M4. unfold append_vertex_triangles; destruct (vertex_triangles m); cbn; auto 10.
  - cbn [apply]. rewrite HD at 1 2 3 4. cbn [points indices_of]. cbn. rewrite !app2_none.
    rewrite <- M2, <- M3, <- M4. unfold append_normal_triangles; destruct (normal_triangles m); cbn; auto 10.
  - cbn [apply]. rewrite HD at 1 2 3 4. cbn [points indices_of]. cbn. rewrite !app2_none.
    rewrite <- M2, <- M3, <- M4. unfold append_uv_triangles; destruct (uv_triangles m); cbn; auto 10.
Qed.

Lemma load_published lm oc B m r : (B <= 2 ^ 125)%R -> Forall (pseg_ok B) (snd m) ->
  fst r = fst m -> Forall2 pframe (snd m) (snd r) ->
  exists x, load_raw lm oc old_ctx r = Ok (x, fst m) /\ mesh_is B (snd m) x.
Proof.
  intros HB OK N F.
  assert (D : exists ds, Forall2 (fun q d => q = Ok d) (map (decode lm oc old_ctx) (map eseg_of (snd r))) ds /\ Forall2 (becomes B) (snd m) ds).
  { clear N. induction F as [|s q l l' H _ IH]; [exists []; split; constructor|].
    inversion OK as [|? ? O1 O2]; subst. destruct (IH O2) as (ds & I1 & I2).
    destruct (decode_published lm oc B s q HB O1 H) as (d & E & G).
    exists (d :: ds). split; constructor; auto. }
  destruct D as (ds & D1 & D2). unfold load_raw. apply join_Ok in D1. rewrite D1. cbn [bind].
  rewrite N. eexists. split; [reflexivity|]. apply (fold_published B (snd m) ds D2 empty []).
  repeat split.
Qed.

Lemma read_published lm oc B ms file rest : (B <= 2 ^ 125)%R -> pfile_ok B ms -> published ms file ->
  exists l, read_tmf lm oc (file ++ rest) = Ok l /\
    Forall2 (fun m x => snd x = fst m /\ mesh_is B (snd m) (fst x)) ms l.
Proof.
  intros HB (L & OK) (major & minor & mm & raws & H1 & H2 & H3 & F & ->).
  assert (FO : file_ok raws).
  { split; [eapply N.le_lt_trans; [|exact L]; apply N.eq_le_incl; unfold FileSpec.len; f_equal; symmetry; exact (F2_len _ _ _ F)|].
    clear -F OK. induction F as [|m r ms raws [E F] _ IH]; constructor.
    - inversion OK as [|? ? (O1 & O2 & O3) _]; subst. unfold mesh_ok. rewrite E. split; [exact O1|]. split.
      + eapply N.le_lt_trans; [|exact O2]; apply N.eq_le_incl; unfold FileSpec.len; f_equal; symmetry; exact (F2_len _ _ _ F).
      + clear -F O3. induction F as [|s q l l' (K & C & P & B1) _ IH]; constructor.
        * inversion O3 as [|? ? O _]; subst. unfold frameable. rewrite K, C. split; [|split; [left; reflexivity|exact B1]].
          destruct s; cbn [pkind]; [lia| |].
          -- destruct O as ([<-|[<-|[<-|[]]]] & _); lia.
          -- destruct O as [<-|[<-|[<-|[]]]]; lia.
        * apply IH. now inversion O3.
    - apply IH. now inversion OK. }
  unfold read_tmf. rewrite (import_old lm oc major minor mm raws rest H1 H2 H3 FO).
  assert (D : exists l, Forall2 (fun q d => q = Ok d) (map (load_raw lm oc old_ctx) raws) l /\
            Forall2 (fun m x => snd x = fst m /\ mesh_is B (snd m) (fst x)) ms l).
  { clear -HB OK F. induction F as [|m r ms raws [E F] _ IH]; [exists []; split; constructor|].
    inversion OK as [|? ? (O1 & O2 & O3) OK']; subst. destruct (IH OK') as (l & I1 & I2).
    destruct (load_published lm oc B m r HB O3 E F) as (x & X1 & X2).
    exists ((x, fst m) :: l). split; constructor; auto. }
  destruct D as (l & D1 & D2). apply collect_Ok in D1. rewrite D1. cbn [bind]. eauto.
Qed.
