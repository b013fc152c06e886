(** Loading files laid out as TMF_SPEC.md publishes the format, with double precision. *)
From Coq Require Import ZArith NArith Arith List Bool Reals Lra Lia.
From Flocq Require Import Core IEEE754.BinarySingleNaN.
From Verif Require Import Base UnalignedRW UnalignedRW_proofs ReadExt Floats Floats_proofs FloatReal_proofs ValueSpec Normals NormalReal_proofs
  Vertices Uv CustomData Log2_proofs Trig_proofs Range_proofs Range2_proofs NoPanic_proofs Platform_proofs Double DoubleSpec Double_proofs Double2_proofs
  BitSpec FileSpec Mesh Triangles Triangles_proofs Codec_proofs Tmf File ByteLemmas File_proofs TriSpec Layout3_proofs PublishedSpec Published_proofs DSave_proofs.
Import ListNotations.

Local Open Scope R_scope.
Lemma big_1000 : 4 * 2 ^ 1000 <= big64.
Proof.
  replace (4 * 2 ^ 1000) with (bpow radix2 1002); [unfold big64; apply bpow_le; lia|].
  change 1002%Z with (2 + Z.of_nat 1000)%Z. rewrite bpow_plus. rewrite (bpow_powerRZ radix2 (Z.of_nat 1000)), <- pow_powerRZ. reflexivity.
Qed.
Lemma tiny_1000 : 12 * tiny64 <= / 2 ^ 1000.
Proof.
  replace (/ 2 ^ 1000) with (bpow radix2 (-1000)).
  - unfold tiny64. apply Rle_trans with (bpow radix2 4 * bpow radix2 (-1075)).
    + apply Rmult_le_compat_r; [apply bpow_ge_0|]. simpl. lra.
    + rewrite <- bpow_plus. apply bpow_le. lia.
  - change (-1000)%Z with (- Z.of_nat 1000)%Z. rewrite bpow_opp, bpow_powerRZ, <- pow_powerRZ. reflexivity.
Qed.
Lemma coord_read_d B lo hi p q : B <= 2 ^ 1000 -> bound_ok B lo -> bound_ok B hi -> (1 <= p < 64)%nat -> fits_in p q ->
  coord_near_d B (coordinate lo hi p q)
    (dequantize_d q (f64_of_N (mask_u64 p)) (dsub (f64_of_bits hi) (f64_of_bits lo)) (f64_of_bits lo)).
Proof.
  unfold coord_near_d. intros HM (_ & Fl & Hl) (_ & Fh & Hh) P F. unfold coordinate. unfold number in *. change val64 with R64 in *. red in Fl, Fh.
  set (lo' := f64_of_bits lo) in *. set (hi' := f64_of_bits hi) in *. clearbody lo' hi'. clear lo hi.
  rename lo' into lo. rename hi' into hi. rename B into M.
  pose proof (mask_lt p ltac:(lia)) as L. pose proof (mask_pos p ltac:(lia)) as L1.
  assert (Fm : (q <= mask_u64 p)%N) by (unfold fits_in in F; unfold mask_u64; lia).
  destruct (quot64 q (mask_u64 p) Fm L1 L) as (A1 & A2 & A3).
  destruct (ratio_unit q (mask_u64 p) Fm L1) as (_ & _ & AL). cbv zeta in *.
  replace (IZR (Z.of_N q) / (2 ^ p - 1)) with (ratio q (mask_u64 p)).
  2:{ unfold ratio, mask_u64. f_equal. rewrite N2Z.inj_sub by (pose proof (N.pow_nonzero 2 (N.of_nat p)); lia).
      rewrite minus_IZR. f_equal. rewrite N2Z.inj_pow, nat_N_Z. rewrite <- pow_IZR. reflexivity. }
  unfold dequantize_d. set (al := ratio q (mask_u64 p)) in *. set (a := ddiv (f64_of_N q) _) in *.
  assert (M0 : 0 <= M) by (eapply Rle_trans; [apply Rabs_pos|exact Hl]).
  clearbody a al. pose proof big_1000 as P27. pose proof U64. pose proof T64.
  assert (P1 : 1 <= 2 ^ 1000) by (apply pow_R1_Rle; lra). pose proof tiny_1000 as TK. set (K := 2 ^ 1000) in *. clearbody K.
  assert (Z0 : forall x, Rabs (x - x) <= u64 * M + tiny64).
  { intros x. rewrite Rabs_sub_self. assert (0 <= u64 * M) by (apply Rmult_le_pos; lra). lra. }
  destruct (coord_err rnd64 u64 tiny64 U64 T64 rnd64_err M (R64 lo) (R64 hi) (R64 lo) (R64 hi) (R64 a) al) as (C1 & C2 & C3 & C4);
    auto; [lra|].
  destruct (dsub_R hi lo Fh Fl) as [S1 S2]; [lra|]. rewrite <- S1 in C2, C3, C4.
  destruct (dmul_R a (dsub hi lo) A1 S2) as [S3 S4]; [lra|]. rewrite <- S3 in C3, C4.
  destruct (dadd_R (dmul a (dsub hi lo)) lo S4 Fl) as [S5 S6]; [lra|]. rewrite <- S5 in C4.
  split; [exact S6|]. change val64 with R64. eapply Rle_trans; [exact C4|].
  assert (UU : u64 * M = / 9007199254740992 * M) by (unfold u64; lra).
  replace (/ 2 ^ 48) with (/ 281474976710656) by (f_equal; simpl; lra). lra.
Qed.
Local Close Scope R_scope.

Lemma read_loop_codes_d {A} px py pz (mk : N -> N -> N -> A) (vs : list (N * N * N)) : forall r acc rest,
  rok r -> px < 64 -> py < 64 -> pz < 64 ->
  Forall (fun c => fits_in px (fst (fst c)) /\ fits_in py (snd (fst c)) /\ fits_in pz (snd c)) vs ->
  rbits r = field_bits (flat_map (fun c => [(px, fst (fst c)); (py, snd (fst c)); (pz, snd c)]) vs) ++ rest ->
  read_many (fun r =>
      let* (x, r) := io (read_unaligned r px) in
      let* (y, r) := io (read_unaligned r py) in
      let* (z, r) := io (read_unaligned r pz) in Ok (mk x y z, r)) (length vs) r acc
    = Ok (acc ++ map (fun c => mk (fst (fst c)) (snd (fst c)) (snd c)) vs).
Proof.
  induction vs as [|v t IH]; intros r acc rest Hr Hx Hy Hz HF Hb.
  - cbn. now rewrite app_nil_r.
  - inversion HF as [|? ? (F1 & F2 & F3) HF']; subst. cbn [length read_many]. cbn [flat_map app] in Hb.
    rewrite !field_bits_cons in Hb. cbn [fst snd] in Hb. rewrite <- !app_assoc in Hb.
    destruct (read_one r px _ _ Hr Hx Hb) as (r1 & E1 & O1 & B1). rewrite E1. cbn [io map_err bind].
    destruct (read_one r1 py _ _ O1 Hy B1) as (r2 & E2 & O2 & B2). rewrite E2. cbn [io map_err bind].
    destruct (read_one r2 pz _ _ O2 Hz B2) as (r3 & E3 & O3 & B3). rewrite E3. cbn [io map_err bind].
    rewrite (IH r3 _ rest O3 Hx Hy Hz HF' B3). rewrite <- app_assoc. unfold low, fits_in in *.
    rewrite !N.mod_small by assumption. reflexivity.
Qed.

Lemma read_f64_bits_d n s : (n < 2 ^ 64)%N -> read_f64 (lend 8 n ++ s) = Ok (f64_of_bits n, s).
Proof.
  intros H. unfold read_f64. rewrite lend_le, read_u64_w by exact H. reflexivity.
Qed.

Lemma points_read_d B x0 x1 y0 y1 z0 z1 px py pz codes payload :
  (B <= 2 ^ 1000)%R -> pseg_ok B (PPoints x0 x1 y0 y1 z0 z1 px py pz codes) ->
  ppayload (PPoints x0 x1 y0 y1 z0 z1 px py pz codes) payload ->
  exists l, read_tmf_vertices_d payload = Ok l /\
    arrays (point_near_d B) (points (PPoints x0 x1 y0 y1 z0 z1 px py pz codes)) (Some l).
Proof.
  intros HB (B1 & P1 & C1 & L1) (uba & -> & HU).
  repeat match goal with H : Forall _ (_ :: _) |- _ => inversion H; clear H; subst end.
  repeat match goal with H : Forall _ [] |- _ => clear H end.
  unfold read_tmf_vertices_d. unfold len. rewrite lend_le, read_u64_w by now apply len64. cbn [io map_err bind].
  do 6 (rewrite read_f64_bits_d by (match goal with H : bound_ok _ ?x |- (?x < _)%N => apply H end); cbn [io map_err bind]).
  cbn [app]. do 3 (rewrite read_prec_w by lia; cbn [bind]).
  rewrite len_seg by auto. rewrite Nat2N.id.
  destruct (packs_bits _ _ [] HU) as [pad Hpad]. rewrite app_nil_r in Hpad.
  rewrite (read_loop_codes_d px py pz (fun x y z => (dequantize_d x (f64_of_N (mask_u64 px)) (dsub (f64_of_bits x1) (f64_of_bits x0)) (f64_of_bits x0), dequantize_d y (f64_of_N (mask_u64 py)) (dsub (f64_of_bits y1) (f64_of_bits y0)) (f64_of_bits y0), dequantize_d z (f64_of_N (mask_u64 pz)) (dsub (f64_of_bits z1) (f64_of_bits z0)) (f64_of_bits z0))) codes _ [] pad); try lia; auto.
  2:{ apply rok_new. exact (packs_ok _ _ HU). }
  cbn [app]. eexists. split; [reflexivity|]. cbn [points arrays].
  clear L1 HU Hpad. induction C1 as [|c t (F1 & F2 & F3) _ IH]; cbn [map]; constructor; [|exact IH].
  unfold point_near_d. cbn [fst snd]. split; [|split]; apply coord_read_d; auto.
Qed.

(** What a segment becomes. *)
Definition becomes_d (B : R) (s : pseg) (d : xseg) : Prop :=
  match d with
  | XVertex l => arrays (point_near_d B) (points s) (Some l) /\ (forall k, indices_of k s = None)
  | XTriVertex l => s = PIndices 2 (match s with PIndices _ w _ => w | _ => 0 end) l
  | XTriNormal l => s = PIndices 4 (match s with PIndices _ w _ => w | _ => 0 end) l
  | XTriUV l => s = PIndices 6 (match s with PIndices _ w _ => w | _ => 0 end) l
  | XNothing => points s = None /\ (forall k, indices_of k s = None)
  | _ => False
  end.

Lemma decode_published_d sc oc B s r : (B <= 2 ^ 1000)%R -> pseg_ok B s -> pframe s r ->
  exists d, decode_d sc oc old_ctx (eseg_of r) = Ok d /\ becomes_d B s d.
Proof.
  intros HB OK (K & C & P & _). unfold eseg_of. rewrite K, C. set (pl := r_payload r) in *. clearbody pl. clear r K C.
  destruct s as [x0 x1 y0 y1 z0 z1 px py pz codes|k w l|k p].
  - destruct (points_read_d _ _ _ _ _ _ _ _ _ _ _ _ HB OK P) as (l & E & A).
    exists (XVertex l). split; [|split; [exact A|reflexivity]].
    change (decode_d sc oc old_ctx _) with (let* l := read_tmf_vertices_d pl in Ok (XVertex l)). now rewrite E.
  - pose proof (indices_read oc _ _ _ _ _ OK P) as E. destruct OK as (K & _). cbn [pkind].
    destruct K as [<-|[<-|[<-|[]]]].
    + exists (XTriVertex l). split; [|reflexivity].
      change (decode_d sc oc old_ctx _) with (let* l := read_default_triangles oc old_ctx pl in Ok (XTriVertex l)). now rewrite E.
    + exists (XTriNormal l). split; [|reflexivity].
      change (decode_d sc oc old_ctx _) with (let* l := read_default_triangles oc old_ctx pl in Ok (XTriNormal l)). now rewrite E.
    + exists (XTriUV l). split; [|reflexivity].
      change (decode_d sc oc old_ctx _) with (let* l := read_default_triangles oc old_ctx pl in Ok (XTriUV l)). now rewrite E.
  - exists XNothing. split; [|split; reflexivity]. cbn [pkind]. destruct OK as [<-|[<-|[<-|[]]]]; reflexivity.
Qed.

Lemma fold_published_d B segs ds : Forall2 (becomes_d B) segs ds -> forall m pre,
  mesh_is_d B pre m -> mesh_is_d B (pre ++ segs) (fold_left apply_d ds m).
Proof.
  intros H. induction H as [|s d segs ds HD _ IH]; intros m pre M; [now rewrite app_nil_r|].
  cbn [fold_left]. change (s :: segs) with ([s] ++ segs). rewrite app_assoc. apply IH. clear IH.
  assert (G : forall A (f : pseg -> option (list A)), gather f (pre ++ [s]) = app2 (gather f pre) (f s)).
  { intros A f. clear. induction pre as [|x t IHt]; [cbn [app]; rewrite gather_cons; apply app2_none|].
    cbn [app]. rewrite !gather_cons, IHt. apply app2_assoc. }
  destruct M as (M1 & M2 & M3 & M4 & M5 & M6 & M7 & M8 & M9).
  unfold mesh_is_d. rewrite !G.
  assert (X : forall A (o : option (list A)) l, extend o l = app2 o (Some l)) by (intros A [o|] l; reflexivity).
  destruct d; cbn [becomes_d] in HD; try contradiction.
  - destruct HD as [HD HI]. rewrite !HI, HD, !app2_none. cbn [apply_d]. auto 10.
  - destruct HD as [HD HI]. rewrite !HI, !app2_none. cbn [apply_d d_vertices]. rewrite X.
    split; [apply arrays_app2; auto|]. cbn. auto 10.
  - rewrite HD at 1 2 3 4. cbn [points indices_of]. cbn. rewrite !app2_none, X. rewrite <- M2, <- M3, <- M4. auto 10.
  - rewrite HD at 1 2 3 4. cbn [points indices_of]. cbn. rewrite !app2_none, X. rewrite <- M2, <- M3, <- M4. auto 10.
  - rewrite HD at 1 2 3 4. cbn [points indices_of]. cbn. rewrite !app2_none, X. rewrite <- M2, <- M3, <- M4. auto 10.
Qed.

Lemma load_published_d sc oc B m r : (B <= 2 ^ 1000)%R -> Forall (pseg_ok B) (snd m) ->
  fst r = fst m -> Forall2 pframe (snd m) (snd r) ->
  exists x, load_raw_d sc oc old_ctx r = Ok (x, fst m) /\ mesh_is_d B (snd m) x.
Proof.
  intros HB OK N F.
  assert (D : exists ds, Forall2 (fun q d => q = Ok d) (map (decode_d sc oc old_ctx) (map eseg_of (snd r))) ds /\ Forall2 (becomes_d B) (snd m) ds).
  { clear N. induction F as [|s q l l' H _ IH]; [exists []; split; constructor|].
    inversion OK as [|? ? O1 O2]; subst. destruct (IH O2) as (ds & I1 & I2).
    destruct (decode_published_d sc oc B s q HB O1 H) as (d & E & G).
    exists (d :: ds). split; constructor; auto. }
  destruct D as (ds & D1 & D2). unfold load_raw_d. apply join_Ok in D1. rewrite D1. cbn [bind].
  rewrite N. eexists. split; [reflexivity|]. apply (fold_published_d B (snd m) ds D2 d_empty []).
  repeat split.
Qed.

Lemma import_old_d sc oc major minor mm ms rest :
  (major < 65536)%N -> (minor < 65536)%N -> (mm < 2)%N -> file_ok ms ->
  read_tmf_d sc oc (old_file_bytes major minor mm ms ++ rest) = collect (map (load_raw_d sc oc old_ctx) ms).
Proof.
  intros Ha Hb Hm [H1 H2]. unfold read_tmf_d, old_file_bytes. rewrite <- !app_assoc.
  rewrite read_header_w by lia.
  replace ((0 <? 0) || ((0 =? 0) && (2 <? mm)))%N with false by lia. cbn [bind].
  rewrite lend_le, read_u32_w by auto. cbn [io map_err bind]. unfold FileSpec.len. rewrite Nat2N.id.
  unfold init_header. cbn [h_min_minor]. replace (1 <? mm)%N with false by lia.
  change (mk_ctx _ _ _) with old_ctx.
  rewrite (import_meshes_ok_d sc oc old_ctx old_seg_bytes); auto; [|apply frame_old].
  destruct (collect _); reflexivity.
Qed.
Lemma read_published_d sc oc B ms file rest : (B <= 2 ^ 1000)%R -> pfile_ok B ms -> published ms file ->
  exists l, read_tmf_d sc oc (file ++ rest) = Ok l /\
    Forall2 (fun m x => snd x = fst m /\ mesh_is_d B (snd m) (fst x)) ms l.
Proof.
  intros HB (L & OK) (major & minor & mm & raws & H1 & H2 & H3 & F & ->).
  assert (FO : file_ok raws).
  { split; [eapply N.le_lt_trans; [|exact L]; apply N.eq_le_incl; unfold FileSpec.len; f_equal; symmetry; exact (F2_len _ _ _ F)|].
    clear -F OK. induction F as [|m r ms raws [E F] _ IH]; constructor.
    - inversion OK as [|? ? (O1 & O2 & O3) _]; subst. unfold mesh_ok. rewrite E. split; [exact O1|]. split.
      + eapply N.le_lt_trans; [|exact O2]; apply N.eq_le_incl; unfold FileSpec.len; f_equal; symmetry; exact (F2_len _ _ _ F).
      + clear -F O3. induction F as [|s q l l' (K & C & P & B1) _ IH]; constructor.
        * inversion O3 as [|? ? O _]; subst. unfold frameable. rewrite K, C. split; [|split; [left; reflexivity|exact B1]].
          destruct s; cbn [pkind]; [lia| |].
          -- destruct O as ([<-|[<-|[<-|[]]]] & _); lia.
          -- destruct O as [<-|[<-|[<-|[]]]]; lia.
        * apply IH. now inversion O3.
    - apply IH. now inversion OK. }
  rewrite (import_old_d sc oc major minor mm raws rest H1 H2 H3 FO).
  assert (D : exists l, Forall2 (fun q d => q = Ok d) (map (load_raw_d sc oc old_ctx) raws) l /\
            Forall2 (fun m x => snd x = fst m /\ mesh_is_d B (snd m) (fst x)) ms l).
  { clear -HB OK F. induction F as [|m r ms raws [E F] _ IH]; [exists []; split; constructor|].
    inversion OK as [|? ? (O1 & O2 & O3) OK']; subst. destruct (IH OK') as (l & I1 & I2).
    destruct (load_published_d sc oc B m r HB O3 E F) as (x & X1 & X2).
    exists ((x, fst m) :: l). split; constructor; auto. }
  destruct D as (l & D1 & D2). apply collect_Ok in D1. rewrite D1. cbn [bind]. eauto.
Qed.
