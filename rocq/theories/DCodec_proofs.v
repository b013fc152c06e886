(** What the array codecs write in a program built with the feature [double_precision], and what
    its readers make of it: every reader recovers the codes of the writer modulo the field width. *)
From Coq Require Import List NArith ZArith Arith Lia Bool ZifyN ZifyNat ZifyBool.
From Verif Require Import Base BitSpec BitLemmas UnalignedRW BitIOSpec UnalignedRW_proofs
  ReadExt ByteLemmas Triangles TriSpec Triangles_proofs Floats Floats_proofs Utilis Vertices Uv Normals CustomData Mesh Tmf File
  FileSpec Codec_proofs Parse_proofs File_proofs Load_proofs SaveSpec Merge_proofs Save_proofs Image_proofs Double DoubleSave.
Import ListNotations.
Open Scope res_scope.
Ltac Zify.zify_post_hook ::= Z.div_mod_to_equations.

Lemma sat_cast_d_lt mx x : (mx < two64)%N -> (sat_cast_d mx x < two64)%N.
Proof.
  intros H. unfold sat_cast_d. destruct x; try lia.
  - destruct s; [reflexivity|auto].
Qed.
Lemma u64_d_lt x : (u64_of_f64 x < two64)%N.
Proof. apply sat_cast_d_lt. reflexivity. Qed.
Lemma mask_d30 {E} p m : mask_f64 (E:=E) true p = Ok m -> p <= 30.
Proof.
  unfold mask_f64, mask_i32. destruct (Nat.ltb_spec p 32) as [H|H]; [|discriminate]. cbn [bind].
  destruct (Nat.eq_dec p 31) as [->|]; [vm_compute; discriminate|]. lia.
Qed.
Lemma read_f64_d x s : read_f64 (le_d x ++ s) = Ok (x, s).
Proof. unfold read_f64, le_d. rewrite read_u64_w by apply bits_of_f64_lt. cbn [bind]. now rewrite f64_bits. Qed.
Lemma le_d_ok x : bytes_ok (le_d x).
Proof. apply le_bytes_ok. Qed.
Lemma le_d_length x : length (le_d x) = 8.
Proof. apply le_bytes_length. Qed.

(** A loop that reads, for every element of [l], the fields written for it. *)
Lemma read_many_ok {A B} (step : reader -> res ierr (B * reader)) (f : A -> list (nat * N)) (g : A -> B) :
  (forall a r rest, rok r -> rbits r = field_bits (f a) ++ rest ->
     exists r', step r = Ok (g a, r') /\ rok r' /\ rbits r' = rest) ->
  forall l r acc rest, rok r -> rbits r = field_bits (flat_map f l) ++ rest ->
    read_many step (length l) r acc = Ok (acc ++ map g l).
Proof.
  intros H. induction l as [|a l IH]; intros r acc rest Hr Hb; cbn [length read_many map].
  - now rewrite app_nil_r.
  - cbn [flat_map] in Hb. rewrite field_bits_app, <- app_assoc in Hb.
    destruct (H a r _ Hr Hb) as (r' & E & O & B'). rewrite E. cbn [bind].
    rewrite (IH r' _ rest O B'). now rewrite <- app_assoc.
Qed.
Lemma fields_written oc S0 fs :
  bytes_ok S0 -> Forall (fun f => fst f <= 64 /\ (snd f < two64)%N) fs ->
  exists w pl, write_fields oc (writer_new S0) fs = Ok w /\ writer_finish w = S0 ++ pl /\ packs pl (field_bits fs).
Proof. intros B F. destruct (writer_packs_sink oc S0 fs) as (w & pl & E & G & P); auto. exists w, pl. auto. Qed.

(** ** Texture coordinates *)
Definition uv_fields_d (p : nat) (mul : f64) (uv : dvec2) : list (nat * N) :=
  [(p, uv_code_d mul (fst uv)); (p, uv_code_d mul (snd uv))].
Definition uv_value_d (p : nat) (q : N) : f64 := ddiv (f64_of_N q) (f64_of_N (mask_u64 p)).
Definition uv_rel_d (p : nat) (a b : dvec2) : Prop :=
  if p =? 0 then b = (d0, d0)
  else exists mul, mask_f64 (E:=ioerr) true p = Ok mul /\
    b = (uv_value_d p (low p (uv_code_d mul (fst a))), uv_value_d p (low p (uv_code_d mul (snd a)))).
Lemma uvs_d oc' l p b :
  (len l <= 2 ^ 27)%N -> save_uvs_d true l p [] = Ok b ->
  (len b <= 2 ^ 31)%N /\ bytes_ok b /\ exists l', read_uvs_d oc' b = Ok l' /\ Forall2 (uv_rel_d p) l l'.
Proof.
  unfold len. intros H S. unfold save_uvs_d in S.
  destruct (mask_f64 (E:=ioerr) true p) as [mul| |] eqn:M; try discriminate S. cbn [bind] in S.
  pose proof (mask_d30 _ _ M) as Hp. cbv zeta in S. cbn [app] in S.
  destruct (fields_written true (N.of_nat p :: le_bytes 8 (N.of_nat (length l))) (flat_map (uv_fields_d p mul) l)) as (w & pl & E & F & P).
  { constructor; [unfold byte_ok; lia|apply le_bytes_ok]. }
  { apply flat_Forall. intros a. repeat (apply Forall_cons; [cbn [fst snd]; split; [lia|apply u64_d_lt]|]). apply Forall_nil. }
  replace (write_fields true _ _) with (@Ok ioerr _ w) in S by (symmetry; exact E). cbn [bind] in S. rewrite F in S. apply Ok_inj in S. subst b.
  pose proof (packs_ok _ _ P) as Hpl. split; [|split].
  - cbn [app length]. rewrite app_length, le_bytes_length.
    eapply (packs_flat _ _ 60) in P; [lia|].
    intros v. unfold uv_fields_d. rewrite !field_bits_cons, !app_length, !bits_length. cbn [fst field_bits flat_map length]. lia.
  - apply bytes_ok_app. split; [|exact Hpl]. constructor; [unfold byte_ok; lia|apply le_bytes_ok].
  - cbn [app]. unfold read_uvs_d. rewrite read_u8_cons by lia. cbn [io map_err bind].
    rewrite read_u64_w by (apply len64; lia). cbn [io map_err bind]. rewrite len_seg by lia. unfold uv_rel_d.
    destruct (Nat.eqb_spec p 0) as [->|Np].
    + change (N.of_nat 0 =? 0)%N with true. cbv iota. eexists. split; [reflexivity|]. rewrite Nat2N.id. clear.
      induction l as [|a l IH]; cbn [length repeat]; constructor; auto.
    + replace (N.of_nat p =? 0)%N with false by (symmetry; apply N.eqb_neq; lia).
      replace (64 <=? N.of_nat p)%N with false by (symmetry; apply N.leb_gt; lia).
      rewrite !Nat2N.id. destruct (packs_bits _ _ [] P) as [pad Hpad]. rewrite app_nil_r in Hpad.
      eexists. split.
      * apply (read_many_ok _ (uv_fields_d p mul) (fun a =>
          (uv_value_d p (low p (uv_code_d mul (fst a))), uv_value_d p (low p (uv_code_d mul (snd a))))) ) with (rest := pad);
          [|apply rok_new; exact Hpl|rewrite rbits_new; exact Hpad].
        intros a r rest Hr Hb. unfold uv_fields_d in Hb. rewrite !field_bits_cons in Hb. cbn [fst snd] in Hb.
        rewrite <- !app_assoc in Hb. cbn [field_bits flat_map app] in Hb.
        destruct (read_two oc' r p _ _ _ Hr ltac:(lia) ltac:(lia) Hb) as (r' & E' & O & B').
        rewrite E'. cbn [io map_err bind fst snd]. exists r'. split; [reflexivity|auto].
      * cbn [app]. apply F2_map. intros a _. exists mul. auto.
Qed.

(** ** Normals and tangents *)
Definition normal_rel_d (lm : libm64) (sc : f64 -> f64 * f64) (p : nat) (a b : dvec3) : Prop :=
  exists c, normal_to_encoding_d (E:=ioerr) lm true a p = Ok c /\ b = normal_from_encoding_d sc (low_code p c) p.
Definition tangent_rel_d (lm : libm64) (sc : f64 -> f64 * f64) (p : nat) (a b : dtangent) : Prop :=
  normal_rel_d lm sc p (fst a) (fst b) /\ snd b = ht_from_bool_d (BinarySingleNaN.Bsign (snd a)).
Lemma normal_to_encoding_d_range {E} lm oc n p c :
  normal_to_encoding_d (E:=E) lm oc n p = Ok c -> code_ok c.
Proof.
  unfold normal_to_encoding_d. destruct (mask_f64 oc p); cbn [bind]; try discriminate.
  intros [= <-]. unfold code_ok. cbn [n_asine n_z]. split; apply u64_d_lt.
Qed.
Lemma normals_d lm sc oc' l p b :
  (len l <= 2 ^ 27)%N -> p <= 30 -> save_normal_array_d lm true l p [] = Ok b ->
  (len b <= 2 ^ 31)%N /\ bytes_ok b /\ exists l', read_normal_array_d sc oc' b = Ok l' /\ Forall2 (normal_rel_d lm sc p) l l'.
Proof.
  unfold len. intros H Hp S. unfold save_normal_array_d in S. cbv zeta in S. cbn [app] in S.
  destruct (map_res (E:=ioerr) (fun n => normal_to_encoding_d lm true n p) l) as [codes| |] eqn:C; try discriminate S. cbn [bind] in S.
  assert (Hc : Forall code_ok codes) by (eapply map_res_Forall; [|exact C]; intros a c; apply normal_to_encoding_d_range).
  pose proof (map_res_length _ _ _ C) as Lc.
  destruct (fields_written true (le_bytes 8 (N.of_nat (length l)) ++ [N.of_nat p]) (flat_map (fun c => normal_fields c p) codes)) as (w & pl & E & F & P).
  { exact (narr_header_ok _ p ltac:(lia)). }
  { apply Forall_flat_map. intros a Ha. apply normal_fields_ok; [lia|]. rewrite Forall_forall in Hc. auto. }
  replace (write_fields true _ _) with (@Ok ioerr _ w) in S by (symmetry; exact E). cbn [bind] in S. rewrite F in S. apply Ok_inj in S. subst b.
  pose proof (packs_ok _ _ P) as Hpl. split; [|split].
  - rewrite !app_length, le_bytes_length. cbn [length].
    eapply (packs_flat _ _ 63) in P; [lia|].
    intros c. unfold normal_fields. rewrite !field_bits_cons, !app_length, !bits_length. cbn [fst bit field_bits flat_map length]. lia.
  - apply bytes_ok_app. split; [exact (narr_header_ok _ p ltac:(lia))|exact Hpl].
  - rewrite <- app_assoc. unfold read_normal_array_d. rewrite read_u64_w by (apply len64; lia). cbn [io map_err bind].
    rewrite len_seg by lia. cbn [app]. rewrite read_prec_w by lia. cbn [bind]. rewrite Nat2N.id, <- Lc.
    destruct (packs_bits _ _ [] P) as [pad Hpad]. rewrite app_nil_r in Hpad. eexists. split.
    + apply (read_many_ok _ (fun c => normal_fields c p) (fun c => normal_from_encoding_d sc (low_code p c) p)) with (rest := pad);
        [|apply rok_new; exact Hpl|rewrite rbits_new; exact Hpad].
      intros c r rest Hr Hb. unfold normal_fields in Hb. rewrite !field_bits_cons, <- !app_assoc in Hb.
      destruct (read_bool r _ _ Hr Hb) as (r1 & E1 & O1 & B1). rewrite E1. cbn [io map_err bind].
      destruct (read_bool r1 _ _ O1 B1) as (r2 & E2 & O2 & B2). rewrite E2. cbn [io map_err bind].
      destruct (read_bool r2 _ _ O2 B2) as (r3 & E3 & O3 & B3). rewrite E3. cbn [io map_err bind].
      cbn [fst snd field_bits flat_map app] in B3.
      destruct (read_two oc' r3 p _ _ _ O3 ltac:(lia) ltac:(lia) B3) as (r4 & E4 & O4 & B4). rewrite E4.
      cbn [io map_err bind fst snd]. exists r4. auto.
    + cbn [app]. apply F2_map_r. eapply F2_impl; [|exact (F2_map_res _ _ _ C)]. cbv beta. intros a c Ec. exists c. auto.
Qed.

Definition tangent_code_d (lm : libm64) (oc : bool) (p : nat) (t : dtangent) : res ioerr (bool * ncode) :=
  let* c := normal_to_encoding_d lm oc (fst t) p in Ok (BinarySingleNaN.Bsign (snd t), c).
Lemma tangents_d lm sc l p b :
  (len l <= 2 ^ 27)%N -> p <= 30 -> save_tangents_d lm true l p [] = Ok b ->
  (len b <= 2 ^ 31)%N /\ bytes_ok b /\ exists l', read_tangents_d sc b = Ok l' /\ Forall2 (tangent_rel_d lm sc p) l l'.
Proof.
  unfold len. intros H Hp S. unfold save_tangents_d in S. cbv zeta in S. cbn [app] in S.
  change (map_res _ l) with (map_res (tangent_code_d lm true p) l) in S.
  destruct (map_res (tangent_code_d lm true p) l) as [codes| |] eqn:C; try discriminate S. cbn [bind] in S.
  assert (Hc : Forall (fun hc => code_ok (snd hc)) codes).
  { eapply map_res_Forall; [|exact C]. intros a c. unfold tangent_code_d.
    destruct (normal_to_encoding_d lm true (fst a) p) eqn:En; cbn [bind]; try discriminate.
    intros Q. apply Ok_inj in Q. subst c. eapply normal_to_encoding_d_range. exact En. }
  pose proof (map_res_length _ _ _ C) as Lc.
  destruct (fields_written true (le_bytes 8 (N.of_nat (length l)) ++ [N.of_nat p]) (flat_map (fun hc => tangent_fields (fst hc) (snd hc) p) codes)) as (w & pl & E & F & P).
  { exact (narr_header_ok _ p ltac:(lia)). }
  { apply Forall_flat_map. intros a Ha. apply tangent_fields_ok; [lia|]. rewrite Forall_forall in Hc. auto. }
  replace (write_fields true _ _) with (@Ok ioerr _ w) in S by (symmetry; exact E). cbn [bind] in S. rewrite F in S. apply Ok_inj in S. subst b.
  pose proof (packs_ok _ _ P) as Hpl. split; [|split].
  - rewrite !app_length, le_bytes_length. cbn [length].
    eapply (packs_flat _ _ 64) in P; [lia|].
    intros c. unfold tangent_fields, normal_fields. rewrite !field_bits_cons, !app_length, !bits_length. cbn [fst bit field_bits flat_map length]. lia.
  - apply bytes_ok_app. split; [exact (narr_header_ok _ p ltac:(lia))|exact Hpl].
  - rewrite <- app_assoc. unfold read_tangents_d. rewrite read_u64_w by (apply len64; lia). cbn [io map_err bind].
    rewrite len_seg by lia. cbn [app]. rewrite read_prec_w by lia. cbn [bind]. rewrite Nat2N.id, <- Lc.
    destruct (packs_bits _ _ [] P) as [pad Hpad]. rewrite app_nil_r in Hpad. eexists. split.
    + apply (read_many_ok _ (fun hc => tangent_fields (fst hc) (snd hc) p)
        (fun hc => (normal_from_encoding_d sc (low_code p (snd hc)) p, ht_from_bool_d (fst hc)))) with (rest := pad);
        [|apply rok_new; exact Hpl|rewrite rbits_new; exact Hpad].
      intros [h c] r rest Hr Hb. cbn [fst snd] in *. unfold tangent_fields, normal_fields in Hb. rewrite !field_bits_cons, <- !app_assoc in Hb.
      destruct (read_bool r _ _ Hr Hb) as (r0 & E0 & O0 & B0). rewrite E0. cbn [io map_err bind].
      destruct (read_bool r0 _ _ O0 B0) as (r1 & E1 & O1 & B1). rewrite E1. cbn [io map_err bind].
      destruct (read_bool r1 _ _ O1 B1) as (r2 & E2 & O2 & B2). rewrite E2. cbn [io map_err bind].
      destruct (read_bool r2 _ _ O2 B2) as (r3 & E3 & O3 & B3). rewrite E3. cbn [io map_err bind].
      destruct (read_one r3 p _ _ O3 ltac:(lia) B3) as (r5 & E5 & O5 & B5). cbn [snd] in E5. rewrite E5. cbn [io map_err bind].
      destruct (read_one r5 p _ _ O5 ltac:(lia) B5) as (r6 & E6 & O6 & B6). cbn [snd] in E6. rewrite E6. cbn [io map_err bind].
      exists r6. auto.
    + cbn [app]. apply F2_map_r. eapply F2_impl; [|exact (F2_map_res _ _ _ C)]. cbv beta. intros a [h c] Ec.
      unfold tangent_code_d in Ec. destruct (normal_to_encoding_d lm true (fst a) p) as [c'| |] eqn:EN; try discriminate Ec.
      cbn [bind] in Ec. apply Ok_inj in Ec. injection Ec as <- <-. cbn [fst snd]. split; [exists c'; auto|reflexivity].
Qed.

(** ** Vertices *)
Record dparams := mk_dparams {
  dp_box : dbox; dp_sx : f64; dp_sy : f64; dp_sz : f64; dp_px : nat; dp_py : nat; dp_pz : nat }.
Definition vertex_params_d (lm : libm64) (vs : list dvec3) (precision shortest_edge : f64) : option dparams :=
  match bounding_box_d (E:=ioerr) vs with
  | Ok b =>
    let sx := dmax (dsub (dmax_x b) (dmin_x b)) min_extent_d in
    let sy := dmax (dsub (dmax_y b) (dmin_y b)) min_extent_d in
    let sz := dmax (dsub (dmax_z b) (dmin_z b)) min_extent_d in
    Some (mk_dparams b sx sy sz (axis_precision_d lm shortest_edge sx precision)
            (axis_precision_d lm shortest_edge sy precision) (axis_precision_d lm shortest_edge sy precision))
  | _ => None
  end.
Definition vertex_fields_d (p : dparams) (mx my mz : f64) (v : dvec3) : list (nat * N) :=
  [(dp_px p, quantize_d (dvx v) (dmin_x (dp_box p)) (dp_sx p) mx);
   (dp_py p, quantize_d (dvy v) (dmin_y (dp_box p)) (dp_sy p) my);
   (dp_pz p, quantize_d (dvz v) (dmin_z (dp_box p)) (dp_sz p) mz)].
Definition vertex_image_d (p : dparams) (mx my mz : f64) (v : dvec3) : dvec3 :=
  let b := dp_box p in
  (dequantize_d (low (dp_px p) (quantize_d (dvx v) (dmin_x b) (dp_sx p) mx))
     (f64_of_N (mask_u64 (dp_px p))) (dsub (dmax_x b) (dmin_x b)) (dmin_x b),
   dequantize_d (low (dp_py p) (quantize_d (dvy v) (dmin_y b) (dp_sy p) my))
     (f64_of_N (mask_u64 (dp_py p))) (dsub (dmax_y b) (dmin_y b)) (dmin_y b),
   dequantize_d (low (dp_pz p) (quantize_d (dvz v) (dmin_z b) (dp_sz p) mz))
     (f64_of_N (mask_u64 (dp_pz p))) (dsub (dmax_z b) (dmin_z b)) (dmin_z b)).
Definition vertex_header_d (len : N) (p : dparams) : list N :=
  le_bytes 8 len ++ le_d (dmin_x (dp_box p)) ++ le_d (dmax_x (dp_box p)) ++
  le_d (dmin_y (dp_box p)) ++ le_d (dmax_y (dp_box p)) ++ le_d (dmin_z (dp_box p)) ++
  le_d (dmax_z (dp_box p)) ++ [N.of_nat (dp_px p); N.of_nat (dp_py p); N.of_nat (dp_pz p)].
Definition vertex_rel_d (lm : libm64) (prec edge : f64) (a b : list dvec3) : Prop :=
  exists q mx my mz, vertex_params_d lm a prec edge = Some q /\
    mask_f64 (E:=ioerr) true (dp_px q) = Ok mx /\ mask_f64 (E:=ioerr) true (dp_py q) = Ok my /\
    mask_f64 (E:=ioerr) true (dp_pz q) = Ok mz /\ b = map (vertex_image_d q mx my mz) a.

Lemma vertices_d_spec lm vs prec edge b :
  save_tmf_vertices_d lm true vs prec edge [] = Ok b ->
  exists q mx my mz pl, vertex_params_d lm vs prec edge = Some q /\
    mask_f64 (E:=ioerr) true (dp_px q) = Ok mx /\ mask_f64 (E:=ioerr) true (dp_py q) = Ok my /\
    mask_f64 (E:=ioerr) true (dp_pz q) = Ok mz /\ b = vertex_header_d (N.of_nat (length vs)) q ++ pl /\
    packs pl (field_bits (flat_map (vertex_fields_d q mx my mz) vs)).
Proof.
  intros S. unfold save_tmf_vertices_d in S. unfold vertex_params_d.
  destruct (bounding_box_d (E:=ioerr) vs) as [bb| |]; try discriminate S. cbn [bind] in S. cbv zeta in S.
  set (sx := dmax (dsub (dmax_x bb) (dmin_x bb)) min_extent_d) in *.
  set (sy := dmax (dsub (dmax_y bb) (dmin_y bb)) min_extent_d) in *.
  set (sz := dmax (dsub (dmax_z bb) (dmin_z bb)) min_extent_d) in *.
  set (px := axis_precision_d lm edge sx prec) in *. set (py := axis_precision_d lm edge sy prec) in *.
  destruct (mask_f64 (E:=ioerr) true px) as [mx| |] eqn:Mx; try discriminate S. cbn [bind] in S.
  destruct (mask_f64 (E:=ioerr) true py) as [my| |] eqn:My; try discriminate S. cbn [bind] in S.
  pose proof (mask_d30 _ _ Mx) as Hx. pose proof (mask_d30 _ _ My) as Hy.
  cbn [app] in S.
  match type of S with context [writer_new ?k] => set (S0 := k) in S end.
  set (q := mk_dparams bb sx sy sz px py py).
  destruct (fields_written true S0 (flat_map (vertex_fields_d q mx my my) vs)) as (w & pl & E & F & P).
  { unfold S0. rewrite !bytes_ok_app. repeat split; try apply le_bytes_ok; try apply le_d_ok.
    repeat (apply Forall_cons; [unfold byte_ok; lia|]). apply Forall_nil. }
  { apply flat_Forall. intros a. repeat (apply Forall_cons; [cbn [fst snd q dp_px dp_py dp_pz]; split; [lia|apply u64_d_lt]|]). apply Forall_nil. }
  replace (write_fields true _ _) with (@Ok ioerr _ w) in S by (symmetry; exact E). cbn [bind] in S.
  rewrite F in S. apply Ok_inj in S. subst b.
  exists q, mx, my, my, pl. split; [reflexivity|]. split; [exact Mx|]. split; [exact My|]. split; [exact My|]. split; [|exact P].
  unfold S0, vertex_header_d. cbn [q dp_px dp_py dp_pz dp_box]. now rewrite <- !app_assoc.
Qed.

Lemma vertices_d lm vs prec edge b :
  (len vs <= 2 ^ 27)%N -> save_tmf_vertices_d lm true vs prec edge [] = Ok b ->
  (len b <= 2 ^ 31)%N /\ bytes_ok b /\ exists vs', read_tmf_vertices_d b = Ok vs' /\ vertex_rel_d lm prec edge vs vs'.
Proof.
  unfold len. intros H S. destruct (vertices_d_spec _ _ _ _ _ S) as (q & mx & my & mz & pl & V & Mx & My & Mz & -> & P).
  pose proof (mask_d30 _ _ Mx) as Hx. pose proof (mask_d30 _ _ My) as Hy. pose proof (mask_d30 _ _ Mz) as Hz.
  pose proof (packs_ok _ _ P) as Hpl. split; [|split].
  - rewrite app_length. unfold vertex_header_d. rewrite !app_length, !le_d_length, le_bytes_length. cbn [length].
    eapply (packs_flat _ _ 90) in P; [lia|].
    intros v. unfold vertex_fields_d. rewrite !field_bits_cons, !app_length, !bits_length. cbn [fst field_bits flat_map length]. lia.
  - apply bytes_ok_app. split; [|exact Hpl]. unfold vertex_header_d. rewrite !bytes_ok_app.
    repeat (split; [first [apply le_bytes_ok|apply le_d_ok]|]).
    repeat (apply Forall_cons; [unfold byte_ok; lia|]). apply Forall_nil.
  - unfold vertex_header_d. rewrite <- !app_assoc. unfold read_tmf_vertices_d.
    rewrite read_u64_w by (apply len64; lia). cbn [io map_err bind].
    do 6 (rewrite read_f64_d; cbn [io map_err bind]). cbn [app].
    do 3 (rewrite read_prec_w by lia; cbn [bind]). rewrite len_seg by lia. rewrite Nat2N.id.
    destruct (packs_bits _ _ [] P) as [pad Hpad]. rewrite app_nil_r in Hpad. eexists. split.
    + apply (read_many_ok _ (vertex_fields_d q mx my mz) (vertex_image_d q mx my mz)) with (rest := pad);
        [|apply rok_new; exact Hpl|rewrite rbits_new; exact Hpad].
      intros v r rest Hr Hb. unfold vertex_fields_d in Hb. rewrite !field_bits_cons in Hb. cbn [fst snd] in Hb.
      rewrite <- !app_assoc in Hb. cbn [field_bits flat_map app] in Hb.
      destruct (read_one r (dp_px q) _ _ Hr ltac:(lia) Hb) as (r1 & E1 & O1 & B1). rewrite E1. cbn [io map_err bind].
      destruct (read_one r1 (dp_py q) _ _ O1 ltac:(lia) B1) as (r2 & E2 & O2 & B2). rewrite E2. cbn [io map_err bind].
      destruct (read_one r2 (dp_pz q) _ _ O2 ltac:(lia) B2) as (r3 & E3 & O3 & B3). rewrite E3. cbn [io map_err bind].
      exists r3. auto.
    + cbn [app]. exists q, mx, my, mz. auto 10.
Qed.

(** ** Custom data *)
Definition float_width_d (lm : libm64) (l : list f64) (p : f64) : nat :=
  Nat.max (u8_of_f64 (dceil (l_log2 lm (ddiv (dsub (fst (float_range_d l)) (snd (float_range_d l))) p)))) 1.
Definition color_width_d (lm : libm64) (p : f64) : nat :=
  u8_of_f64 (dceil (l_log2 lm (ddiv d1 (dmin p d1)))).
Definition float_code_d (l : list f64) (mul x : f64) : N :=
  u64_of_f64 (dmul (ddiv (dsub x (snd (float_range_d l))) (dsub (fst (float_range_d l)) (snd (float_range_d l)))) mul).
Definition color_code_d (mul x : f64) : N := u64_of_f64 (dmul x mul).
Definition float_value_d (l : list f64) (w : nat) (q : N) : f64 :=
  let mn := snd (float_range_d l) in let mx := fst (float_range_d l) in
  dadd (dmul (ddiv (f64_of_N q) (f64_of_N (mask_u64 w))) (dsub mx mn)) mn.
Definition float_image_d (lm : libm64) (l : list f64) (p mul : f64) (x : f64) : f64 :=
  float_value_d l (float_width_d lm l p) (low (float_width_d lm l p) (float_code_d l mul x)).
Definition color_value_d (w : nat) (q : N) : f64 := ddiv (f64_of_N q) (f64_of_N (2 ^ N.of_nat w - 1)).
Definition map4_d (f : f64 -> f64) (v : dvec4) : dvec4 :=
  (f (fst (fst (fst v))), f (snd (fst (fst v))), f (snd (fst v)), f (snd v)).
(** The precision that a loaded segment reports. *)
Definition float_prec_d (l : list f64) (w : nat) : f64 :=
  dmul (ddiv (dsub (fst (float_range_d l)) (snd (float_range_d l))) (f64_of_N (2 ^ N.of_nat w))) d099999.
Definition color_prec_d (w : nat) : f64 := dmul (ddiv (f64_of_N 1) (f64_of_N (2 ^ N.of_nat w))) d099999.
Definition data_rel_d (lm : libm64) (a b : dcdata) : Prop :=
  match a, b with
  | XIndex l _, XIndex l' m => l' = l /\ m = max_or 0 l
  | XInteger l _, XInteger l' m => l' = l /\ m = max_or 0 l
  | XFloat l p, XFloat l' p' => p' = float_prec_d l (float_width_d lm l p) /\
      exists mul, mask_f64 (E:=ioerr) true (float_width_d lm l p) = Ok mul /\
      l' = map (float_image_d lm l p mul) l
  | XColor l p, XColor l' p' => p' = color_prec_d (color_width_d lm p) /\ exists mul, mask_f64 (E:=ioerr) true (color_width_d lm p) = Ok mul /\
      l' = map (map4_d (fun x => color_value_d (color_width_d lm p) (low (color_width_d lm p) (color_code_d mul x)))) l
  | _, _ => False
  end.
Definition custom_rel_d (lm : libm64) (a b : dcseg) : Prop :=
  x_name b = x_name a /\ x_name_len b = x_name_len a /\ data_rel_d lm (x_data a) (x_data b).

Lemma float_d lm l p hd b :
  (len l <= 2 ^ 27)%N -> bytes_ok hd -> cdata_write_d lm true (XFloat l p) hd = Ok b ->
  exists body d', b = hd ++ body /\ (len body + 300 <= 2 ^ 31)%N /\ bytes_ok body /\
    data_rel_d lm (XFloat l p) d' /\ read_custom_float_d body = Ok d'.
Proof.
  unfold len. intros H Hh S. cbn [cdata_write_d] in S. cbn [data_rel_d].
  destruct (float_range_d l) as [mx mn] eqn:FR. cbv zeta in S.
  match type of S with context [mask_f64 true ?a] => set (w := a) in S end.
  destruct (mask_f64 (E:=ioerr) true w) as [mul| |] eqn:M; try discriminate S. cbn [bind] in S.
  pose proof (mask_d30 _ _ M) as Hw.
  set (hd2 := le_bytes 8 (N.of_nat (length l)) ++ le_d mn ++ le_d mx ++ [N.of_nat w]) in S.
  set (ff := fun x => [(w, u64_of_f64 (dmul (ddiv (dsub x mn) (dsub mx mn)) mul))]).
  destruct (fields_written true (hd ++ hd2) (flat_map ff l)) as (wr & pl & E & F & P).
  { unfold hd2. rewrite !bytes_ok_app. repeat split; auto; try apply le_bytes_ok; try apply le_d_ok. apply small_byte. lia. }
  { apply flat_Forall. intros a. apply Forall_cons; [cbn [fst snd]; split; [lia|apply u64_d_lt]|apply Forall_nil]. }
  assert (FM : flat_map ff l = map (fun x => (w, u64_of_f64 (dmul (ddiv (dsub x mn) (dsub mx mn)) mul))) l).
  { clear. induction l as [|x l IH]; [reflexivity|]. cbn [flat_map map ff app]. now rewrite IH. }
  rewrite FM in E. rewrite E in S. cbn [bind] in S. rewrite F in S. apply Ok_inj in S. subst b. clear FM E F wr.
  pose proof (packs_ok _ _ P) as Hpl. destruct (packs_bits _ _ [] P) as [pad Hpad]. rewrite app_nil_r in Hpad.
  assert (FW : float_width_d lm l p = w) by (unfold float_width_d; rewrite FR; reflexivity).
  exists (hd2 ++ pl). eexists. split; [now rewrite <- app_assoc|]. split; [|split; [|split]].
  4:{ unfold read_custom_float_d, hd2. rewrite <- !app_assoc. rewrite read_u64_w by (apply len64; lia). cbn [io map_err bind].
      rewrite len_seg by lia. do 2 (rewrite read_f64_d; cbn [io map_err bind]). cbn [app]. rewrite read_prec_w by lia. cbn [bind].
      rewrite Nat2N.id.
      erewrite (read_many_ok _ ff (float_image_d lm l p mul)) with (rest := pad);
        [cbn [bind app]; reflexivity| |apply rok_new; exact Hpl|rewrite rbits_new; exact Hpad].
      intros x r rest Hr Hb. unfold ff in Hb. rewrite !field_bits_cons in Hb. cbn [fst snd] in Hb.
      rewrite <- !app_assoc in Hb. cbn [field_bits flat_map app] in Hb.
      destruct (read_one r w _ _ Hr ltac:(lia) Hb) as (r1 & E1 & O1 & B1). rewrite E1. cbn [io map_err bind].
      exists r1. split; [|auto]. unfold float_image_d, float_value_d, float_code_d. rewrite FW, FR. reflexivity. }
  - unfold hd2. rewrite !app_length, !le_d_length, le_bytes_length. cbn [length].
    eapply (packs_flat _ _ 30) in P; [lia|].
    intros v. unfold ff. rewrite !field_bits_cons, !app_length, !bits_length. cbn [fst field_bits flat_map length]. lia.
  - apply bytes_ok_app. split; [|exact Hpl]. unfold hd2. rewrite !bytes_ok_app.
    repeat split; try apply le_bytes_ok; try apply le_d_ok. apply small_byte. lia.
  - rewrite FW. split; [unfold float_prec_d; rewrite FR; reflexivity|]. exists mul. auto.
Qed.

Lemma color_d lm oc' l p hd b :
  (len l <= 2 ^ 27)%N -> bytes_ok hd -> cdata_write_d lm true (XColor l p) hd = Ok b ->
  exists body d', b = hd ++ body /\ (len body + 300 <= 2 ^ 31)%N /\ bytes_ok body /\
    data_rel_d lm (XColor l p) d' /\ read_custom_color_d oc' body = Ok d'.
Proof.
  unfold len. intros H Hh S. cbn [cdata_write_d] in S. cbn [data_rel_d]. cbv zeta in S.
  fold (color_width_d lm p) in S. set (w := color_width_d lm p) in *.
  destruct (mask_f64 (E:=ioerr) true w) as [mul| |] eqn:M; try discriminate S. cbn [bind] in S.
  pose proof (mask_d30 _ _ M) as Hw.
  set (hd2 := le_bytes 8 (N.of_nat (length l)) ++ [N.of_nat w]) in S.
  set (ff := fun v => map (fun x => (w, u64_of_f64 (dmul x mul))) (dc4 v)) in S.
  destruct (fields_written true (hd ++ hd2) (flat_map ff l)) as (wr & pl & E & F & P).
  { unfold hd2. rewrite !bytes_ok_app. repeat split; auto; try apply le_bytes_ok. apply small_byte. lia. }
  { apply flat_Forall. intros a. unfold ff, dc4. cbn [map]. repeat (apply Forall_cons; [cbn [fst snd]; split; [lia|apply u64_d_lt]|]). apply Forall_nil. }
  rewrite E in S. cbn [bind] in S. rewrite F in S. apply Ok_inj in S. subst b. clear E F wr.
  pose proof (packs_ok _ _ P) as Hpl. destruct (packs_bits _ _ [] P) as [pad Hpad]. rewrite app_nil_r in Hpad.
  exists (hd2 ++ pl). eexists. split; [now rewrite <- app_assoc|]. split; [|split; [|split]].
  4:{ unfold read_custom_color_d, hd2. rewrite <- !app_assoc. rewrite read_u64_w by (apply len64; lia). cbn [io map_err bind].
      cbn [app]. rewrite read_u8_cons by lia. cbn [io map_err bind].
      unfold color_alloc_ok_d. replace (N.of_nat (length l) * 32 <? 2 ^ 63)%N with true by (symmetry; apply N.ltb_lt; lia). cbn [negb].
      rewrite !Nat2N.id.
      assert (SH : shl64 (E:=ierr) oc' 1 w = Ok (2 ^ N.of_nat w)%N).
      { unfold shl64. replace (w <? 64) with true by (symmetry; apply Nat.ltb_lt; lia). cbv iota.
        rewrite N.shiftl_mul_pow2, N.mul_1_l. rewrite N.mod_small; [reflexivity|].
        apply (N.le_lt_trans _ (2 ^ 30)); [apply N.pow_le_mono_r; lia|reflexivity]. }
      rewrite SH. cbn [bind].
      erewrite (read_many_ok _ ff (map4_d (fun x => color_value_d w (low w (color_code_d mul x))))) with (rest := pad);
        [cbn [bind app]; reflexivity| |apply rok_new; exact Hpl|rewrite rbits_new; exact Hpad].
      intros x r rest Hr Hb. unfold ff, dc4 in Hb. cbn [map] in Hb. rewrite !field_bits_cons in Hb. cbn [fst snd] in Hb.
      rewrite <- !app_assoc in Hb. cbn [field_bits flat_map app] in Hb.
      destruct (read_two oc' r w _ _ _ Hr ltac:(lia) ltac:(lia) Hb) as (r1 & E1 & O1 & B1). rewrite E1. cbn [io map_err bind].
      destruct (read_two oc' r1 w _ _ _ O1 ltac:(lia) ltac:(lia) B1) as (r2 & E2 & O2 & B2). rewrite E2. cbn [io map_err bind].
      exists r2. split; [reflexivity|auto]. }
  - unfold hd2. rewrite !app_length, le_bytes_length. cbn [length].
    eapply (packs_flat _ _ 120) in P; [lia|].
    intros v. unfold ff, dc4. cbn [map]. rewrite !field_bits_cons, !app_length, !bits_length. cbn [fst field_bits flat_map length]. lia.
  - apply bytes_ok_app. split; [|exact Hpl]. unfold hd2. rewrite !bytes_ok_app.
    repeat split; try apply le_bytes_ok. apply small_byte. lia.
  - split; [reflexivity|]. exists mul. auto.
Qed.
