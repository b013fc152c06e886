(** What exactly the values of a saved mesh load back as: every vertex, normal, UV,
    tangent and custom value of the loaded mesh as a function of the saved one. *)
From Coq Require Import List NArith ZArith Arith Lia Bool ZifyN ZifyNat ZifyBool.
From Verif Require Import Base BitSpec BitLemmas UnalignedRW BitIOSpec UnalignedRW_proofs ReadExt ByteLemmas
  Triangles TriSpec Triangles_proofs OptTris Floats Floats_proofs Utilis Unify OptVertices Vertices Uv
  Normals CustomData Mesh Tmf File FileSpec Codec_proofs Parse_proofs File_proofs Load_proofs SaveSpec Merge_proofs
  Save_proofs Save2_proofs.
Import ListNotations.
Open Scope res_scope.

(** ** Relating the values of two meshes *)

Record rels := mk_rels {
  rv : list vec3 -> list vec3 -> Prop; rn : vec3 -> vec3 -> Prop; ru : vec2 -> vec2 -> Prop;
  rt : tangent -> tangent -> Prop; rs : cseg -> cseg -> Prop }.

Definition orel {A} (R : A -> A -> Prop) (a b : option (list A)) : Prop :=
  match a, b with
  | Some x, Some y => Forall2 R x y
  | None, None => True
  | _, _ => False
  end.
(** Vertices are stored in pieces, each piece related to its image. *)
Definition pieces {A} (R : list A -> list A -> Prop) (a b : list A) : Prop :=
  exists ps, a = concat (map fst ps) /\ b = concat (map snd ps) /\ Forall (fun p => R (fst p) (snd p)) ps.
Definition olift {A} (R : list A -> list A -> Prop) (a b : option (list A)) : Prop :=
  match a, b with
  | Some x, Some y => R x y
  | None, None => True
  | _, _ => False
  end.
Record mesh_rel (r : rels) (a b : mesh) : Prop := {
  mr_v : olift (pieces (rv r)) (vertices a) (vertices b);
  mr_n : orel (rn r) (normals a) (normals b);
  mr_u : orel (ru r) (uvs a) (uvs b);
  mr_t : orel (rt r) (tangents a) (tangents b);
  mr_s : Forall2 (rs r) (custom_data a) (custom_data b) }.

Definition drel (r : rels) (a b : dseg) : Prop :=
  match a, b with
  | DNothing, DNothing => True
  | DVertex l, DVertex l' => rv r l l'
  | DNormal l, DNormal l' => Forall2 (rn r) l l'
  | DUV l, DUV l' => Forall2 (ru r) l l'
  | DTangent l, DTangent l' => Forall2 (rt r) l l'
  | DTriVertex _, DTriVertex _ => True
  | DTriNormal _, DTriNormal _ => True
  | DTriUV _, DTriUV _ => True
  | DTriTangent _, DTriTangent _ => True
  | DShared k _, DShared k' _ => k = k'
  | DCustom s, DCustom s' => rs r s s'
  | _, _ => False
  end.

Lemma orel_append {A} (R : A -> A -> Prop) (a a' : option (list A)) l l' :
  orel R a a' -> Forall2 R l l' ->
  orel R (match a with Some v => Some (v ++ l) | None => Some l end)
         (match a' with Some v => Some (v ++ l') | None => Some l' end).
Proof. destruct a, a'; cbn; try tauto. intros. now apply Forall2_app. Qed.

Lemma pieces_append {A} (R : list A -> list A -> Prop) (a a' : option (list A)) l l' :
  olift (pieces R) a a' -> R l l' ->
  olift (pieces R) (match a with Some v => Some (v ++ l) | None => Some l end)
                   (match a' with Some v => Some (v ++ l') | None => Some l' end).
Proof.
  destruct a, a'; cbn; try tauto.
  - intros (ps & -> & -> & F) H. exists (ps ++ [(l, l')]). rewrite !map_app, !concat_app. cbn. rewrite !app_nil_r.
    split; [|split]; auto. apply Forall_app. auto.
  - intros _ H. exists [(l, l')]. cbn. rewrite !app_nil_r. auto.
Qed.

Lemma apply_rel r m m' d d' : mesh_rel r m m' -> drel r d d' -> mesh_rel r (apply m d) (apply m' d').
Proof.
  destruct m as [n nt v vt u ut t tt cd], m' as [n' nt' v' vt' u' ut' t' tt' cd'].
  intros [A1 A2 A3 A4 A5] H. cbn in *.
  destruct d, d'; cbn [drel] in H; try contradiction.
  - constructor; auto.
  - pose proof (pieces_append _ _ _ _ _ A1 H). destruct v, v'; try contradiction; constructor; auto.
  - pose proof (orel_append _ _ _ _ _ A2 H). destruct n, n'; try contradiction; constructor; auto.
  - pose proof (orel_append _ _ _ _ _ A3 H). destruct u, u'; try contradiction; constructor; auto.
  - pose proof (orel_append _ _ _ _ _ A4 H). destruct t, t'; try contradiction; constructor; auto.
  - destruct vt, vt'; constructor; auto.
  - destruct nt, nt'; constructor; auto.
  - destruct ut, ut'; constructor; auto.
  - destruct tt, tt'; constructor; auto.
  - subst. cbn [apply].
    destruct (has_mask mask0 MASK_VERTEX), (has_mask mask0 MASK_NORMAL), (has_mask mask0 MASK_UV);
    destruct vt, vt', nt, nt', ut, ut'; constructor; auto.
  - constructor; auto. cbn [apply add_custom_data_seg with_custom_data custom_data].
    apply Forall2_app; auto.
Qed.

Lemma build_rel r ds ds' : Forall2 (drel r) ds ds' -> forall m m', mesh_rel r m m' ->
  mesh_rel r (build ds m) (build ds' m').
Proof.
  induction 1 as [|d d' ds ds' H _ IH]; intros m m' S; auto. cbn [build fold_left].
  apply IH. now apply apply_rel.
Qed.

(** ** The images *)

Definition uv_rel (p : nat) (a b : vec2) : Prop :=
  if p =? 0 then b = (f0, f0)
  else exists mul, mask_f32 (E:=ioerr) true p = Ok mul /\ b = uv_image p mul (f32_of_N (mask_u64 p)) a.
Definition normal_rel (lm lm' : libm) (p : nat) (a b : vec3) : Prop :=
  exists c, normal_to_encoding (E:=ioerr) lm true a p = Ok c /\ b = normal_from_encoding lm' (low_code p c) p.
Definition tangent_rel (lm lm' : libm) (p : nat) (a b : tangent) : Prop :=
  normal_rel lm lm' p (fst a) (fst b) /\ snd b = ht_from_bool (ht_to_bool (snd a)).
Definition vertex_rel (lm : libm) (prec edge : f32) (a b : list vec3) : Prop :=
  exists q mx my mz, vertex_params lm a prec edge = Some q /\
    mask_f32 (E:=ioerr) true (vp_px q) = Ok mx /\ mask_f32 (E:=ioerr) true (vp_py q) = Ok my /\
    mask_f32 (E:=ioerr) true (vp_pz q) = Ok mz /\ b = map (vertex_image q mx my mz) a.
Definition data_rel (lm : libm) (a b : cdata) : Prop :=
  match a, b with
  | CIndex l _, CIndex l' m => l' = l /\ m = max_or 0 l
  | CInteger l _, CInteger l' m => l' = l /\ m = max_or 0 l
  | CFloat l p, CFloat l' p' => exists mul, mask_f32 (E:=ioerr) true (float_width lm l p) = Ok mul /\
      l' = map (float_image lm l p mul) l /\ p' = float_prec l (float_width lm l p)
  | CColor l p, CColor l' p' => exists mul, mask_f32 (E:=ioerr) true (color_width lm p) = Ok mul /\
      l' = map (map4 (fun x => color_value (color_width lm p) (low (color_width lm p) (color_code mul x)))) l /\
      p' = color_prec (color_width lm p)
  | _, _ => False
  end.
Definition custom_rel (lm : libm) (a b : cseg) : Prop :=
  c_name b = c_name a /\ c_name_len b = c_name_len a /\ data_rel lm (c_data a) (c_data b).

Definition image_rels (lm lm' : libm) (p : prec_info) (edge : f32) : rels :=
  mk_rels (vertex_rel lm (vertex_precision p) edge) (normal_rel lm lm' (normal_precision p))
          (uv_rel (uv_prec p)) (tangent_rel lm lm' (tangent_prec p)) (custom_rel lm).

Lemma F2_map {A B} (R : A -> B -> Prop) (f : A -> B) l :
  (forall a, In a l -> R a (f a)) -> Forall2 R l (map f l).
Proof.
  induction l as [|a l IH]; intros H; constructor; [apply H; now left|]. apply IH. intros b Hb. apply H. now right.
Qed.
Lemma F2_map_res {E A B} (f : A -> res E B) l l' :
  map_res f l = Ok l' -> Forall2 (fun a b => f a = Ok b) l l'.
Proof.
  revert l'. induction l as [|a l IH]; intros l' H; cbn [map_res] in H.
  - injection H as <-. constructor.
  - destruct (f a) as [b| |] eqn:Fa; try discriminate. cbn [bind] in H.
    destruct (map_res f l) as [bs| |]; try discriminate. injection H as <-. constructor; auto.
Qed.
Lemma F2_map_r {A B C} (R : A -> C -> Prop) (g : B -> C) l l' :
  Forall2 (fun a b => R a (g b)) l l' -> Forall2 R l (map g l').
Proof. induction 1; constructor; auto. Qed.
Lemma F2_impl {A B} (R S : A -> B -> Prop) l l' :
  (forall a b, R a b -> S a b) -> Forall2 R l l' -> Forall2 S l l'.
Proof. intros H. induction 1; constructor; auto. Qed.

Lemma image_vertices lm prec edge vs b l' :
  (len vs <= 2 ^ 27)%N -> save_tmf_vertices lm true vs prec edge [] = Ok b ->
  read_tmf_vertices b = Ok l' -> vertex_rel lm prec edge vs l'.
Proof.
  unfold len. intros H S R'.
  assert (exists p mx my mz, vertex_params lm vs prec edge = Some p /\
    mask_f32 (E:=ioerr) true (vp_px p) = Ok mx /\ mask_f32 (E:=ioerr) true (vp_py p) = Ok my /\
    mask_f32 (E:=ioerr) true (vp_pz p) = Ok mz) as (p & mx & my & mz & V & Mx & My & Mz).
  { unfold save_tmf_vertices in S. unfold vertex_params.
    destruct (bounding_box (E:=ioerr) vs) as [bb| |]; try discriminate. cbn [bind] in S. cbv zeta in S.
    eexists. match type of S with context [mask_f32 true ?a] => destruct (mask_f32 (E:=ioerr) true a) as [mx| |] eqn:Mx end; try discriminate.
    cbn [bind] in S. match type of S with context [mask_f32 true ?a] => destruct (mask_f32 (E:=ioerr) true a) as [my| |] eqn:My end; try discriminate.
    exists mx, my, my. split; [reflexivity|]. cbn [vp_px vp_py vp_pz]. auto. }
  pose proof (mask_30 _ _ Mx). pose proof (mask_30 _ _ My). pose proof (mask_30 _ _ Mz).
  destruct (vertices_roundtrip lm true vs prec edge p mx my mz []) as (b' & S' & B & R); auto; try lia.
  { constructor. }
  rewrite S in S'. injection S' as <-. rewrite app_nil_r in R. rewrite R in R'. apply Ok_inj in R'. subst l'.
  exists p, mx, my, mz. auto 10.
Qed.

Lemma image_uvs oc' l p b l' :
  (len l <= 2 ^ 27)%N -> save_uvs true l p [] = Ok b -> read_uvs oc' b = Ok l' -> Forall2 (uv_rel p) l l'.
Proof.
  unfold len. intros H S R'.
  assert (exists mul, mask_f32 (E:=ioerr) true p = Ok mul) as [mul M].
  { unfold save_uvs in S. destruct (mask_f32 (E:=ioerr) true p); try discriminate. eauto. }
  pose proof (mask_30 _ _ M). unfold uv_rel. destruct (Nat.eqb_spec p 0) as [->|].
  - destruct (uvs_roundtrip_0 true oc' l []) as (b' & S' & B & R); [lia|constructor|].
    rewrite S in S'. injection S' as <-. rewrite app_nil_r in R. rewrite R in R'. apply Ok_inj in R'. subst l'.
    now apply F2_map.
  - destruct (uvs_roundtrip true oc' l p mul []) as (b' & S' & B & R); auto; try lia; [constructor|].
    rewrite S in S'. injection S' as <-. rewrite app_nil_r in R. rewrite R in R'. apply Ok_inj in R'. subst l'.
    apply F2_map. eauto.
Qed.

Lemma image_normals lm lm' oc' l p b l' :
  (len l <= 2 ^ 27)%N -> p <= 30 -> save_normal_array lm true l p [] = Ok b ->
  read_normal_array lm' oc' b = Ok l' -> Forall2 (normal_rel lm lm' p) l l'.
Proof.
  unfold len. intros H Hp S R'.
  assert (exists codes, map_res (E:=ioerr) (fun n => normal_to_encoding lm true n p) l = Ok codes) as [codes C].
  { unfold save_normal_array in S. cbv zeta in S.
    destruct (map_res (E:=ioerr) (fun n => normal_to_encoding lm true n p) l); try discriminate. eauto. }
  destruct (normals_roundtrip lm lm' true oc' l p codes []) as (b' & S' & B & R); auto; try lia; [constructor|].
  rewrite S in S'. injection S' as <-. rewrite app_nil_r in R. rewrite R in R'. apply Ok_inj in R'. subst l'.
  apply F2_map_r. eapply F2_impl; [|exact (F2_map_res _ _ _ C)]. cbv beta. intros a c E. exists c. auto.
Qed.

Lemma image_tangents lm lm' l p b l' :
  (len l <= 2 ^ 27)%N -> p <= 30 -> save_tangents lm true l p [] = Ok b ->
  read_tangents lm' b = Ok l' -> Forall2 (tangent_rel lm lm' p) l l'.
Proof.
  unfold len. intros H Hp S R'.
  assert (exists codes, map_res (tangent_code lm true p) l = Ok codes) as [codes C].
  { unfold save_tangents in S. cbv zeta in S.
    change (map_res (E:=ioerr) (fun t => let* c := normal_to_encoding lm true (fst t) p in Ok (ht_to_bool (snd t), c)) l)
      with (map_res (tangent_code lm true p) l) in S.
    destruct (map_res (tangent_code lm true p) l); try discriminate. eauto. }
  destruct (tangents_roundtrip lm lm' true l p codes []) as (b' & S' & B & R); auto; try lia; [constructor|].
  rewrite S in S'. injection S' as <-. rewrite app_nil_r in R. rewrite R in R'. apply Ok_inj in R'. subst l'.
  apply F2_map_r. eapply F2_impl; [|exact (F2_map_res _ _ _ C)]. cbv beta. intros a [h c] E.
  unfold tangent_code in E. destruct (normal_to_encoding lm true (fst a) p) as [c'| |] eqn:EN; try discriminate.
  cbn [bind] in E. apply Ok_inj in E. injection E as <- <-. cbn [fst snd]. split; [exists c'; auto|reflexivity].
Qed.

Lemma image_custom lm oc' s b s' :
  custom_ok s -> cseg_encode lm true s [] = Ok b ->
  cseg_read oc' new_ctx (cdata_kind (c_data s)) b = Ok s' -> custom_rel lm s s'.
Proof.
  intros C S R'. pose proof (name_header s C) as (N1 & N2 & N3 & N4 & N5 & N6).
  unfold cseg_encode in S. rewrite N1 in S. cbn [app] in S. rewrite N2 in S.
  pose proof C as (C1 & C2 & C3 & C4). unfold len in *.
  set (hd := c_name_len s :: c_name s) in *.
  assert (Main : exists body d', b = hd ++ body /\ data_rel lm (c_data s) d' /\
    match cdata_kind (c_data s) with
    | KIndex => let* l := read_triangles oc' new_ctx body in Ok (new_index l)
    | KInteger => let* l := read_triangles oc' new_ctx body in Ok (new_integer l)
    | KFloat => read_custom_float body
    | KColor => read_custom_color oc' body
    end = Ok d').
  { clear R'. destruct (c_data s) as [l m|l m|l p|l p]; cbn [cdata_write cdata_kind] in *.
    - assert (U : u32s l). { eapply Forall_impl; [|exact (proj1 (proj2 C4))]. cbv beta. lia. }
      assert (M : (m < 2 ^ 64)%N) by (destruct C4 as (_ & _ & ?); lia).
      destruct (save_triangles_spec true l m [] (Forall_nil _) U M) as (p & S1 & _).
      rewrite (save_triangles_sink true l m hd _ U M N3 S1) in S. apply Ok_inj in S. symmetry in S.
      destruct (good_integers true oc' l m _ C4 S1) as (G1 & G2 & G3).
      eexists. exists (new_index l). split; [exact S|]. split; [split; reflexivity|]. now rewrite G3.
    - assert (U : u32s l). { eapply Forall_impl; [|exact (proj1 (proj2 C4))]. cbv beta. lia. }
      assert (M : (m < 2 ^ 64)%N) by (destruct C4 as (_ & _ & ?); lia).
      destruct (save_triangles_spec true l m [] (Forall_nil _) U M) as (p & S1 & _).
      rewrite (save_triangles_sink true l m hd _ U M N3 S1) in S. apply Ok_inj in S. symmetry in S.
      destruct (good_integers true oc' l m _ C4 S1) as (G1 & G2 & G3).
      eexists. exists (new_integer l). split; [exact S|]. split; [split; reflexivity|]. now rewrite G3.
    - assert (exists mul, mask_f32 (E:=ioerr) true (float_width lm l p) = Ok mul) as [mul M].
      { change (cdata_write lm true (CFloat l p) hd = Ok b) in S. cbn [cdata_write] in S.
        unfold float_width. destruct (float_range l) as [mx mn] eqn:FR. cbv zeta in S. cbn [fst snd].
        match type of S with context [mask_f32 true ?a] => destruct (mask_f32 (E:=ioerr) true a) end;
          try discriminate. eauto. }
      pose proof (mask_30 _ _ M) as W.
      destruct (save_float_spec lm true l p mul hd N3) as (pl & S1 & Pk); auto; [lia|].
      change (cdata_write lm true (CFloat l p) hd = Ok b) in S. rewrite S in S1. apply Ok_inj in S1.
      destruct Pk as (P1 & P2 & [pad P3]).
      destruct (read_float_ok l (float_width lm l p) (float_code l mul) pl) with (pad := repeat false pad) as (q & R & QE); auto; try lia.
      eexists. eexists. split; [exact S1|]. split; [|exact R]. cbn [data_rel]. exists mul. auto.
    - assert (exists mul, mask_f32 (E:=ioerr) true (color_width lm p) = Ok mul) as [mul M].
      { unfold color_width. cbv zeta in S.
        match type of S with context [mask_f32 true ?a] => destruct (mask_f32 (E:=ioerr) true a) end;
          try discriminate. eauto. }
      pose proof (mask_30 _ _ M) as W.
      destruct (save_color_spec lm true l p mul hd N3) as (pl & S1 & Pk); auto; [lia|].
      change (cdata_write lm true (CColor l p) hd = Ok b) in S. rewrite S in S1. apply Ok_inj in S1.
      pose proof Pk as (P1 & P2 & P3). destruct P3 as [pad P3].
      destruct (read_color_ok oc' l (color_width lm p) mul pl) with (pad := repeat false pad) as (q & R & QE); auto; try lia.
      eexists. eexists. split; [exact S1|]. split; [|exact R]. cbn [data_rel]. exists mul. auto. }
  destruct Main as (body & d' & -> & SD & R).
  unfold cseg_read, hd in R'. cbn [app] in R'. rewrite N5 in R'. cbn [io map_err bind] in R'.
  rewrite N6 in R'. cbn [io map_err bind] in R'.
  match type of R' with bind ?x _ = _ => replace x with (@Ok ierr _ d') in R' end.
  cbn [bind] in R'. rewrite N4 in R'. apply Ok_inj in R'. subst s'. split; [|split]; auto.
Qed.

Lemma image_segment lm lm' oc' p edge d e d' :
  prec_fine p -> dok d -> is_something d = true ->
  encode lm true p edge d = Ok e -> decode lm' oc' new_ctx e = Ok d' ->
  drel (image_rels lm lm' p edge) d d'.
Proof.
  intros HP D Sm E R.
  destruct (encode_good lm lm' oc' p edge d e HP D Sm E) as (_ & _ & _ & d2 & R2 & DS).
  rewrite R in R2. apply Ok_inj in R2. subst d2. destruct HP as [Hn Ht]. unfold encode in E.
  destruct d as [|l|l|l|l|l|l|l|l|k l|s]; [discriminate| | | | | | | | | |]; cbn [dok] in D;
    destruct d' as [|l'|l'|l'|l'|l'|l'|l'|l'|k' l'|s']; cbn [dsame] in DS; try contradiction; cbn [drel]; auto.
  - destruct (save_tmf_vertices lm true l _ edge []) as [b| |] eqn:S; try discriminate. injection E as <-.
    unfold decode in R. cbn [e_type e_data] in R. destruct (read_tmf_vertices b) as [x| |] eqn:RR; try discriminate.
    apply Ok_inj in R. injection R as ->. eapply image_vertices; eauto.
  - destruct (save_normal_array lm true l _ []) as [b| |] eqn:S; try discriminate. injection E as <-.
    unfold decode in R. cbn [e_type e_data] in R. destruct (read_normal_array lm' oc' b) as [x| |] eqn:RR; try discriminate.
    apply Ok_inj in R. injection R as ->. eapply image_normals; eauto.
  - destruct (save_uvs true l _ []) as [b| |] eqn:S; try discriminate. injection E as <-.
    unfold decode in R. cbn [e_type e_data] in R. destruct (read_uvs oc' b) as [x| |] eqn:RR; try discriminate.
    apply Ok_inj in R. injection R as ->. eapply image_uvs; eauto.
  - destruct (save_tangents lm true l _ []) as [b| |] eqn:S; try discriminate. injection E as <-.
    unfold decode in R. cbn [e_type e_data] in R. destruct (read_tangents lm' b) as [x| |] eqn:RR; try discriminate.
    apply Ok_inj in R. injection R as ->. eapply image_tangents; eauto.
  - apply DS.
  - destruct (cseg_encode lm true s []) as [b| |] eqn:S; try discriminate. injection E as <-.
    unfold decode in R. cbn [e_type e_data] in R.
    destruct (cseg_read oc' new_ctx (cdata_kind (c_data s)) b) as [x| |] eqn:RR; try discriminate.
    apply Ok_inj in R. injection R as ->. eapply image_custom; eauto.
Qed.

(** ** Whole meshes and files *)

Definition loaded_as (lm lm' : libm) (p : prec_info) (m m' : mesh) : Prop :=
  exists edge, calc_shortest_edge (vertex_triangles m) (vertices m) = Ok edge /\
    mesh_rel (image_rels lm lm' p edge) (with_custom_data m (rev (custom_data m))) m'.

Lemma mesh_loads_as lm lm' oc' p m name out :
  prec_fine p -> storable m -> name_ok name -> (segment_count lm true m < 65536)%N ->
  traced (write_mesh lm true p m name) out (Ok tt) ->
  exists raw m', out = mesh_bytes seg_bytes raw /\ mesh_ok raw /\ fst raw = name /\
    load_raw lm' oc' new_ctx raw = Ok (m', name) /\ loaded_as lm lm' p m m'.
Proof.
  intros HP HS HN HC T. apply mesh_inv in T as (edge & segs & es & E1 & E2 & E3 & ->).
  unfold segment_count, segment_list in HC. rewrite E2 in HC.
  destruct (dok_merged m HS) as [D1 D2].
  pose proof (optimize_all_all dok lm true _ _ dok_sub D1 E2) as D3.
  assert (D4 : Forall (fun d => is_something d = true) segs).
  { eapply (optimize_all_all (fun d => is_something d = true)); eauto.
    unfold sub_ok. cbn. tauto. }
  assert (G : exists ds, Forall2 (drel (image_rels lm lm' p edge)) segs ds /\
                         map (decode lm' oc' new_ctx) es = map Ok ds).
  { clear -E3 D3 D4 HP. induction E3 as [|s e segs es H _ IH]; [exists []; split; auto|].
    apply Forall_cons_iff in D3 as [Da D3]. apply Forall_cons_iff in D4 as [Db D4].
    destruct (IH D3 D4) as (ds & F & M).
    destruct (encode_good lm lm' oc' p edge s e HP Da Db H) as (_ & _ & _ & d' & Dd & Ds).
    exists (d' :: ds). split; [|cbn [map]; now rewrite Dd, M].
    constructor; auto. eapply image_segment; eauto. }
  assert (F : Forall (fun e => (len (e_data e) <= 2 ^ 31)%N /\ bytes_ok (e_data e) /\ e_comp e = CNone) es).
  { clear -E3 D3 D4 HP. induction E3 as [|s e segs es H _ IH]; constructor.
    - apply Forall_cons_iff in D3 as [Da D3]. apply Forall_cons_iff in D4 as [Db D4].
      destruct (encode_good lm lm true p edge s e HP Da Db H) as (A & B & C & _). auto.
    - apply Forall_cons_iff in D3 as [Da D3]. apply Forall_cons_iff in D4 as [Db D4]. auto. }
  destruct G as (ds & G1 & G2).
  assert (Le : length es = length segs) by (symmetry; exact (F2_length _ _ _ E3)).
  exists (name, map raw_of es), (build ds empty).
  split; [|split; [|split; [|split]]].
  - unfold mesh_bytes. cbn [fst snd]. rewrite !lend_le. unfold len. rewrite map_length, Le.
    do 3 f_equal. rewrite !map_map. f_equal.
    clear -F. induction F as [|e es (H & _) _ IH]; [reflexivity|]. cbn [map]. f_equal; auto.
    now apply segment_layout.
  - split; [exact HN|]. cbn [snd]. split.
    + unfold len in *. rewrite map_length, Le. auto.
    + rewrite Forall_map. eapply Forall_impl; [|exact F]. intros e (H1 & H2 & H3).
      unfold frameable, raw_of. cbn [r_kind r_comp r_payload]. split; [apply section_code_ok|].
      split; [apply compression_code_ok|auto].
  - reflexivity.
  - unfold load_raw. cbn [fst snd].
    assert (EM : map eseg_of (map raw_of es) = es).
    { clear. induction es as [|e es IH]; [reflexivity|]. cbn [map]. now rewrite eseg_of_raw, IH. }
    rewrite EM. rewrite (join_ok _ ds) by auto. reflexivity.
  - exists edge. split; auto. rewrite <- build_merged, <- (build_optimize_all lm true _ _ _ E2).
    apply build_rel; auto. constructor; cbn; auto.
Qed.

(** A saved file loads, and each mesh loads as its image. *)
Lemma saved_loads_as lm lm' oc' p l out :
  prec_fine p -> savable lm l -> saved lm true p l = Ok out ->
  exists l', read_tmf lm' oc' out = Ok l' /\
    Forall2 (fun a b => snd a = snd b /\ loaded_as lm lm' p (fst a) (fst b)) l l'.
Proof.
  intros HP [HL HF] S. apply saved_inv in S as (outs & -> & F).
  assert (G : exists raws l', concat outs = concat (map (mesh_bytes seg_bytes) raws) /\ Forall mesh_ok raws /\
    length raws = length l /\
    map (load_raw lm' oc' new_ctx) raws = map Ok l' /\
    Forall2 (fun a b => snd a = snd b /\ loaded_as lm lm' p (fst a) (fst b)) l l').
  { clear HL. induction F as [|[m name] o l outs H _ IH].
    - exists [], []. repeat split; constructor.
    - apply Forall_cons_iff in HF as [(A & B & C) HF]. destruct (IH HF) as (raws & l' & E1 & E2 & E3 & E6 & E7).
      destruct (mesh_loads_as lm lm' oc' p m name o) as (raw & m' & R1 & R2 & R3 & R5 & R6); auto.
      exists (raw :: raws), ((m', name) :: l'). cbn [concat map length]. rewrite R1, E1, E3, R5, E6.
      repeat split; auto. }
  destruct G as (raws & l' & E1 & E2 & E3 & E6 & E7).
  assert (FO : file_ok raws). { split; auto. unfold len in *. lia. }
  exists l'. split; auto.
  assert (EB : header_bytes 0 2 0 2 ++ lend 4 (len l) ++ concat outs = file_bytes raws).
  { unfold file_bytes. rewrite E1. unfold len. now rewrite E3. }
  rewrite EB. unfold read_tmf.
  rewrite <- (app_nil_r (file_bytes raws)), import_new by auto. rewrite (collect_ok _ l') by auto. reflexivity.
Qed.
