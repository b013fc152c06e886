(** Without overflow checks: exactly which saves succeed. *)
From Coq Require Import List NArith ZArith Arith Bool Lia ZifyN ZifyNat ZifyBool.
From Flocq Require Import IEEE754.BinarySingleNaN.
From Verif Require Import Base BitSpec UnalignedRW UnalignedRW_proofs ReadExt ByteLemmas Triangles TriSpec
  Triangles_proofs OptTris OptTris_proofs Floats Utilis Unify Vertices Uv Normals CustomData Mesh
  OptVertices OptVertices_proofs Tmf File Parse_proofs Codec_proofs FileSpec File_proofs
  NoPanic_proofs Load_proofs SaveSpec Merge_proofs Save_proofs Agree_proofs Save2_proofs Panic_proofs Split_proofs.
Import ListNotations.
Open Scope res_scope.
Ltac Zify.zify_post_hook ::= Z.div_mod_to_equations.

Definition okr {E A} (r : res E A) : Prop := exists a, r = Ok a.
Lemma okr_ok {E A} (a : A) : okr (@Ok E A a). Proof. now exists a. Qed.
Lemma okr_bind {E A B} (m : res E A) (k : A -> res E B) : okr m -> (forall a, okr (k a)) -> okr (bind m k).
Proof. intros [a ->] K. apply K. Qed.
Lemma okr_map {E A B} (f : A -> res E B) l : (forall a, okr (f a)) -> okr (map_res f l).
Proof. apply map_res_ok. Qed.
Lemma write_loop_ok fuel : forall w n d, w_written w < 8 -> n <= fuel ->
  exists w', write_loop fuel w n d = Ok w' /\ w_written w' < 8.
Proof.
  induction fuel as [|fuel IH]; intros w n d W L; cbn [write_loop].
  - assert (n = 0) as -> by lia. cbn. eauto.
  - destruct (Nat.eqb_spec n 0) as [->|NZ]; [eauto|]. cbv zeta. apply IH.
    + destruct (8 <=? _) eqn:C; cbn [w_written]; lia.
    + lia.
Qed.
Lemma write_ok w n v : w_written w < 8 -> exists w', write_unaligned false w n v = Ok w' /\ w_written w' < 8.
Proof.
  intros W. unfold write_unaligned. destruct (n =? 0); [eauto|].
  assert (okr (sub8 (E:=ioerr) false 64 n)) as [k ->] by (unfold sub8; destruct (n <=? 64); apply okr_ok). cbn [bind].
  assert (okr (shl64 (E:=ioerr) false v k)) as [x ->] by (unfold shl64; destruct (k <? 64); apply okr_ok). cbn [bind].
  now apply write_loop_ok.
Qed.
Lemma fields_ok fs : forall w, w_written w < 8 -> okr (write_fields false w fs).
Proof.
  induction fs as [|[n v] fs IH]; intros w W; cbn [write_fields]; [apply okr_ok|].
  destruct (write_ok w n v W) as (w' & -> & W'). now apply IH.
Qed.
Lemma new_fields_ok s fs : okr (write_fields false (writer_new s) fs).
Proof. apply fields_ok. cbn. lia. Qed.
Lemma mask_rel {E} p : okr (@mask_f32 E false p).
Proof.
  unfold mask_f32, mask_i32. apply okr_bind; [|intros; apply okr_ok].
  apply okr_bind; [destruct (p <? 32); apply okr_ok|]. intros s. destruct (_ <=? _)%Z; apply okr_ok.
Qed.
Lemma code_ok {E} lm n p : okr (@normal_to_encoding E lm false n p).
Proof. unfold normal_to_encoding. apply okr_bind; [apply mask_rel|intros; apply okr_ok]. Qed.
Lemma tris_ok l m s : okr (save_triangles false l m s).
Proof. unfold save_triangles. cbv zeta. apply okr_bind; [apply new_fields_ok|intros; apply okr_ok]. Qed.

(** What can be encoded. *)
Definition dgood (d : dseg) : Prop :=
  match d with
  | DVertex l => l <> []
  | DCustom s => (c_name_len s <= len (c_name s))%N
  | _ => True
  end.
Lemma encode_good lm p e d : dgood d -> okr (encode lm false p e d).
Proof.
  intros G. unfold encode. apply okr_bind; [|intros [? ?]; apply okr_ok].
  destruct d; cbn [dgood] in G; try apply okr_ok; (apply okr_bind; [|intros; apply okr_ok]); try apply tris_ok.
  - unfold save_tmf_vertices. apply okr_bind; [unfold bounding_box; destruct l; [congruence|apply okr_ok]|].
    intros b. cbv zeta. repeat (apply okr_bind; [first [apply mask_rel|apply new_fields_ok]|intros]). apply okr_ok.
  - unfold save_normal_array. cbv zeta. apply okr_bind; [apply okr_map; intros; apply code_ok|]. intros.
    apply okr_bind; [apply new_fields_ok|intros; apply okr_ok].
  - unfold save_uvs. apply okr_bind; [apply mask_rel|]. intros. cbv zeta.
    apply okr_bind; [apply new_fields_ok|intros; apply okr_ok].
  - unfold save_tangents. cbv zeta.
    apply okr_bind; [apply okr_map; intros; apply okr_bind; [apply code_ok|intros; apply okr_ok]|]. intros.
    apply okr_bind; [apply new_fields_ok|intros; apply okr_ok].
  - unfold cseg_encode. unfold len in G. destruct (_ <? _)%N eqn:C; [lia|].
    destruct (c_data s); cbn [cdata_write]; try apply tris_ok.
    + destruct (float_range l). cbv zeta. apply okr_bind; [apply mask_rel|]. intros.
      apply okr_bind; [apply new_fields_ok|intros; apply okr_ok].
    + apply okr_bind; [apply mask_rel|]. intros. cbv zeta. apply okr_bind; [apply new_fields_ok|intros; apply okr_ok].
Qed.
Lemma opt_vertices_rel lm l : okr (opt_vertices lm false l).
Proof. apply opt_vertices_release_fuel. lia. Qed.
Lemma optimize_good lm segs : Forall dval segs -> Forall dgood segs ->
  exists o, optimize_all lm false segs = Ok o /\ Forall dgood o.
Proof.
  induction segs as [|d segs IH]; intros D G; cbn [optimize_all]; [eauto|].
  apply Forall_cons_iff in D as [D1 D2]. apply Forall_cons_iff in G as [G1 G2]. destruct (IH D2 G2) as (o & -> & O).
  assert (exists a, optimize lm false d = Ok a /\ Forall dgood a) as (a & -> & A).
  { assert (T : forall (l : list N) (mk : list N -> dseg), (forall x, dgood (mk x)) -> u32s l -> (len l < 2 ^ 57)%N ->
      exists a, (let* o := opt_tris false l in Ok (map mk o)) = Ok a /\ Forall dgood a).
    { intros l mk M U L. destruct (tris_pieces false l U L) as (x & -> & _). cbn [bind]. eexists. split; [reflexivity|].
      apply Forall_map, Forall_forall. intros. apply M. }
    destruct d; cbn [optimize dval] in *; try (eexists; split; [reflexivity|]; apply Forall_cons; [exact G1|apply Forall_nil]);
      try solve [destruct D1 as [U L]; apply T; auto; intros; exact I].
    - destruct (opt_vertices_rel lm l) as [x X]. rewrite X. cbn [bind]. eexists. split; [reflexivity|].
      apply vertices_pieces in X as (_ & _ & F & _). apply Forall_map. cbn [dgood] in *. exact (F G1).
    - destruct D1 as (_ & U & L). match goal with |- context [DShared ?k] => apply (T l (DShared k)) end; auto; intros; exact I. }
  cbn [map_err bind]. eexists. split; [reflexivity|]. apply Forall_app. auto.
Qed.
Definition named (m : mesh) : Prop := Forall (fun s => (c_name_len s <= len (c_name s))%N) (custom_data m).
Lemma merged_good m : named m -> vertices m <> Some [] -> Forall dgood (merge_segments (tmf_segs m)).
Proof.
  intros NM V.
  assert (F : Forall (fun d => (dgood d /\ forall k l, d = DShared k l -> (0 < k < 8)%N) /\ is_something d = true) (merge_segments (tmf_segs m))).
  { apply merge_loop_keeps.
    - split; [exact I|discriminate].
    - intros l _ k K. split; [exact I|]. intros k' l' E. injection E as <- <-. exact K.
    - intros k l [_ H]. eapply H. reflexivity.
    - apply Forall_rev. unfold tmf_segs. rewrite !Forall_app.
      set (Q := fun d => dgood d /\ forall k l, d = DShared k l -> (0 < k < 8)%N).
      assert (O : forall A (f : A -> dseg) (o : option A), (forall x, o = Some x -> Q (f x)) -> Forall Q (opt_seg f o)).
      { intros A f [x|] HH; constructor; auto. }
      split; [apply O; intros x HX; split; [|discriminate]; cbn [dgood]; intros ->; congruence|].
      do 7 (split; [apply O; intros x HX; split; [exact I|discriminate]|]).
      rewrite Forall_map. eapply Forall_impl; [|exact NM]. intros s HS. split; [exact HS|discriminate]. }
  eapply Forall_impl; [|exact F]. cbv beta. tauto.
Qed.
Lemma write_mesh_rel lm p m name edge segs es :
  calc_shortest_edge (vertex_triangles m) (vertices m) = Ok edge ->
  optimize_all lm false (merge_segments (tmf_segs m)) = Ok segs ->
  Forall2 (fun s e => encode lm false p edge s = Ok e) segs es ->
  exists o, traced (write_mesh lm false p m name) o (Ok tt).
Proof.
  intros E1 E2 E3. eexists. unfold write_mesh. eapply traced_bind; [apply traced_chunks|].
  rewrite E1. eapply traced_bind; [apply traced_pure|]. rewrite E2. eapply traced_bind; [apply traced_pure|]. cbv zeta.
  assert (M : map (fun s => map_err XIo (encode lm false p edge s)) segs = map Ok es).
  { clear -E3. induction E3 as [|s e segs es H _ IH]; [reflexivity|]. cbn [map]. rewrite H, IH. reflexivity. }
  rewrite M.
  assert (P : existsb is_panic (map (@Ok xerr eseg) es) = false).
  { clear. induction es; auto. }
  rewrite P. eapply traced_bind; [apply traced_pure|]. eapply traced_bind; [apply traced_write|]. apply write_segments_ok.
Qed.
Lemma edge_good m : ~ bad_vertices m -> exists e, calc_shortest_edge (vertex_triangles m) (vertices m) = Ok e.
Proof.
  intros B. destruct (vertex_triangles m) as [[|i t]|] eqn:T; [eexists; reflexivity| |eexists; reflexivity].
  destruct (vertices m) as [v|] eqn:V; [|eexists; reflexivity].
  destruct (edge_spec v (i :: t)) as [(_ & _ & H)|[H _]]; [discriminate|exact H|].
  exfalso. apply B. right. exists v, (i :: t). rewrite V, T. repeat split; auto. discriminate.
Qed.
Lemma release_saves lm p l :
  Forall (fun mn => holdable (fst mn) /\ named (fst mn) /\ ~ bad_vertices (fst mn)) l ->
  exists out, saved lm false p l = Ok out.
Proof.
  intros F.
  assert (W : exists o, traced (write_meshes lm false p l) o (Ok tt)).
  { induction F as [|[m name] l (H & NM & B) _ [o IH]]; cbn [write_meshes fst] in *; [eexists; apply traced_ret|].
    destruct (merged_dval m H) as [D _].
    assert (G : Forall dgood (merge_segments (tmf_segs m))).
    { apply merged_good; auto. intros V. apply B. now left. }
    destruct (optimize_good lm _ D G) as (segs & E2 & G2). destruct (edge_good m B) as [edge E1].
    assert (exists es, Forall2 (fun s e => encode lm false p edge s = Ok e) segs es) as [es E3].
    { clear -G2. induction G2 as [|d segs G _ [es IH]]; [exists []; constructor|].
      destruct (encode_good lm p edge d G) as [e E]. exists (e :: es). auto. }
    destruct (write_mesh_rel lm p m name _ _ _ E1 E2 E3) as [o1 T]. eexists. eapply traced_bind; [exact T|exact IH]. }
  destruct W as [o W]. eexists. apply saved_traced. eapply traced_bind; [apply traced_chunks|exact W].
Qed.
Lemma bad_vertices_dec m : bad_vertices m \/ ~ bad_vertices m.
Proof.
  assert (D : (exists e, calc_shortest_edge (vertex_triangles m) (vertices m) = Ok e) \/ ~ exists e, calc_shortest_edge (vertex_triangles m) (vertices m) = Ok e).
  { destruct (calc_shortest_edge _ _); [left; eauto|right; intros [? ?]; discriminate|right; intros [? ?]; discriminate]. }
  destruct (vertices m) as [[|v0 v]|] eqn:V.
  - left. now left.
  - destruct (vertex_triangles m) as [[|i t]|] eqn:T.
    + right. intros [B|(v' & t & A & B & C & _)]; congruence.
    + destruct (edge_spec (v0 :: v) (i :: t)) as [(C & F & _)|[H _]]; [discriminate| |].
      * right. intros [B|(v' & t' & A & B & _ & N)]; [congruence|]. rewrite V in A. rewrite T in B. injection A as <-. injection B as <-. tauto.
      * left. right. exists (v0 :: v), (i :: t). repeat split; auto. discriminate.
    + right. intros [B|(v' & t & A & B & C & _)]; congruence.
  - right. intros [B|(v' & t & A & _)]; congruence.
Qed.
