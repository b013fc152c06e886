(** Property C73: saving with [double_precision], and files that go from one build to the other. *)
From Coq Require Import List NArith ZArith Arith Lia Bool ZifyN ZifyNat ZifyBool.
From Flocq Require Import IEEE754.BinarySingleNaN.
From Verif Require Import Base BitSpec UnalignedRW UnalignedRW_proofs ReadExt ByteLemmas Floats CustomData Mesh Tmf File FileSpec PlatformSpec LayoutSpec Load_proofs Parse_proofs File_proofs
  SaveSpec ValueSpec VertexSpec Log2_proofs Trig_proofs Save_proofs Save2_proofs Image_proofs Agree_proofs Double DoubleSpec DoubleSave DoubleSaveSpec DMerge_proofs DCodec_proofs DSave_proofs
  DAgree_proofs Exchange_proofs Demo P_Save P_Double.
Import ListNotations.
Open Scope res_scope.

(** [saved_d lm oc p l] is the outcome of saving in a program built with the feature;
    [read_tmf_d sc oc'] loads in such a program, [read_tmf lm' oc'] in one built without it. The
    hypotheses are those of C19-C22, for meshes of f64. *)
Definition precision_ok_d (p : dprec_info) : Prop := d_normal_precision p <= 30 /\ d_tangent_prec p <= 30.
Definition list_ok_d (lm : libm64) (l : list (dmesh * list N)) : Prop :=
  (len l < 2 ^ 32)%N /\
  Forall (fun mn => storable_d (fst mn) /\ name_ok (snd mn) /\ (segment_count_d lm true (fst mn) < 65536)%N) l.

(** What is saved with the feature is loaded with it: all the meshes, in order and under their
    names, with the same index arrays, arrays as long as they were, and the same custom data
    (in the opposite order). *)
Theorem C73_round_trip : forall lm sc oc' p l out,
  precision_ok_d p -> list_ok_d lm l -> saved_d lm true p l = Ok out ->
  exists l', read_tmf_d sc oc' out = Ok l' /\
    Forall2 (fun a b => snd a = snd b /\ same_shape_rev_d (fst a) (fst b)) l l'.
Proof.
  intros lm sc oc' p l out HP [HL HF] S. destruct (saved_loads_d lm sc oc' p l out HP HL HF S) as (raws & l' & _ & _ & _ & _ & R & F).
  exists l'. split; [exact R|]. eapply F2_impl; [|exact F]. intros a b [A B]. split; [exact A|]. now apply loaded_shape in B.
Qed.
Print Assumptions C73_round_trip.

Lemma arrays_len {A B} (P : A -> B -> Prop) o o' : arrays P o o' -> same_len2 o' o.
Proof. destruct o, o'; cbn; auto. intros F. symmetry. exact (F2_length _ _ _ F). Qed.
Lemma len_trans {A B} (a b : option (list A)) (c : option (list B)) : same_len a b -> same_len2 b c -> same_len2 a c.
Proof. destruct a, b, c; cbn; try contradiction; auto. congruence. Qed.
Lemma near_shape raw a b m : same_mesh raw a b -> same_shape_rev_d m (fst b) -> same_shape_rev_df m (fst a).
Proof.
  intros [_ V N U T T1 T2 T3 T4 C] [S1 S2 S3 S4 S5 S6 S7 S8 S9]. constructor; try congruence.
  - eapply len_trans; [exact S5|]. eapply arrays_len. exact V.
  - eapply len_trans; [exact S6|]. eapply arrays_len. exact N.
  - eapply len_trans; [exact S7|]. eapply arrays_len. exact U.
  - eapply len_trans; [exact S8|]. eapply arrays_len. exact T.
  - revert C S9. generalize (rev (d_custom_data m)) (d_custom_data (fst b)) (custom_data (fst a)).
    intros x y z C S. revert z C. induction S as [|s t x y H _ IH]; intros z C; inversion C; subst; constructor; auto.
    clear IH. destruct H as (A1 & A2 & A3). match goal with Z : near_custom _ t |- _ => destruct Z as (B1 & B2 & B3) end.
    split; [congruence|]. split; [congruence|].
    destruct (x_data s), (x_data t), (c_data x0); cbn [same_data_d near_data same_data_df] in *; try contradiction.
    + destruct B3. congruence.
    + destruct B3. congruence.
    + destruct B3 as [B3 _]. apply F2_length in B3. congruence.
    + destruct B3 as [B3 _]. apply F2_length in B3. congruence.
Qed.

(** A file saved with the feature is loaded by a build without it, with the same meshes. *)
Theorem C73_to_default : forall lm lm' oc' p l out, sin_cos_ok lm' ->
  precision_ok_d p -> list_ok_d lm l -> saved_d lm true p l = Ok out ->
  exists l', read_tmf lm' oc' out = Ok l' /\
    Forall2 (fun a b => snd a = snd b /\ same_shape_rev_df (fst a) (fst b)) l l'.
Proof.
  intros lm lm' oc' p l out HM HP HL S. destruct (C73_round_trip lm exact_sin_cos64 oc' p l out HP HL S) as (ld & R & F).
  destruct HL as [HL HF]. destruct (saved_plain_d lm p l out HP HL HF S) as [B _].
  destruct (C66_same_file lm' exact_sin_cos64 oc' out HM exact_sin_cos64_ok B) as [X|[X _]]; rewrite R in X; [|discriminate X].
  destruct (read_tmf lm' oc' out) as [l'|e|]; cbn [same_outcome] in X; try contradiction. exists l'. split; [reflexivity|].
  destruct X as (ms & _ & X). clear -F X. revert l F. induction X as [|raw a b ms l' ld M _ IH]; intros l F; inversion F; subst; constructor; auto.
  match goal with H : snd _ = snd b /\ _ |- _ => destruct H as [H1 H2] end. destruct (sm_name _ _ _ M) as [M1 M2].
  split; [congruence|]. eapply near_shape; eauto.
Qed.
Print Assumptions C73_to_default.

(** A file saved without the feature is loaded by a build with it, and holds what a build without
    it loads ([same_file] in DoubleSpec: the same meshes, with nearly the same numbers). *)
Theorem C73_from_default : forall lm lm' sc oc' p l out, sin_cos_ok lm' -> sin_cos64_ok sc ->
  precision_ok p -> list_ok lm l -> saved lm true p l = Ok out ->
  exists l' ld, read_tmf lm' oc' out = Ok l' /\ read_tmf_d sc oc' out = Ok ld /\ same_file out l' ld /\
    Forall2 (fun a b => snd a = snd b /\ same_shape_rev (fst a) (fst b)) l l'.
Proof.
  intros lm lm' sc oc' p l out HM HM' HP HL S. destruct (loads lm lm' oc' p l out HP HL S) as (l' & R & F).
  destruct HL as [HL HF]. destruct (saved_plain lm p l out HP HL HF S) as [B H].
  destruct (C66_same_file lm' sc oc' out HM HM' B) as [X|[_ X]].
  - rewrite R in X. destruct (read_tmf_d sc oc' out) as [ld|e|]; cbn [same_outcome] in X; try contradiction.
    exists l', ld. auto.
  - exfalso. exact (H out [] (eq_sym (app_nil_r out)) X).
Qed.
Print Assumptions C73_from_default.

(** A sink that takes only the first [k] bytes is left with the first [k] bytes of the file ... *)
Theorem C73_crash : forall lm oc p l out k, saved_d lm oc p l = Ok out -> k < length out ->
  write_tmf_d lm oc p l (mk_sink [] (Some (N.of_nat k))) = (mk_sink (firstn k out) (Some 0%N), Err (XIo WriteFailed)).
Proof.
  intros lm oc p l out k S K. apply saved_traced_d in S as [_ T]. rewrite T. unfold len.
  destruct (N.leb_spec (N.of_nat (length out)) (N.of_nat k)); [lia|]. now rewrite Nat2N.id.
Qed.
Print Assumptions C73_crash.
(** ... which neither build takes for a complete one. *)
Theorem C73_prefix_refused : forall lm lm' sc oc' p l out k, sin_cos_ok lm' -> sin_cos64_ok sc ->
  precision_ok_d p -> list_ok_d lm l -> saved_d lm true p l = Ok out -> k < length out ->
  read_tmf lm' oc' (firstn k out) = Err (EIO UnexpectedEof) /\
  read_tmf_d sc oc' (firstn k out) = Err (EIO UnexpectedEof).
Proof.
  intros lm lm' sc oc' p l out k HM HM' HP HL S K. pose proof HL as [HL1 HF].
  destruct (C73_to_default lm lm' oc' p l out HM HP HL S) as (l' & R & F).
  destruct (saved_plain_d lm p l out HP HL1 HF S) as [B H].
  destruct (saved_loads_d lm sc oc' p l out HP HL1 HF S) as (raws & ld & E & FO & _).
  assert (I : import lm' oc' out = Ok (l', [])).
  { unfold read_tmf in R. revert R. rewrite E. rewrite <- (app_nil_r (file_bytes raws)), import_new by auto.
    match goal with |- context [collect ?x] => destruct (collect x) as [y|e|]; cbn [bind]; intros R; try discriminate R end.
    cbn [fst] in R. apply Ok_inj in R. now subst y. }
  assert (R1 : read_tmf lm' oc' (firstn k out) = Err (EIO UnexpectedEof)).
  { destruct (streams_import lm' oc' _ _ _ I) as (u & Eu & _ & Bu). rewrite app_nil_r in Eu. subst u.
    unfold read_tmf. rewrite (Bu (firstn k out) (skipn k out)); auto.
    - symmetry. apply firstn_skipn.
    - intros Z. apply (f_equal (@length _)) in Z. rewrite skipn_length in Z. cbn in Z. lia. }
  split; [exact R1|].
  assert (Bk : bytes_ok (firstn k out)) by (rewrite <- (firstn_skipn k out) in B; apply bytes_ok_app in B as [B _]; exact B).
  destruct (C66_same_file lm' sc oc' (firstn k out) HM HM' Bk) as [X|[_ X]].
  - rewrite R1 in X. destruct (read_tmf_d sc oc' (firstn k out)) as [y|e|]; cbn [same_outcome] in X; try contradiction. now subst e.
  - exfalso. exact (H _ _ (eq_sym (firstn_skipn k out)) X).
Qed.
Print Assumptions C73_prefix_refused.

(** A build without overflow checks saves the same unless the checks stop the save (as C56). *)
Theorem C73_release : forall lm p l, saved_d lm true p l = Panic \/ saved_d lm true p l = saved_d lm false p l.
Proof. exact saved_agree_d. Qed.
Print Assumptions C73_release.

(** A list of two meshes that meets the hypotheses. *)
Definition demo_log2_d (x : f64) : f64 :=
  match x with
  | B754_finite false m e _ => f64_of_Z (Z.log2 (Zpos m) + e + (if (2 ^ Z.log2 (Zpos m) =? Zpos m)%Z then 0 else 1))
  | _ => d0
  end.
Definition demo_d : libm64 := mk_libm64 demo_log2_d (fun x => x) (fun x => (x, dsub d1 x)).
Definition dv3 (a b c : Z) : dvec3 := (f64_of_Z a, f64_of_Z b, f64_of_Z c).
Definition demo_mesh_d : dmesh :=
  mk_dmesh (Some [dv3 0 0 1; dv3 1 0 0]) (Some [0; 1; 1; 0; 0; 1]%N)
    (Some [dv3 0 0 0; dv3 1 0 0; dv3 0 1 0; dv3 0 0 1]) (Some cube_triangles)
    (Some [(d0, d1); (d1, d0)]) None None None
    [mk_dcseg [97; 98]%N 2 (XIndex [5; 0; 7]%N 7); mk_dcseg [119]%N 1 (XFloat [d0; d1] (dlit 1 100));
     mk_dcseg [99]%N 1 (XColor [(d0, d1, d0, d1)] (dlit 1 100))].
Definition demo_prec_d : dprec_info := mk_dprec (dlit 1 10) 7 14 8.
Definition demo_list_d : list (dmesh * list N) := [(demo_mesh_d, demo_name); (d_empty, [])].
Lemma demo_ok_d : precision_ok_d demo_prec_d /\ list_ok_d demo_d demo_list_d.
Proof.
  split; [split; cbn; lia|]. split; [reflexivity|].
  assert (storable_d d_empty) by (constructor; cbn; first [apply small_none|apply indices_none|apply Forall_nil]).
  assert (storable_d demo_mesh_d).
  { constructor; cbn; first [apply small_none | apply indices_none | apply small_some; vm_compute; reflexivity
        | apply indices_some; vm_compute; reflexivity | idtac].
    repeat (apply Forall_cons || apply Forall_nil); unfold custom_ok_d; cbn [x_name x_name_len x_data];
      (split; [repeat (apply Forall_cons; [reflexivity|]); apply Forall_nil|]; split; [reflexivity|]; split; [lia|]).
    - split; [vm_compute; discriminate|]. split; [|left; reflexivity].
      repeat (apply Forall_cons; [split; lia|]); apply Forall_nil.
    - vm_compute. discriminate.
    - vm_compute. discriminate. }
  apply Forall_cons; [|apply Forall_cons; [|apply Forall_nil]]; cbn [fst snd].
  - split; [assumption|]. split; [apply name_ok_ascii; reflexivity|vm_compute; reflexivity].
  - split; [assumption|]. split; [apply name_ok_ascii; reflexivity|vm_compute; reflexivity].
Qed.
Example C73_case : exists out, saved_d demo_d true demo_prec_d demo_list_d = Ok out /\ 200 < length out /\
  (exists l', read_tmf exact_libm true out = Ok l' /\ map snd l' = [demo_name; []]) /\
  read_tmf_d exact_sin_cos64 true (firstn 100 out) = Err (EIO UnexpectedEof).
Proof.
  assert (exists out, saved_d demo_d true demo_prec_d demo_list_d = Ok out /\ 200 < length out) as (out & S & L).
  { eexists. split; [vm_compute; reflexivity|]. cbn [length]. lia. }
  exists out. split; [exact S|]. split; [exact L|]. destruct demo_ok_d as [D1 D2]. split.
  - destruct (C73_to_default demo_d exact_libm true _ _ _ exact_sin_cos_ok D1 D2 S) as (l' & R & F). exists l'. split; [exact R|].
    inversion F as [|? [m1 n1] ? ? [H1 _] F1]; subst. inversion F1 as [|? [m2 n2] ? ? [H2 _] F2]; subst. inversion F2; subst.
    cbn [map snd] in *. congruence.
  - exact (proj2 (C73_prefix_refused demo_d exact_libm exact_sin_cos64 true _ _ _ 100 exact_sin_cos_ok exact_sin_cos64_ok D1 D2 S ltac:(lia))).
Qed.
