(** Verification, pruning, histories of calls. *)
From Coq Require Import List NArith ZArith Arith Bool Lia ZifyN ZifyNat ZifyBool.
From Flocq Require Import IEEE754.BinarySingleNaN.
From Verif Require Import Base Floats Utilis Unify CustomData Mesh FileSpec MeshSpec Mesh_proofs File_proofs.
Import ListNotations.
Open Scope res_scope.

(** ** Verification *)
Lemma inside_none l n : indices_inside_array l n = None <-> Forall (fun k => (k <= n)%N) l.
Proof.
  induction l as [|i l IH]; cbn [indices_inside_array]; [split; auto|]. destruct (N.ltb_spec n i).
  - split; [discriminate|]. intros F. inversion F. lia.
  - rewrite IH. split; intros F; [constructor; auto|now inversion F].
Qed.
Lemma inside_some l n i : indices_inside_array l n = Some i <-> first_with (fun k => (n < k)%N) l i.
Proof.
  unfold first_with. revert i. induction l as [|j l IH]; intros i; cbn [indices_inside_array].
  - split; [discriminate|]. intros ([|? ?] & ? & E & _); discriminate E.
  - destruct (N.ltb_spec n j).
    + split.
      * intros [= <-]. exists [], l. repeat split; auto.
      * intros ([|b before] & after & E & P & F).
        -- injection E as <- <-. reflexivity.
        -- injection E as <- ->. inversion F. lia.
    + rewrite IH. split; intros (before & after & E & P & F).
      * exists (j :: before), after. rewrite E. split; auto. split; auto. constructor; auto. lia.
      * destruct before as [|b before]; [injection E as -> ->; lia|]. injection E as <- ->. inversion F. eauto.
Qed.
Lemma pos_not_lt0 x : flt f1 x = true -> flt x f0 = false.
Proof.
  destruct x as [s|s| |s m e H]; intros L; try (destruct s; vm_compute in L |- *; congruence); try reflexivity.
Qed.
Lemma uv_range_none l : uv_range_loop l = None.
Proof.
  induction l as [|[u v] l IH]; cbn [uv_range_loop]; auto. cbn [fst snd].
  destruct (flt f1 u) eqn:E1; [rewrite (pos_not_lt0 u E1)|rewrite ?andb_false_r]; cbn [andb]; auto.
Qed.
Lemma len32_small {A} (l : list A) : (len l < 2 ^ 32)%N -> len32 l = len l.
Proof. intros H. unfold len32, len in *. apply N.mod_small. exact H. Qed.

Lemma index_problem_fun {A} (d : option (list A)) t (mi : integrity) o e e' : index_problem mi o d t e -> index_problem mi o d t e' -> e = e'.
Proof.
  intros (i & -> & [(-> & ->)|(l & k & -> & F & ->)]) (i' & [= <-] & [(E & ->)|(l' & k' & E & F' & ->)]); try congruence.
  injection E as <-. apply inside_some in F, F'. congruence.
Qed.
Lemma index_problem_iff {A} (d : option (list A)) t (mi : integrity) o :
  (exists e, index_problem mi o d t e) <-> ~ indices_at_most d t.
Proof.
  unfold indices_at_most. split.
  - intros (e & i & -> & [(-> & ->)|(l & k & -> & F & ->)]) (l' & E & G); [discriminate|]. injection E as <-.
    apply inside_some in F. apply inside_none in G. congruence.
  - destruct t as [i|]; [|tauto]. intros H. destruct d as [l|].
    + destruct (indices_inside_array i (len l)) as [k|] eqn:E.
      * apply inside_some in E. exists (o k (len l)), i. split; auto. right. eauto.
      * exfalso. apply H. exists l. split; auto. now apply inside_none.
    + exists mi, i. auto.
Qed.

Lemma verify_vertices_spec m e : u32_length (vertices m) ->
  (verify_vertices m = Some e <-> index_problem VertexArrayMissing IndexOutsideVertexArray (vertices m) (vertex_triangles m) e).
Proof.
  intros S. unfold verify_vertices, index_problem. destruct (vertices m) as [v|]; destruct (vertex_triangles m) as [t|].
  - rewrite (len32_small v) by (now apply S). destruct (indices_inside_array t (len v)) as [k|] eqn:E.
    + apply inside_some in E as F. split.
      * intros [= <-]. exists t. split; auto. right. exists v, k. auto.
      * intros (i & [= <-] & [(D & _)|(l & k' & [= <-] & F' & ->)]); [discriminate|]. apply inside_some in F'. congruence.
    + split; [discriminate|]. intros (i & [= <-] & [(D & _)|(l & k' & [= <-] & F' & ->)]); [discriminate|]. apply inside_some in F'. congruence.
  - split; [discriminate|]. intros (i & D & _). discriminate.
  - split; [intros [= <-]; eauto|]. intros (i & [= <-] & [(_ & ->)|(l & k' & D & _)]); [reflexivity|discriminate].
  - split; [discriminate|]. intros (i & D & _). discriminate.
Qed.
Lemma verify_uvs_spec m e : u32_length (uvs m) ->
  (verify_uvs m = Some e <-> index_problem UVArrayMissing IndexOutsideUVArray (uvs m) (uv_triangles m) e).
Proof.
  intros S. unfold verify_uvs, index_problem. destruct (uvs m) as [v|]; destruct (uv_triangles m) as [t|].
  - rewrite uv_range_none, (len32_small v) by (now apply S). destruct (indices_inside_array t (len v)) as [k|] eqn:E.
    + apply inside_some in E as F. split.
      * intros [= <-]. exists t. split; auto. right. exists v, k. auto.
      * intros (i & [= <-] & [(D & _)|(l & k' & [= <-] & F' & ->)]); [discriminate|]. apply inside_some in F'. congruence.
    + split; [discriminate|]. intros (i & [= <-] & [(D & _)|(l & k' & [= <-] & F' & ->)]); [discriminate|]. apply inside_some in F'. congruence.
  - rewrite uv_range_none. split; [discriminate|]. intros (i & D & _). discriminate.
  - split; [intros [= <-]; eauto|]. intros (i & [= <-] & [(_ & ->)|(l & k' & D & _)]); [reflexivity|discriminate].
  - split; [discriminate|]. intros (i & D & _). discriminate.
Qed.
(** Some normal is off. *)
Definition off_normal (m : mesh) : Prop := exists l n, normals m = Some l /\ In n l /\ not_normalized n = true.
Lemma verify_normals_spec m e : u32_length (normals m) ->
  (verify_normals m = Some e <->
   (off_normal m /\ e = NormalsNotNormalized) \/
   (~ off_normal m /\ index_problem NormalArrayMissing IndexOutsideNormalArray (normals m) (normal_triangles m) e)).
Proof.
  intros S. unfold verify_normals. destruct (normals m) as [v|] eqn:EN.
  - destruct (existsb not_normalized v) eqn:X.
    + apply existsb_exists in X as (n & I & X). assert (O : off_normal m) by (exists v, n; auto).
      split; [intros [= <-]; auto|]. intros [(_ & ->)|(NO & _)]; [reflexivity|tauto].
    + assert (O : ~ off_normal m).
      { intros (l & n & E & I & Q). assert (existsb not_normalized v = true) by (apply existsb_exists; exists n; split; congruence). congruence. }
      transitivity (index_problem NormalArrayMissing IndexOutsideNormalArray (Some v) (normal_triangles m) e); [|tauto].
      unfold index_problem. destruct (normal_triangles m) as [t|].
      * rewrite (len32_small v) by (now apply S). destruct (indices_inside_array t (len v)) as [k|] eqn:E.
        -- apply inside_some in E as F. split.
           ++ intros [= <-]. exists t. split; auto. right. exists v, k. auto.
           ++ intros (i & [= <-] & [(D & _)|(l & k' & [= <-] & F' & ->)]); [discriminate|]. apply inside_some in F'. congruence.
        -- split; [discriminate|]. intros (i & [= <-] & [(D & _)|(l & k' & [= <-] & F' & ->)]); [discriminate|]. apply inside_some in F'. congruence.
      * split; [discriminate|]. intros (i & D & _). discriminate.
  - assert (O : ~ off_normal m) by (intros (l & n & E & _); congruence).
    unfold index_problem. destruct (normal_triangles m) as [t|].
    + split; [intros [= <-]; right; split; [exact O|exists t; auto]|]. intros [(NO & _)|(_ & i & [= <-] & [(_ & ->)|(l & k' & D & _)])]; [tauto|reflexivity|discriminate].
    + split; [discriminate|]. intros [(NO & _)|(_ & i & D & _)]; [tauto|discriminate].
Qed.

(** The errors behind a verdict. *)
Definition reported (r : res integrity unit) : list integrity :=
  match r with
  | Err (CompositeError l) => l
  | Err e => [e]
  | _ => []
  end.
Lemma verify_reported m : reported (verify_tmf_mesh m) = somes [verify_vertices m; verify_normals m; verify_uvs m].
Proof.
  unfold verify_tmf_mesh.
  assert (X : forall e, In e (somes [verify_vertices m; verify_normals m; verify_uvs m]) -> forall l, e <> CompositeError l).
  { intros e I l. unfold somes in I. cbn in I. rewrite app_nil_r, !in_app_iff in I. destruct I as [I|[I|I]].
    - unfold verify_vertices in I. destruct (vertices m), (vertex_triangles m); cbn in I; try tauto.
      + destruct (indices_inside_array _ _); cbn in I; [destruct I as [<-|[]]|tauto]. discriminate.
      + destruct I as [<-|[]]. discriminate.
    - unfold verify_normals in I. destruct (normals m), (normal_triangles m); cbn in I; try tauto.
      + destruct (existsb _ _); cbn in I; [destruct I as [<-|[]]; discriminate|].
        destruct (indices_inside_array _ _); cbn in I; [destruct I as [<-|[]]|tauto]. discriminate.
      + destruct (existsb _ _); cbn in I; [destruct I as [<-|[]]; discriminate|tauto].
      + destruct I as [<-|[]]. discriminate.
    - unfold verify_uvs in I. destruct (uvs m), (uv_triangles m); cbn in I; try tauto.
      + rewrite uv_range_none in I. destruct (indices_inside_array _ _); cbn in I; [destruct I as [<-|[]]|tauto]. discriminate.
      + rewrite uv_range_none in I. destruct I.
      + destruct I as [<-|[]]. discriminate. }
  destruct (somes [verify_vertices m; verify_normals m; verify_uvs m]) as [|e [|e' l]]; auto.
  cbn [reported]. specialize (X e (or_introl eq_refl)). destruct e; auto. exfalso. eapply X; eauto.
Qed.
Lemma somes_in {A} (l : list (option A)) x : In x (somes l) <-> In (Some x) l.
Proof.
  unfold somes. rewrite in_flat_map. split.
  - intros ([y|] & I & J); [destruct J as [-> |[]]; auto|destruct J].
  - intros I. exists (Some x). split; auto. cbn. auto.
Qed.
Lemma verify_ok_iff m : verify_tmf_mesh m = Ok tt <-> reported (verify_tmf_mesh m) = [].
Proof.
  rewrite verify_reported. unfold verify_tmf_mesh.
  destruct (somes _) as [|e [|e' l]]; split; intros H; auto; discriminate.
Qed.
Lemma verify_never_panics m : verify_tmf_mesh m <> Panic.
Proof. unfold verify_tmf_mesh. destruct (somes _) as [|e [|e' l]]; discriminate. Qed.
Lemma reported_in m e : u32_length (vertices m) -> u32_length (normals m) -> u32_length (uvs m) ->
  (In e (reported (verify_tmf_mesh m)) <->
   index_problem VertexArrayMissing IndexOutsideVertexArray (vertices m) (vertex_triangles m) e \/
   (off_normal m /\ e = NormalsNotNormalized) \/
   (~ off_normal m /\ index_problem NormalArrayMissing IndexOutsideNormalArray (normals m) (normal_triangles m) e) \/
   index_problem UVArrayMissing IndexOutsideUVArray (uvs m) (uv_triangles m) e).
Proof.
  intros S1 S2 S3. rewrite verify_reported, somes_in. cbn [In].
  rewrite (verify_vertices_spec m e S1), (verify_normals_spec m e S2), (verify_uvs_spec m e S3). tauto.
Qed.

(** ** Pruning *)
Lemma prune_scan_none l : forall m, prune_scan l m = None <-> In 0%N l.
Proof.
  induction l as [|i l IH]; intros m; cbn [prune_scan In]; [split; [discriminate|tauto]|].
  destruct (N.eqb_spec i 0); [subst; tauto|]. rewrite IH. split; [auto|intros [H|H]; [congruence|auto]].
Qed.
Lemma prune_scan_some l : forall m k, prune_scan l m = Some k ->
  (k <= m)%N /\ (forall i, In i l -> (k <= i)%N /\ i <> 0%N) /\ (k = m \/ In k l).
Proof.
  induction l as [|i l IH]; intros m k; cbn [prune_scan In].
  - intros [= <-]. split; [lia|]. split; [tauto|auto].
  - destruct (N.eqb_spec i 0); [discriminate|]. intros H. apply IH in H as (A & B & C). split; [lia|]. split.
    + intros j [<-|J]; [split; auto; lia|auto].
    + destruct (N.min_spec m i) as [[? E]|[? E]]; rewrite E in C; destruct C; subst; auto.
Qed.
Lemma looks_up_skip {A} (d : list A) k l b : Forall (fun i => (k <= i)%N) l -> looks_up d l b ->
  looks_up (skipn (N.to_nat k) d) (map (fun i => (i - k)%N) l) b.
Proof.
  unfold looks_up. intros F L. revert F. induction L as [|i x l b E _ IH]; intros F; cbn [map]; constructor.
  - inversion F; subst. rewrite <- E. replace (N.to_nat i) with (N.to_nat k + N.to_nat (i - k)) by lia.
    generalize (N.to_nat k) as a. intros a. generalize (N.to_nat (i - k)) as c. clear. intros c. revert d.
    induction a; intros d; cbn; auto. destruct d; cbn; [now destruct c|auto].
  - apply IH. now inversion F.
Qed.

(** ** Histories *)
Fixpoint content {A} (v : option (list A)) (evs : list (event A)) : option (list A) :=
  match evs with
  | [] => v
  | Replace l :: t => content (Some l) t
  | Extend l :: t => content (Some (match v with Some o => o ++ l | None => l end)) t
  end.
Lemma content_some {A} (evs : list (event A)) : forall o,
  (Forall extends evs /\ content (Some o) evs = Some (o ++ concat (map payload evs))) \/
  (exists before e after, evs = before ++ e :: after /\ ~ extends e /\ Forall extends after /\
     content (Some o) evs = Some (payload e ++ concat (map payload after))).
Proof.
  induction evs as [|[l|l] evs IH]; intros o; cbn [content].
  - left. split; auto. cbn. now rewrite app_nil_r.
  - right. destruct (IH l) as [(F & ->)|(b & e & a & -> & NE & F & ->)].
    + exists [], (Replace l), evs. cbn. auto.
    + exists (Replace l :: b), e, a. auto.
  - destruct (IH (o ++ l)) as [(F & ->)|(b & e & a & -> & NE & F & ->)].
    + left. split; [constructor; cbn; auto|]. cbn. now rewrite app_assoc.
    + right. exists (Extend l :: b), e, a. auto.
Qed.
Lemma content_holds {A} (evs : list (event A)) : holds evs (content None evs).
Proof.
  destruct evs as [|ev evs]; [left; auto|]. right.
  assert (E : content None (ev :: evs) = content (Some (payload ev)) evs) by (destruct ev; reflexivity).
  rewrite E. destruct (content_some evs (payload ev)) as [(F & ->)|(b & e & a & -> & NE & F & ->)].
  - exists [], ev, evs. auto.
  - exists (ev :: b), e, a. auto.
Qed.
Lemma content_snoc {A} (evs : list (event A)) e : forall v,
  content v (evs ++ [e]) = content (content v evs) [e].
Proof. induction evs as [|[l|l] evs IH]; intros v; [reflexivity|apply IH|apply IH]. Qed.
Lemma holds_fun {A} (evs : list (event A)) v v' : holds evs v -> holds evs v' -> v = v'.
Proof.
  assert (X : forall w, holds evs w -> w = content None evs).
  { intros w [(-> & ->)|(b & e & a & -> & H & F & ->)]; [reflexivity|].
    assert (G : forall o, content o a = match a with [] => o | _ => Some (match o with Some l => l | None => [] end ++ concat (map payload a)) end).
    { clear H. induction F as [|x a Ex F IH]; intros o; [reflexivity|]. destruct x as [l|l]; [destruct Ex|]. cbn [content].
      rewrite IH. destruct a; [destruct o; cbn; now rewrite ?app_nil_r|]. destruct o; cbn [map concat payload]; now rewrite ?app_assoc. }
    assert (K : forall u, content u (b ++ e :: a) = content (content u b) (e :: a)).
    { induction b as [|[l|l] b IH]; intros u; cbn [app content]; auto.
      - apply IH. destruct H as [H|H]; [discriminate H|auto].
      - apply IH. destruct H as [H|H]; [discriminate H|auto]. }
    rewrite K. destruct H as [-> |NE].
    - cbn [content]. destruct e as [l|l]; cbn [payload content]; rewrite G; destruct a; cbn; now rewrite ?app_nil_r.
    - destruct e as [l|l]; [|destruct NE; exact I]. cbn [payload content]. rewrite G; destruct a; cbn; now rewrite ?app_nil_r. }
  intros H H'. rewrite (X v H), (X v' H'). reflexivity.
Qed.
