(** Lemmas about the triangulation. *)
From Coq Require Import List NArith ZArith Arith Lia Bool.
From Flocq Require Import IEEE754.BinarySingleNaN.
From Verif Require Import Base Floats Utilis CustomData Mesh FileSpec MeshSpec Mesh_proofs Importer Obj Obj_proofs Obj2_proofs PolygonSpec.
Import ListNotations.
Open Scope res_scope.

Definition sel (l ps : list N) : list N := map (fun p => nth (N.to_nat p) l 0%N) ps.
Lemma sel_app l a b : sel l (a ++ b) = sel l a ++ sel l b.
Proof. apply map_app. Qed.
Lemma sel_corners l : sel l (corners (length l)) = l.
Proof.
  unfold sel, corners. rewrite map_map. erewrite map_ext by (intros; rewrite Nat2N.id; reflexivity).
  induction l as [|x l IH]; [reflexivity|]. cbn [length seq map nth]. f_equal. rewrite <- seq_shift, map_map. exact IH.
Qed.
Lemma sel_picks l ps : Forall (fun p => (p < len l)%N) ps -> picks l ps (sel l ps).
Proof.
  induction 1 as [|p ps P F IH]; constructor; auto. unfold at_pos. apply nth_error_nth'. unfold len in P. lia.
Qed.
Lemma get_map {A B} (f : A -> B) l i : get (map f l) i = option_map f (get l i).
Proof. rewrite !get_nth. apply nth_error_map. Qed.
Lemma get_some {A} (l : list A) i : (i < len l)%N -> exists x, get l i = Some x.
Proof. rewrite get_nth. unfold len. intros L. destruct (nth_error l (N.to_nat i)) eqn:E; [eauto|]. apply nth_error_None in E. lia. Qed.
Lemma remove_map {A B} (f : A -> B) l : forall i, remove (map f l) i = map f (remove l i).
Proof. induction l as [|x l IH]; intros i; cbn; [reflexivity|]. destruct (i =? 0)%N; cbn; [reflexivity|]. now rewrite IH. Qed.
Lemma remove_without {A} (l : list A) : forall i, remove l i = without l i.
Proof.
  unfold without. induction l as [|x l IH]; intros i; cbn [remove]. { now rewrite firstn_nil, skipn_nil. }
  destruct (N.eqb_spec i 0) as [->|NZ]; [reflexivity|]. rewrite IH.
  replace (N.to_nat i) with (S (N.to_nat (i - 1))) by lia. reflexivity.
Qed.
Lemma remove_length {A} (l : list A) i : (i < len l)%N -> S (length (remove l i)) = length l.
Proof.
  rewrite remove_without. unfold without, len. intros L. rewrite app_length, firstn_length, skipn_length. lia.
Qed.
Lemma remove_incl {A} (l : list A) : forall i x, In x (remove l i) -> In x l.
Proof.
  induction l as [|y l IH]; intros i x I; cbn [remove] in I; [destruct I|]. destruct (i =? 0)%N; [now right|].
  destruct I as [->|I]; [now left|]. right. eauto.
Qed.
Lemma update_length {A} (l : list A) x : forall i, length (update l i x) = length l.
Proof. induction l as [|y l IH]; intros i; cbn [update]; [reflexivity|]. destruct (i =? 0)%N; cbn [length]; auto. Qed.

Lemma best_ear_ok {E} vals n : forall i best, (i + N.of_nat n <= len vals)%N -> (best < len vals)%N ->
  exists b, best_ear (E:=E) vals n i best = Ok b /\ (b < len vals)%N.
Proof.
  induction n as [|n IH]; intros i best L B; cbn [best_ear]; [eauto|]. unfold index.
  destruct (get_some vals i) as [x ->]; [lia|]. destruct (get_some vals best) as [y ->]; auto. cbn [bind].
  apply IH; [lia|]. destruct (flt y x); lia.
Qed.
Lemma pred64_mod n i : (i < n)%N -> (pred64 i mod n = wrapped_before n i)%N.
Proof.
  intros L. unfold pred64, wrapped_before, two64. destruct (N.eqb_spec i 0); [reflexivity|]. apply N.mod_small. lia.
Qed.
Lemma succ64_mod n i : (i < n)%N -> (n < 2 ^ 64)%N -> (succ64 i mod n = (i + 1) mod n)%N.
Proof. intros L B. unfold succ64, two64. rewrite (N.mod_small (i + 1)) by lia. reflexivity. Qed.
Lemma wrapped_lt n i : (i < n)%N -> (wrapped_before n i < n)%N.
Proof. intros L. unfold wrapped_before. destruct (N.eqb_spec i 0); [apply N.mod_lt; lia|lia]. Qed.

Lemma calc_ear_ok {E} acos v i vs : in_range vs v -> (i < len v)%N -> exists e, calc_ear_val_at_index (E:=E) acos v i vs = Ok e.
Proof.
  intros R L. unfold calc_ear_val_at_index, index.
  assert (M : forall k, (k mod ulen v < len v)%N) by (intros k; apply N.mod_lt; unfold len, ulen in *; lia).
  assert (G : forall k, (k < len v)%N -> exists p, get v k = Some p /\ exists x, get vs p = Some x).
  { intros k K. destruct (get_some v k K) as [p P]. exists p. split; auto. apply get_some. rewrite get_nth in P. apply nth_error_In in P.
    unfold in_range in R. rewrite Forall_forall in R. auto. }
  destruct (G _ (M (pred64 i))) as (p0 & -> & x0 & X0). destruct (G _ L) as (p1 & -> & x1 & X1). destruct (G _ (M (succ64 i))) as (p2 & -> & x2 & X2).
  cbn [bind]. unfold eval_ear, index. rewrite X0, X1, X2. cbn [bind]. eauto.
Qed.
Lemma all_ears_ok {E} acos v vs n : in_range vs v -> forall i, (i + N.of_nat n <= len v)%N ->
  exists es, all_ears (E:=E) acos v vs n i = Ok es /\ length es = n.
Proof.
  intros R. induction n as [|n IH]; intros i L; cbn [all_ears]; [eexists; split; reflexivity|].
  destruct (calc_ear_ok (E:=E) acos v i vs R) as [e ->]; [lia|]. cbn [bind]. destruct (IH (i + 1)%N) as (es & -> & LE); [lia|]. cbn [bind].
  eexists. split; [reflexivity|]. cbn. now rewrite LE.
Qed.

Lemma push_corner_ok {E} s V M U ps i p : get ps i = Some p ->
  push_corner (E:=E) s (sel V ps) (sel M ps) (sel U ps) i = Ok (with_faces s (sel V [p]) (sel M [p]) (sel U [p])).
Proof. intros G. unfold push_corner, index, sel. rewrite !get_map, G. reflexivity. Qed.
Lemma get_at {A} (l : list A) i x : get l i = Some x -> at_pos l i x.
Proof. now rewrite get_nth. Qed.

Lemma cut_ears_step {E} acos V M U fuel ps s ears best : (3 < length ps)%nat -> (len ps < 2 ^ 64)%N ->
  in_range (i_vertices s) (sel V ps) -> length ears = length ps -> best_ear (E:=E) ears (length ps) 0 0 = Ok best -> (best < len ps)%N ->
  exists p q r ears', at_pos ps (wrapped_before (len ps) best) p /\ at_pos ps best q /\ at_pos ps ((best + 1) mod len ps)%N r /\
    length ears' = length (without ps best) /\ in_range (i_vertices s) (sel V (without ps best)) /\ S (length (without ps best)) = length ps /\
    cut_ears (E:=E) acos (S fuel) s (sel V ps) (sel M ps) (sel U ps) ears =
      cut_ears acos fuel (with_faces s (sel V [p; q; r]) (sel M [p; q; r]) (sel U [p; q; r]))
        (sel V (without ps best)) (sel M (without ps best)) (sel U (without ps best)) ears'.
Proof.
  intros C LP R LE BE B. cbn [cut_ears].
  assert (UL : ulen (sel V ps) = len ps) by (unfold ulen, len, sel; now rewrite map_length). rewrite UL.
  destruct (N.leb_spec (len ps) 3) as [C'|_]. { unfold len in C'. lia. }
  replace (length (sel V ps)) with (length ps) by (unfold sel; now rewrite map_length). rewrite BE. cbn [bind].
  rewrite pred64_mod, succ64_mod by auto.
  destruct (get_some ps (wrapped_before (len ps) best)) as [p P]. { now apply wrapped_lt. }
  destruct (get_some ps best B) as [q Q]. destruct (get_some ps ((best + 1) mod len ps)%N) as [r RR]. { apply N.mod_lt. lia. }
  rewrite (push_corner_ok s V M U ps _ p P). cbn [bind]. rewrite (push_corner_ok _ V M U ps _ q Q). cbn [bind]. rewrite (push_corner_ok _ V M U ps _ r RR). cbn [bind].
  rewrite !with_faces_app, <- !sel_app. cbn [app].
  assert (RS : forall l, remove (sel l ps) best = sel l (without ps best)) by (intros l; rewrite <- remove_without; apply remove_map).
  cbv zeta. rewrite !RS.
  set (ps' := without ps best) in *.
  assert (LP' : S (length ps') = length ps) by (unfold ps'; rewrite <- remove_without; now apply remove_length).
  assert (UL' : ulen (sel V ps') = len ps') by (unfold ulen, len, sel; now rewrite map_length). rewrite UL'.
  set (s' := with_faces s _ _ _). change (i_vertices s') with (i_vertices s).
  assert (R' : in_range (i_vertices s) (sel V ps')).
  { apply Forall_forall. intros x I. unfold sel in I. apply in_map_iff in I as (y & <- & I). unfold ps' in I. rewrite <- remove_without in I. apply remove_incl in I.
    unfold in_range in R. rewrite Forall_forall in R. apply R. unfold sel. apply (in_map (fun p => nth (N.to_nat p) V 0%N)). exact I. }
  assert (LS : len (sel V ps') = len ps') by exact UL'.
  destruct (calc_ear_ok (E:=E) acos (sel V ps') (best mod len ps')%N (i_vertices s) R') as [e ->]. { rewrite LS. apply N.mod_lt. unfold len in *. lia. }
  cbn [bind].
  destruct (calc_ear_ok (E:=E) acos (sel V ps') (pred64 best mod len ps')%N (i_vertices s) R') as [e' ->]. { rewrite LS. apply N.mod_lt. unfold len in *. lia. }
  cbn [bind].
  assert (LE' : S (length (remove ears best)) = length ears) by (apply remove_length; unfold len in *; lia).
  exists p, q, r, (update (update (remove ears best) (best mod len ps')%N e) (pred64 best mod len ps')%N e').
  do 3 (split; [auto using get_at|]). split; [rewrite !update_length; lia|]. split; [exact R'|]. split; [exact LP'|]. reflexivity.
Qed.
Lemma cut_ears_ok {E} acos V M U fuel : forall ps s ears, (length ps <= fuel + 3)%nat -> (3 <= length ps)%nat -> (len ps < 2 ^ 64)%N ->
  in_range (i_vertices s) (sel V ps) -> length ears = length ps ->
  exists ts a b c, cut_ears (E:=E) acos fuel s (sel V ps) (sel M ps) (sel U ps) ears =
      Ok (with_faces s (sel V (flat ts)) (sel M (flat ts)) (sel U (flat ts)), sel V [a; b; c], sel M [a; b; c], sel U [a; b; c]) /\
    clips wrapped_before ps (ts ++ [(a, b, c)]).
Proof.
  assert (DONE : forall ps s, length ps = 3 -> exists ts a b c,
    Ok (E:=E) (s, sel V ps, sel M ps, sel U ps) =
      Ok (with_faces s (sel V (flat ts)) (sel M (flat ts)) (sel U (flat ts)), sel V [a; b; c], sel M [a; b; c], sel U [a; b; c]) /\
    clips wrapped_before ps (ts ++ [(a, b, c)])).
  { intros ps s L. destruct ps as [|a [|b [|c [|]]]]; try discriminate L. exists [], a, b, c.
    change (flat []) with (@nil N). change (sel V []) with (@nil N). change (sel M []) with (@nil N). change (sel U []) with (@nil N).
    rewrite with_faces_none. split; [reflexivity|]. apply clips_last. }
  induction fuel as [|fuel IH]; intros ps s ears LF L3 LP R LE.
  - cbn [cut_ears]. apply DONE. lia.
  - destruct (Nat.eq_dec (length ps) 3) as [T|T].
    { cbn [cut_ears]. assert (ulen (sel V ps) = 3%N) as -> by (unfold ulen, sel; now rewrite map_length, T). now apply DONE. }
    destruct (best_ear_ok (E:=E) ears (length ps) 0 0) as (best & BE & B).
    { unfold len. lia. } { unfold len in *. lia. }
    destruct (cut_ears_step (E:=E) acos V M U fuel ps s ears best) as (p & q & r & ears' & P & Q & RR & LE' & R' & LP' & ->); auto; try lia.
    { unfold len in *. lia. }
    destruct (IH (without ps best) (with_faces s (sel V [p; q; r]) (sel M [p; q; r]) (sel U [p; q; r])) ears') as (ts & a & b & c & -> & CL).
    { lia. } { lia. } { unfold len in *. lia. } { exact R'. } { auto. }
    exists ((p, q, r) :: ts), a, b, c. split.
    + rewrite with_faces_app, <- !sel_app. reflexivity.
    + cbn [app]. apply clips_corner with (i := best); auto. unfold len. lia.
Qed.

Lemma triangulate_ok {E} acos s V M U : (3 <= length V)%nat -> (len V < 2 ^ 64)%N -> length M = length V -> length U = length V ->
  in_range (i_vertices s) V ->
  exists ts, triangulate (E:=E) acos s V M U = Ok (with_faces s (sel V (flat ts)) (sel M (flat ts)) (sel U (flat ts))) /\
    clips wrapped_before (corners (length V)) ts.
Proof.
  intros L B LM LU R. unfold triangulate.
  destruct (all_ears_ok (E:=E) acos V (i_vertices s) (length V) R 0) as (es & -> & LE). { unfold len. lia. } cbn [bind].
  assert (LC : length (corners (length V)) = length V) by (unfold corners; now rewrite map_length, seq_length).
  destruct (cut_ears_ok (E:=E) acos V M U (length V) (corners (length V)) s es) as (ts & a & b & c & EQ & CL); rewrite ?LC; auto; try lia.
  { unfold len in *. now rewrite LC. } { now rewrite sel_corners. }
  assert (SM : sel M (corners (length V)) = M) by (rewrite <- LM; apply sel_corners).
  assert (SU : sel U (corners (length V)) = U) by (rewrite <- LU; apply sel_corners).
  rewrite sel_corners, SM, SU in EQ.
  rewrite EQ. cbn [bind]. clear EQ. exists (ts ++ [(a, b, c)]). split; auto.
  set (s' := with_faces s _ _ _). rewrite (push_corner_ok s' V M U [a; b; c] 0 a) by reflexivity. cbn [bind].
  rewrite (push_corner_ok _ V M U [a; b; c] 1 b) by reflexivity. cbn [bind].
  rewrite (push_corner_ok _ V M U [a; b; c] 2 c) by reflexivity. unfold s'. rewrite !with_faces_app, <- !sel_app.
  assert (F : forall l t, flat (l ++ [t]) = flat l ++ [fst (fst t); snd (fst t); snd t]).
  { intros l t. unfold flat. rewrite map_app, concat_app. cbn [map concat]. now rewrite app_nil_r. }
  rewrite F. repeat rewrite <- app_assoc. reflexivity.
Qed.
(** A vertex index out of range panics. *)
Lemma calc_ear_panics {E} acos v i vs x : at_pos v i x -> (len vs <= x)%N -> (len v < 2 ^ 64)%N -> calc_ear_val_at_index (E:=E) acos v i vs = Panic.
Proof.
  intros A B L. unfold at_pos in A. rewrite <- get_nth in A. unfold calc_ear_val_at_index, index.
  destruct (get v (pred64 i mod ulen v)); [|reflexivity]. cbn [bind]. rewrite A. cbn [bind]. destruct (get v (succ64 i mod ulen v)); [|reflexivity]. cbn [bind].
  unfold eval_ear, index. destruct (get vs n); [|reflexivity]. cbn [bind]. rewrite (get_nth vs x).
  assert (nth_error vs (N.to_nat x) = None) as -> by (apply nth_error_None; unfold len in B; lia). reflexivity.
Qed.
Lemma calc_ear_cases {E} acos v i vs : (exists e, calc_ear_val_at_index (E:=E) acos v i vs = Ok e) \/ calc_ear_val_at_index (E:=E) acos v i vs = Panic.
Proof.
  unfold calc_ear_val_at_index, eval_ear, index.
  repeat (match goal with |- context [get ?l ?k] => destruct (get l k) end; cbn [bind]; auto). eauto.
Qed.
Lemma all_ears_panics {E} acos v vs x : (len vs <= x)%N -> (len v < 2 ^ 64)%N -> forall n i j, at_pos v j x -> (i <= j < i + N.of_nat n)%N ->
  all_ears (E:=E) acos v vs n i = Panic.
Proof.
  intros B L. induction n as [|n IH]; intros i j A J; [lia|]. cbn [all_ears].
  destruct (N.eq_dec i j) as [->|NE]; [rewrite (calc_ear_panics acos v j vs x); auto|].
  destruct (calc_ear_cases (E:=E) acos v i vs) as [[e ->]| ->]; [|reflexivity]. cbn [bind]. rewrite (IH (i + 1)%N j) by (auto; lia). reflexivity.
Qed.
Lemma triangulate_panics {E} acos s V M U x : In x V -> (len (i_vertices s) <= x)%N -> (len V < 2 ^ 64)%N -> triangulate (E:=E) acos s V M U = Panic.
Proof.
  intros I B L. unfold triangulate. apply In_nth_error in I as [j J].
  rewrite (all_ears_panics acos V (i_vertices s) x B L (length V) 0 (N.of_nat j)); [reflexivity| |].
  - unfold at_pos. now rewrite Nat2N.id.
  - split; [lia|]. assert (j < length V) by (apply nth_error_Some; congruence). lia.
Qed.

(** ** Cutting in general *)
Lemma clips_count pr l ts : clips pr l ts -> length l = length ts + 2.
Proof.
  induction 1 as [a b c|l i p c q ts L P Q R C IH]; [reflexivity|]. cbn [length].
  assert (H : S (length (without l i)) = length l).
  { rewrite <- remove_without. apply remove_length. unfold at_pos in Q. assert (N.to_nat i < length l) by (apply nth_error_Some; congruence). unfold len. lia. }
  lia.
Qed.
Lemma without_incl {A} (l : list A) i x : In x (without l i) -> In x l.
Proof. rewrite <- remove_without. apply remove_incl. Qed.
Lemma clips_corners pr l ts : clips pr l ts -> forall x, In x (flat ts) -> In x l.
Proof.
  induction 1 as [a b c|l i p c q ts L P Q R C IH]; intros x I; [exact I|]. cbn [flat map concat app fst snd] in I.
  apply nth_error_In in P, Q, R. destruct I as [<-|[<-|[<-|I]]]; auto. eapply without_incl. apply IH. exact I.
Qed.
Lemma flat_length ts : length (flat ts) = 3 * length ts.
Proof. induction ts as [|t ts IH]; [reflexivity|]. unfold flat in *. cbn [map concat length app]. rewrite IH. lia. Qed.

(** ** Four and five corners *)
Lemma at_pos_cons {A} (x : A) l i y : at_pos (x :: l) i y -> (i = 0%N /\ y = x) \/ (i <> 0%N /\ at_pos l (i - 1) y).
Proof.
  unfold at_pos. intros H. destruct (N.eq_dec i 0) as [->|NZ]; [left; now injection H as <-|right]. split; auto.
  replace (N.to_nat i) with (S (N.to_nat (i - 1))) in H by lia. exact H.
Qed.
Lemma clips_three pr a b c ts : clips pr [a; b; c] ts -> ts = [(a, b, c)].
Proof. intros C. inversion C as [|l i p x q ts' L]; subst; auto. unfold len in L. cbn in L. lia. Qed.
Lemma clips_quad a b c d ts : clips wrapped_before [a; b; c; d] ts ->
  ts = [(d, a, b); (b, c, d)] \/ ts = [(a, b, c); (a, c, d)] \/ ts = [(b, c, d); (a, b, d)] \/ ts = [(c, d, a); (a, b, c)].
Proof.
  intros C. inversion C as [|l i p x q ts' L P Q R C']; subst. change (len [a; b; c; d]) with 4%N in *.
  assert (I : (i = 0 \/ i = 1 \/ i = 2 \/ i = 3)%N).
  { unfold at_pos in Q. assert (N.to_nat i < 4) by (change 4 with (length [a; b; c; d]); apply nth_error_Some; congruence). lia. }
  destruct I as [->|[->|[->| ->]]]; unfold at_pos in P, Q, R; cbn in P, Q, R; injection P as <-; injection Q as <-; injection R as <-;
    cbn in C'; apply clips_three in C' as ->; auto.
Qed.
Definition finite_vec (v : vec3) : Prop := is_finite (vx v) = true /\ is_finite (vy v) = true /\ is_finite (vz v) = true.
Lemma fsub_self x : is_finite x = true -> fsub x x = B754_zero false.
Proof.
  destruct x as [s|s| |s m e B]; intros F; try discriminate F.
  - destruct s; reflexivity.
  - unfold fsub, Bminus. cbv zeta.
    assert (Z : BinarySingleNaN.Fplus_naive s m e (negb s) m e (Z.min e e) = 0%Z).
    { unfold BinarySingleNaN.Fplus_naive. destruct s; cbn [negb SpecFloat.cond_Zopp]; lia. }
    rewrite Z. reflexivity.
Qed.
Lemma dot_nan b : dot (B754_nan, B754_nan, B754_nan) b = B754_nan.
Proof. destruct b as [[x y] z]. unfold dot, vx, vy, vz. cbn [fst snd]. unfold fmul, Bmult. reflexivity. Qed.
Lemma angle_self acos p q : finite_vec p -> compute_angle acos p p q = acos B754_nan.
Proof.
  intros (F1 & F2 & F3). unfold compute_angle.
  assert (S : sub_vec3 p p = (B754_zero false, B754_zero false, B754_zero false)) by (unfold sub_vec3; now rewrite !fsub_self).
  rewrite S. assert (N0 : normalize (B754_zero false, B754_zero false, B754_zero false) = (B754_nan, B754_nan, B754_nan)) by reflexivity.
  rewrite N0, dot_nan. reflexivity.
Qed.
Lemma best_ear_nan {E} (vals : list f32) n : @get f32 vals 0 = Some B754_nan -> forall i, (i + N.of_nat n <= len vals)%N -> best_ear (E:=E) vals n i 0 = Ok 0%N.
Proof.
  intros G. induction n as [|n IH]; intros i L; cbn [best_ear]; [reflexivity|]. unfold index.
  destruct (get_some vals i) as [x ->]; [lia|]. cbn [bind]. rewrite G. cbn [bind]. change (flt B754_nan x) with false. apply IH. lia.
Qed.
Lemma pentagon {E} acos s V M U x : acos B754_nan = B754_nan -> length V = 5 -> length M = 5 -> length U = 5 -> in_range (i_vertices s) V ->
  (forall i, at_pos V 0 i -> at_pos (i_vertices s) i x) -> finite_vec x ->
  exists ts, triangulate (E:=E) acos s V M U = Ok (with_faces s (sel V (flat ts)) (sel M (flat ts)) (sel U (flat ts))) /\
    exists ts', ts = (0, 0, 1)%N :: ts' /\ clips wrapped_before [1; 2; 3; 4]%N ts'.
Proof.
  intros AN LV LM LU R X FX. unfold triangulate.
  destruct (all_ears_ok (E:=E) acos V (i_vertices s) (length V) R 0) as (es & AE & LE). { unfold len. lia. }
  assert (G : @get f32 es 0 = Some B754_nan).
  { rewrite LV in AE. cbn [all_ears] in AE. destruct (calc_ear_val_at_index acos V 0 (i_vertices s)) as [e| |] eqn:CE; cbn [bind] in AE; try discriminate AE.
    assert (e = B754_nan).
    { unfold calc_ear_val_at_index in CE. destruct V as [|v0 [|v1 [|v2 [|v3 [|v4 [|]]]]]]; try discriminate LV.
      change (pred64 0 mod ulen [v0; v1; v2; v3; v4])%N with 0%N in CE. change (succ64 0 mod ulen [v0; v1; v2; v3; v4])%N with 1%N in CE.
      change (index (E:=E) [v0; v1; v2; v3; v4] 0) with (Ok (E:=E) v0) in CE. change (index (E:=E) [v0; v1; v2; v3; v4] 1) with (Ok (E:=E) v1) in CE.
      cbn [bind] in CE. unfold eval_ear, index in CE.
      specialize (X v0 eq_refl). unfold at_pos in X. rewrite <- get_nth in X. rewrite X in CE. cbn [bind] in CE.
      destruct (get (i_vertices s) v1); cbn [bind] in CE; try discriminate CE. injection CE as <-. now rewrite angle_self. }
    subst e. match type of AE with bind ?m _ = _ => destruct m as [t| |]; cbn [bind] in AE; try discriminate AE end. injection AE as <-. reflexivity. }
  rewrite AE. cbn [bind]. clear AE.
  set (ps := corners 5). assert (SV : sel V ps = V) by (unfold ps; rewrite <- LV; apply sel_corners).
  assert (SM : sel M ps = M) by (unfold ps; rewrite <- LM; apply sel_corners). assert (SU : sel U ps = U) by (unfold ps; rewrite <- LU; apply sel_corners).
  destruct (cut_ears_step (E:=E) acos V M U 4 ps s es 0) as (p & q & r & es' & P & Q & RR & LE' & R' & LP & ST); try reflexivity.
  { cbn. lia. } { rewrite SV. exact R. } { rewrite LE, LV. reflexivity. } { apply best_ear_nan; auto. unfold len. rewrite LE, LV. cbn. lia. }
  change (wrapped_before (len ps) 0) with 0%N in P. change ((0 + 1) mod len ps)%N with 1%N in RR.
  unfold at_pos in P, Q, RR. cbn in P, Q, RR. injection P as <-. injection Q as <-. injection RR as <-.
  rewrite SV, SM, SU in ST. rewrite LV, ST. change (without ps 0) with [1; 2; 3; 4]%N in *. clear ST.
  destruct (cut_ears_ok (E:=E) acos V M U 4 [1; 2; 3; 4]%N (with_faces s (sel V [0; 0; 1]%N) (sel M [0; 0; 1]%N) (sel U [0; 0; 1]%N)) es') as (ts & a & b & c & EQ & CL); auto.
  { cbn. lia. } { cbn. lia. } { reflexivity. }
  rewrite EQ. cbn [bind]. exists ((0, 0, 1)%N :: ts ++ [(a, b, c)]). split; [|eauto].
  set (s' := with_faces (with_faces s _ _ _) _ _ _). rewrite (push_corner_ok s' V M U [a; b; c] 0 a) by reflexivity. cbn [bind].
  rewrite (push_corner_ok _ V M U [a; b; c] 1 b) by reflexivity. cbn [bind].
  rewrite (push_corner_ok _ V M U [a; b; c] 2 c) by reflexivity. unfold s'. rewrite !with_faces_app, <- !sel_app.
  assert (F : flat ((0, 0, 1)%N :: ts ++ [(a, b, c)]) = [0; 0; 1]%N ++ flat ts ++ [a; b; c]).
  { unfold flat. cbn [map concat fst snd]. rewrite map_app, concat_app. cbn [map concat fst snd]. now rewrite app_nil_r. }
  rewrite F. repeat rewrite <- app_assoc. reflexivity.
Qed.
