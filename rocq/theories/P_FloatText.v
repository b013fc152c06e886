(** Property C75: the numbers in .obj text. *)
From Coq Require Import List NArith ZArith Arith Lia Bool Reals Lra.
From Flocq Require Import Core IEEE754.BinarySingleNaN.
From Verif Require Import Base Floats FloatReal_proofs Utilis Unify CustomData Mesh MeshSpec FileSpec File_proofs Importer Obj ObjSpec ObjTextSpec Obj_proofs Obj2_proofs
  FloatText FloatTextSpec FloatText_proofs P_Obj P_ObjText.
Import ListNotations.
Open Scope res_scope.
Local Open Scope R_scope.

(** C75. Every float that is printed is read back as it was, also zeros with a sign, infinities
    and NaN, and printing only uses visible characters other than the slash. In both types. *)
Theorem C75_print_read : text_ok std_text.
Proof. intros x. split; [exact (parse_shown 24 128 gt0_24 lt_24_128 x)|exact (shown_plain 24 128 x)]. Qed.
Print Assumptions C75_print_read.
Theorem C75_print_read_double : forall x : f64,
  parse_float 53 1024 (show_float 53 1024 x) = Some x /\ Forall plain (show_float 53 1024 x).
Proof. intros x. split; [exact (parse_shown 53 1024 gt0_53 lt_53_1024 x)|exact (shown_plain 53 1024 x)]. Qed.
Print Assumptions C75_print_read_double.

(** Hence exported meshes come back as in C44, without an assumption on the text of floats. *)
Theorem C75_roundtrip : forall tri oc l, l <> [] ->
  Forall (fun mn => exportable (fst mn) /\ line_name (snd mn)) l -> numbered l ->
  exists text outs, write_obj std_text oc l = Ok text /\ read_from_obj std_text tri text = Ok outs /\ Forall2 reimported l outs.
Proof. intros tri oc l. apply C44_roundtrip. exact C75_print_read. Qed.
Print Assumptions C75_roundtrip.

(** Which texts are numbers, and which number each is read as: the nearest float. *)
Theorem C75_read : forall s x, (len s < 60000)%N -> (t_parse std_text s = Some x <-> stands_for_float 24 128 s x).
Proof. intros s x. apply (read_iff 24 128 gt0_24 lt_24_128). discriminate. Qed.
Print Assumptions C75_read.
Theorem C75_read_double : forall s x, (len s < 60000)%N -> (parse_float 53 1024 s = Some x <-> stands_for_float 53 1024 s x).
Proof. intros s x. apply (read_iff 53 1024 gt0_53 lt_53_1024). discriminate. Qed.
Print Assumptions C75_read_double.

(** Nearest in the plain sense: no finite float is nearer, and the error is at most 2^-24 of the
    number, or 2^-150. *)
Lemma decimal_nonneg s neg v : decimal_text s neg v -> 0 <= v.
Proof. intros (sg & i & p & f & x & e & _ & _ & _ & _ & _ & _ & _ & ->). apply dec_nonneg. Qed.
Theorem C75_accurate : forall s neg v, (len s < 60000)%N -> decimal_text s neg v -> v <= 2 ^ 127 ->
  exists x, t_parse std_text s = Some x /\ is_finite x = true /\ Bsign x = neg /\
    (forall y : f32, is_finite y = true -> Rabs (Rabs (B2R x) - v) <= Rabs (B2R y - v)) /\
    Rabs (Rabs (B2R x) - v) <= / 2 ^ 24 * v + / 2 ^ 150.
Proof.
  intros s neg v L D V. pose proof (decimal_nonneg s neg v D) as V0.
  assert (R0 : 0 <= rounded 24 128 v).
  { apply round_ge_generic; [apply FLT_exp_valid; exact gt0_24|apply valid_rnd_N|apply generic_format_0|exact V0]. }
  assert (RL : rounded 24 128 v < bpow radix2 128).
  { apply Rle_lt_trans with (bpow radix2 127); [|apply bpow_lt; lia].
    apply round_le_generic; [apply FLT_exp_valid; exact gt0_24|apply valid_rnd_N|apply generic_format_FLT_bpow; [exact gt0_24|lia]|].
    eapply Rle_trans; [exact V|]. right. rewrite bpow_powerRZ. reflexivity. }
  assert (exists x, nearest_to 24 128 neg v x) as [x N].
  { destruct D as (sg & i & p & f & y & e & _ & _ & _ & _ & _ & _ & _ & ->). eexists.
    apply nearest_iff. apply (of_decimal_correct 24 128 gt0_24 lt_24_128). }
  exists x. split; [apply C75_read; [exact L|]; left; exists neg, v; auto|].
  destruct N as [(_ & F & S & B)|[N _]]; [|lra]. split; [exact F|]. split; [exact S|].
  assert (AB : Rabs (B2R x) = rounded 24 128 v) by (rewrite B; destruct neg; [rewrite Rabs_Ropp|]; now apply Rabs_pos_eq).
  rewrite AB. split.
  - intros y Fy. pose proof (FLT_exp_valid (3 - 128 - 24) 24 (prec_gt_0_ := gt0_24)) as VE. destruct (round_N_pt radix2 (FLT_exp (3 - 128 - 24) 24) (fun z => negb (Z.even z)) v) as [_ NP].
    apply NP. change (FLT_exp (3 - 128 - 24) 24) with (SpecFloat.fexp 24 128). apply generic_format_B2R.
  - pose proof (rnd32_err v) as E. rewrite (Rabs_pos_eq v) in E by exact V0.
    eapply Rle_trans; [exact E|]. right. unfold u32, tiny32. replace (bpow radix2 (-150)) with (/ 2 ^ 150); [simpl pow; lra|].
    change (-150)%Z with (- (150))%Z. rewrite bpow_opp, bpow_powerRZ. reflexivity.
Qed.
Print Assumptions C75_accurate.

(** Printing a finite number other than zero: the shortest decimal that is read back, and the
    nearest one of those. *)
Theorem C75_shortest : forall x : f32, is_finite x = true -> B2R x <> 0 ->
  exists k j, decimal_text (t_show std_text x) (Bsign x) (dec k j) /\ shortest_for 24 128 (Rabs (B2R x)) k j.
Proof. exact (shown_decimal 24 128 gt0_24 lt_24_128). Qed.
Print Assumptions C75_shortest.

(** Texts of the same number can replace each other in a file: 0.5, .5, +0.50, 5e-1 and 50E-2. *)
Definition same_number (s s' : list N) : Prop :=
  (len s < 60000)%N /\ (len s' < 60000)%N /\ exists neg v, decimal_text s neg v /\ decimal_text s' neg v.
Lemma same_read s s' : same_number s s' -> t_parse std_text s = t_parse std_text s'.
Proof.
  intros (L & L' & neg & v & D & D'). assert (exists x, nearest_to 24 128 neg v x) as [x N].
  { destruct D as (sg & i & p & f & y & e & _ & _ & _ & _ & _ & _ & _ & ->). eexists.
    apply nearest_iff. apply (of_decimal_correct 24 128 gt0_24 lt_24_128). }
  transitivity (Some x); [|symmetry]; apply C75_read; auto; left; exists neg, v; auto.
Qed.
Lemma sign_plain sg neg : sign_text sg neg -> Forall plain sg.
Proof. intros [[-> _]|[[-> _]|[-> _]]]; repeat constructor; cbn; lia. Qed.
Lemma decimal_plain s neg v : decimal_text s neg v -> Forall plain s /\ s <> [].
Proof.
  intros (sg & i & p & f & x & e & -> & SG & I & F & NE & PP & X & _).
  assert (D : forall l, Forall digit l -> Forall plain l) by (intros l; apply Forall_impl; apply digit_plain).
  split.
  - apply Forall_app. split; [eapply sign_plain, SG|]. apply Forall_app. split; [auto|]. apply Forall_app. split; [destruct PP as [-> |[-> _]]; repeat constructor; lia|].
    apply Forall_app. split; [auto|]. destruct X as [[-> _]|(c & sg' & neg' & ds & C & SG' & _ & DS & -> & _)]; [constructor|].
    constructor; [destruct C as [-> | ->]; split; lia|]. apply Forall_app. split; [eapply sign_plain, SG'|auto].
  - intros E. apply NE. apply app_eq_nil in E as [_ E]. apply app_eq_nil in E as [-> E]. apply app_eq_nil in E as [_ E]. now apply app_eq_nil in E as [-> _].
Qed.
Lemma plain_token p : Forall plain p -> p <> [] -> token p.
Proof.
  intros P NE. assert (I : forall c, In c p -> plain c) by (now apply Forall_forall). unfold plain in I.
  split; [intros H; apply I in H; lia|]. split; [intros H; apply I in H; lia|]. split; [intros H; apply I in H; lia|]. split; [exact NE|]. split.
  - intros H. assert (In 13%N p); [|apply I in H0; lia]. rewrite <- H. destruct (exists_last NE) as (q & c & ->). rewrite last_last. apply in_or_app. right. now left.
  - clear NE I. induction P as [|c p H P IH]; [constructor|]. apply utf8_1; [unfold plain in H; lia|exact IH].
Qed.
Theorem C75_same_number : forall tri a b k ws ws' e, whole a -> line_end e ->
  (In k [[118]; [118; 110]]%N /\ length ws = 3%nat \/ k = [118; 116]%N /\ length ws = 2%nat) -> Forall2 same_number ws ws' ->
  read_from_obj std_text tri (a ++ spaced ws k ++ e ++ b) = read_from_obj std_text tri (a ++ spaced ws' k ++ e ++ b).
Proof.
  intros tri a b k ws ws' e W E K SN.
  assert (TK : token k).
  { assert (I : In k [[118]; [118; 110]; [118; 116]]%N) by (cbn in *; intuition).
    destruct I as [<-|[<-|[<-|[]]]]; apply plain_token; try discriminate; repeat constructor; lia. }
  assert (T : Forall token ws) by (clear K; induction SN as [|s s' l l' (_ & _ & neg & v & D & _) _ IH]; constructor; auto; apply plain_token; apply (decimal_plain s neg v D)).
  assert (T' : Forall token ws') by (clear K T; induction SN as [|s s' l l' (_ & _ & neg & v & _ & D) _ IH]; constructor; auto; apply plain_token; apply (decimal_plain s' neg v D)).
  assert (G : forall l, Forall token l -> line (spaced l k) /\ utf8 (spaced l k) /\ split (spaced l k) = k :: l).
  { intros l TL. assert (F : Forall token (k :: l)) by (constructor; auto). split; [now apply spaced_line|]. split.
    - apply spaced_utf8. eapply Forall_impl; [|exact F]. intros p P. apply P.
    - apply spaced_split. eapply Forall_impl; [|exact F]. intros p (A & B & _). split; auto. }
  destruct (G ws T) as (G1 & G2 & G3). destruct (G ws' T') as (G1' & G2' & G3').
  rewrite !read_split by auto. rewrite !lines_line by auto.
  destruct (read_lines std_text tri (lines a) importer_new []) as [[oi acc]| |]; auto. cbn [bind read_lines].
  assert (P : parse_line std_text tri (spaced ws k) oi = parse_line std_text tri (spaced ws' k) oi); [|now rewrite P].
  unfold parse_line. rewrite !utf8_valid_complete by assumption. rewrite G3, G3'. cbn [negb next_part bind].
  assert (V3 : forall l l', Forall2 same_number l l' -> load_vec3 std_text l = load_vec3 std_text l').
  { intros l l' H. unfold load_vec3, parse_float_type. destruct H as [|x x' l l' X H]; [reflexivity|]. destruct H as [|y y' l l' Y H]; [reflexivity|].
    destruct H as [|z z' l l' Z H]; [reflexivity|]. cbn [next_part bind]. now rewrite (same_read _ _ X), (same_read _ _ Y), (same_read _ _ Z). }
  assert (V2 : forall l l', Forall2 same_number l l' -> load_vec2 std_text l = load_vec2 std_text l').
  { intros l l' H. unfold load_vec2, parse_float_type. destruct H as [|x x' l l' X H]; [reflexivity|]. destruct H as [|y y' l l' Y H]; [reflexivity|].
    cbn [next_part bind]. now rewrite (same_read _ _ X), (same_read _ _ Y). }
  destruct K as [[K _]|[-> _]].
  - destruct K as [<-|[<-|[]]]; cbn [list_eqb kw_v kw_vn N.eqb Pos.eqb andb]; now rewrite (V3 ws ws' SN).
  - cbn [list_eqb kw_v kw_vn kw_vt N.eqb Pos.eqb andb]. now rewrite (V2 ws ws' SN).
Qed.
Print Assumptions C75_same_number.

(** ** Cases *)
(** 0.1, the largest and the smallest f32, -0, a number with an exponent and one between two
    floats; texts that are refused. *)
Definition half_texts : list (list N) := [[48; 46; 53]; [46; 53]; [43; 48; 46; 53; 48]; [53; 101; 45; 49]; [53; 48; 69; 45; 50]]%N.
Lemma half_text s : In s half_texts -> decimal_text s false (/ 2).
Proof.
  assert (E0 : exponent_text [] 0) by (left; auto).
  assert (DG : forall l, forallb (fun c => (48 <=? c)%N && (c <=? 57)%N) l = true -> Forall digit l).
  { intros l H. apply Forall_forall. intros c I. rewrite forallb_forall in H. apply H in I. now apply digit_b. }
  intros [<-|[<-|[<-|[<-|[<-|[]]]]]].
  - exists [], [48]%N, [46]%N, [53]%N, [], 0%Z. repeat (split; [first [reflexivity|discriminate|assumption|apply DG; reflexivity|left; auto]|]). unfold dec. cbn. lra.
  - exists [], [], [46]%N, [53]%N, [], 0%Z. repeat (split; [first [reflexivity|discriminate|assumption|apply DG; reflexivity|left; auto]|]). unfold dec. cbn. lra.
  - exists [43]%N, [48]%N, [46]%N, [53; 48]%N, [], 0%Z. repeat (split; [first [reflexivity|discriminate|assumption|apply DG; reflexivity|left; auto; fail|right; left; auto; fail]|]). unfold dec. cbn. lra.
  - exists [], [53]%N, [], [], [101; 45; 49]%N, (-1)%Z. repeat (split; [first [reflexivity|discriminate|assumption|apply DG; reflexivity|left; auto; fail|right; auto; fail]|]).
    split; [right; exists 101%N, [45]%N, true, [49]%N; repeat (split; [first [reflexivity|discriminate|apply DG; reflexivity|left; auto; fail|right; right; auto; fail]|]); reflexivity|].
    unfold dec. cbn. lra.
  - exists [], [53; 48]%N, [], [], [69; 45; 50]%N, (-2)%Z. repeat (split; [first [reflexivity|discriminate|assumption|apply DG; reflexivity|left; auto; fail|right; auto; fail]|]).
    split; [right; exists 69%N, [45]%N, true, [50]%N; repeat (split; [first [reflexivity|discriminate|apply DG; reflexivity|right; auto; fail|right; right; auto; fail]|]); reflexivity|].
    unfold dec. cbn. lra.
Qed.
Example C75_case :
  (forall s s', In s half_texts -> In s' half_texts -> same_number s s') /\ / 2 <= 2 ^ 127 /\
  t_parse std_text [46; 53]%N = Some (@B754_finite 24 128 false 8388608 (-24) eq_refl) /\
  t_show std_text (@B754_finite 24 128 false 13421773 (-27) eq_refl) = [48; 46; 49]%N /\
  t_show std_text (B754_zero true) = [45; 48]%N /\
  t_show std_text (@B754_finite 24 128 true 16777215 (0) eq_refl) = [45; 49; 54; 55; 55; 55; 50; 49; 53]%N /\
  map (t_parse std_text) [[]; [46]; [43]; [49; 101]; [101; 49]; [49; 46; 50; 46]; [49; 32]; [48; 120; 49]]%N = repeat None 8.
Proof.
  split; [|split; [simpl pow; lra|vm_compute; repeat split; reflexivity]].
  intros s s' I I'. assert (L : forall t, In t half_texts -> (len t < 60000)%N) by (intros t H; cbn in H; repeat destruct H as [<-|H]; try contradiction; reflexivity).
  split; [auto|]. split; [auto|]. exists false, (/ 2). split; now apply half_text.
Qed.
