(** Lemmas about the .obj model for all number types. *)
From Coq Require Import List NArith ZArith Arith Lia Bool ZifyN ZifyNat ZifyBool.
From Verif Require Import Base Floats Utilis Unify CustomData Mesh File FileSpec File_proofs MeshSpec Mesh_proofs Mesh2_proofs Importer Obj ObjSpec P_Split Obj_proofs
  ObjAny ObjAnySpec.
Import ListNotations.
Open Scope res_scope.

Section Any.
Context {Fl : Type} (top : N) (TOP : index_type top).
Implicit Types (ft : any_text Fl) (m : any_mesh Fl) (oi : any_importer Fl).
Lemma top_range : (2 ^ 16 <= top <= 2 ^ 64)%N.
Proof using TOP. destruct TOP as [->|[->| ->]]; split; discriminate. Qed.

(** ** Numbers *)
Definition any_numeral (s : list N) (n : N) : Prop :=
  exists d, (s = d \/ s = 43%N :: d) /\ d <> [] /\ Forall digit d /\ decimal d = n /\ (n < top)%N.
Lemma digits_any_ok d a : Forall digit d -> (fold_left grow d a < top)%N -> digits_any top d a = Some (fold_left grow d a).
Proof.
  revert a. induction d as [|c d IH]; intros a D L; cbn [digits_any fold_left] in *; [reflexivity|].
  inversion D as [|? ? D1 D2]; subst. destruct D1. assert (((48 <=? c) && (c <=? 57))%N = true) as -> by (apply andb_true_intro; split; apply N.leb_le; lia).
  pose proof (grow_ge d (grow a c)) as G. assert (E : (a * 10 + (c - 48))%N = grow a c) by (unfold grow; lia). rewrite E.
  assert ((grow a c <? top)%N = true) as -> by (apply N.ltb_lt; lia). auto.
Qed.
Lemma digits_any_some d a n : (a < top)%N -> digits_any top d a = Some n -> Forall digit d /\ fold_left grow d a = n /\ (n < top)%N.
Proof.
  revert a. induction d as [|c d IH]; intros a A; cbn [digits_any fold_left].
  - intros [= <-]. auto.
  - destruct ((48 <=? c) && (c <=? 57))%N eqn:B; [|discriminate]. destruct (N.ltb_spec (a * 10 + (c - 48)) top) as [L|]; [|discriminate].
    intros H. apply IH in H as (H1 & H2 & H3); [|exact L]. apply andb_prop in B as [B1 B2]. apply N.leb_le in B1, B2.
    assert (E : (a * 10 + (c - 48))%N = grow a c) by (unfold grow; lia). rewrite E in H2. split; [|auto]. constructor; [split; lia|auto].
Qed.
Lemma parse_any_iff s n : parse_any top s = Some n <-> any_numeral s n.
Proof using TOP.
  pose proof top_range as TR. split.
  - destruct s as [|c t]; [discriminate|]. intros H. cbn [parse_any] in H. destruct t as [|c' t].
    + destruct ((c =? 43) || (c =? 45))%N eqn:B; [discriminate|]. apply digits_any_some in H as (H1 & H2 & H3); [|lia].
      exists [c]. split; auto. split; [discriminate|]. auto.
    + destruct (N.eqb_spec c 43) as [->|].
      * apply digits_any_some in H as (H1 & H2 & H3); [|lia]. exists (c' :: t). split; auto. split; [discriminate|]. auto.
      * apply digits_any_some in H as (H1 & H2 & H3); [|lia]. exists (c :: c' :: t). split; auto. split; [discriminate|]. auto.
  - intros (d & S & NE & D & V & L). assert (P : digits_any top d 0 = Some n) by (rewrite <- V; apply digits_any_ok; auto; now rewrite <- V in L).
    destruct d as [|c d]; [congruence|]. inversion D as [|? ? D1 D2]; subst. destruct (digit_not_sign c D1) as [N1 N2].
    destruct S as [->| ->].
    + unfold parse_any. destruct d; rewrite N1, ?N2; cbn [orb]; exact P.
    + cbn [parse_any]. exact P.
Qed.
Lemma show_any_numeral n : (n < 2 ^ 64)%N -> Forall digit (show_any n) /\ show_any n <> [] /\ decimal (show_any n) = n.
Proof.
  intros L. destruct (show_digits_ok 20 n []) as (d & E & NE & D & V); [|lia|].
  { eapply N.lt_trans; [exact L|reflexivity]. }
  unfold show_any. rewrite E, app_nil_r. auto.
Qed.
Lemma any_index_show n : (n < top)%N -> any_index top (show_any n) = n.
Proof using TOP.
  intros L. pose proof top_range as TR. unfold any_index. destruct (show_any_numeral n) as (D & NE & V); [lia|].
  assert (H : any_numeral (show_any n) n) by (exists (show_any n); auto). apply parse_any_iff in H. now rewrite H.
Qed.
Lemma any_index_iff s n : any_index top s = n <-> any_stands_for top s n.
Proof using TOP.
  unfold any_index, any_stands_for. fold (any_numeral s n). destruct (parse_any top s) as [k|] eqn:P.
  - apply parse_any_iff in P as P'. split.
    + intros ->. now left.
    + intros [H|[H _]]; [apply parse_any_iff in H; congruence|]. exfalso. destruct P' as (d & S & NE & D & V & L). subst k. eapply H; eauto.
  - split.
    + intros <-. right. split; auto. intros d S NE D V. assert (H : any_numeral s (decimal d)) by (exists d; auto). apply parse_any_iff in H. congruence.
    + intros [H|[_ ->]]; auto. apply parse_any_iff in H. congruence.
Qed.

(** ** Pruning *)
Lemma prune_any_cases {A} (data : list A) indices data' indices' : (len data < top)%N -> in_range data indices -> prune_any top data indices = (data', indices') ->
  ((indices = [] /\ indices' = [] /\ data' = data) \/ In 0%N indices') /\
  exists front, data = front ++ data' /\ indices = map (fun i => (i + len front)%N) indices'.
Proof.
  intros S R H. unfold prune_any in H. fold (len data) in H. rewrite N.mod_small in H by exact S. split.
  - destruct indices as [|i indices].
    { cbn [prune_scan] in H. injection H as <- <-. left. auto. }
    right. destruct (prune_scan (i :: indices) (len data)) as [m|] eqn:P; injection H as <- <-.
    + apply prune_scan_some in P as (LE & Q & [M|M]).
      * exfalso. inversion R. destruct (Q i (or_introl eq_refl)). lia.
      * change ((i - m)%N :: map (fun i => (i - m)%N) indices) with (map (fun i => (i - m)%N) (i :: indices)).
        apply in_map_iff. exists m. split; auto. lia.
    + apply prune_scan_none in P. exact P.
  - destruct (prune_scan indices (match indices with [] => 0 | _ => len data end)%N) as [m|] eqn:P; injection H as <- <-.
    + exists (firstn (N.to_nat m) data). split; [symmetry; apply firstn_skipn|].
      apply prune_scan_some in P as (LE & Q & _).
      assert (ML : (m <= len data)%N) by (destruct indices; lia).
      assert (FL : len (firstn (N.to_nat m) data) = m) by (unfold len in *; rewrite firstn_length; lia). rewrite FL, map_map.
      rewrite <- (map_id indices) at 1. apply map_ext_in. intros i I. destruct (Q i I). lia.
    + exists []. split; auto. rewrite <- (map_id indices) at 1. apply map_ext. intros i. unfold len. cbn. lia.
Qed.

Lemma parse_join_a ft tri p rest oi : Forall plain p -> parts_ok rest ->
  any_line top ft tri (join p rest) oi =
    (let parts := map snd rest in
    if list_eqb p kw_v then let* v := any_vec3 ft parts in Ok (any_push_vertex oi v, None)
    else if list_eqb p kw_vn then let* v := any_vec3 ft parts in Ok (any_push_normal oi v, None)
    else if list_eqb p kw_vt then let* v := any_vec2 ft parts in Ok (any_push_uv oi v, None)
    else if list_eqb p kw_f then let* oi := any_face top tri parts oi in Ok (oi, None)
    else if list_eqb p kw_o then let* (name, _) := next_part parts in Ok (any_next_mesh top oi name)
    else Ok (oi, None)).
Proof.
  intros P F. unfold any_line. rewrite (visible_utf8 _ (join_visible _ _ P F)). cbn [negb].
  rewrite split_join; [reflexivity|now apply plain_no_sep|]. eapply Forall_impl; [|exact F]. intros cq [A B]. split; auto. now apply plain_no_sep.
Qed.

Lemma read_lines_app_a ft tri a : forall b oi acc,
  any_lines top ft tri (a ++ b) oi acc = let* (oi, acc) := any_lines top ft tri a oi acc in any_lines top ft tri b oi acc.
Proof.
  induction a as [|l a IH]; intros b oi acc; [reflexivity|]. cbn [app any_lines].
  destruct (any_line top ft tri l oi) as [[oi' o]| |]; cbn [bind]; auto.
Qed.

(** ** Lines with floats *)
Definition vec3_text_a (ft : any_text Fl) (word : list N) (v : (Fl * Fl * Fl)) : list N :=
  join word [(32%N, a_show ft (fst (fst v))); (32%N, a_show ft (snd (fst v))); (32%N, a_show ft (snd v))].
Definition vec2_text_a (ft : any_text Fl) (v : (Fl * Fl)) : list N :=
  join kw_vt [(32%N, a_show ft (fst v)); (32%N, a_show ft (snd v))].
Lemma vec3_line_text_a ft word v : any_vec3_line ft word v = vec3_text_a ft word v ++ nl.
Proof. unfold any_vec3_line, vec3_text_a, join, sp. cbn [map concat fst snd]. rewrite !app_nil_r. repeat progress (rewrite <- ?app_assoc; cbn [app]). reflexivity. Qed.
Lemma vec2_line_text_a ft v : any_vec2_line ft v = vec2_text_a ft v ++ nl.
Proof. unfold any_vec2_line, vec2_text_a, join, sp. cbn [map concat fst snd]. rewrite !app_nil_r. repeat progress (rewrite <- ?app_assoc; cbn [app]). reflexivity. Qed.
Lemma vec3_parts_a ft v : any_text_ok ft ->
  parts_ok [(32%N, a_show ft (fst (fst v))); (32%N, a_show ft (snd (fst v))); (32%N, a_show ft (snd v))] /\
  any_vec3 ft (map snd [(32%N, a_show ft (fst (fst v))); (32%N, a_show ft (snd (fst v))); (32%N, a_show ft (snd v))]) = Ok v.
Proof.
  intros T. split.
  - repeat (constructor; [split; [now left|apply T]|]). constructor.
  - cbn [map snd]. unfold any_vec3, next_part, any_float. cbn [bind].
    destruct (T (fst (fst v))) as [-> _], (T (snd (fst v))) as [-> _], (T (snd v)) as [-> _]. cbn [bind]. now destruct v as [[? ?] ?].
Qed.
Lemma vec2_parts_a ft v : any_text_ok ft ->
  parts_ok [(32%N, a_show ft (fst v)); (32%N, a_show ft (snd v))] /\
  any_vec2 ft (map snd [(32%N, a_show ft (fst v)); (32%N, a_show ft (snd v))]) = Ok v.
Proof.
  intros T. split.
  - repeat (constructor; [split; [now left|apply T]|]). constructor.
  - cbn [map snd]. unfold any_vec2, next_part, any_float. cbn [bind].
    destruct (T (fst v)) as [-> _], (T (snd v)) as [-> _]. cbn [bind]. now destruct v.
Qed.
Definition with_data_a (s : any_importer Fl) (v n : list (Fl * Fl * Fl)) (u : list (Fl * Fl)) : any_importer Fl :=
  mk_any_importer (ai_vertices s ++ v) (ai_normals s ++ n) (ai_uvs s ++ u) (ai_vertex_triangles s) (ai_normal_triangles s) (ai_uv_triangles s) (ai_name s).
Lemma with_data_none_a s : with_data_a s [] [] [] = s.
Proof. destruct s. unfold with_data_a. cbn. now rewrite !app_nil_r. Qed.
Lemma read_vertices_a ft tri l : any_text_ok ft -> forall s acc,
  any_lines top ft tri (map (vec3_text_a ft kw_v) l) s acc = Ok (with_data_a s l [] [], acc).
Proof.
  intros T. induction l as [|v l IH]; intros s acc; cbn [map any_lines]; [now rewrite with_data_none_a|].
  destruct (vec3_parts_a ft v T) as [P L]. destruct kw_plain as (K & _).
  unfold vec3_text_a. rewrite parse_join_a by auto. cbv zeta. rewrite L. change (list_eqb kw_v kw_v) with true. cbn [bind].
  rewrite IH. unfold with_data_a, any_push_vertex. cbn. now rewrite <- app_assoc.
Qed.
Lemma read_normals_a ft tri l : any_text_ok ft -> forall s acc,
  any_lines top ft tri (map (vec3_text_a ft kw_vn) l) s acc = Ok (with_data_a s [] l [], acc).
Proof.
  intros T. induction l as [|v l IH]; intros s acc; cbn [map any_lines]; [now rewrite with_data_none_a|].
  destruct (vec3_parts_a ft v T) as [P L]. destruct kw_plain as (_ & K & _).
  unfold vec3_text_a. rewrite parse_join_a by auto. cbv zeta. rewrite L.
  change (list_eqb kw_vn kw_v) with false. change (list_eqb kw_vn kw_vn) with true. cbn [bind].
  rewrite IH. unfold with_data_a, any_push_normal. cbn. now rewrite <- app_assoc.
Qed.
Lemma read_uvs_a ft tri l : any_text_ok ft -> forall s acc,
  any_lines top ft tri (map (vec2_text_a ft) l) s acc = Ok (with_data_a s [] [] l, acc).
Proof.
  intros T. induction l as [|v l IH]; intros s acc; cbn [map any_lines]; [now rewrite with_data_none_a|].
  destruct (vec2_parts_a ft v T) as [P L]. destruct kw_plain as (_ & _ & K & _).
  unfold vec2_text_a. rewrite parse_join_a by auto. cbv zeta. rewrite L.
  change (list_eqb kw_vt kw_v) with false. change (list_eqb kw_vt kw_vn) with false. change (list_eqb kw_vt kw_vt) with true. cbn [bind].
  rewrite IH. unfold with_data_a, any_push_uv. cbn. now rewrite <- app_assoc.
Qed.
Lemma read_name_a ft tri name s acc : line_name name ->
  any_lines top ft tri [name_text name] s acc =
    Ok (fst (any_next_mesh top s (word name)), match snd (any_next_mesh top s (word name)) with Some m => acc ++ [m] | None => acc end).
Proof.
  intros (U & _ & _). cbn [any_lines]. unfold any_line.
  assert (utf8 (name_text name)) as V. { unfold name_text, kw_o, sp. cbn [app]. repeat (apply utf8_1; [lia|]). exact U. }
  rewrite (utf8_valid_complete _ V). cbn [negb]. unfold name_text, sp. cbn [app].
  change (111%N :: 32%N :: name) with (kw_o ++ 32%N :: name).
  rewrite (split_part kw_o 32) by first [now left|apply plain_no_sep; apply kw_plain].
  cbn [next_part bind]. change (list_eqb kw_o kw_v) with false. change (list_eqb kw_o kw_vn) with false. change (list_eqb kw_o kw_vt) with false.
  change (list_eqb kw_o kw_f) with false. change (list_eqb kw_o kw_o) with true. cbn [bind].
  destruct (split_word name) as [rest ->]. cbn [next_part bind]. destruct (any_next_mesh top s (word name)). reflexivity.
Qed.
(** ** Lines with faces *)
(** A corner_a: 1-based vertex, uv (if any) and normal. *)
Definition corner_parts_a (v : N) (u : option N) (n : N) : list (N * list N) :=
  [(32%N, show_any v); (47%N, match u with Some u => show_any u | None => [] end); (47%N, show_any n)].
Definition corner_a (c : N * option N * N) : list (N * list N) := corner_parts_a (fst (fst c)) (snd (fst c)) (snd c).
Definition face_text_a (a b c : N * option N * N) : list N := join kw_f (corner_a a ++ corner_a b ++ corner_a c).
Fixpoint face_texts_a (vs : list N) (us : list (option N)) (ns : list N) : list (list N) :=
  match vs, us, ns with
  | v1 :: v2 :: v3 :: vs, u1 :: u2 :: u3 :: us, n1 :: n2 :: n3 :: ns =>
    face_text_a (v1, u1, n1) (v2, u2, n2) (v3, u3, n3) :: face_texts_a vs us ns
  | _, _, _ => []
  end.
Definition fits32_a (n : N) : Prop := (n < top)%N.
Definition fits32o_a (u : option N) : Prop := match u with Some u => fits32_a u | None => True end.

Lemma add32_ok_a {E} oc a b : fits32_a (a + b) -> add_any top (E:=E) oc a b = Ok (a + b)%N.
Proof. intros H. unfold add_any. assert ((a + b <? top)%N = true) as ->; [apply N.ltb_lt; exact H|reflexivity]. Qed.
Lemma face_loop_ok_a oc off_v off_u off_n k : forall vs (uo : option (list N)) ns pu pn,
  length vs = 3 * k -> (forall us, uo = Some us -> length us = 3 * k) -> length ns = 3 * k ->
  len pu = len pn -> (len pn mod 3 = 0)%N ->
  Forall (fun v => fits32_a (v + off_v)) vs -> (forall us, uo = Some us -> Forall (fun u => fits32_a (u + off_u)) us) ->
  Forall (fun n => fits32_a (n + off_n)) ns ->
  any_face_loop top oc (off_v, off_u, off_n) (len pn) vs (option_map (fun us => pu ++ us) uo) (Some (pn ++ ns)) =
    Ok (unlines (face_texts_a (map (fun v => v + off_v)%N vs) (uv_numbers uo off_u (3 * k)) (map (fun n => n + off_n)%N ns))).
Proof.
  induction k as [|k IH]; intros vs uo ns pu pn L1 L2 L3 LP M F1 F2 F3.
  - destruct vs; [|discriminate L1]. reflexivity.
  - replace (3 * S k) with (S (S (S (3 * k)))) in * by lia.
    destruct vs as [|v1 [|v2 [|v3 vs]]]; try discriminate L1. destruct ns as [|n1 [|n2 [|n3 ns]]]; try discriminate L3.
    cbn [length] in L1, L3.
    inversion F1 as [|? ? A1 F1']; subst. inversion F1' as [|? ? A2 F1'']; subst. inversion F1'' as [|? ? A3 F1v]; subst. clear F1 F1' F1''.
    inversion F3 as [|? ? C1 F3']; subst. inversion F3' as [|? ? C2 F3'']; subst. inversion F3'' as [|? ? C3 F3v]; subst. clear F3 F3' F3''.
    assert (exists j, len pn = (3 * j)%N) as [j J].
    { exists (len pn / 3)%N. rewrite (N.div_mod (len pn) 3) at 1 by lia. lia. }
    destruct (mod3 j) as (M0 & M1 & M2).
    cbn [any_face_loop]. rewrite J, M0, M1, M2. cbn [N.eqb Pos.eqb].
    rewrite !(add32_ok_a oc _ off_v) by auto. cbn [bind].
    rewrite (index_app_len pn n1) by lia. replace (pn ++ n1 :: n2 :: n3 :: ns) with ((pn ++ [n1]) ++ n2 :: n3 :: ns) by now rewrite <- app_assoc.
    rewrite (index_app_len (pn ++ [n1]) n2) by (unfold len in *; rewrite app_length; cbn [length]; lia).
    replace ((pn ++ [n1]) ++ n2 :: n3 :: ns) with ((pn ++ [n1; n2]) ++ n3 :: ns) by now rewrite <- !app_assoc.
    rewrite (index_app_len (pn ++ [n1; n2]) n3) by (unfold len in *; rewrite app_length; cbn [length]; lia). cbn [bind].
    rewrite !(add32_ok_a oc _ off_n) by auto. cbn [bind].
    replace ((pn ++ [n1; n2]) ++ n3 :: ns) with ((pn ++ [n1; n2; n3]) ++ ns) by now rewrite <- !app_assoc.
    assert (LN : (3 * j + 1 + 1 + 1)%N = len (pn ++ [n1; n2; n3])) by (unfold len in *; rewrite app_length; cbn [length]; lia).
    assert (MN : (len (pn ++ [n1; n2; n3]) mod 3 = 0)%N).
    { rewrite <- LN. replace (3 * j + 1 + 1 + 1)%N with (3 * (j + 1))%N by lia. apply mod3. }
    rewrite LN.
    destruct uo as [us|].
    + specialize (L2 us eq_refl). specialize (F2 us eq_refl). destruct us as [|u1 [|u2 [|u3 us]]]; try discriminate L2.
      inversion F2 as [|? ? B1 F2']; subst. inversion F2' as [|? ? B2 F2'']; subst. inversion F2'' as [|? ? B3 F2v]; subst. clear F2 F2' F2''.
      cbn [option_map].
      rewrite (index_app_len pu u1) by lia. replace (pu ++ u1 :: u2 :: u3 :: us) with ((pu ++ [u1]) ++ u2 :: u3 :: us) by now rewrite <- app_assoc.
      rewrite (index_app_len (pu ++ [u1]) u2) by (unfold len in *; rewrite app_length; cbn [length]; lia).
      replace ((pu ++ [u1]) ++ u2 :: u3 :: us) with ((pu ++ [u1; u2]) ++ u3 :: us) by now rewrite <- !app_assoc.
      rewrite (index_app_len (pu ++ [u1; u2]) u3) by (unfold len in *; rewrite app_length; cbn [length]; lia). cbn [bind].
      rewrite !(add32_ok_a oc _ off_u) by auto. cbn [bind].
      replace ((pu ++ [u1; u2]) ++ u3 :: us) with ((pu ++ [u1; u2; u3]) ++ us) by now rewrite <- !app_assoc.
      specialize (IH vs (Some us) ns (pu ++ [u1; u2; u3]) (pn ++ [n1; n2; n3])). cbn [option_map] in IH.
      rewrite IH; auto; try lia.
      * cbn [bind uv_numbers map face_texts_a]. f_equal. unfold unlines at 2. cbn [map concat]. fold (unlines (face_texts_a (map (fun v => (v + off_v)%N) vs) (map (fun u => Some (u + off_u)%N) us) (map (fun n => (n + off_n)%N) ns))).
        unfold face_text_a, join, corner_a, corner_parts_a, kw_f, sp, slash, nl. cbn [map concat fst snd app].
        repeat progress (rewrite <- ?app_assoc; cbn [app]). reflexivity.
      * intros us' E. injection E as <-. cbn [length] in L2. lia.
      * unfold len in *. rewrite !app_length. cbn [length]. lia.
      * intros us' E. injection E as <-. auto.
    + cbn [option_map bind].
      specialize (IH vs None ns (pu ++ [0; 0; 0]%N) (pn ++ [n1; n2; n3])). cbn [option_map] in IH.
      rewrite IH; auto; try lia; try discriminate.
      * cbn [bind uv_numbers map face_texts_a repeat]. f_equal. unfold unlines at 2. cbn [map concat]. fold (unlines (face_texts_a (map (fun v => (v + off_v)%N) vs) (repeat None (3 * k)) (map (fun n => (n + off_n)%N) ns))).
        unfold face_text_a, join, corner_a, corner_parts_a, kw_f, sp, slash, nl. cbn [map concat fst snd app].
        repeat progress (rewrite <- ?app_assoc; cbn [app]). reflexivity.
      * unfold len in *. rewrite !app_length. cbn [length]. lia.
Qed.

Definition with_faces_a (s : any_importer Fl) (v n u : list N) : any_importer Fl :=
  mk_any_importer (ai_vertices s) (ai_normals s) (ai_uvs s) (ai_vertex_triangles s ++ v) (ai_normal_triangles s ++ n) (ai_uv_triangles s ++ u) (ai_name s).
Definition uv_index_a (u : option N) : N := match u with Some u => (u - 1)%N | None => 0%N end.
Definition positive_a (n : N) : Prop := (1 <= n < top)%N.
Definition positive_o_a (u : option N) : Prop := match u with Some u => positive_a u | None => True end.
Lemma show_plain_a n : fits32_a n -> Forall plain (show_any n).
Proof. intros H. apply digits_plain. pose proof top_range. apply show_any_numeral. unfold fits32_a in H. lia. Qed.
Lemma corner_ok_a v u n : positive_a v -> positive_o_a u -> positive_a n -> parts_ok (corner_parts_a v u n).
Proof.
  intros V U W. unfold corner_parts_a. constructor; [split; [now left|]|constructor; [split; [now right|]|constructor; [split; [now right|]|constructor]]]; cbn [snd].
  - apply show_plain_a. apply V.
  - destruct u; [apply show_plain_a; apply U|constructor].
  - apply show_plain_a. apply W.
Qed.
Lemma load_corner_a v u n rest : positive_a v -> positive_o_a u -> positive_a n ->
  any_indices top (map snd (corner_parts_a v u n) ++ rest) = Ok (v - 1, uv_index_a u, n - 1, rest)%N.
Proof.
  intros V U W. unfold any_indices, corner_parts_a. cbn [map snd app next_part bind].
  rewrite !any_index_show by (apply V || apply W).
  assert (PU : any_index top (match u with Some u => show_any u | None => [] end) = (uv_index_a u + 1)%N).
  { destruct u as [u|]; [|reflexivity]. rewrite any_index_show by apply U. cbn [uv_index_a positive_o_a] in *. unfold positive_a in U. lia. }
  rewrite PU. unfold positive_a in *. destruct (N.ltb_spec v 1); [lia|]. destruct (N.ltb_spec (uv_index_a u + 1) 1); [lia|]. destruct (N.ltb_spec n 1); [lia|]. cbn [orb].
  now rewrite N.add_sub.
Qed.
Lemma load_corners_corner_a f v u n rest vs us ns : positive_a v -> positive_o_a u -> positive_a n ->
  any_corners top (S f) (map snd (corner_parts_a v u n) ++ rest) vs us ns =
    any_corners top f rest (vs ++ [v - 1]%N) (us ++ [uv_index_a u]) (ns ++ [n - 1]%N).
Proof. intros V U W. cbn [any_corners]. now rewrite load_corner_a. Qed.
Lemma load_corners_end_a f vs us ns : any_corners top f [] vs us ns = (vs, us, ns).
Proof. now destruct f. Qed.
Lemma load_face3_a f c1 c2 c3 vs us ns :
  Forall positive_a [fst (fst c1); fst (fst c2); fst (fst c3)] -> Forall positive_o_a [snd (fst c1); snd (fst c2); snd (fst c3)] ->
  Forall positive_a [snd c1; snd c2; snd c3] ->
  any_corners top (S (S (S f))) (map snd (corner_a c1 ++ corner_a c2 ++ corner_a c3)) vs us ns =
    (vs ++ [fst (fst c1) - 1; fst (fst c2) - 1; fst (fst c3) - 1]%N, us ++ [uv_index_a (snd (fst c1)); uv_index_a (snd (fst c2)); uv_index_a (snd (fst c3))],
     ns ++ [snd c1 - 1; snd c2 - 1; snd c3 - 1]%N).
Proof.
  intros FV FU FN. unfold corner_a. rewrite !map_app.
  inversion FV as [|? ? V1 FV']; subst. inversion FV' as [|? ? V2 FV'']; subst. inversion FV'' as [|? ? V3 _]; subst.
  inversion FU as [|? ? U1 FU']; subst. inversion FU' as [|? ? U2 FU'']; subst. inversion FU'' as [|? ? U3 _]; subst.
  inversion FN as [|? ? N1 FN']; subst. inversion FN' as [|? ? N2 FN'']; subst. inversion FN'' as [|? ? N3 _]; subst.
  rewrite (load_corners_corner_a (S (S f))) by auto. rewrite (load_corners_corner_a (S f)) by auto.
  rewrite <- (app_nil_r (map snd (corner_parts_a (fst (fst c3)) (snd (fst c3)) (snd c3)))).
  rewrite (load_corners_corner_a f) by auto. rewrite load_corners_end_a. now rewrite <- !app_assoc.
Qed.
Lemma load_face_of_a tri parts (s : any_importer Fl) k v u n : length parts = k -> any_corners top k parts [] [] [] = (v, u, n) ->
  any_face top tri parts s = map_err (fun _ => OFace) (any_push_face tri s v u n).
Proof. intros K H. unfold any_face. rewrite K, H. reflexivity. Qed.
Lemma with_faces_app_a s a b c a' b' c' : with_faces_a (with_faces_a s a b c) a' b' c' = with_faces_a s (a ++ a') (b ++ b') (c ++ c').
Proof. unfold with_faces_a. cbn [ai_vertices ai_normals ai_uvs ai_vertex_triangles ai_normal_triangles ai_uv_triangles ai_name]. now rewrite <- !app_assoc. Qed.
Lemma with_faces_none_a s : with_faces_a s [] [] [] = s.
Proof. unfold with_faces_a. rewrite !app_nil_r. now destruct s. Qed.
Lemma push_face3_a tri (s : any_importer Fl) a b c d e f g h i :
  any_push_face tri s [a; b; c] [d; e; f] [g; h; i] = Ok (with_faces_a s [a; b; c] [g; h; i] [d; e; f]).
Proof.
  reflexivity.
Qed.
Lemma corner_length_a c : length (corner_a c) = 3.
Proof. reflexivity. Qed.
Lemma load_face_3_a tri c1 c2 c3 (s : any_importer Fl) :
  Forall positive_a [fst (fst c1); fst (fst c2); fst (fst c3)] -> Forall positive_o_a [snd (fst c1); snd (fst c2); snd (fst c3)] ->
  Forall positive_a [snd c1; snd c2; snd c3] ->
  any_face top tri (map snd (corner_a c1 ++ corner_a c2 ++ corner_a c3)) s =
    Ok (with_faces_a s [fst (fst c1) - 1; fst (fst c2) - 1; fst (fst c3) - 1]%N [snd c1 - 1; snd c2 - 1; snd c3 - 1]%N
          [uv_index_a (snd (fst c1)); uv_index_a (snd (fst c2)); uv_index_a (snd (fst c3))]).
Proof.
  intros FV FU FN. erewrite load_face_of_a; [|rewrite map_length, !app_length, !corner_length_a; reflexivity|exact (load_face3_a 6 c1 c2 c3 [] [] [] FV FU FN)].
  cbn [app]. now rewrite push_face3_a.
Qed.
Lemma read_face_a ft tri c1 c2 c3 s acc :
  Forall positive_a [fst (fst c1); fst (fst c2); fst (fst c3)] -> Forall positive_o_a [snd (fst c1); snd (fst c2); snd (fst c3)] ->
  Forall positive_a [snd c1; snd c2; snd c3] ->
  any_lines top ft tri [face_text_a c1 c2 c3] s acc =
    Ok (with_faces_a s [fst (fst c1) - 1; fst (fst c2) - 1; fst (fst c3) - 1]%N [snd c1 - 1; snd c2 - 1; snd c3 - 1]%N
          [uv_index_a (snd (fst c1)); uv_index_a (snd (fst c2)); uv_index_a (snd (fst c3))], acc).
Proof.
  intros FV FU FN. cbn [any_lines].
  unfold face_text_a. rewrite parse_join_a; [|apply kw_plain|].
  - cbv zeta. change (list_eqb kw_f kw_v) with false. change (list_eqb kw_f kw_vn) with false. change (list_eqb kw_f kw_vt) with false.
    change (list_eqb kw_f kw_f) with true. rewrite load_face_3_a by auto. reflexivity.
  - inversion FV as [|? ? V1 FV']; subst. inversion FV' as [|? ? V2 FV'']; subst. inversion FV'' as [|? ? V3 _]; subst.
    inversion FU as [|? ? U1 FU']; subst. inversion FU' as [|? ? U2 FU'']; subst. inversion FU'' as [|? ? U3 _]; subst.
    inversion FN as [|? ? N1 FN']; subst. inversion FN' as [|? ? N2 FN'']; subst. inversion FN'' as [|? ? N3 _]; subst.
    apply Forall_app. split; [now apply corner_ok_a|]. apply Forall_app. split; now apply corner_ok_a.
Qed.
Lemma read_faces_a ft tri k : forall vs us ns s acc, length vs = 3 * k -> length us = 3 * k -> length ns = 3 * k ->
  Forall positive_a vs -> Forall positive_o_a us -> Forall positive_a ns ->
  any_lines top ft tri (face_texts_a vs us ns) s acc =
    Ok (with_faces_a s (map (fun v => v - 1)%N vs) (map (fun n => n - 1)%N ns) (map uv_index_a us), acc).
Proof.
  induction k as [|k IH]; intros vs us ns s acc L1 L2 L3 FV FU FN.
  - destruct vs, us, ns; try discriminate. cbn. unfold with_faces_a. rewrite !app_nil_r. now destruct s.
  - replace (3 * S k) with (S (S (S (3 * k)))) in * by lia.
    destruct vs as [|v1 [|v2 [|v3 vs]]]; try discriminate L1. destruct ns as [|n1 [|n2 [|n3 ns]]]; try discriminate L3.
    cbn [length] in L1, L3.
    destruct us as [|u1 [|u2 [|u3 us]]]; try discriminate L2. cbn [face_texts_a].
    inversion FV as [|? ? V1 FV']; subst. inversion FV' as [|? ? V2 FV'']; subst. inversion FV'' as [|? ? V3 FVr]; subst.
    inversion FU as [|? ? U1 FU']; subst. inversion FU' as [|? ? U2 FU'']; subst. inversion FU'' as [|? ? U3 FUr]; subst.
    inversion FN as [|? ? N1 FN']; subst. inversion FN' as [|? ? N2 FN'']; subst. inversion FN'' as [|? ? N3 FNr]; subst.
    match goal with |- context [?x :: face_texts_a vs us ns] => change (x :: face_texts_a vs us ns) with ([x] ++ face_texts_a vs us ns) end.
    cbn [length] in L2. rewrite read_lines_app_a, read_face_a by (cbn [fst snd]; auto using Forall_cons, Forall_nil). cbn [bind fst snd]. rewrite IH by (auto; lia).
    rewrite with_faces_app_a. reflexivity.
Qed.
Lemma face_texts_ok_a k : forall vs us ns, length vs = 3 * k -> length us = 3 * k -> length ns = 3 * k ->
  Forall positive_a vs -> Forall positive_o_a us -> Forall positive_a ns -> Forall line_ok (face_texts_a vs us ns).
Proof.
  induction k as [|k IH]; intros vs us ns L1 L2 L3 FV FU FN.
  - destruct vs, us, ns; try discriminate. constructor.
  - replace (3 * S k) with (S (S (S (3 * k)))) in * by lia.
    destruct vs as [|v1 [|v2 [|v3 vs]]]; try discriminate L1. destruct ns as [|n1 [|n2 [|n3 ns]]]; try discriminate L3.
    cbn [length] in L1, L3.
    destruct us as [|u1 [|u2 [|u3 us]]]; try discriminate L2. cbn [face_texts_a].
    inversion FV as [|? ? V1 FV']; subst. inversion FV' as [|? ? V2 FV'']; subst. inversion FV'' as [|? ? V3 FVr]; subst.
    inversion FU as [|? ? U1 FU']; subst. inversion FU' as [|? ? U2 FU'']; subst. inversion FU'' as [|? ? U3 FUr]; subst.
    inversion FN as [|? ? N1 FN']; subst. inversion FN' as [|? ? N2 FN'']; subst. inversion FN'' as [|? ? N3 FNr]; subst.
    cbn [length] in L2. constructor; [|apply IH; auto; lia]. apply visible_line. apply join_visible; [apply kw_plain|].
    apply Forall_app. split; [now apply corner_ok_a|]. apply Forall_app. split; now apply corner_ok_a.
Qed.

(** ** Meshes *)
Definition body_texts_a (ft : any_text Fl) (m : any_mesh Fl) (name : list N) : list (list N) :=
  [name_text name] ++ map (vec3_text_a ft kw_v) (or_empty (a_vertices m)) ++ map (vec3_text_a ft kw_vn) (or_empty (a_normals m))
    ++ map (vec2_text_a ft) (or_empty (a_uvs m)).
Lemma body_bytes_a ft m name :
  (kw_o ++ sp ++ name ++ nl) ++ concat (map (any_vec3_line ft kw_v) (or_empty (a_vertices m)))
    ++ concat (map (any_vec3_line ft kw_vn) (or_empty (a_normals m))) ++ concat (map (any_vec2_line ft) (or_empty (a_uvs m))) =
  unlines (body_texts_a ft m name).
Proof.
  unfold body_texts_a. rewrite !unlines_app, !unlines_map.
  rewrite (map_ext _ _ (vec3_line_text_a ft kw_v)), (map_ext _ _ (vec3_line_text_a ft kw_vn)), (map_ext _ _ (vec2_line_text_a ft)).
  unfold unlines at 1. cbn [map concat]. rewrite app_nil_r. unfold name_text. now rewrite <- !app_assoc.
Qed.
Lemma body_texts_ok_a ft m name : any_text_ok ft -> line_name name -> Forall line_ok (body_texts_a ft m name).
Proof.
  intros T W. unfold body_texts_a. apply Forall_app. split; [constructor; [now apply name_line_ok|constructor]|].
  destruct kw_plain as (K1 & K2 & K3 & _).
  apply Forall_app. split; [|apply Forall_app; split]; apply Forall_forall; intros l I; apply in_map_iff in I as (x & <- & _); apply visible_line, join_visible; auto.
  - apply vec3_parts_a, T.
  - apply vec3_parts_a, T.
  - apply vec2_parts_a, T.
Qed.
(** A any_mesh Fl is emitted when faces were read. *)
Definition pending_a (s : any_importer Fl) : list (any_mesh Fl * list N) :=
  match ai_vertex_triangles s with [] => [] | _ => [(any_imported_mesh top s, ai_name s)] end.
Definition tidy_a (s : any_importer Fl) : Prop := ai_vertex_triangles s = [] -> ai_normal_triangles s = [] /\ ai_uv_triangles s = [].
Definition after_body_a (s : any_importer Fl) (m : any_mesh Fl) (name : list N) : any_importer Fl :=
  mk_any_importer (ai_vertices s ++ or_empty (a_vertices m)) (ai_normals s ++ or_empty (a_normals m)) (ai_uvs s ++ or_empty (a_uvs m)) [] [] [] (word name).
Lemma read_body_a ft tri m name s acc : any_text_ok ft -> line_name name -> tidy_a s ->
  any_lines top ft tri (body_texts_a ft m name) s acc = Ok (after_body_a s m name, acc ++ pending_a s).
Proof.
  intros T W Y. unfold body_texts_a. rewrite read_lines_app_a, read_name_a by auto. cbn [bind].
  rewrite read_lines_app_a, read_vertices_a by auto. cbn [bind]. rewrite read_lines_app_a, read_normals_a by auto. cbn [bind]. rewrite read_uvs_a by auto.
  unfold pending_a, any_next_mesh, tidy_a in *. destruct (ai_vertex_triangles s) eqn:E; cbn [fst snd].
  - destruct (Y eq_refl) as [-> ->]. rewrite app_nil_r. f_equal. f_equal. unfold with_data_a, after_body_a. cbn. now rewrite !app_nil_r.
  - f_equal. f_equal. unfold with_data_a, after_body_a. cbn. now rewrite !app_nil_r.
Qed.

Definition uv_indices_a (m : any_mesh Fl) (base : N) (k : nat) : list N :=
  match a_uv_triangles m with Some l => map (fun i => i + base)%N l | None => repeat 0%N k end.
Definition after_mesh_a (s : any_importer Fl) (m : any_mesh Fl) (name : list N) : any_importer Fl :=
  mk_any_importer (ai_vertices s ++ or_empty (a_vertices m)) (ai_normals s ++ or_empty (a_normals m)) (ai_uvs s ++ or_empty (a_uvs m))
    (map (fun i => i + len (ai_vertices s))%N (or_empty (a_vertex_triangles m)))
    (map (fun i => i + len (ai_normals s))%N (or_empty (a_normal_triangles m)))
    (uv_indices_a m (len (ai_uvs s)) (length (or_empty (a_vertex_triangles m)))) (word name).
Definition face_lines_a (m : any_mesh Fl) (off : N * N * N) : list (list N) :=
  face_texts_a (map (fun v => v + fst (fst off))%N (or_empty (a_vertex_triangles m)))
    (uv_numbers (a_uv_triangles m) (snd (fst off)) (length (or_empty (a_vertex_triangles m))))
    (map (fun n => n + snd off)%N (or_empty (a_normal_triangles m))).
Definition room_a (m : any_mesh Fl) (off : N * N * N) : Prop :=
  (1 <= fst (fst off) /\ fst (fst off) + size (a_vertices m) < top /\ 1 <= snd (fst off) /\ snd (fst off) + size (a_uvs m) < top /\
   1 <= snd off /\ snd off + size (a_normals m) < top)%N.

Lemma save_obj_texts_a ft oc m off name : any_exportable m -> room_a m off ->
  any_save top ft oc m off name = Ok (unlines (body_texts_a ft m name ++ face_lines_a m off), (size (a_vertices m), size (a_uvs m), size (a_normals m))).
Proof.
  intros (k & K & (v & vt & V1 & V2 & V3 & V4) & (n & nt & N1 & N2 & N3 & N4) & U) (R1 & R2 & R3 & R4 & R5 & R6).
  unfold any_save. rewrite V2, N2.
  assert (negb (length nt =? length vt) = false) as -> by (rewrite N3, V3, Nat.eqb_refl; reflexivity).
  assert (match a_uv_triangles m with Some l => negb (length l =? length vt) | None => false end = false) as ->.
  { destruct U as [(u & ut & U1 & U2 & U3 & U4)| ->]; [|reflexivity]. now rewrite U2, U3, V3, Nat.eqb_refl. }
  destruct off as [[ov ou] on]. cbn [fst snd] in *.
  pose proof (face_loop_ok_a oc ov ou on k vt (a_uv_triangles m) nt [] []) as FL. change (len (@nil N)) with 0%N in FL. cbn [app] in FL.
  replace (option_map (fun us => us) (a_uv_triangles m)) with (a_uv_triangles m) in FL by now destruct (a_uv_triangles m).
  rewrite FL; auto; clear FL.
  - cbn [bind]. rewrite unlines_app, <- body_bytes_a. rewrite <- !app_assoc. unfold face_lines_a. cbn [fst snd]. rewrite V2, N2. cbn [or_empty]. rewrite V3.
    rewrite !ulen_len, !size_or_empty. rewrite !N.mod_small by lia. reflexivity.
  - intros us E. destruct U as [(u & ut & U1 & U2 & U3 & U4)|U]; congruence.
  - eapply Forall_impl; [|exact V4]. intros a A. unfold fits32_a. rewrite V1 in R2. cbn [size] in R2. unfold len in *. lia.
  - intros us E. destruct U as [(u & ut & U1 & U2 & U3 & U4)|U]; [|congruence]. assert (us = ut) by congruence. subst us.
    eapply Forall_impl; [|exact U4]. intros a A. unfold fits32_a. rewrite U1 in R4. cbn [size] in R4. unfold len in *. lia.
  - eapply Forall_impl; [|exact N4]. intros a A. unfold fits32_a. rewrite N1 in R6. cbn [size] in R6. unfold len in *. lia.
Qed.

Lemma face_lines_conditions_a m off : any_exportable m -> room_a m off -> exists k, (0 < k)%nat /\
  let vs := map (fun v => v + fst (fst off))%N (or_empty (a_vertex_triangles m)) in
  let us := uv_numbers (a_uv_triangles m) (snd (fst off)) (length (or_empty (a_vertex_triangles m))) in
  let ns := map (fun n => n + snd off)%N (or_empty (a_normal_triangles m)) in
  length vs = 3 * k /\ length us = 3 * k /\ length ns = 3 * k /\ Forall positive_a vs /\ Forall positive_o_a us /\ Forall positive_a ns.
Proof.
  intros (k & K & (v & vt & V1 & V2 & V3 & V4) & (n & nt & N1 & N2 & N3 & N4) & U) (R1 & R2 & R3 & R4 & R5 & R6).
  exists k. split; auto. rewrite V2, N2. cbn [or_empty]. cbv zeta. rewrite !map_length.
  rewrite V1 in R2. rewrite N1 in R6. cbn [size] in R2, R6.
  split; auto. split.
  { destruct U as [(u & ut & U1 & U2 & U3 & U4)| ->]; [rewrite U2; cbn; now rewrite map_length|]. cbn. now rewrite repeat_length. }
  split; auto. split; [|split].
  - apply Forall_forall. intros x I. apply in_map_iff in I as (i & <- & I). unfold in_range in V4. rewrite Forall_forall in V4. specialize (V4 i I). unfold positive_a, len in *. lia.
  - destruct U as [(u & ut & U1 & U2 & U3 & U4)| ->].
    + rewrite U2. rewrite U1 in R4. cbn [size] in R4. cbn [uv_numbers]. apply Forall_forall. intros x I. apply in_map_iff in I as (i & <- & I).
      unfold in_range in U4. rewrite Forall_forall in U4. specialize (U4 i I). cbn. unfold positive_a, len in *. lia.
    + cbn [uv_numbers]. apply Forall_forall. intros x I. apply repeat_spec in I. subst x. exact Logic.I.
  - apply Forall_forall. intros x I. apply in_map_iff in I as (i & <- & I). unfold in_range in N4. rewrite Forall_forall in N4. specialize (N4 i I). unfold positive_a, len in *. lia.
Qed.
Lemma face_lines_ok_a m off : any_exportable m -> room_a m off -> Forall line_ok (face_lines_a m off).
Proof.
  intros X R. destruct (face_lines_conditions_a m off X R) as (k & K & C). cbv zeta in C. destruct C as (L1 & L2 & L3 & P1 & P2 & P3).
  unfold face_lines_a. eapply face_texts_ok_a; eauto.
Qed.
(** Reading the faces with numbers that start at [off], after a body. *)
Lemma read_face_lines_a ft tri m off s acc : any_exportable m -> room_a m off ->
  any_lines top ft tri (face_lines_a m off) s acc =
    Ok (with_faces_a s (map (fun i => i + (fst (fst off) - 1))%N (or_empty (a_vertex_triangles m)))
          (map (fun i => i + (snd off - 1))%N (or_empty (a_normal_triangles m)))
          (uv_indices_a m (snd (fst off) - 1) (length (or_empty (a_vertex_triangles m)))), acc).
Proof.
  intros X R. destruct (face_lines_conditions_a m off X R) as (k & K & C). cbv zeta in C. destruct C as (L1 & L2 & L3 & P1 & P2 & P3).
  unfold face_lines_a. rewrite (read_faces_a ft tri k) by auto. destruct R as (R1 & R2 & R3 & R4 & R5 & R6). rewrite !map_map.
  assert (M : forall o, (1 <= o)%N -> forall l, map (fun x => x + o - 1)%N l = map (fun i => i + (o - 1))%N l) by (intros o O l; apply map_ext; intros; lia).
  rewrite !M by auto. do 3 f_equal. unfold uv_indices_a, uv_numbers. destruct (a_uv_triangles m) as [l|].
  - rewrite map_map. rewrite <- M by auto. apply map_ext. intros a. unfold uv_index_a. lia.
  - clear. induction (length (or_empty (a_vertex_triangles m))) as [|j IH]; [reflexivity|]. cbn. now rewrite IH.
Qed.
Lemma read_mesh_a ft tri m name s acc : any_text_ok ft -> line_name name -> tidy_a s -> any_exportable m ->
  let off := (len (ai_vertices s) + 1, len (ai_uvs s) + 1, len (ai_normals s) + 1)%N in room_a m off ->
  any_lines top ft tri (body_texts_a ft m name ++ face_lines_a m off) s acc = Ok (after_mesh_a s m name, acc ++ pending_a s).
Proof.
  intros T W Y X off R. rewrite read_lines_app_a, read_body_a by auto. cbn [bind]. rewrite read_face_lines_a by auto.
  unfold after_mesh_a, with_faces_a, after_body_a, off. cbn. rewrite !N.add_sub. reflexivity.
Qed.

Lemma prune_shift_a {A} (V v : list A) t d1 t1 : (len (V ++ v) < top)%N -> t <> [] -> in_range v t ->
  prune_any top (V ++ v) (map (fun i => i + len V)%N t) = (d1, t1) ->
  exists front, v = front ++ d1 /\ t = map (fun i => (i + len front)%N) t1.
Proof.
  intros S T R P.
  assert (R' : in_range (V ++ v) (map (fun i => i + len V)%N t)).
  { apply Forall_forall. intros x I. apply in_map_iff in I as (i & <- & I). unfold in_range in R. rewrite Forall_forall in R. specialize (R i I).
    unfold len in *. rewrite app_length. lia. }
  destruct (prune_any_cases _ _ _ _ S R' P) as ([(E & _)|Z] & f & F1 & F2). { destruct t; [congruence|discriminate E]. }
  assert (L : (len V <= len f)%N).
  { assert (I : In (0 + len f)%N (map (fun i => i + len f)%N t1)) by (apply (in_map (fun i => i + len f)%N), Z).
    rewrite <- F2 in I. apply in_map_iff in I as (i & E & _). lia. }
  assert (exists g, f = V ++ g /\ v = g ++ d1) as (g & -> & ->).
  { clear - F1 L. revert f F1 L. induction V as [|a V IH]; intros f F L. { exists f. auto. }
    destruct f as [|b f]; [unfold len in L; cbn in L; lia|]. injection F as <- F. destruct (IH f F) as (g & -> & E); [unfold len in *; cbn [length] in L; lia|].
    exists g. auto. }
  exists g. split; auto.
  assert (G : forall a b : list N, map (fun i => i + len V)%N a = map (fun i => i + len V)%N b -> a = b).
  { clear. induction a as [|x a IH]; intros [|y b] E; try discriminate; auto. injection E as E1 E2. f_equal; [lia|auto]. }
  apply G. rewrite F2, map_map. apply map_ext. intros i. unfold len. rewrite app_length. lia.
Qed.

Lemma after_mesh_becomes_a s m name : any_exportable m ->
  room_a m (len (ai_vertices s) + 1, len (ai_uvs s) + 1, len (ai_normals s) + 1)%N ->
  any_reimported (m, name) (any_imported_mesh top (after_mesh_a s m name), word name).
Proof.
  intros (k & K & (v & vt & V1 & V2 & V3 & V4) & (n & nt & N1 & N2 & N3 & N4) & U) (R1 & R2 & R3 & R4 & R5 & R6). cbn [fst snd] in *.
  unfold any_imported_mesh, after_mesh_a. cbn [ai_vertices ai_normals ai_uvs ai_vertex_triangles ai_normal_triangles ai_uv_triangles].
  destruct (prune_any top (ai_vertices s ++ _) _) as [v1 vt1] eqn:PV. destruct (prune_any top (ai_normals s ++ _) _) as [n1 nt1] eqn:PN.
  destruct (prune_any top (ai_uvs s ++ _) _) as [u1 ut1] eqn:PU.
  rewrite V1, V2 in PV. rewrite N1, N2 in PN. rewrite V1 in R2. rewrite N1 in R6. cbn [or_empty size] in *.
  assert (NE : forall l : list N, length l = 3 * k -> l <> []) by (intros [|] E; [cbn in E; lia|discriminate]).
  unfold any_reimported. cbn [fst snd]. split; [apply word_first|]. split; [|split; [|split]].
  - apply prune_shift_a in PV as (f & E1 & E2); auto; [|unfold len in *; rewrite app_length; lia].
    exists f, v1, vt1. rewrite V1, V2. split; [now rewrite E1|]. split; [now rewrite E2|]. split; reflexivity.
  - apply prune_shift_a in PN as (f & E1 & E2); auto; [|unfold len in *; rewrite app_length; lia].
    exists f, n1, nt1. rewrite N1, N2. split; [now rewrite E1|]. split; [now rewrite E2|]. split; reflexivity.
  - intros UN. destruct U as [(u & ut & U1 & U2 & U3 & U4)|U]; [|congruence].
    unfold uv_indices_a in PU. rewrite U1, U2 in PU. rewrite U1 in R4. cbn [or_empty size] in *.
    apply prune_shift_a in PU as (f & E1 & E2); auto; [|unfold len in *; rewrite app_length; lia].
    exists f, u1, ut1. rewrite U1, U2. split; [now rewrite E1|]. split; [now rewrite E2|]. split; reflexivity.
  - intros t UN E. assert (t = vt) by congruence. subst t. unfold uv_indices_a in PU. rewrite UN, V2 in PU. cbn [or_empty] in PU.
    destruct vt as [|x vt]; [cbn in V3; lia|]. cbn [length repeat] in PU. unfold prune_any in PU. cbn [prune_scan N.eqb] in PU.
    injection PU as <- <-. cbn. do 2 f_equal. clear. induction vt; cbn; [reflexivity|]. now f_equal.
Qed.

(** ** Files *)
Definition next_off_a (off : N * N * N) (m : any_mesh Fl) : N * N * N :=
  (fst (fst off) + size (a_vertices m), snd (fst off) + size (a_uvs m), snd off + size (a_normals m))%N.
Fixpoint file_texts_a (ft : any_text Fl) (l : list (any_mesh Fl * list N)) (off : N * N * N) : list (list N) :=
  match l with
  | [] => []
  | (m, name) :: t => (body_texts_a ft m name ++ face_lines_a m off) ++ file_texts_a ft t (next_off_a off m)
  end.
Definition fits_file_a (l : list (any_mesh Fl * list N)) (off : N * N * N) : Prop :=
  (1 <= fst (fst off) /\ fst (fst off) + any_total a_vertices l < top /\ 1 <= snd (fst off) /\ snd (fst off) + any_total a_uvs l < top /\
   1 <= snd off /\ snd off + any_total a_normals l < top)%N.
Lemma fits_file_cons_a m name l off : fits_file_a ((m, name) :: l) off -> room_a m off /\ fits_file_a l (next_off_a off m).
Proof. unfold fits_file_a, room_a, next_off_a. cbn [any_total fold_right fst snd]. fold (any_total a_vertices l) (any_total a_uvs l) (any_total a_normals l). lia. Qed.
Lemma save_objs_texts_a ft oc l : forall off, Forall (fun mn => any_exportable (fst mn)) l -> fits_file_a l off ->
  any_saves top ft oc l off = Ok (unlines (file_texts_a ft l off)).
Proof.
  induction l as [|[m name] l IH]; intros off X F; [reflexivity|].
  inversion X as [|? ? X1 X2]; subst. apply fits_file_cons_a in F as [R F]. cbn [any_saves file_texts_a].
  rewrite save_obj_texts_a by auto. cbn [bind]. destruct R as (R1 & R2 & R3 & R4 & R5 & R6). destruct off as [[ov ou] on]. cbn [fst snd] in *.
  rewrite !add32_ok_a by (unfold fits32_a; lia). cbn [bind]. change (ov + size (a_vertices m), ou + size (a_uvs m), on + size (a_normals m))%N with (next_off_a (ov, ou, on) m).
  rewrite IH by auto. cbn [bind]. now rewrite (unlines_app (_ ++ _)).
Qed.
Lemma file_texts_ok_a ft l : any_text_ok ft -> forall off, Forall (fun mn => any_exportable (fst mn) /\ line_name (snd mn)) l -> fits_file_a l off ->
  Forall line_ok (file_texts_a ft l off).
Proof.
  intros T. induction l as [|[m name] l IH]; intros off X F; [constructor|].
  inversion X as [|? ? [X1 W] X2]; subst. apply fits_file_cons_a in F as [R F]. cbn [file_texts_a].
  cbn [fst snd] in *. apply Forall_app; split; [apply Forall_app; split|]; auto.
  - now apply body_texts_ok_a.
  - now apply face_lines_ok_a.
Qed.
Definition next_number_a (s : any_importer Fl) : N * N * N := (len (ai_vertices s) + 1, len (ai_uvs s) + 1, len (ai_normals s) + 1)%N.
Lemma next_number_after_a s m name : next_number_a (after_mesh_a s m name) = next_off_a (next_number_a s) m.
Proof.
  unfold next_number_a, after_mesh_a, next_off_a. cbn [ai_vertices ai_normals ai_uvs fst snd].
  assert (E : forall A (a : list A) d, len (a ++ or_empty d) = (len a + size d)%N).
  { intros A a d. rewrite <- size_or_empty. unfold len. rewrite app_length. lia. }
  rewrite !E. f_equal; [f_equal|]; lia.
Qed.
Lemma after_mesh_triangles_a s m name : any_exportable m -> ai_vertex_triangles (after_mesh_a s m name) <> [].
Proof.
  intros (k & K & (v & vt & V1 & V2 & V3 & V4) & _). cbn. rewrite V2. cbn. destruct vt; [cbn in V3; lia|discriminate].
Qed.
Lemma read_file_a ft tri l : any_text_ok ft -> forall s acc, ai_vertex_triangles s <> [] ->
  Forall (fun mn => any_exportable (fst mn) /\ line_name (snd mn)) l -> fits_file_a l (next_number_a s) ->
  exists s' ms outs, any_lines top ft tri (file_texts_a ft l (next_number_a s)) s acc = Ok (s', acc ++ ms) /\
    ms ++ [any_finish top s'] = any_finish top s :: outs /\ Forall2 any_reimported l outs.
Proof.
  intros T. induction l as [|[m name] l IH]; intros s acc P X F.
  - exists s, [], []. cbn. rewrite app_nil_r. repeat split. constructor.
  - inversion X as [|? ? [X1 W] X2]; subst. cbn [fst snd] in *. apply fits_file_cons_a in F as [R F]. cbn [file_texts_a].
    rewrite read_lines_app_a. unfold next_number_a at 1. rewrite read_mesh_a; auto; [|intro; contradiction]. cbn [bind].
    rewrite <- (next_number_after_a s m name) in *.
    destruct (IH (after_mesh_a s m name) (acc ++ pending_a s) (after_mesh_triangles_a s m name X1) X2 F) as (s' & ms & outs & E1 & E2 & E3).
    exists s', (pending_a s ++ ms), (any_finish top (after_mesh_a s m name) :: outs). rewrite E1, <- app_assoc. split; auto. split.
    + rewrite <- app_assoc, E2. unfold pending_a, any_finish. now destruct (ai_vertex_triangles s).
    + constructor; auto. apply (after_mesh_becomes_a s m name); auto.
Qed.
Lemma read_smooth_a ft tri s acc : any_lines top ft tri [smooth_text] s acc = Ok (s, acc).
Proof. reflexivity. Qed.
Lemma write_obj_texts_a ft oc l : Forall (fun mn => any_exportable (fst mn)) l -> fits_file_a l (1, 1, 1)%N ->
  write_obj_any top ft oc l = Ok (unlines ([smooth_text] ++ file_texts_a ft l (1, 1, 1)%N)).
Proof.
  intros X F. unfold write_obj_any. rewrite save_objs_texts_a by auto. cbn [bind]. now rewrite unlines_app.
Qed.
Lemma read_written_a ft tri l : any_text_ok ft -> l <> [] -> Forall (fun mn => any_exportable (fst mn) /\ line_name (snd mn)) l -> fits_file_a l (1, 1, 1)%N ->
  exists outs, read_obj_any top ft tri (unlines ([smooth_text] ++ file_texts_a ft l (1, 1, 1)%N)) = Ok outs /\ Forall2 any_reimported l outs.
Proof.
  intros T NE X F. destruct l as [|[m name] l]; [congruence|]. clear NE.
  assert (L : Forall line_ok ([smooth_text] ++ file_texts_a ft ((m, name) :: l) (1, 1, 1)%N)).
  { apply Forall_app. split; [|now apply file_texts_ok_a]. constructor; [|constructor]. split; [intros I; cbn in I; intuition discriminate|discriminate]. }
  unfold read_obj_any. rewrite lines_unlines by auto. rewrite read_lines_app_a, read_smooth_a. cbn [bind file_texts_a].
  inversion X as [|? ? [X1 W] X2]; subst. cbn [fst snd] in *. apply fits_file_cons_a in F as [R F].
  rewrite read_lines_app_a. change (1, 1, 1)%N with (next_number_a any_importer_new) at 1. unfold next_number_a at 1.
  rewrite read_mesh_a; auto; [|intro; auto]. cbn [bind app]. change (pending_a any_importer_new) with (@nil (any_mesh Fl * list N)).
  change (1, 1, 1)%N with (next_number_a any_importer_new) in *. rewrite <- (next_number_after_a any_importer_new m name) in *.
  destruct (read_file_a ft tri l T (after_mesh_a any_importer_new m name) [] (after_mesh_triangles_a any_importer_new m name X1) X2 F) as (s' & ms & outs & E1 & E2 & E3).
  rewrite E1. cbn [bind app]. exists (any_finish top (after_mesh_a any_importer_new m name) :: outs). split; [now rewrite E2|].
  constructor; auto. apply (after_mesh_becomes_a any_importer_new m name); auto.
Qed.

End Any.

(** ** Positions that the index type of the reader may not have *)
Section Wide.
Context {Fl : Type} (top : N) (TOP : index_type top).
Implicit Types (ft : any_text Fl) (m : any_mesh Fl) (oi s : any_importer Fl).
(** What a number is read as. *)
Definition seen (v : N) : N := if (v <? top)%N then v else 1%N.
Definition wide (n : N) : Prop := positive_a (2 ^ 64) n.
Definition wide_o (u : option N) : Prop := positive_o_a (2 ^ 64) u.
Definition uv_seen (u : option N) : N := match u with Some u => (seen u - 1)%N | None => 0%N end.
Lemma w64 : index_type (2 ^ 64). Proof. right. now right. Qed.
Lemma seen_pos v : wide v -> (1 <= seen v)%N.
Proof. intros [V _]. unfold seen. destruct (v <? top)%N; lia. Qed.
Lemma decimal_same (s : list N) n k d : (s = d \/ s = 43%N :: d) -> d <> [] -> Forall digit d -> decimal d = n -> Forall digit s -> decimal s = k -> n = k.
Proof.
  intros [->| ->] NE D E D' E'; [congruence|]. inversion D' as [|? ? [A B] _]; subst. lia.
Qed.
Lemma any_index_seen v : (v < 2 ^ 64)%N -> any_index top (show_any v) = seen v.
Proof using TOP.
  intros V. destruct (show_any_numeral v V) as (D & NE & E). unfold seen. destruct (N.ltb_spec v top) as [L|L].
  - now apply any_index_show.
  - apply any_index_iff; [exact TOP|]. right. split; [|reflexivity]. intros d S N1 D1 L1.
    pose proof (decimal_same _ _ v d S N1 D1 eq_refl D E). lia.
Qed.
Lemma load_corner_w v u n rest : wide v -> wide_o u -> wide n ->
  any_indices top (map snd (corner_parts_a v u n) ++ rest) = Ok (seen v - 1, uv_seen u, seen n - 1, rest)%N.
Proof using TOP.
  intros V U W. unfold any_indices, corner_parts_a. cbn [map snd app next_part bind].
  rewrite !any_index_seen by (apply V || apply W).
  assert (PU : any_index top (match u with Some u => show_any u | None => [] end) = (uv_seen u + 1)%N).
  { destruct u as [u|]; [|reflexivity]. rewrite any_index_seen by apply U. cbn [uv_seen wide_o] in *. pose proof (seen_pos u U). lia. }
  rewrite PU. pose proof (seen_pos v V). pose proof (seen_pos n W).
  destruct (N.ltb_spec (seen v) 1); [lia|]. destruct (N.ltb_spec (uv_seen u + 1) 1); [lia|]. destruct (N.ltb_spec (seen n) 1); [lia|]. cbn [orb].
  now rewrite N.add_sub.
Qed.
Lemma load_corners_corner_w f v u n rest vs us ns : wide v -> wide_o u -> wide n ->
  any_corners top (S f) (map snd (corner_parts_a v u n) ++ rest) vs us ns =
    any_corners top f rest (vs ++ [seen v - 1]%N) (us ++ [uv_seen u]) (ns ++ [seen n - 1]%N).
Proof. intros V U W. cbn [any_corners]. now rewrite load_corner_w. Qed.
Lemma load_face3_w f c1 c2 c3 vs us ns :
  Forall wide [fst (fst c1); fst (fst c2); fst (fst c3)] -> Forall wide_o [snd (fst c1); snd (fst c2); snd (fst c3)] ->
  Forall wide [snd c1; snd c2; snd c3] ->
  any_corners top (S (S (S f))) (map snd (corner_a c1 ++ corner_a c2 ++ corner_a c3)) vs us ns =
    (vs ++ [seen (fst (fst c1)) - 1; seen (fst (fst c2)) - 1; seen (fst (fst c3)) - 1]%N, us ++ [uv_seen (snd (fst c1)); uv_seen (snd (fst c2)); uv_seen (snd (fst c3))],
     ns ++ [seen (snd c1) - 1; seen (snd c2) - 1; seen (snd c3) - 1]%N).
Proof.
  intros FV FU FN. unfold corner_a. rewrite !map_app.
  inversion FV as [|? ? V1 FV']; subst. inversion FV' as [|? ? V2 FV'']; subst. inversion FV'' as [|? ? V3 _]; subst.
  inversion FU as [|? ? U1 FU']; subst. inversion FU' as [|? ? U2 FU'']; subst. inversion FU'' as [|? ? U3 _]; subst.
  inversion FN as [|? ? N1 FN']; subst. inversion FN' as [|? ? N2 FN'']; subst. inversion FN'' as [|? ? N3 _]; subst.
  rewrite (load_corners_corner_w (S (S f))) by auto. rewrite (load_corners_corner_w (S f)) by auto.
  rewrite <- (app_nil_r (map snd (corner_parts_a (fst (fst c3)) (snd (fst c3)) (snd c3)))).
  rewrite (load_corners_corner_w f) by auto. rewrite (load_corners_end_a top). now rewrite <- !app_assoc.
Qed.
Lemma load_face_3_w tri c1 c2 c3 (s : any_importer Fl) :
  Forall wide [fst (fst c1); fst (fst c2); fst (fst c3)] -> Forall wide_o [snd (fst c1); snd (fst c2); snd (fst c3)] ->
  Forall wide [snd c1; snd c2; snd c3] ->
  any_face top tri (map snd (corner_a c1 ++ corner_a c2 ++ corner_a c3)) s =
    Ok (with_faces_a s [seen (fst (fst c1)) - 1; seen (fst (fst c2)) - 1; seen (fst (fst c3)) - 1]%N [seen (snd c1) - 1; seen (snd c2) - 1; seen (snd c3) - 1]%N
          [uv_seen (snd (fst c1)); uv_seen (snd (fst c2)); uv_seen (snd (fst c3))]).
Proof.
  intros FV FU FN. erewrite (load_face_of_a top); [|rewrite map_length, !app_length, !corner_length_a; reflexivity|exact (load_face3_w 6 c1 c2 c3 [] [] [] FV FU FN)].
  cbn [app]. now rewrite push_face3_a.
Qed.
Lemma read_face_w ft tri c1 c2 c3 s acc :
  Forall wide [fst (fst c1); fst (fst c2); fst (fst c3)] -> Forall wide_o [snd (fst c1); snd (fst c2); snd (fst c3)] ->
  Forall wide [snd c1; snd c2; snd c3] ->
  any_lines top ft tri [face_text_a c1 c2 c3] s acc =
    Ok (with_faces_a s [seen (fst (fst c1)) - 1; seen (fst (fst c2)) - 1; seen (fst (fst c3)) - 1]%N [seen (snd c1) - 1; seen (snd c2) - 1; seen (snd c3) - 1]%N
          [uv_seen (snd (fst c1)); uv_seen (snd (fst c2)); uv_seen (snd (fst c3))], acc).
Proof.
  intros FV FU FN. cbn [any_lines].
  unfold face_text_a. rewrite (parse_join_a top); [|apply kw_plain|].
  - cbv zeta. change (list_eqb kw_f kw_v) with false. change (list_eqb kw_f kw_vn) with false. change (list_eqb kw_f kw_vt) with false.
    change (list_eqb kw_f kw_f) with true. rewrite load_face_3_w by auto. reflexivity.
  - inversion FV as [|? ? V1 FV']; subst. inversion FV' as [|? ? V2 FV'']; subst. inversion FV'' as [|? ? V3 _]; subst.
    inversion FU as [|? ? U1 FU']; subst. inversion FU' as [|? ? U2 FU'']; subst. inversion FU'' as [|? ? U3 _]; subst.
    inversion FN as [|? ? N1 FN']; subst. inversion FN' as [|? ? N2 FN'']; subst. inversion FN'' as [|? ? N3 _]; subst.
    apply Forall_app. split; [now apply (corner_ok_a _ w64)|]. apply Forall_app. split; now apply (corner_ok_a _ w64).
Qed.
Lemma read_faces_w ft tri k : forall vs us ns s acc, length vs = 3 * k -> length us = 3 * k -> length ns = 3 * k ->
  Forall wide vs -> Forall wide_o us -> Forall wide ns ->
  any_lines top ft tri (face_texts_a vs us ns) s acc =
    Ok (with_faces_a s (map (fun v => seen v - 1)%N vs) (map (fun n => seen n - 1)%N ns) (map uv_seen us), acc).
Proof.
  induction k as [|k IH]; intros vs us ns s acc L1 L2 L3 FV FU FN.
  - destruct vs, us, ns; try discriminate. cbn. unfold with_faces_a. rewrite !app_nil_r. now destruct s.
  - replace (3 * S k) with (S (S (S (3 * k)))) in * by lia.
    destruct vs as [|v1 [|v2 [|v3 vs]]]; try discriminate L1. destruct ns as [|n1 [|n2 [|n3 ns]]]; try discriminate L3.
    cbn [length] in L1, L3.
    destruct us as [|u1 [|u2 [|u3 us]]]; try discriminate L2. cbn [face_texts_a].
    inversion FV as [|? ? V1 FV']; subst. inversion FV' as [|? ? V2 FV'']; subst. inversion FV'' as [|? ? V3 FVr]; subst.
    inversion FU as [|? ? U1 FU']; subst. inversion FU' as [|? ? U2 FU'']; subst. inversion FU'' as [|? ? U3 FUr]; subst.
    inversion FN as [|? ? N1 FN']; subst. inversion FN' as [|? ? N2 FN'']; subst. inversion FN'' as [|? ? N3 FNr]; subst.
    match goal with |- context [?x :: face_texts_a vs us ns] => change (x :: face_texts_a vs us ns) with ([x] ++ face_texts_a vs us ns) end.
    cbn [length] in L2. rewrite (read_lines_app_a top), read_face_w by (cbn [fst snd]; auto using Forall_cons, Forall_nil). cbn [bind fst snd]. rewrite IH by (auto; lia).
    rewrite with_faces_app_a. reflexivity.
Qed.

Lemma read_wide_faces ft tri m off s acc top0 : any_exportable m -> room_a top0 m off -> (top0 <= 2 ^ 64)%N ->
  any_lines top ft tri (face_lines_a m off) s acc =
    Ok (with_faces_a s (map (fun i => seen (i + fst (fst off)) - 1)%N (or_empty (a_vertex_triangles m)))
          (map (fun i => seen (i + snd off) - 1)%N (or_empty (a_normal_triangles m)))
          (map uv_seen (uv_numbers (a_uv_triangles m) (snd (fst off)) (length (or_empty (a_vertex_triangles m))))), acc).
Proof using TOP.
  intros X R B. destruct (face_lines_conditions_a top0 m off X R) as (k & K & C). cbv zeta in C. destruct C as (L1 & L2 & L3 & P1 & P2 & P3).
  assert (Q : forall n, positive_a top0 n -> wide n) by (unfold wide, positive_a; lia).
  unfold face_lines_a. rewrite (read_faces_w ft tri k); auto.
  - now rewrite !map_map.
  - eapply Forall_impl; [|exact P1]. auto.
  - eapply Forall_impl; [|exact P2]. intros [u|]; [apply Q|auto].
  - eapply Forall_impl; [|exact P3]. auto.
Qed.
End Wide.
