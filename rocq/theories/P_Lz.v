(** C48: the LZ77 coder for index arrays. *)
From Coq Require Import List NArith Arith Lia Bool.
From Verif Require Import Base ByteLemmas BitSpec BitLemmas UnalignedRW UnalignedRW_proofs Triangles Triangles_proofs FileSpec File_proofs Lz77 LzSpec Lz_proofs.
Import ListNotations.
Open Scope res_scope.

(** What was written after the content of the sink, followed by anything and delivered
    in pieces of any size, decodes to the data. *)
Theorem C48_roundtrip : forall oc oc' w data sink, 7 <= w < 64 -> values_fit w data -> repeats_fit w data -> (len data < 2 ^ 64)%N -> bytes_ok sink ->
  exists bytes, save_compressed_array oc w data sink = Ok (sink ++ bytes) /\ bytes_ok bytes /\
  forall trailing sched, bytes_ok trailing -> read_compressed_array oc' w (len data) (mk_source (bytes ++ trailing) sched) = Ok data.
Proof. intros. now apply lz_roundtrip. Qed.
(** Repeats fit when there are at most 2^w values. *)
Theorem C48_short_data : forall w data, (len data <= 2 ^ N.of_nat w)%N -> repeats_fit w data.
Proof. intros w data L pos dist n D (R1 & R2 & R3). unfold len in L. lia. Qed.
(** Saved index arrays: the header gives the width, the number of indices and the
    smallest one, the rest decodes to the differences to the smallest. *)
Theorem C48_triangles : forall oc oc' tris max_index, (64 <= max_index < 2 ^ 32)%N -> Forall (fun i => (i <= max_index)%N) tris ->
  repeats_fit (calc_prec max_index) tris -> (len tris < 2 ^ 64)%N ->
  exists w min body, save_triangles_lzz oc tris max_index [] = Ok ([N.of_nat w] ++ lend 8 (len tris) ++ lend 8 min ++ body) /\
  forall trailing sched, bytes_ok trailing ->
    exists ds, read_compressed_array oc' w (len tris) (mk_source (body ++ trailing) sched) = Ok ds /\ map (fun d => d + min)%N ds = tris.
Proof.
  intros oc oc' tris mx [M1 M2] F RF LD. assert (M64 : (mx < two64)%N) by (unfold two64; lia).
  destruct (calc_prec_spec mx M64) as (P1 & _ & _). pose proof (calc_prec_ge mx 6 M64 ltac:(cbn; lia)) as P2. pose proof (calc_prec_le mx 32 M2 ltac:(lia)) as P3.
  set (w := calc_prec mx) in *. set (mn := min_or 0 tris).
  assert (FL : Forall (fun i => (i < two32)%N) tris). { eapply Forall_impl; [|exact F]. intros i Hi. cbn in Hi. unfold two32. lia. }
  destruct (shifted_ok tris w FL) as [S1 S2]. { eapply Forall_impl; [|exact F]. intros i Hi. cbn in Hi. lia. }
  fold mn in S1, S2. unfold save_triangles_lzz. fold w mn. set (ds := map (fun i => i - mn)%N tris) in *.
  assert (LDS : length ds = length tris) by (unfold ds; apply map_length).
  destruct (lz_roundtrip oc oc' w ds ((([] ++ le_bytes 1 (N.of_nat w)) ++ le_bytes 8 (N.of_nat (length tris))) ++ le_bytes 8 mn)) as (body & E & OK & RD).
  - lia.
  - eapply Forall_impl; [|exact S1]. cbn. tauto.
  - intros pos dist n D (R1 & R2 & R3). apply (RF pos dist n D). split; auto. rewrite LDS in R2. split; auto.
    intros k Hk. specialize (R3 k Hk). rewrite <- S2. rewrite !nth_error_map. now rewrite R3.
  - rewrite LDS. exact LD.
  - rewrite !bytes_ok_app. repeat split; auto using le_bytes_ok. constructor.
  - exists w, mn, body. split.
    + rewrite E. f_equal. rewrite !lend_le. unfold len. cbn [app]. rewrite <- !app_assoc. f_equal. cbn. rewrite N.mod_small by lia. reflexivity.
    + intros trailing sched T. exists ds. split; auto. unfold len. rewrite <- LDS. now apply RD.
Qed.
(** Without the bounds it fails. A run of 131 equal values needs a length of 130, which
    is cut to 7 bits. *)
Theorem C48_long_run_refuted : exists data, values_fit 7 data /\ forall oc, exists bytes,
  save_compressed_array oc 7 data [] = Ok bytes /\ read_compressed_array oc 7 (len data) (slice bytes) = Err UnexpectedEof.
Proof.
  exists (repeat 5%N 131). split; [apply Forall_forall; intros x I; apply repeat_spec in I; subst; reflexivity|].
  intros [|]; eexists; (split; [vm_compute; reflexivity|vm_compute; reflexivity]).
Qed.
(** With 6 bits a distance of 66 is cut to 2: the data change without an error. *)
Theorem C48_narrow_refuted : exists data, values_fit 6 data /\ repeats_fit 6 data /\ forall oc, exists bytes other,
  save_compressed_array oc 6 data [] = Ok bytes /\ read_compressed_array oc 6 (len data) (slice bytes) = Ok other /\ other <> data.
Proof.
  exists (map N.of_nat (seq 0 64) ++ [5; 3; 0; 1]%N). split; [|split].
  - repeat (apply Forall_cons; [reflexivity|]). apply Forall_nil.
  - intros pos dist n D (R1 & R2 & R3). rewrite app_length, map_length, seq_length in R2. cbn [length] in R2. change (2 ^ N.of_nat 6)%N with 64%N.
    destruct (le_lt_dec 64 n) as [L|L]; [exfalso|lia]. specialize (R3 0 ltac:(lia)). rewrite !Nat.add_0_r in R3.
    assert (P : pos <= 4) by lia. rewrite !nth_error_app1 in R3 by (rewrite map_length, seq_length; lia).
    rewrite !nth_error_map in R3. destruct pos as [|[|[|[|[|pos]]]]]; try lia; destruct dist as [|[|[|[|[|dist]]]]]; try lia; discriminate R3.
  - intros [|]; eexists; eexists; (split; [vm_compute; reflexivity|split; [vm_compute; reflexivity|discriminate]]).
Qed.
(** Damaged data: a distance beyond the start makes the decoder panic. *)
Theorem C48_bad_distance_refuted : exists bytes, bytes_ok bytes /\ forall oc, read_compressed_array oc 7 2 (slice bytes) = Panic.
Proof. exists [2; 8]%N. split; [repeat (apply Forall_cons; [reflexivity|]); apply Forall_nil|]. intros [|]; vm_compute; reflexivity. Qed.
(** A repeat that overlaps itself, and the bytes. *)
Example C48_case : let data := [9; 4; 7; 4; 7; 4; 7; 4; 7; 100]%N in values_fit 7 data /\ repeats_fit 7 data /\ repeats data 3 2 6 /\
  save_compressed_array true 7 data [] = Ok [137; 132; 135; 6; 5; 200]%N.
Proof.
  cbv zeta. split; [repeat (apply Forall_cons; [reflexivity|]); apply Forall_nil|]. split; [apply C48_short_data; cbn; lia|].
  split; [split; [lia|split; [cbn; lia|]]; intros k K; do 6 (destruct k as [|k]; [reflexivity|]); lia|]. vm_compute. reflexivity.
Qed.
Example C48_triangles_case : let tris := [10; 74; 11; 10; 74; 11; 10; 74; 11]%N in Forall (fun i => (i <= 74)%N) tris /\ repeats_fit (calc_prec 74) tris /\ calc_prec 74 = 7 /\ save_triangles_lzz true tris 74 [] = Ok ([7] ++ lend 8 9 ++ lend 8 10 ++ [128; 192; 129; 6; 6])%N.
Proof.
  cbv zeta. split; [repeat (apply Forall_cons; [lia|]); apply Forall_nil|]. split; [apply C48_short_data; vm_compute; discriminate|]. split; vm_compute; reflexivity.
Qed.
Print Assumptions C48_roundtrip.
Print Assumptions C48_short_data.
Print Assumptions C48_triangles.
Print Assumptions C48_long_run_refuted.
Print Assumptions C48_narrow_refuted.
Print Assumptions C48_bad_distance_refuted.
