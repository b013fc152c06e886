(** C60: the size of the storage word does not matter. *)
From Coq Require Import List NArith Arith Lia.
From Verif Require Import Base BitSpec UnalignedRW UnalignedRW_proofs BitIOSpec StorageSize Storage_proofs.
Import ListNotations.

(** Any history of calls gives the same values, error or panic with a storage word of any
    size as with one of eight bytes, however the source delivers its bytes. *)
Theorem C60_storage_size : forall sb oc data sched sched' ops, 1 <= sb -> bytes_ok data ->
  run_rops_sz sb oc (reader_new_sz sb (mk_source data sched)) ops = run_rops oc (reader_new (mk_source data sched')) ops.
Proof. intros sb oc data sched sched' ops SB D. apply (same_rops sb SB). now apply same_new. Qed.
(** With the sizes of usize in use the reads are the fields of the stream. *)
Theorem C60_fields : forall sb oc data sched ops, 1 <= sb -> bytes_ok data -> Forall rop_ok ops ->
  run_rops_sz sb oc (reader_new_sz sb (mk_source data sched)) ops = of_option (take_fields (bits_of_bytes data) (flat_map rop_widths ops)).
Proof.
  intros sb oc data sched ops SB D O. rewrite (C60_storage_size sb oc data sched [] ops SB D). rewrite run_rops_spec; auto. now apply rok_new.
Qed.
Example C60_case :
  run_rops_sz 4 true (reader_new_sz 4 (mk_source [165; 128; 64; 1; 255; 0; 7]%N [1; 3; 9])) [RBit; RTwo 5; ROne 40] = Ok [1; 9; 12; 8590981120]%N /\
  run_rops_sz 1 true (reader_new_sz 1 (mk_source [165; 128; 64; 1; 255; 0; 7]%N [1; 3; 9])) [RBit; RTwo 5; ROne 40] = Ok [1; 9; 12; 8590981120]%N /\
  run_rops_sz 4 true (reader_new_sz 4 (mk_source [165; 128; 64]%N [])) [RTwo 5; ROne 15] = Err UnexpectedEof.
Proof. repeat split; vm_compute; reflexivity. Qed.
Print Assumptions C60_storage_size.
Print Assumptions C60_fields.
