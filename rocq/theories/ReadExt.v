(** Model of src/read_extension.rs and of the error type of src/lib.rs.
    A byte stream at this level is the list of the bytes still to come: the only
    operation used on it is [read_exact], whose contract hides short reads. *)
From Coq Require Import List NArith Arith Bool.
From Verif Require Import Base UnalignedRW.
Import ListNotations.
Open Scope res_scope.

(* src/lib.rs L1110-1139 : enum TMFImportError *)
Inductive ierr : Type :=
| EIO (e : ioerr)
| ECompressionTypeUnknown (b : N)
| ENoMeshes
| ETooManyMeshes
| ENotTMFFile
| ENewerVersionRequired
| ESegmentTooLong
| EInvalidPrecision (b : N)
| EUnsuportedCompressionType (b : N).

(* src/lib.rs L60 : MAX_SEG_SIZE *)
Definition MAX_SEG_SIZE : N := 0x80000000.

(** std::io::Read::read_exact into a buffer of [n] bytes. *)
Definition read_exact (n : N) (src : list N) : res ioerr (list N * list N) :=
  if (N.of_nat (length src) <? n)%N then Err UnexpectedEof
  else Ok (firstn (N.to_nat n) src, skipn (N.to_nat n) src).

(* src/read_extension.rs L10-29 : ReadExt::read_u8, read_u16, read_u32, read_u64 *)
Definition read_le (n : N) (src : list N) : res ioerr (N * list N) :=
  let* (tmp, rest) := read_exact n src in Ok (of_le_bytes tmp, rest).
Definition read_u8 := read_le 1.
Definition read_u16 := read_le 2.
Definition read_u32 := read_le 4.
Definition read_u64 := read_le 8.

(** [?] applied to an I/O result inside a function returning TMFImportError. *)
Definition io {A} (m : res ioerr A) : res ierr A := map_err EIO m.
