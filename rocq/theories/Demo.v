(** Concrete values for the examples that show the theorems' hypotheses can be met. *)
From Coq Require Import List NArith ZArith Bool.
From Flocq Require Import IEEE754.BinarySingleNaN.
From Verif Require Import Floats CustomData Mesh FileSpec.
Import ListNotations.

(** A stand-in for the platform's functions: log2 rounded up to an integer, a
    linear asin and a matching rough sine and cosine. *)
Definition demo_log2 (x : f32) : f32 :=
  match x with
  | B754_finite false m e _ =>
    f32_of_Z (Z.log2 (Zpos m) + e + (if (2 ^ Z.log2 (Zpos m) =? Zpos m)%Z then 0 else 1))
  | _ => f0
  end.
Definition demo : libm := mk_libm demo_log2 (fun x => x) (fun x => (x, fsub f1 x)).

(** A file with one mesh: two vertex indices arrays and an unknown segment. *)
Definition demo_name : list N := [99; 117; 98; 101]%N.
Definition idx_seg (kind : N) : raw_seg :=
  mk_raw kind 0 ([2]%N ++ lend 8 3 ++ lend 8 1 ++ [0x18]%N).
Definition odd_seg : raw_seg := mk_raw 77 0 [1; 2; 3]%N.
Definition demo_raw : raw_mesh := (demo_name, [idx_seg 2; odd_seg; idx_seg 4]).
