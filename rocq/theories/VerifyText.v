(** Model of how the result of an integrity check is printed (src/verify.rs, Display and Debug
    for TMFIntegrityStatus). Text is a list of bytes. *)
From Coq Require Import List NArith.
From Verif Require Import Floats Mesh Obj.
Import ListNotations.

(* src/verify.rs L43-51 : the format of an index error, [word]{index:[i],length[len]} *)
Definition index_text (word : list N) (i len : N) : list N :=
  word ++ (* {index: *) [123; 105; 110; 100; 101; 120; 58]%N ++ show_u32 i ++ (* ,length *) [44; 108; 101; 110; 103; 116; 104]%N ++ show_u32 len ++ [125]%N.
(* src/verify.rs L35-55 : Display for TMFIntegrityStatus, L56-60 : Debug, which is the same,
   L25-34 : write_composite_error. Writing to a formatter is appending to its text. *)
Fixpoint status_text (ft : float_text) (e : integrity) : list N :=
  match e with
  | VertexArrayMissing => [86; 101; 114; 116; 101; 120; 65; 114; 114; 97; 121; 77; 105; 115; 115; 105; 110; 103]%N
  | IndexOutsideVertexArray i len => index_text (* IndexOutsideVertexArray *) [73; 110; 100; 101; 120; 79; 117; 116; 115; 105; 100; 101; 86; 101; 114; 116; 101; 120; 65; 114; 114; 97; 121]%N i len
  | NormalArrayMissing => [78; 111; 114; 109; 97; 108; 65; 114; 114; 97; 121; 77; 105; 115; 115; 105; 110; 103]%N
  | NormalsNotNormalized => [78; 111; 114; 109; 97; 108; 115; 78; 111; 116; 78; 111; 114; 109; 97; 108; 105; 122; 101; 100]%N
  | IndexOutsideNormalArray i len => index_text (* IndexOutsideNormalArray *) [73; 110; 100; 101; 120; 79; 117; 116; 115; 105; 100; 101; 78; 111; 114; 109; 97; 108; 65; 114; 114; 97; 121]%N i len
  | UVOutsideRange x y => (* UVOutsideRange{x: *) [85; 86; 79; 117; 116; 115; 105; 100; 101; 82; 97; 110; 103; 101; 123; 120; 58]%N ++ t_show ft x ++ (* ,y: *) [44; 121; 58]%N ++ t_show ft y ++ [125]%N
  | UVArrayMissing => [85; 86; 65; 114; 114; 97; 121; 77; 105; 115; 115; 105; 110; 103]%N
  | IndexOutsideUVArray i len => index_text (* IndexOutsideUVArray *) [73; 110; 100; 101; 120; 79; 117; 116; 115; 105; 100; 101; 85; 86; 65; 114; 114; 97; 121]%N i len
  | CompositeError l => (* MultipleErrors{ *) [77; 117; 108; 116; 105; 112; 108; 101; 69; 114; 114; 111; 114; 115; 123]%N ++ flat_map (fun e => [44]%N ++ status_text ft e) l ++ [125]%N
  end.
