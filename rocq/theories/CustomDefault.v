(** Custom data made directly from a slice, in a program built with [double_precision]
    (CustomData.v has the conversions without the feature). *)
From Coq Require Import List NArith ZArith.
From Verif Require Import Base Floats Utilis Triangles Vertices CustomData Double.

(* src/custom_data.rs L169-183 : From<&[IndexType]>, From<&[FloatType]>, From<&[Vector4]>, with FloatType = f64.
   Index and integer data do not depend on the feature. *)
Definition from_indices_d (l : list N) : dcdata := XIndex l (max_or 0 l).
Definition from_floats_d (l : list f64) : dcdata := XFloat l (dlit 1 100).
Definition from_colors_d (l : list dvec4) : dcdata := XColor l (dlit 1 100).
