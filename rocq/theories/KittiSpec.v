(** Specification vocabulary for the data set reader. *)
From Coq Require Import Reals ZArith List Ascii String Permutation Sorted.
From Flocq Require Import Core IEEE754.BinarySingleNaN.
From Verif Require Import Base Num F64 F32 Vec IoModel.
Import ListNotations.
Open Scope nat_scope.
Local Open Scope list_scope.

(** The scans of a directory: something followed by ".bin". *)
Definition scan_name (name : bytes) : Prop := exists stem, stem <> [] /\ name = stem ++ chars ".bin".
(** Strings in the order of std::string: the shorter prefix, or the smaller first different byte. *)
Definition before (a b : bytes) : Prop :=
  (exists c r, b = a ++ c :: r) \/
  (exists p c d r s, a = p ++ c :: r /\ b = p ++ d :: s /\ nat_of_ascii c < nat_of_ascii d).
(** What std::sort promises. *)
Definition sorts (sort : list string -> list string) : Prop :=
  forall l, Permutation l (sort l) /\
    StronglySorted (fun a b => ~ before (chars b) (chars a)) (sort l).
(** The float and the double are the same number. *)
Definition same_number (x : f32) (y : f64) : Prop :=
  is_nan y = is_nan x /\ is_finite y = is_finite x /\ Bsign y = Bsign x /\ B2R y = B2R x.
(** IEEE 754 single precision: sign, exponent field, fraction. *)
Definition ieee_value (s : bool) (e m : Z) : R :=
  ((if s then -1 else 1) * (if Z.eqb e 0 then IZR m * bpow radix2 (-149) else (1 + IZR m / 8388608) * bpow radix2 (e - 127)))%R.
