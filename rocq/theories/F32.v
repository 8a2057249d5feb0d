(** IEEE-754 binary32 as the model's [float], and the casts between float and double
    (static_cast, Eigen's cast<float>() and cast<double>()): round to nearest even. *)
From Coq Require Import Reals ZArith Lra.
From Flocq Require Import Core IEEE754.BinarySingleNaN.
From Verif Require Import Base Num F64.

Definition f32 : Type := binary_float 24 128.
Definition prec24 : Prec_gt_0 24 := eq_refl.
Definition prec24lt : Prec_lt_emax 24 128 := eq_refl.
#[export] Existing Instance prec24.
#[export] Existing Instance prec24lt.

Definition widen (x : f32) : f64 :=
  match x with
  | B754_zero s => B754_zero s
  | B754_infinity s => B754_infinity s
  | B754_nan => B754_nan
  | B754_finite s m e _ => binary_normalize 53 1024 _ _ mode_NE (cond_Zopp s (Zpos m)) e s
  end.
Definition narrow (x : f64) : f32 :=
  match x with
  | B754_zero s => B754_zero s
  | B754_infinity s => B754_infinity s
  | B754_nan => B754_nan
  | B754_finite s m e _ => binary_normalize 24 128 _ _ mode_NE (cond_Zopp s (Zpos m)) e s
  end.
