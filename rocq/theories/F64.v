(** IEEE-754 binary64 as the model's [double] (Flocq, round to nearest even; all NaNs
    are identified, which loses nothing here: the code never inspects NaN payloads). *)
From Coq Require Import Reals ZArith Lra Psatz.
From Flocq Require Import Core IEEE754.BinarySingleNaN.
From Verif Require Import Base Num.

Definition f64 : Type := binary_float 53 1024.

Definition prec53 : Prec_gt_0 53 := eq_refl.
Definition prec53lt : Prec_lt_emax 53 1024 := eq_refl.
#[export] Existing Instance prec53.
#[export] Existing Instance prec53lt.

Definition f64_add (x y : f64) : f64 := Bplus mode_NE x y.
Definition f64_sub (x y : f64) : f64 := Bminus mode_NE x y.
Definition f64_mul (x y : f64) : f64 := Bmult mode_NE x y.
Definition f64_div (x y : f64) : f64 := Bdiv mode_NE x y.
Definition f64_fma (x y z : f64) : f64 := Bfma mode_NE x y z.
Definition f64_lt (x y : f64) : bool := Bltb x y.
Definition f64_le (x y : f64) : bool := Bleb x y.
(** std::numeric_limits<double>::max() *)
Definition f64_max : f64 := Bmax_float.
(** [f64_of m e] is m * 2^e rounded to double. *)
Definition f64_of (m e : Z) : f64 := binary_normalize 53 1024 _ _ mode_NE m e false.
Definition f64_inf : f64 := B754_infinity false.
Definition f64_nan : f64 := B754_nan.

Definition Fnum : num := {|
  car := f64; nzero := B754_zero false; nmaxv := f64_max;
  nadd := f64_add; nsub := f64_sub; nmul := f64_mul; ndiv := f64_div;
  nlt := f64_lt; nle := f64_le |}.

(** Sanity checks by computation (tests, not theorems). *)
Example f64_sum_test : f64_lt (f64_add (f64_of 1 (-1)) (f64_of 1 (-2))) (f64_of 1 0) = true.
Proof. vm_compute. reflexivity. Qed.

Example f64_absorb_test :   (* 2^53 + 1 rounds to 2^53 *)
  B2SF (f64_add (f64_of 1 53) (f64_of 1 0)) = B2SF (f64_of 1 53).
Proof. vm_compute. reflexivity. Qed.
