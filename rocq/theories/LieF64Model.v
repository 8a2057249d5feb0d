(** SO(3) and SE(3) exponentials, util/lie.hpp, in double precision.  std::sin and std::cos are
    parameters; everything else is IEEE double arithmetic, rounded to nearest, evaluated in the
    order the source writes it (sums inside products of matrices: see Lin.v). *)
From Coq Require Import ZArith.
From Flocq Require Import Core IEEE754.BinarySingleNaN.
From Verif Require Import Base Num Vec F64 Lin.

Section LieF64.
Context (fsin fcos : f64 -> f64).

(** Literals: whole numbers and powers of two are exact, 1e-10 is the double nearest to it, and
    quotients such as 1.0 / 48.0 are double divisions, as in the source. *)
Definition lit (n : Z) : f64 := f64_of n 0.
Definition lit_half : f64 := f64_of 1 (-1).
Definition lit_1em10 : f64 := f64_div (lit 1) (lit 10000000000).
Definition over (n : Z) : f64 := f64_div (lit 1) (lit n).

(** Eigen::Quaterniond(w, x, y, z) *)
Record fquat : Type := mkFquat { fqw : f64; fqv : v3 Ffld }.

(** so3_exp, lie.hpp:54-71. *)
Definition fso3_exp (omega : v3 Ffld) : fquat :=
  let theta_sq : f64 := dot3 omega omega in
  let '(imag_factor, real_factor) :=
    if f64_lt theta_sq lit_1em10 then
      let theta_quad := f64_mul theta_sq theta_sq in
      (f64_add (f64_sub lit_half (f64_mul (over 48) theta_sq)) (f64_mul (over 3840) theta_quad),
       f64_add (f64_sub (lit 1) (f64_mul (over 8) theta_sq)) (f64_mul (over 384) theta_quad))
    else
      let theta : f64 := fsqrt (f := Ffld) theta_sq in
      let half_theta := f64_mul lit_half theta in
      (f64_div (fsin half_theta) theta, fcos half_theta) in
  mkFquat real_factor (scale3 (D := Ffld) imag_factor omega).

(** Eigen's toRotationMatrix(), which does not normalise (Eigen is not part of /repo; called at
    lie.hpp:84). *)
Definition fto_rotation (q : fquat) : m3 Ffld :=
  let w := fqw q in let x : f64 := p0 (fqv q) in let y : f64 := p1 (fqv q) in let z : f64 := p2 (fqv q) in
  let tx := f64_mul (lit 2) x in let ty := f64_mul (lit 2) y in let tz := f64_mul (lit 2) z in
  let twx := f64_mul tx w in let twy := f64_mul ty w in let twz := f64_mul tz w in
  let txx := f64_mul tx x in let txy := f64_mul ty x in let txz := f64_mul tz x in
  let tyy := f64_mul ty y in let tyz := f64_mul tz y in let tzz := f64_mul tz z in
  M3 (D := Ffld)
    (P3 (D := Ffld) (f64_sub (lit 1) (f64_add tyy tzz)) (f64_sub txy twz) (f64_add txz twy))
    (P3 (D := Ffld) (f64_add txy twz) (f64_sub (lit 1) (f64_add txx tzz)) (f64_sub tyz twx))
    (P3 (D := Ffld) (f64_sub txz twy) (f64_add tyz twx) (f64_sub (lit 1) (f64_add txx tyy))).

(** se3_exp, lie.hpp:77-96. *)
Definition fV_matrix (theta_sq theta : f64) (omega : v3 Ffld) : m3 Ffld :=
  let Omega := skew omega in
  madd3 (madd3 id3 (mscale3 (D := Ffld) (f64_div (f64_sub (lit 1) (fcos theta)) theta_sq) Omega))
        (mm3 (mscale3 (D := Ffld) (f64_div (f64_sub theta (fsin theta)) (f64_mul theta_sq theta)) Omega) Omega).
Definition fse3_exp (a : v6 Ffld) : pose Ffld :=
  let omega := rv a in
  let theta_sq : f64 := dot3 omega omega in
  let theta : f64 := fsqrt (f := Ffld) theta_sq in
  let linear := fto_rotation (fso3_exp omega) in
  mkPose linear
    (if f64_lt theta lit_1em10 then mv3 linear (tv a) else mv3 (fV_matrix theta_sq theta omega) (tv a)).

End LieF64.
