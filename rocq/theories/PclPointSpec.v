(** What a PCL cloud keeps of the values given to it. *)
From Coq Require Import Reals ZArith List.
From Flocq Require Import Core IEEE754.BinarySingleNaN.
From Verif Require Import Base Num F64 F32 Vec Lin KittiSpec.
Open Scope R_scope.

(** [y] is the float nearest to the double [x]; from half a step above the largest float on it is
    infinite. *)
Definition float_limit : R := bpow radix2 128 - bpow radix2 103.
Definition nearest_float (x : f64) (y : f32) : Prop :=
  (is_nan x = true -> is_nan y = true) /\
  (is_nan x = false -> Bsign y = Bsign x) /\
  (is_nan x = false -> is_finite x = false -> y = B754_infinity (Bsign x)) /\
  (is_finite x = true -> Rabs (B2R x) < float_limit ->
     is_finite y = true /\ forall z : f32, is_finite z = true -> Rabs (B2R y - B2R x) <= Rabs (B2R z - B2R x)) /\
  (is_finite x = true -> float_limit <= Rabs (B2R x) -> y = B754_infinity (Bsign x)).
(** [y] is what a PCL cloud gives back for [x]. *)
Definition kept (x y : f64) : Prop := exists s : f32, nearest_float x s /\ same_number s y.
Definition kept4 (a b : vec4 Fnum) : Prop := kept (vx a) (vx b) /\ kept (vy a) (vy b) /\ kept (vz a) (vz b) /\ kept (vw a) (vw b).
Definition kept_v3 (a b : v3 Ffld) : Prop := kept (p0 a) (p0 b) /\ kept (p1 a) (p1 b) /\ kept (p2 a) (p2 b).
Definition kept_m3 (a b : m3 Ffld) : Prop := kept_v3 (r0 a) (r0 b) /\ kept_v3 (r1 a) (r1 b) /\ kept_v3 (r2 a) (r2 b).
Definition kept_m4 (a b : m4 Ffld) : Prop :=
  kept_m3 (b33 a) (b33 b) /\ kept_v3 (b34 a) (b34 b) /\ kept_v3 (b43 a) (b43 b) /\ kept (b44 a) (b44 b).
(** The quadratic form of a matrix of doubles. *)
Definition form (m : m3 Ffld) (x y z : R) : R :=
  (x * (B2R (p0 (r0 m) : f64) * x + B2R (p1 (r0 m) : f64) * y + B2R (p2 (r0 m) : f64) * z) +
   y * (B2R (p0 (r1 m) : f64) * x + B2R (p1 (r1 m) : f64) * y + B2R (p2 (r1 m) : f64) * z) +
   z * (B2R (p0 (r2 m) : f64) * x + B2R (p1 (r2 m) : f64) * y + B2R (p2 (r2 m) : f64) * z)).
Definition every3 (P : f64 -> Prop) (m : m3 Ffld) : Prop :=
  P (p0 (r0 m)) /\ P (p1 (r0 m)) /\ P (p2 (r0 m)) /\ P (p0 (r1 m)) /\ P (p1 (r1 m)) /\ P (p2 (r1 m)) /\
  P (p0 (r2 m)) /\ P (p1 (r2 m)) /\ P (p2 (r2 m)).
