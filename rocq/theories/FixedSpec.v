(** Specification for clouds in fixed point: coordinates that are whole multiples of one
    power of two, such as integers, or the output of a scanner with a fixed step. *)
From Coq Require Import Reals ZArith.
From Flocq Require Import Core.
From Flocq Require Import IEEE754.BinarySingleNaN.
From Verif Require Import Base Num Vec F64 VoxSpec.
Open Scope nat_scope.

(** A whole number of steps of size 2^e, at most [M] of them. *)
Definition fixed (e M : Z) (x : f64) : Prop :=
  is_finite x = true /\ exists k : Z, B2R x = (IZR k * bpow radix2 e)%R /\ (Z.abs k <= M)%Z.
Definition fixed_point (e M : Z) (p : vec4 Fnum) : Prop :=
  fixed e M (vx p) /\ fixed e M (vy p) /\ fixed e M (vz p) /\ vw p = f64_of 1 0.

(** The double nearest to a real number (ties to even). *)
Definition nearest_double (r : R) (x : f64) : Prop :=
  is_finite x = true /\ B2R x = round radix2 (FLT_exp (-1074) 53) ZnearestE r.

(** [o] is the mean of the points [l], every coordinate rounded once. *)
Definition rounded_mean (l : list (vec4 Fnum)) (o : vec4 Fnum) : Prop :=
  nearest_double (axis_mean vx l) (vx o) /\ nearest_double (axis_mean vy l) (vy o) /\
  nearest_double (axis_mean vz l) (vz o) /\ vw o = f64_of 1 0.

(** The same point: equal numbers in every coordinate (zero may change its sign). *)
Definition same_coord (x y : f64) : Prop := is_finite x = true /\ is_finite y = true /\ B2R x = B2R y.
Definition same_point (p q : vec4 Fnum) : Prop :=
  same_coord (vx p) (vx q) /\ same_coord (vy p) (vy q) /\ same_coord (vz p) (vz q) /\ vw p = vw q.

(** [x] lies between two members of [l]. *)
Definition within (l : list f64) (x : f64) : Prop :=
  exists a b, In a l /\ In b l /\ (B2R a <= B2R x <= B2R b)%R.
