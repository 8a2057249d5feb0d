(** How accurate the translation of a pose increment is in doubles. *)
From Coq Require Import Reals ZArith.
From Flocq Require Import Core IEEE754.BinarySingleNaN.
From Verif Require Import Base Num Vec F64 RNum Lin FlatSpec RigidSpec.
Open Scope R_scope.

(** The twist a vector of doubles stands for. *)
Definition real6 (a : v6 Ffld) : v6 Rfld := P6 (real3 (rv a)) (real3 (tv a)).
(** A function of doubles within [eps] of a real function, and one that returns the double nearest
    to the true value. *)
Definition within_of (eps : R) (f : f64 -> f64) (g : R -> R) : Prop :=
  forall x, is_finite x = true -> is_finite (f x) = true /\ Rabs (B2R (f x) - g (B2R x)) <= eps.
Definition nearest_of (f : f64 -> f64) (g : R -> R) : Prop :=
  forall x, is_finite x = true -> is_finite (f x) = true /\ B2R (f x) = round radix2 (FLT_exp (-1074) 53) ZnearestE (g (B2R x)).
(** Translations a solver may return. *)
Definition moderate (v : v3 Ffld) : Prop :=
  finite3 v /\ Rabs (B2R (p0 v : f64)) <= bpow radix2 900 /\ Rabs (B2R (p1 v : f64)) <= bpow radix2 900 /\ Rabs (B2R (p2 v : f64)) <= bpow radix2 900.
(** Distance. *)
Definition apart (x : v3 Ffld) (y : v3 Rfld) : R := length3 (sub3 (real3 x) y).
