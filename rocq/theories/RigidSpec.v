(** Specification for C74, independent of the model: what it means for a double-precision pose to
    be a rigid motion up to a relative error, and what is asked of the sine and the cosine. *)
From Coq Require Import Reals ZArith List.
From Flocq Require Import Core IEEE754.BinarySingleNaN.
From Verif Require Import Base Num Vec F64 RNum Lin LinSpec F64Err FlatSpec FactorModel OptModel.
Import ListNotations.
Open Scope R_scope.

(** The real numbers a double matrix stands for (vectors: FlatSpec). *)
Definition real33 (m : m3 Ffld) : m3 Rfld := M3 (real3 (r0 m)) (real3 (r1 m)) (real3 (r2 m)).
Definition length3 (v : v3 Rfld) : R := sqrt (dot3 v v).
Definition finite3 (v : v3 Ffld) : Prop :=
  is_finite (p0 v : f64) = true /\ is_finite (p1 v : f64) = true /\ is_finite (p2 v : f64) = true.

(** Every vector keeps its length up to the relative error [e], and the orientation is kept: the
    volume is at least 1 - 4e. *)
Definition rigid_within (e : R) (M : m3 Ffld) : Prop :=
  (finite3 (r0 M) /\ finite3 (r1 M) /\ finite3 (r2 M)) /\
  (forall x : v3 Rfld, Rabs (length3 (mv3 (real33 M) x) - length3 x) <= e * length3 x) /\
  1 - 4 * e <= det3 (real33 M).

(** What is asked of std::sin and std::cos: at every finite double the answer is finite and
    within 2^-52 of the true value.  (Results of good libraries are within 2^-53 or so.) *)
Definition accurate (f : f64 -> f64) (g : R -> R) : Prop :=
  forall x, is_finite x = true -> is_finite (f x) = true /\ Rabs (B2R (f x) - g (B2R x)) <= bpow radix2 (-52).

(** A rotation increment a solver may return: finite and below 2^100 in each component. *)
Definition tame (w : v3 Ffld) : Prop :=
  finite3 w /\ Rabs (B2R (p0 w : f64)) <= bpow radix2 100 /\ Rabs (B2R (p1 w : f64)) <= bpow radix2 100 /\
  Rabs (B2R (p2 w : f64)) <= bpow radix2 100.

(** The error allowed after [k] increments. *)
Definition drift (e0 : R) (k : nat) : R := (1 + e0) * (1 + 128 * bpow radix2 (-53)) ^ k - 1.

(** The increments an optimizer applied to the pose, and that each of them was tame. *)
Definition applied {F : Type} (ev : event Ffld F) : option (v6 Ffld) :=
  match ev with
  | Stepped d _ => Some d
  | Tried _ d _ _ _ true => Some d
  | _ => None
  end.
Definition tame_run {F : Type} (log : list (event Ffld F)) : Prop :=
  forall ev d, In ev log -> applied ev = Some d -> tame (rv d).
