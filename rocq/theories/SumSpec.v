(** Sums formed in any order, and how far rounding can take them. *)
From Coq Require Import Reals.
From Flocq Require Import Core BinarySingleNaN.
From Verif Require Import Base Num Vec F64 F64Proofs F64Err Lin FactorModel.
Open Scope nat_scope.

(** [s] was obtained by adding up the elements of [l], in any order and with any bracketing,
    starting from any number of zeros. *)
Inductive sums {S : Type} (zero : S) (plus : S -> S -> S) : list S -> S -> Prop :=
| SumZero : sums zero plus [] zero
| SumOne : forall x, sums zero plus [x] x
| SumPlus : forall l1 l2 a b, sums zero plus l1 a -> sums zero plus l2 b -> sums zero plus (l1 ++ l2) (plus a b)
| SumPerm : forall l l' a, Permutation l l' -> sums zero plus l a -> sums zero plus l' a.

(** The double [x] is the sum of the doubles [l] up to rounding: at most 2^-52 per summand,
    relative to the sum of the magnitudes. *)
Definition rounded_sum (l : list f64) (x : f64) : Prop :=
  (Z.of_nat (length l) <= 2 ^ 52)%Z -> (forall y, In y l -> finite y) -> (sum_abs l <= bpow radix2 1022)%R ->
  finite x /\ (Rabs (B2R x - sum_val l) <= INR (length l) * bpow radix2 (-52) * sum_abs l)%R.

(** The 43 numbers of a linearised system: the entries of H and b, and e. *)
Definition entries3 {D : fld} (v : v3 D) : list (car D) := [p0 v; p1 v; p2 v].
Definition entries33 {D : fld} (m : m3 D) : list (car D) := entries3 (r0 m) ++ entries3 (r1 m) ++ entries3 (r2 m).
Definition entries {D : fld} (s : sys D) : list (car D) :=
  entries33 (brr (sH s)) ++ entries33 (brt (sH s)) ++ entries33 (btr (sH s)) ++ entries33 (btt (sH s)) ++
  entries3 (rv (sb s)) ++ entries3 (tv (sb s)) ++ [se s].
Definition entry {D : fld} (n : nat) (s : sys D) : car D := nth n (entries s) nzero.

(** Two doubles that both sum [l] up to rounding. *)
Definition agree_up_to_rounding (l : list f64) (x y : f64) : Prop :=
  (Z.of_nat (length l) <= 2 ^ 52)%Z -> (forall z, In z l -> finite z) -> (sum_abs l <= bpow radix2 1022)%R ->
  finite x /\ finite y /\ (Rabs (B2R x - B2R y) <= INR (length l) * bpow radix2 (-51) * sum_abs l)%R.
