(** What estimation on a cloud of doubles should achieve, measured in real numbers. *)
From Coq Require Import Reals.
From Flocq Require Import Core IEEE754.BinarySingleNaN.
From Verif Require Import Base Num Vec RNum F64 F64Proofs F64Err Lin FactorModel EstModel EstSpec.
Open Scope R_scope.

(** The real point, and the real vector, that doubles stand for. *)
Definition real4 (q : vec4 Ffld) : vec4 Rfld := V4 (D := Rfld) (B2R (vx q)) (B2R (vy q)) (B2R (vz q)) (B2R (vw q)).
Definition real3 (v : v3 Ffld) : v3 Rfld := P3 (D := Rfld) (B2R (p0 v)) (B2R (p1 v)) (B2R (p2 v)).

Inductive axis : Type := AX | AY | AZ.
Definition at3 {D : fld} (v : v3 D) (a : axis) : car D := match a with AX => p0 v | AY => p1 v | AZ => p2 v end.
Definition at33 {D : fld} (m : m3 D) (a b : axis) : car D :=
  at3 (match a with AX => r0 m | AY => r1 m | AZ => r2 m end) b.
Definition at4 {D : fld} (q : vec4 D) (a : axis) : car D := match a with AX => vx q | AY => vy q | AZ => vz q end.

(** Mean of a coordinate and covariance of two coordinates of a set of real points. *)
Definition mean_of (a : axis) (pts : list (vec4 Rfld)) : R := sumR (fun q : vec4 Rfld => at4 (D := Rfld) q a : R) pts / INR (length pts).
Definition covariance (a b : axis) (pts : list (vec4 Rfld)) : R :=
  sumR (fun q : vec4 Rfld => ((at4 q a : R) - mean_of a pts) * ((at4 q b : R) - mean_of b pts)) pts / INR (length pts).

(** Finite coordinates of magnitude at most M. *)
Definition reaches (M : R) (q : vec4 Ffld) : Prop :=
  finite (vw q) /\ forall a, finite (at4 q a) /\ Rabs (B2R (at4 q a)) <= M.
(** Conversion of a neighbour count to double is exact. *)
Definition counts (of_nat : nat -> f64) : Prop :=
  forall n, (Z.of_nat n <= 2 ^ 53)%Z -> finite (of_nat n) /\ B2R (of_nat n) = INR n.

(** The quadratic form of the lower triangle of a matrix, which is all the eigen-solver reads. *)
Definition lower_form (W : m3 Ffld) (u : v3 Rfld) : R :=
  B2R (at33 W AX AX) * (p0 u * p0 u) + B2R (at33 W AY AY) * (p1 u * p1 u) + B2R (at33 W AZ AZ) * (p2 u * p2 u) +
  2 * (B2R (at33 W AY AX) * (p0 u * p1 u) + B2R (at33 W AZ AX) * (p0 u * p2 u) + B2R (at33 W AZ AY) * (p1 u * p2 u)).
(** What is asked of the eigen-solver: the first column has length one up to rounding, and no
    direction gives the form a value smaller by more than eps. *)
Definition least_direction (eps : R) (W : m3 Ffld) (v : v3 Ffld) : Prop :=
  (forall a, finite (at3 v a)) /\ Rabs (dot3 (real3 v) (real3 v) - 1) <= 4 * u64 /\
  forall u : v3 Rfld, dot3 u u = 1 -> lower_form W (real3 v) <= lower_form W u + eps.

(** A normal of point p which is good up to [slack] in variance: fourth component zero, length one
    and facing the origin up to rounding, and no direction along which the points vary less by
    more than [slack]. *)
Definition nearly_good_normal (slack M : R) (p n : vec4 Ffld) (pts : list (vec4 Ffld)) : Prop :=
  B2R (vw n) = 0 /\ Rabs (dot3 (head (real4 n)) (head (real4 n)) - 1) <= 72 * u64 /\
  dot3 (head (real4 p)) (head (real4 n)) <= 16 * u64 * M /\
  forall u : v3 Rfld, dot3 u u = 1 ->
    variance_along (head (real4 n)) (map real4 pts) <= variance_along u (map real4 pts) + slack.
