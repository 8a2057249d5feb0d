(** What estimation should leave in the cloud. *)
From Verif Require Import Base Num Vec Lin FactorModel EstModel.

Section Spec.
Context {D : fld}.

(** Memory a pending write touches: the normal or the covariance of one point. *)
Definition slot (w : write D) : bool * nat := match w with WNormal i _ => (true, i) | WCov i _ => (false, i) end.

(** For point i of [before]: [found] are the neighbours the search returned, [pts] the
    points they refer to. *)
Definition neighbourhood (knn : vec4 D -> nat -> outcome (list nat)) (k : nat) (before : cloud D) (i : nat)
    (p : vec4 D) (found : list nat) (pts : list (vec4 D)) : Prop :=
  nth_error (cl_points before) i = Some p /\ knn p k = Ok found /\
  Forall2 (fun j q => nth_error (cl_points before) j = Some q) found pts.
Definition has_normals (st : setter) : bool := match st with Covs => false | _ => true end.
Definition has_covs (st : setter) : bool := match st with Normals => false | _ => true end.
End Spec.

From Coq Require Import Reals.
From Verif Require Import RNum LinSpec.
Open Scope R_scope.

(** Mean and variance of the points along a direction. *)
Definition sumR {A : Type} (f : A -> R) (l : list A) : R := fold_right (fun a acc => f a + acc) 0 l.
Definition along (u : v3 Rfld) (q : vec4 Rfld) : R := dot3 u (head q).
Definition mean_along (u : v3 Rfld) (pts : list (vec4 Rfld)) : R := sumR (along u) pts / INR (length pts).
Definition variance_along (u : v3 Rfld) (pts : list (vec4 Rfld)) : R :=
  sumR (fun q => (along u q - mean_along u pts) * (along u q - mean_along u pts)) pts / INR (length pts).

(** Contract of SelfAdjointEigenSolver on one symmetric matrix: orthonormal eigenvectors in the
    columns, eigenvalues in increasing order. *)
Definition eig_correct (W V : m3 Rfld) : Prop :=
  mm3 (tr3 V) V = id3 /\ exists l : v3 Rfld, mm3 W V = mm3 V (diag3 l) /\ p0 l <= p1 l /\ p1 l <= p2 l.

(** A usable normal for point p: unit length, fourth component zero, facing the origin, and
    along the direction of least variance of the neighbours. *)
Definition good_normal (p n : vec4 Rfld) (pts : list (vec4 Rfld)) : Prop :=
  vw n = 0 /\ dot3 (head n) (head n) = 1 /\ dot3 (head p) (head n) <= 0 /\
  forall u : v3 Rfld, dot3 u u = 1 -> variance_along (head n) pts <= variance_along u pts.
(** A plane covariance with normal direction n: symmetric, 1e-3 along n and 1 across it, in
    the upper left block only. *)
Definition plane_cov (c : m4 Rfld) (n : v3 Rfld) : Prop :=
  b34 c = zero3 /\ b43 c = zero3 /\ b44 c = (0 : car Rfld) /\ sym3 (b33 c) /\
  mv3 (b33 c) n = scale3 (1e-3 : car Rfld) n /\ forall u : v3 Rfld, dot3 u n = 0 -> mv3 (b33 c) u = u.

(** The solver is correct on the covariance matrix of these points. *)
Definition solves (eig : m3 Rfld -> m3 Rfld) (pts : list (vec4 Rfld)) : Prop :=
  forall W, sym3 W -> (forall u : v3 Rfld, dot3 u (mv3 W u) = variance_along u pts) -> eig_correct W (eig W).
