(** What estimation on a cloud of doubles should leave in it. *)
From Verif Require Import Base Num Vec F64 KdF64 KdSpec Lin FactorModel EstModel EstSpec.
Open Scope nat_scope.

(** The k nearest of a list of points, nearest first; fewer if there are fewer within reach. *)
Definition neighbours (sqd : vec4 Fnum -> vec4 Fnum -> f64) (points : list (vec4 Fnum)) (k : nat) (q : vec4 Fnum) (pts : list (vec4 Fnum)) : Prop :=
  exists res, is_knn (D := Fnum) (dist_to (D := Fnum) sqd points q) (length points) k res /\
    Forall2 (fun e p => nth_error points (N.to_nat (fst e)) = Some p) res pts.

(** Every point has the normal and the covariance of its k nearest points, or the invalid ones if
    there are fewer than five.  (What the two formulas mean is C33.) *)
Definition estimated (sqd : vec4 Fnum -> vec4 Fnum -> f64) (eig : m3 Ffld -> m3 Ffld) (of_nat : nat -> f64) (milli : f64)
  (st : setter) (k : nat) (c : cloud Ffld) : Prop :=
  forall i p, nth_error (A := vec4 Fnum) (cl_points c) i = Some p -> exists pts, neighbours sqd (cl_points c) k p pts /\
    (has_normals st = true -> nth_error (cl_normals c) i =
       Some (if length pts <? 5 then vzero else normal_of (D := Ffld) (eig (scatter (D := Ffld) of_nat pts)) p)) /\
    (has_covs st = true -> nth_error (cl_covs c) i =
       Some (if length pts <? 5 then B4 id3 zero3 zero3 nzero else cov_of (D := Ffld) milli (eig (scatter (D := Ffld) of_nat pts)))).
