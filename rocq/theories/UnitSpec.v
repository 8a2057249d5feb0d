(** The same measurements in another unit of length, over the reals. *)
From Coq Require Import Reals List Permutation.
From Verif Require Import Base Num Vec RNum Lin LinSpec FactorModel FactorSpec OptModel MoveSpec.
Open Scope R_scope.

(** One old unit is [s] new ones: points and translations are multiplied by [s], rotations,
    normals and the covariances (which the library normalises) stay as they are. *)
Definition grow_pt (s : R) (p : vec4 Rfld) : vec4 Rfld := V4 (D := Rfld) (s * vx p) (s * vy p) (s * vz p) (vw p).
Definition grow (s : R) (T : pose Rfld) : pose Rfld := mkPose (rot T) (scale3 (s : car Rfld) (tra T)).
Definition grow6 (s : R) (x : v6 Rfld) : v6 Rfld := P6 (rv x) (scale3 (s : car Rfld) (tv x)).
Definition grown_view {I : Type} (s : R) (v v' : view Rfld I) : Prop :=
  forall i, at_point v' i = (let* p := at_point v i in Ok (grow_pt s p)) /\ at_normal v' i = at_normal v i /\ at_cov v' i = at_cov v i.
Definition grown_cloud (s : R) (c : cloud Rfld) : cloud Rfld := mkCloud (map (grow_pt s) (cl_points c)) (cl_normals c) (cl_covs c).

(** Dimensions of the linear system: an error is an area, a rotation has no dimension. *)
Definition grown_H (s : R) (H : m6 Rfld) : m6 Rfld :=
  M6 (mscale3 (s * s : car Rfld) (brr H)) (mscale3 (s : car Rfld) (brt H)) (mscale3 (s : car Rfld) (btr H)) (btt H).
Definition grown_b (s : R) (b : v6 Rfld) : v6 Rfld := P6 (scale3 (s * s : car Rfld) (rv b)) (scale3 (s : car Rfld) (tv b)).
Definition grown_sys (s : R) (x : sys Rfld) : sys Rfld := mkSys (grown_H s (sH x)) (grown_b s (sb x)) (s * s * se x : car Rfld).
Definition grown_result (s : R) (r : result Rfld) : result Rfld :=
  mkResult (grow s (r_T r)) (r_converged r) (r_iterations r) (r_inliers r) (grown_H s (r_H r)) (grown_b s (r_b r)) (s * s * r_error r : car Rfld).
(** The translation threshold is a length. *)
Definition grown_criteria (s : R) (c : criteria Rfld) : criteria Rfld := mkCriteria (s * translation_eps c : car Rfld) (rotation_eps c).

(** A search in the old and one in the new unit give the same answer at [q]. *)
Definition same_answer (s : R) (nn nn' : vec4 Rfld -> outcome (option (N * car Rfld))) (q : vec4 Rfld) : Prop :=
  nn' (grow_pt s q) = (let* o := nn q in Ok (match o with Some (i, d) => Some (i, s * s * d : car Rfld) | None => None end)).
(** A rejector, a robust kernel and a general factor in the old and in the new unit. *)
Definition same_verdict (s : R) (reject reject' : pose Rfld -> N -> nat -> car Rfld -> bool) : Prop :=
  forall T ti si (d : R), reject' (grow s T) ti si (s * s * d : car Rfld) = reject T ti si (d : car Rfld).
Definition same_weight (s : R) (weight weight' : R -> R) : Prop := forall e, weight' (s * e) = weight e.
Definition same_general (s : R) (g g' : general Rfld) : Prop :=
  (forall T x, upd_sys g' (grow s T) (grown_sys s x) = grown_sys s (upd_sys g T x)) /\
  (forall T (e : R), upd_err g' (grow s T) (s * s * e : car Rfld) = s * s * upd_err g T (e : car Rfld)).

(** Every step of a run had one best solution. *)
Definition well_posed {F : Type} (log : list (event Rfld F)) : Prop := forall T fs x, In (Linearized T fs x) log -> spd6 (sH x).
(** The searches in the two units find the same neighbours, in any order. *)
Definition same_found (s : R) (knn knn' : vec4 Rfld -> nat -> outcome (list nat)) (k : nat) (points : list (vec4 Rfld)) : Prop :=
  forall p found found', In p points -> knn p k = Ok found -> knn' (grow_pt s p) k = Ok found' -> Permutation found found'.
