(** A pose that is already an exact alignment, over the reals. *)
From Coq Require Import Reals List.
From Verif Require Import Base Num Vec RNum Lin FactorModel FactorSpec OptModel.
Open Scope R_scope.

(** At pose T every source point lies exactly on some target point. *)
Definition lands_on (target source : cloud Rfld) (T : pose Rfld) : Prop :=
  forall p, In p (cl_points source) -> In (pose_pt T p) (cl_points target).
(** The attributes a factor reads are there: normals of the target for PlaneICP, usable
    covariances of both clouds for GICP. *)
Definition has_attributes (k : kind) (target source : cloud Rfld) : Prop :=
  match k with
  | ICP => True
  | PlaneICP => length (cl_normals target) = length (cl_points target)
  | GICP => length (cl_covs target) = length (cl_points target) /\ length (cl_covs source) = length (cl_points source) /\
            usable_covs (cloud_viewN target) (cloud_view source)
  end.
(** What such a start must lead to: the pose itself, converged at once, nothing left. *)
Definition kept (T : pose Rfld) (n : nat) (r : result Rfld) : Prop :=
  r_T r = T /\ r_converged r = true /\ r_iterations r = 0%nat /\ r_inliers r = n /\ r_b r = zero6 /\ r_error r = 0.
