(** A start that is off the true alignment by a shift, over the reals. *)
From Coq Require Import Reals List.
From Verif Require Import Base Num Vec RNum Lin LinSpec FactorModel OptModel MoveSpec.
Open Scope R_scope.

(** Different points of the cloud are further apart than the square root of [gap]. *)
Definition spaced (gap : R) (c : cloud Rfld) : Prop :=
  forall p q, In p (cl_points c) -> In q (cl_points c) -> p <> q -> gap < sq_gap p q.
(** The pose [T] with [d] added to its translation. *)
Definition shifted (T : pose Rfld) (d : v3 Rfld) : pose Rfld := mkPose (rot T) (add3 (tra T) d).

(** The textbook cross product. *)
Definition cross (a b : v3 Rfld) : v3 Rfld :=
  P3 (p1 a * p2 b - p2 a * p1 b : car Rfld) (p2 a * p0 b - p0 a * p2 b : car Rfld) (p0 a * p1 b - p1 a * p0 b : car Rfld).
(** Velocity of the point [x] under the twist with angular velocity [omega] and linear velocity [v]. *)
Definition velocity (omega v x : v3 Rfld) : v3 Rfld := add3 (cross omega x) v.
(** The correspondences fix the pose: three source points are not on a line (ICP, GICP); every
    motion moves some source point in a way its target's normal sees (PlaneICP). *)
Definition off_line (c : cloud Rfld) : Prop :=
  exists p q r, In p (cl_points c) /\ In q (cl_points c) /\ In r (cl_points c) /\
    cross (sub3 (head q) (head p)) (sub3 (head r) (head p)) <> zero3.
Definition seen_by_normals (target source : cloud Rfld) (T : pose Rfld) : Prop :=
  forall omega v, omega <> zero3 \/ v <> zero3 -> exists p, In p (cl_points source) /\
    forall j n, nth_error (cl_points target) j = Some (pose_pt T p) -> nth_error (cl_normals target) j = Some n ->
      mul3 (head n) (mv3 (rot T) (velocity omega v (head p))) <> zero3.
Definition pinned (k : kind) (target source : cloud Rfld) (T : pose Rfld) : Prop :=
  match k with PlaneICP => seen_by_normals target source T | _ => off_line source end.

(** The centroid of the cloud is the origin. *)
Definition centred (c : cloud Rfld) : Prop := fold_right (fun p s => add3 (head p) s) zero3 (cl_points c) = zero3.

(** The shift is less than half the spacing of the target and within the correspondence limit. *)
Definition small_shift (target : cloud Rfld) (limit : R) (d : v3 Rfld) : Prop :=
  spaced (4 * dot3 d d) target /\ dot3 d d < nmaxv (n := Rnum) /\ dot3 d d <= limit.
(** A run of at most [m] iterations with damping at most [lambda] on [n] points came as close to
    [T] as it should: every iteration leaves the fraction lambda / (n + lambda) of the shift [d];
    the step that stopped it was at most [eps] long. *)
Definition approached (T : pose Rfld) (d : v3 Rfld) (n lambda eps : R) (m : nat) (r : result Rfld) : Prop :=
  exists c : R, r_T r = shifted T (opp3 (scale3 (c : car Rfld) d)) /\
    0 < c <= (lambda / (n + lambda)) ^ S (r_iterations r) /\ (r_iterations r < m)%nat /\
    (r_converged r = true -> n * (c * norm3 d) <= lambda * eps) /\
    ((lambda / (n + lambda)) ^ (m - 1) * norm3 d <= eps -> r_converged r = true).
