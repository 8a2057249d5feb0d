(** A target seen from another coordinate frame, over the reals. *)
From Coq Require Import Reals.
From Verif Require Import Base Num Vec RNum Lin LinSpec FactorModel OptModel.
Open Scope R_scope.

(** [v'] is [v] after the rigid motion [G]: points and normals are mapped (a normal has fourth
    component zero, so it is only turned), covariances are conjugated. *)
Definition moved_cov (G : pose Rfld) (c : m4 Rfld) : m4 Rfld := mm4 (mm4 (pose_mat G) c) (tr4 (pose_mat G)).
Definition moved_view {I : Type} (G : pose Rfld) (v v' : view Rfld I) : Prop :=
  forall i, at_point v' i = (let* p := at_point v i in Ok (pose_pt G p)) /\
            at_normal v' i = (let* n := at_normal v i in Ok (pose_pt G n)) /\
            at_cov v' i = (let* c := at_cov v i in Ok (moved_cov G c)).

(** The textbook squared distance. *)
Definition sq_gap (p q : vec4 Rfld) : R :=
  (vx p - vx q)^2 + (vy p - vy q)^2 + (vz p - vz q)^2 + (vw p - vw q)^2.
(** Index [i] is a nearest point of the target. *)
Definition nearest_at (target : view Rfld N) (q : vec4 Rfld) (i : N) : Prop :=
  exists p, at_point target i = Ok p /\ forall j p', at_point target j = Ok p' -> sq_gap p q <= sq_gap p' q.
Definition one_nearest (target : view Rfld N) (q : vec4 Rfld) : Prop :=
  forall i j, nearest_at target q i -> nearest_at target q j -> i = j.
(** A search that always reports a nearest point and its squared distance; points further away
    than the largest number count as absent. *)
Definition exact_search (target : view Rfld N) (nn : vec4 Rfld -> outcome (option (N * car Rfld))) : Prop :=
  forall q, exists o, nn q = Ok o /\
    match o with
    | Some (i, d) => nearest_at target q i /\ (d : R) < nmaxv (n := Rnum) /\
                     exists p, at_point target i = Ok p /\ d = sq_gap p q
    | None => forall j p, at_point target j = Ok p -> nmaxv (n := Rnum) <= sq_gap p q
    end.

(** No covariance entries outside the 3x3 block. *)
Definition plain_cov (c : m4 Rfld) : Prop := b34 c = zero3 /\ b43 c = zero3 /\ b44 c = (0 : car Rfld).
Definition homogeneous_view {I : Type} (v : view Rfld I) : Prop := forall i p, at_point v i = Ok p -> vw p = 1.
Definition plain_covs {I : Type} (v : view Rfld I) : Prop := forall i c, at_cov v i = Ok c -> plain_cov c.

(** The result of a registration in the other frame: the pose is composed with the motion,
    everything else is the same. *)
Definition moved_result (G : pose Rfld) (r : result Rfld) : result Rfld :=
  mkResult (pose_mul G (r_T r)) (r_converged r) (r_iterations r) (r_inliers r) (r_H r) (r_b r) (r_error r).
(** The poses at which a run linearised. *)
Definition linearized_at {F : Type} (log : list (event Rfld F)) (T : pose Rfld) : Prop :=
  exists fs s, In (Linearized T fs s) log.

(** A cloud after the motion. *)
Definition moved_cloud (G : pose Rfld) (c : cloud Rfld) : cloud Rfld :=
  mkCloud (map (pose_pt G) (cl_points c)) (map (pose_pt G) (cl_normals c)) (map (moved_cov G) (cl_covs c)).
