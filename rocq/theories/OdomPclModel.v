(** The odometry class on the PCL interface: src/benchmark/odometry_benchmark_small_gicp_pcl.cpp,
    a client of RegistrationPCL. *)
From Coq Require Import ZArith.
From Verif Require Import Base Num Vec F64 F32 Lin PclModel PclPointModel.
Open Scope nat_scope.

(** pcl::PointCloud<pcl::PointXYZ>, and the copy of a frame into one, :22-26. *)
Definition xyz_cloud : Type := list (vec4 Snum).
Definition xyz_size (c : xyz_cloud) : nat := length c.
Definition to_pcl (points : list (vec4 Fnum)) : xyz_cloud := map (cast4 (A := Fnum) (B := Snum) narrow) points.
(** final_transformation_, a Matrix4f (pcl_registration_impl.hpp:244), read as a double matrix, :43. *)
Definition final_pose (T : pose Ffld) : pose Ffld :=
  mkPose (cast_m3 (A := Sfld) (B := Ffld) widen (cast_m3 (A := Ffld) (B := Sfld) narrow (rot T)))
    (cast_v3 (A := Sfld) (B := Ffld) widen (cast_v3 (A := Ffld) (B := Sfld) narrow (tra T))).

Section OdomPcl.
Context (tree cov vmap result base : Type).
Context (build : xyz_cloud -> tree).
Context (estimate : xyz_cloud -> tree -> Z -> list cov).
Context (make_map : f64 -> xyz_cloud -> list cov -> vmap).
Context (run_gicp : base -> Z -> xyz_cloud -> list cov -> tree -> xyz_cloud -> list cov -> pose Ffld -> outcome result).
Context (run_vgicp : base -> Z -> vmap -> xyz_cloud -> list cov -> pose Ffld -> outcome result).
Context (accepts : side -> xyz_cloud -> bool).
(** RegistrationResult::T_target_source. *)
Context (T_of : result -> pose Ffld).
Notation state := (state xyz_cloud tree cov vmap base).
Notation call := (call xyz_cloud cov (pose Ffld) base).
(** Where pcl::make_shared puts a new cloud. *)
Context (alloc : state -> ptr).

(** gicp, its final_transformation_, and T. *)
Record odometry : Type := mkOdom { o_gicp : state; o_final : pose Ffld; o_T : pose Ffld }.
Notation step := (step xyz_size build estimate make_map run_gicp run_vgicp accepts).

(** The constructor, :15-19; [b] holds the settings of the base class with the maximum
    correspondence distance. *)
Definition odom_new (mem : ptr -> xyz_cloud) (b0 b : base) (num_neighbors num_threads : Z) : outcome odometry :=
  let* (st, _) := step (init mem b0) (SetK num_neighbors) in
  let* (st, _) := step st (SetBase b) in
  let* (st, _) := step st (SetThreads num_threads) in
  Ok (mkOdom st pose_id pose_id).
(** estimate, :21-47. *)
Definition odom_estimate (o : odometry) (points : list (vec4 Fnum)) : outcome (odometry * pose Ffld) :=
  let a := alloc (o_gicp o) in
  let* (st, _) := step (o_gicp o) (Mutate a (to_pcl points)) in
  match c_cloud (st_tgt st) with
  | None =>
      let* (st, _) := step st (SetInput Tgt (Some a)) in
      Ok (mkOdom st (o_final o) (o_T o), o_T o)
  | Some _ =>
      let* (st, _) := step st (SetInput Src (Some a)) in
      let* (st, r) := step st (Align pose_id) in
      let final := match r with Some r => final_pose (T_of r) | None => o_final o end in
      let T := pose_mul (o_T o) final in
      let* (st, _) := step st Swap in
      Ok (mkOdom st final T, T)
  end.
(** The trajectory for a sequence of frames. *)
Fixpoint odom_run (o : odometry) (frames : list (list (vec4 Fnum))) : outcome (list (pose Ffld)) :=
  match frames with
  | [] => Ok []
  | f :: fs => let* (o, T) := odom_estimate o f in let* l := odom_run o fs in Ok (T :: l)
  end.
Definition pcl_odometry mem b0 b num_neighbors num_threads frames : outcome (list (pose Ffld)) :=
  let* o := odom_new mem b0 b num_neighbors num_threads in odom_run o frames.
End OdomPcl.
