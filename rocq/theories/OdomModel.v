(** The odometry classes on OpenMP: src/benchmark/odometry_benchmark_small_gicp_omp.cpp,
    …_small_vgicp_omp.cpp, …_small_gicp_model_omp.cpp, …_small_vgicp_model_omp.cpp, and the loop of
    include/small_gicp/benchmark/benchmark_odom.hpp.  The …_tbb.cpp classes differ in the
    scheduler only. *)
From Coq Require Import ZArith.
From Verif Require Import Base Num Vec F64 KdF64 FloorModel Lin FactorModel KnnModel KdModel VoxModel VmapModel EstModel
  OptModel HelperModel PipeModel PyModel.
Open Scope nat_scope.

(** OdometryEstimationParams, benchmark_odom.hpp:20-28, without visualize. *)
Record odometry_params : Type := mkParams {
  d_num_threads : Z; d_num_neighbors : Z;
  d_downsampling_resolution : f64; d_voxel_resolution : f64; d_max_correspondence_distance : f64
}.

Section Odometry.
Context (m : int_mode) (sort : forall A : Type, (A -> A -> bool) -> list A -> list A).
Context (ne : (nat -> nat -> bool) -> nat -> list nat -> list nat) (order : sumtree).
Context (eig : m3 Ffld -> m3 Ffld) (of_nat : nat -> f64) (milli : f64) (jp jn : vec4 Ffld) (jc : m4 Ffld).
Context (default_criteria : criteria Ffld) (init_lambda lambda_factor : f64).
Context (solve : m6 Ffld -> v6 Ffld -> v6 Ffld) (exp6 : v6 Ffld -> pose Ffld).
Context (omp_lin : nat -> (nat -> factor Ffld -> outcome (factor Ffld * option (sys Ffld))) ->
                   list (factor Ffld) -> outcome (list (factor Ffld) * sys Ffld)).
Context (omp_err : nat -> (factor Ffld -> outcome f64) -> list (factor Ffld) -> outcome f64).
Context (p : odometry_params).

(** estimate_covariances_omp(points, tree, num_neighbors, num_threads),
    normal_estimation_omp.hpp:19-26, 71-74, possible outcomes. *)
Definition covariances_omp (c : cloud Ffld) (tree : kdtree Fnum nat) (o : outcome (cloud Ffld)) : Prop :=
  exists e, par_runs (D := Ffld) (tree_knn order c tree) eig of_nat milli Covs (Z.to_nat (d_num_neighbors p)) (par_init jp jn jc c) e /\
    (forall s, e = Ok s -> par_finished s) /\ o = (let* s := e in Ok (s_cloud s)).
(** The same without a tree, normal_estimation_omp.hpp:9-17, 58-61: it is built here, on one thread. *)
Definition covariances_own_tree (c : cloud Ffld) (o : outcome (cloud Ffld)) : Prop :=
  match build ne c with
  | Ok tree => covariances_omp c tree o
  | e => o = (let* _ := e in Ok c)
  end.

(** Registration<GICPFactor, ParallelReductionOMP> with these two members set, and align. *)
Definition gicp (max_dist_sq : f64) (threads : Z) (target : view Ffld N) (source : cloud Ffld) (nn : search Ffld) (init_T : pose Ffld) :=
  let r := registration_default (D := Ffld) default_criteria init_lambda lambda_factor in
  registration_align (D := Ffld) solve exp6 omp_lin omp_err GICP
    (mkRegistration (D := Ffld) (reg_criteria r) max_dist_sq threads (reg_optimizer r)) target source nn init_T.
Definition default_max_dist_sq : f64 := reg_max_dist_sq (registration_default (D := Ffld) default_criteria init_lambda lambda_factor).
Definition default_threads : Z := reg_num_threads (registration_default (D := Ffld) default_criteria init_lambda lambda_factor).
Definition set_max_dist_sq : f64 := f64_mul (d_max_correspondence_distance p) (d_max_correspondence_distance p).

(** ** Scan to scan *)
(** A frame made ready: the cloud and what the next frame is registered against. *)
Definition ready : Type := (cloud Ffld * (view Ffld N * search Ffld))%type.
(** small_gicp_omp.cpp:22-23: the tree and the covariances. *)
Definition prepared_frame (c : cloud Ffld) (o : outcome (cloud Ffld * kdtree Fnum nat)) : Prop :=
  exists t, built_omp ne (cl_points c) t /\
    match t with
    | Ok t => exists e, covariances_omp c t e /\ o = (let* c' := e in Ok (c', t))
    | e => o = (let* _ := e in UB)
    end.
(** The target of small_gicp_omp.cpp:38, and that of small_vgicp_omp.cpp:24-25, 36. *)
Definition tree_target (f : cloud Ffld * kdtree Fnum nat) : outcome ready :=
  Ok (fst f, (cloud_viewN (fst f), tree_nn order (fst f) (snd f))).
Definition map_target (f : cloud Ffld * kdtree Fnum nat) : outcome ready :=
  let* t := voxelmap m order of_nat (fst f) (d_voxel_resolution p) in Ok (fst f, t).

(** target_points / target_tree / target_voxelmap, and T_world_lidar. *)
Definition scan_state : Type := (option (view Ffld N * search Ffld) * pose Ffld)%type.
(** estimate(points), small_gicp_omp.cpp:16-50 and small_vgicp_omp.cpp:17-47, which leaves
    reduction.num_threads at its default. *)
Definition scan_step (target_of : cloud Ffld * kdtree Fnum nat -> outcome ready) (threads : Z)
  (s : scan_state) (points : cloud Ffld) (o : outcome (scan_state * pose Ffld)) : Prop :=
  exists e, prepared_frame points e /\
    o = (let* f := e in
         let* (c, target) := target_of f in
         match fst s with
         | None => Ok ((Some target, snd s), snd s)
         | Some (v, nn) =>
             let* (r, _) := gicp set_max_dist_sq threads v c nn pose_id in
             let T := pose_mul (snd s) (r_T r) in
             Ok ((Some target, T), T)
         end).

(** ** Scan to model *)
Section Model.
(** The voxels' contents, and their covariances by point number: traits::cov,
    flat_container.hpp:140, gaussian_voxelmap.hpp:71. *)
Context (C : contents Fnum) (cov_of : body C -> nat -> outcome (m4 Ffld)).
Definition model_view (st : vmap Fnum C) : view Ffld N :=
  mkView (D := Ffld) (map_point st) (fun _ => Abort)
    (fun i => let* v := get (flat_voxels st) (voxel_id i) in cov_of (v_body v) (point_id i)).
Definition model_nn (st : vmap Fnum C) : search Ffld := fun q =>
  let* r := VmapModel.nearest_neighbor_search (voxel_of m (inv_leaf (d_voxel_resolution p))) (fsqd order) m st q in
  first_entry r.
(** IncrementalVoxelMap::insert(points, T), incremental_voxelmap.hpp:55-92. *)
Definition model_insert (st : vmap Fnum C) (c : cloud Ffld) (T : pose Ffld) : outcome (vmap Fnum C) :=
  let* qs := items c in
  VmapModel.insert (voxel_of m (inv_leaf (d_voxel_resolution p))) (pose Ffld) moved st (T, qs).

(** voxelmap (null before the first frame) and T_world_lidar. *)
Definition model_state : Type := (option (vmap Fnum C) * pose Ffld)%type.
(** estimate(points), small_gicp_model_omp.cpp:16-50 (the same for small_vgicp_model_omp.cpp): the
    rejector is left at its default. *)
Definition model_step (s : model_state) (points : cloud Ffld) (o : outcome (model_state * pose Ffld)) : Prop :=
  exists e, covariances_own_tree points e /\
    o = (let* c := e in
         match fst s with
         | None =>
             let* st := model_insert (new_map Fnum C 100 10) c pose_id in
             Ok ((Some st, snd s), snd s)
         | Some st =>
             let* (r, _) := gicp default_max_dist_sq (d_num_threads p) (model_view st) c (model_nn st) (snd s) in
             let T := r_T r in
             let* st' := model_insert st c T in
             Ok ((Some st', T), T)
         end).
End Model.

(** ** The loop *)
(** OnlineOdometryEstimation::estimate, benchmark_odom.hpp:49-86: the trajectory for frames of raw
    points.  Statistics and drawing left out. *)
Section Online.
Context (resolution : f64) {S : Type} (step : S -> cloud Ffld -> outcome (S * pose Ffld) -> Prop).
Inductive online : S -> list (list (vec4 Fnum)) -> outcome (list (pose Ffld)) -> Prop :=
| OnlineEnd : forall s, online s [] (Ok [])
| OnlineFrame : forall s points frames d s' T o,
    sample m sort jn jc resolution (mkCloud (D := Ffld) points [] []) = Ok d ->
    step s d (Ok (s', T)) -> online s' frames o ->
    online s (points :: frames) (let* l := o in Ok (T :: l))
| OnlineFail : forall s points frames d e,
    sample m sort jn jc resolution (mkCloud (D := Ffld) points [] []) = Ok d ->
    step s d e -> (forall x, e <> Ok x) ->
    online s (points :: frames) (let* _ := e in Ok [])
| OnlineStuck : forall s points frames e,
    sample m sort jn jc resolution (mkCloud (D := Ffld) points [] []) = e -> (forall d, e <> Ok d) ->
    online s (points :: frames) (let* _ := e in Ok []).
End Online.

(** The four classes. *)
Definition small_gicp_omp := online (d_downsampling_resolution p) (scan_step tree_target (d_num_threads p)) (None, pose_id).
Definition small_vgicp_omp := online (d_downsampling_resolution p) (scan_step map_target default_threads) (None, pose_id).
(** IncrementalVoxelMap<FlatContainerCov>: at most 10 points per voxel, at least 0.1 apart,
    flat_container.hpp:24-27. *)
Definition tenth : f64 := f64_of 3602879701896397 (-55).
Definition flat_cov : contents Fnum := flat_contents (D := Fnum) (fsqd order) false true (f64_mul tenth tenth) 10.
Definition flat_cov_of (b : body flat_cov) (j : nat) : outcome (m4 Ffld) :=
  let* a := get (fc_covs b) j in Ok (of_rows a).
Definition small_gicp_model_omp := online (d_downsampling_resolution p) (model_step flat_cov flat_cov_of) (None, pose_id).
Definition gauss_cov_of (b : body (gauss of_nat)) (_ : nat) : outcome (m4 Ffld) := Ok (of_rows (g_cov b)).
Definition small_vgicp_model_omp := online (d_downsampling_resolution p) (model_step (gauss of_nat) gauss_cov_of) (None, pose_id).
End Odometry.
