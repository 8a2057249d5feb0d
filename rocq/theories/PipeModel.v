(** The functions behind the convenience interface put together for doubles:
    align on two vectors of points, registration_helper.cpp:22-70, down to the kd-tree, the
    voxel grids, the estimation and the optimizer. *)
From Coq Require Import ZArith.
From Verif Require Import Base Num Vec F64 KdF64 FloorModel Lin FactorModel KnnModel KdModel VoxModel VoxPar VmapModel EstModel
  OptModel HelperModel.

(** Eigen::Matrix4d in the two representations used by the models. *)
Definition to_rows (a : m4 Ffld) : mat4 Fnum :=
  let row (r : v3 Ffld) (w : f64) : vec4 Fnum := V4 (D := Fnum) (p0 r) (p1 r) (p2 r) w in
  M4 (row (r0 (b33 a)) (p0 (b34 a))) (row (r1 (b33 a)) (p1 (b34 a))) (row (r2 (b33 a)) (p2 (b34 a))) (row (b43 a) (b44 a)).
Definition of_rows (a : mat4 Fnum) : m4 Ffld :=
  let h (v : vec4 Fnum) := @P3 Ffld (vx v) (vy v) (vz v) in
  @B4 Ffld (M3 (h (row0 a)) (h (row1 a)) (h (row2 a))) (@P3 Ffld (vw (row0 a)) (vw (row1 a)) (vw (row2 a))) (h (row3 a)) (vw (row3 a)).

Section Pipe.
(** The machine's double to int conversion, the two sorts (std::sort and quick_sort_omp),
    std::nth_element, the association of sums in squaredNorm, the eigenvectors, size_t to
    double, the constant 1e-3, and the contents of memory Eigen does not initialise. *)
Context (m : int_mode) (sort sort_omp : forall A : Type, (A -> A -> bool) -> list A -> list A).
Context (ne : (nat -> nat -> bool) -> nat -> list nat -> list nat) (order : sumtree).
Context (eig : m3 Ffld -> m3 Ffld) (of_nat : nat -> f64) (milli : f64) (jp jn : vec4 Ffld) (jc : m4 Ffld).

(** 1.0 / leaf_size, downsampling.hpp:28, downsampling_omp.hpp:31, incremental_voxelmap.hpp:45. *)
Definition inv_leaf (resolution : f64) : f64 := f64_div (f64_of 1 0) resolution.

(** The output cloud of downsampling: traits::resize gives it uninitialised normals and
    covariances, point_cloud.hpp:43-49. *)
Definition bare (points : list (vec4 Fnum)) : cloud Ffld :=
  mkCloud (D := Ffld) points (repeat jn (length points)) (repeat jc (length points)).

(** voxelgrid_sampling(points, resolution), downsampling.hpp:22-79. *)
Definition sample (resolution : f64) (c : cloud Ffld) : outcome (cloud Ffld) :=
  let* out := voxelgrid_sampling (D := Fnum) (voxel_key m (inv_leaf resolution)) sort (cl_points c) in
  Ok (bare out).

(** Possible outcomes of voxelgrid_sampling_omp(points, resolution, threads),
    downsampling_omp.hpp:27-97: some interleaving of the blocks' collection, complete or failing. *)
Definition sampled_omp (resolution : f64) (c : cloud Ffld) (o : outcome (cloud Ffld)) : Prop :=
  let points : list (vec4 Fnum) := cl_points c in
  let blocks := parallel_blocks (D := Fnum) (voxel_key m (inv_leaf resolution)) sort_omp points
                  (omp_sizes (length points) (length points) 1024) in
  (exists subs st, blocks = Ok subs /\ creach (cinit (vec4 Fnum) vzero (length points) subs) st /\
     ((finished st /\ o = Ok (bare (collected vzero st))) \/
      (exists w e, wstep st w = Some e /\ (forall st', e <> Ok st') /\ o = (let* _ := e in Ok c)))) \/
  ((forall subs, blocks <> Ok subs) /\ o = (let* _ := blocks in Ok c)).

(** KdTree(points), kdtree.hpp:250-252 with the default KdTreeBuilder (leaves of 20 points,
    kdtree.hpp:129) and ProjectionSetting (128 scanned points, projection.hpp:13). *)
Definition build (c : cloud Ffld) : outcome (kdtree Fnum nat) :=
  build_tree (axis_apply (D := Fnum)) (axis_find 128) ne (cl_points c) 20.

(** What a search leaves in its result: the first entry, or None for "0 found". *)
Definition first_entry (r : knn_result Fnum) : outcome (option (N * f64)) :=
  if num_found_neighbors r =? 0 then Ok None
  else let* i := get (indices r) 0 in let* d := get (distances r) 0 in Ok (Some (i, d)).

(** traits::nearest_neighbor_search on the tree, kdtree.hpp:261-263, 296-298. *)
Definition tree_nn (c : cloud Ffld) (tree : kdtree Fnum nat) : search Ffld := fun q =>
  let* r := KdModel.nearest_neighbor_search (fsqd order) (axis_apply (D := Fnum)) (cl_points c) tree q (nzero (n := Fnum)) in
  first_entry r.

(** traits::knn_search on the tree as estimation calls it, normal_estimation.hpp:67-69: the
    indices of the neighbours found. *)
Definition tree_knn (c : cloud Ffld) (tree : kdtree Fnum nat) (q : vec4 Ffld) (k : nat) : outcome (list nat) :=
  let* r := knn_search_api (fsqd order) (axis_apply (D := Fnum)) (cl_points c) tree q (nzero (n := Fnum)) (N.of_nat k) in
  Ok (map N.to_nat (firstn (num_found_neighbors r) (indices r))).

(** estimate_normals_covariances(cloud, tree, num_neighbors), normal_estimation.hpp:94-100,
    170-173. *)
Definition estimate_all (c : cloud Ffld) (tree : kdtree Fnum nat) (num_neighbors : Z) : outcome (cloud Ffld) :=
  EstModel.estimate (D := Ffld) (tree_knn c tree) eig of_nat milli Both jp jn jc (Z.to_nat num_neighbors) c.
(** Possible outcomes of estimate_normals_covariances_omp, normal_estimation_omp.hpp:19-26. *)
Definition estimated_omp (c : cloud Ffld) (tree : kdtree Fnum nat) (num_neighbors : Z) (o : outcome (cloud Ffld)) : Prop :=
  exists e, par_runs (D := Ffld) (tree_knn c tree) eig of_nat milli Both (Z.to_nat num_neighbors) (par_init jp jn jc c) e /\
    (forall s, e = Ok s -> par_finished s) /\ o = (let* s := e in Ok (s_cloud s)).

(** GaussianVoxelMap(resolution).insert(points): points and covariances under the identity
    (incremental_voxelmap.hpp:55-60, gaussian_voxelmap.hpp:41), horizon 100 and clear cycle 10
    (incremental_voxelmap.hpp:45).  Reading a missing covariance is out of range. *)
Definition gauss := gauss_contents (D := Fnum) of_nat.
Definition moved (T : pose Ffld) (q : item Fnum) : item Fnum :=
  mkItem (D := Fnum) (pose_pt (D := Ffld) T (it_pt q)) (it_normal q)
    (to_rows (mm4 (mm4 (pose_mat T) (of_rows (it_cov q))) (tr4 (pose_mat T)))).
Definition items (c : cloud Ffld) : outcome (list (item Fnum)) :=
  mapM (fun i => let* p := get (cl_points c) i in let* cv := get (cl_covs c) i in
                 Ok (mkItem (D := Fnum) p vzero (to_rows cv))) (seq 0 (length (cl_points c))).
Definition gaussian_map (c : cloud Ffld) (resolution : f64) : outcome (vmap Fnum gauss) :=
  let* qs := items c in
  VmapModel.insert (voxel_of m (inv_leaf resolution)) (pose Ffld) moved (new_map Fnum gauss 100 10) (pose_id, qs).
(** The map as a point cloud and as a search structure, incremental_voxelmap.hpp:98-118,
    210-242.  GaussianVoxel has no normals. *)
Definition map_view (st : vmap Fnum gauss) : view Ffld N :=
  mkView (D := Ffld) (map_point st) (fun _ => Abort)
    (fun i => let* v := get (flat_voxels st) (voxel_id i) in Ok (of_rows (g_cov (v_body v)))).
Definition map_nn (resolution : f64) (st : vmap Fnum gauss) : search Ffld := fun q =>
  let* r := VmapModel.nearest_neighbor_search (voxel_of m (inv_leaf resolution)) (fsqd order) m st q in
  first_entry r.
Definition voxelmap (c : cloud Ffld) (resolution : f64) : outcome (view Ffld N * search Ffld) :=
  let* st := gaussian_map c resolution in Ok (map_view st, map_nn resolution st).
End Pipe.
