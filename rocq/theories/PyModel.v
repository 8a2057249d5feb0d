(** The Python bindings, src/python/*.cpp. *)
From Coq Require Import ZArith String.
From Verif Require Import Base Num Vec F64 KdF64 FloorModel Lin FactorModel KnnModel KdModel KdParModel VoxModel VoxPar VmapModel EstModel
  OptModel HelperModel PipeModel.
Open Scope nat_scope.
Open Scope list_scope.

(** What a binding gives back to Python: a value, or a C++ exception turned into a Python one. *)
Inductive py (A : Type) : Type := Returned (a : A) | Raised.
Arguments Returned {A}. Arguments Raised {A}.

(** A numpy array converted to Eigen::MatrixXd: number of columns, and the rows.  Element access is
    unchecked in a release build. *)
Record matrix : Type := mkMatrix { m_cols : nat; m_rows : list (list f64) }.
Definition elem (a : matrix) (i j : nat) : outcome f64 := let* r := get (m_rows a) i in get r j.
(** cols() != 3 && cols() != 4, checked by every function that takes an array. *)
Definition shape_ok (a : matrix) : bool := (m_cols a =? 3) || (m_cols a =? 4).

Definition one64 : f64 := f64_of 1 0.
(** Row i with the fourth column kept if there is one: pointcloud.cpp:28-36, preprocess.cpp:220-226,
    align.cpp:71-91. *)
Definition row_point (a : matrix) (i : nat) : outcome (vec4 Fnum) :=
  let* x := elem a i 0 in let* y := elem a i 1 in let* z := elem a i 2 in
  if m_cols a =? 3 then Ok (V4 (D := Fnum) x y z one64)
  else let* w := elem a i 3 in Ok (V4 (D := Fnum) x y z w).
(** Row i with 1.0 as fourth coordinate: kdtree.cpp:29-31, 134, 180, and Traits<Eigen::MatrixXd>,
    points/eigen.hpp:15. *)
Definition row_xyz1 (a : matrix) (i : nat) : outcome (vec4 Fnum) :=
  let* x := elem a i 0 in let* y := elem a i 1 in let* z := elem a i 2 in
  Ok (V4 (D := Fnum) x y z one64).
Definition row_points (a : matrix) : outcome (list (vec4 Fnum)) := mapM (row_point a) (seq 0 (length (m_rows a))).
Definition xyz1_points (a : matrix) : outcome (list (vec4 Fnum)) := mapM (row_xyz1 a) (seq 0 (length (m_rows a))).

(** An OpenMP parallel-for whose iterations compute their values and then write them to shared
    memory, one write at a time; any iteration that is not started or not done may go next. *)
Section Loop.
Context {M W : Type} (do_write : M -> W -> outcome M) (body : nat -> outcome (list W)).
Record loop_state : Type := mkLoop { l_mem : M; l_todo : list nat; l_active : list (list W) }.
Definition loop_init (mem : M) (n : nat) : loop_state := mkLoop mem (seq 0 n) [].
Inductive loop_step : loop_state -> outcome loop_state -> Prop :=
| LoopStart : forall mem l1 i l2 act,
    loop_step (mkLoop mem (l1 ++ i :: l2) act) (let* ws := body i in Ok (mkLoop mem (l1 ++ l2) (ws :: act)))
| LoopWrite : forall mem todo a1 w ws a2,
    loop_step (mkLoop mem todo (a1 ++ (w :: ws) :: a2)) (let* mem' := do_write mem w in Ok (mkLoop mem' todo (a1 ++ ws :: a2))).
Inductive loop_runs : loop_state -> outcome loop_state -> Prop :=
| LoopHere : forall s, loop_runs s (Ok s)
| LoopMore : forall s s1 o, loop_step s (Ok s1) -> loop_runs s1 o -> loop_runs s o
| LoopFail : forall s o, loop_step s o -> (forall s1, o <> Ok s1) -> loop_runs s o.
Definition loop_finished (s : loop_state) : Prop := l_todo s = [] /\ Forall (fun ws => ws = []) (l_active s).
(** Possible outcomes of a loop of n iterations. *)
Definition loop_ends (mem : M) (n : nat) (o : outcome M) : Prop :=
  exists e, loop_runs (loop_init mem n) e /\ (forall s, e = Ok s -> loop_finished s) /\ o = (let* s := e in Ok (l_mem s)).
End Loop.

(** Multiplication of two ints, as in [i * k] of kdtree.cpp:177-178, and the loop counters [int i],
    133, 176. *)
Definition as_int (c : Z) : outcome Z := if ((- 2 ^ 31 <=? c) && (c <? 2 ^ 31))%Z then Ok c else UB.
Definition int_mul (a b : Z) : outcome Z := as_int (a * b).

Section Py.
Context (m : int_mode) (sort sort_omp : forall A : Type, (A -> A -> bool) -> list A -> list A).
Context (ne : (nat -> nat -> bool) -> nat -> list nat -> list nat) (order : sumtree).
Context (eig : m3 Ffld -> m3 Ffld) (of_nat : nat -> f64) (milli : f64) (jp jn : vec4 Ffld) (jc : m4 Ffld).

(** PointCloud(points), pointcloud.cpp:20-39: an array of another shape gives an empty cloud (and a
    message).  resize allocates normals and covariances without values. *)
Definition py_cloud (a : matrix) : outcome (cloud Ffld) :=
  if shape_ok a then let* ps := row_points a in Ok (bare jn jc ps)
  else Ok (mkCloud (D := Ffld) [] [] []).
(** points(), normals(), pointcloud.cpp:75-88: rows mapped from the address of element 0, and
    point(i), normal(i), cov(i), 108-144, covs(), 97-99. *)
Definition row4 (p : vec4 Fnum) : list f64 := [vx p; vy p; vz p; vw p].
Definition py_points (c : cloud Ffld) : outcome matrix :=
  let* _ := get (cl_points c) 0 in
  let* rows := mapM (fun i => let* p := get (cl_points c) i in Ok (row4 p)) (seq 0 (length (cl_points c))) in
  Ok (mkMatrix 4 rows).
Definition py_normals (c : cloud Ffld) : outcome matrix :=
  let* _ := get (cl_normals c) 0 in
  let* rows := mapM (fun i => let* p := get (cl_normals c) i in Ok (row4 p)) (seq 0 (length (cl_points c))) in
  Ok (mkMatrix 4 rows).
Definition py_covs (c : cloud Ffld) : outcome (list (m4 Ffld)) := Ok (cl_covs c).
Definition py_point (c : cloud Ffld) (i : nat) : outcome (vec4 Ffld) := get (cl_points c) i.
Definition py_normal (c : cloud Ffld) (i : nat) : outcome (vec4 Ffld) := get (cl_normals c) i.
Definition py_cov (c : cloud Ffld) (i : nat) : outcome (m4 Ffld) := get (cl_covs c) i.

(** KdTree<PointCloud>(points, KdTreeBuilderOMP(num_threads)): possible outcomes of the parallel
    build, kdtree_omp.hpp:20-42, behind the constructor kdtree.hpp:146-153; an empty cloud leaves
    root and nodes unset. *)
Definition built_omp (points : list (vec4 Fnum)) (o : outcome (kdtree Fnum nat)) : Prop :=
  (points = [] /\ o = Ok (mkTree [] None [])) \/
  (points <> [] /\ exists k st p,
     prun (axis_apply (D := Fnum)) (axis_find 128) ne points 20 (KdParModel.par_init points) (par_start points) k st p /\
     ((exists root, p = PRet root /\ o = Ok (par_tree st root)) \/
      (exists e, In e (psteps (axis_apply (D := Fnum)) (axis_find 128) ne points 20 st p) /\ (forall x, e <> Ok x) /\
         o = (let* _ := e in UB)))).

(** A Python KdTree: the points it holds on to and the tree. *)
Record py_tree : Type := mkPyTree { k_points : list (vec4 Fnum); k_tree : kdtree Fnum nat }.
(** KdTree(points: ndarray), kdtree.cpp:21-34, and KdTree(points: PointCloud), 51. *)
Definition py_kdtree_array (a : matrix) (o : outcome (py py_tree)) : Prop :=
  if shape_ok a then
    exists t, (forall ps, xyz1_points a = Ok ps -> built_omp ps t) /\
      o = (let* ps := xyz1_points a in let* t := t in Ok (Returned (mkPyTree ps t)))
  else o = Ok Raised.
Definition py_kdtree_cloud (c : cloud Ffld) (o : outcome py_tree) : Prop :=
  exists t, built_omp (cl_points c) t /\ o = (let* t := t in Ok (mkPyTree (cl_points c) t)).

(** The searches of the class on a homogeneous query. *)
Definition tree_nearest (kd : py_tree) (q : vec4 Fnum) : outcome (knn_result Fnum) :=
  KdModel.nearest_neighbor_search (fsqd order) (axis_apply (D := Fnum)) (k_points kd) (k_tree kd) q (nzero (n := Fnum)).
Definition tree_knearest (kd : py_tree) (q : vec4 Fnum) (k : Z) : outcome (knn_result Fnum) :=
  knn_search_api (fsqd order) (axis_apply (D := Fnum)) (k_points kd) (k_tree kd) q (nzero (n := Fnum)) (size_t_of_int k).

(** nearest_neighbor_search(pt), kdtree.cpp:69-74: found, index, squared distance. *)
Definition py_nearest (kd : py_tree) (x y z : f64) : outcome (nat * N * f64) :=
  let* r := tree_nearest kd (V4 (D := Fnum) x y z one64) in
  let* i := get (indices r) 0 in let* d := get (distances r) 0 in
  Ok (num_found_neighbors r, i, d).
(** knn_search(pt, k), kdtree.cpp:96-101: std::vector throws on a negative size. *)
Definition py_knn (kd : py_tree) (x y z : f64) (k : Z) : outcome (py (list N * list f64)) :=
  if (k <? 0)%Z then Ok Raised
  else let* r := tree_knearest kd (V4 (D := Fnum) x y z one64) k in Ok (Returned (indices r, distances r)).

(** The result arrays of a batch search. *)
Record batch : Type := mkBatch { k_indices : list N; k_sq_dists : list f64 }.
Inductive cell : Type := WIndex (s : nat) (v : N) | WDist (s : nat) (v : f64).
Definition do_cell (b : batch) (w : cell) : outcome batch :=
  match w with
  | WIndex s v => let* l := set (k_indices b) s v in Ok (mkBatch l (k_sq_dists b))
  | WDist s v => let* l := set (k_sq_dists b) s v in Ok (mkBatch (k_indices b) l)
  end.
Definition minus_one : N := size_t_of_int (-1).
Definition dbl_max : f64 := nmaxv (n := Fnum).
Definition blank (n : nat) : batch := mkBatch (repeat minus_one n) (repeat dbl_max n).

(** One iteration of batch_nearest_neighbor_search, kdtree.cpp:134-138.  Simplification here and
    below: of the values a search puts into its own cells only the last ones are written. *)
Definition nearest_body (kd : py_tree) (a : matrix) (i : nat) : outcome (list cell) :=
  let* _ := as_int (Z.of_nat i) in
  let* q := row_xyz1 a i in
  let* r := tree_nearest kd q in
  let* x := get (indices r) 0 in let* d := get (distances r) 0 in
  Ok ([WIndex i x; WDist i d] ++
      if num_found_neighbors r =? 0 then [WIndex i minus_one; WDist i dbl_max] else []).
(** batch_nearest_neighbor_search(pts, num_threads), kdtree.cpp:124-142, possible outcomes. *)
Definition py_batch_nearest (kd : py_tree) (a : matrix) (o : outcome (py (list N * list f64))) : Prop :=
  if shape_ok a then
    exists e, loop_ends do_cell (nearest_body kd a) (blank (length (m_rows a))) (length (m_rows a)) e /\
      o = (let* b := e in Ok (Returned (k_indices b, k_sq_dists b)))
  else o = Ok Raised.

(** One iteration of batch_knn_search, kdtree.cpp:177-186. *)
Definition knn_body (kd : py_tree) (a : matrix) (k : Z) (i : nat) : outcome (list cell) :=
  let* c := as_int (Z.of_nat i) in
  let* off := int_mul c k in
  let* q := row_xyz1 a i in
  let* r := tree_knearest kd q k in
  let begin := Z.to_nat off in
  let found := num_found_neighbors r in
  Ok (flat_map (fun c => [WIndex (begin + fst c) (fst (snd c)); WDist (begin + fst c) (snd (snd c))])
        (combine (seq 0 (Z.to_nat k)) (combine (indices r) (distances r))) ++
      flat_map (fun j => [WIndex (begin + j) minus_one; WDist (begin + j) dbl_max]) (seq found (Z.to_nat k - found))).
(** A row-major matrix of n rows and k columns, row by row. *)
Definition rows_of {A : Type} (n k : nat) (l : list A) : list (list A) :=
  map (fun i => slice l (i * k) (i * k + k)) (seq 0 n).
(** batch_knn_search(pts, k, num_threads), kdtree.cpp:165-190, possible outcomes.  Eigen does not
    define a matrix with a negative number of columns. *)
Definition py_batch_knn (kd : py_tree) (a : matrix) (k : Z)
  (o : outcome (py (list (list N) * list (list f64)))) : Prop :=
  if shape_ok a then
    if (k <? 0)%Z then o = UB
    else
      let n := length (m_rows a) in
      exists e, loop_ends do_cell (knn_body kd a k) (blank (n * Z.to_nat k)) n e /\
        o = (let* b := e in Ok (Returned (rows_of n (Z.to_nat k) (k_indices b), rows_of n (Z.to_nat k) (k_sq_dists b))))
  else o = Ok Raised.

(** voxelgrid_sampling(points, resolution, num_threads) on a cloud, preprocess.cpp:26-31, and on an
    array, 65-76 (None for another shape).  Arrays are read through Traits<Eigen::MatrixXd>. *)
Definition py_sampling (c : cloud Ffld) (resolution : f64) (num_threads : Z) (o : outcome (cloud Ffld)) : Prop :=
  if (num_threads =? 1)%Z then o = sample m sort jn jc resolution c
  else sampled_omp m sort_omp jn jc resolution c o.
Definition py_sampling_array (a : matrix) (resolution : f64) (num_threads : Z) (o : outcome (option (cloud Ffld))) : Prop :=
  if shape_ok a then
    exists e, (forall ps, xyz1_points a = Ok ps -> py_sampling (mkCloud (D := Ffld) ps [] []) resolution num_threads e) /\
      o = (let* _ := xyz1_points a in let* c := e in Ok (Some c))
  else o = Ok None.

(** estimate_normals, estimate_covariances, estimate_normals_covariances(points, tree, num_neighbors,
    num_threads), preprocess.cpp:110-120, 144-154, 178-188, possible outcomes.  A tree reads the
    cloud it was built from: if none is given that is this cloud. *)
Definition py_estimate (st : setter) (c : cloud Ffld) (tree : option py_tree) (num_neighbors num_threads : Z)
  (o : outcome (cloud Ffld)) : Prop :=
  exists t, match tree with Some t' => t = Ok t' | None => py_kdtree_cloud c t end /\
    match t with
    | Ok t =>
        let knn q k := tree_knn order (mkCloud (D := Ffld) (k_points t) [] []) (k_tree t) q k in
        if (num_threads =? 1)%Z then
          o = EstModel.estimate (D := Ffld) knn eig of_nat milli st jp jn jc (Z.to_nat num_neighbors) c
        else
          exists e, par_runs (D := Ffld) knn eig of_nat milli st (Z.to_nat num_neighbors) (EstModel.par_init jp jn jc c) e /\
            (forall s, e = Ok s -> par_finished s) /\ o = (let* s := e in Ok (s_cloud s))
    | e => o = (let* _ := e in Ok c)
    end.

(** preprocess_points on an array, preprocess.cpp:212-232, and on a cloud, 263-273: always the
    OpenMP versions. *)
Definition py_preprocess (c : cloud Ffld) (resolution : f64) (num_neighbors : Z)
  (o : outcome (cloud Ffld * py_tree)) : Prop :=
  exists s, sampled_omp m sort_omp jn jc resolution c s /\
    match s with
    | Ok s =>
        exists t, built_omp (cl_points s) t /\
          match t with
          | Ok t => exists e, estimated_omp order eig of_nat milli jp jn jc s t num_neighbors e /\
              o = (let* c' := e in Ok (c', mkPyTree (cl_points c') t))
          | e => o = (let* _ := e in UB)
          end
    | e => o = (let* _ := e in UB)
    end.
Definition py_preprocess_array (a : matrix) (resolution : f64) (num_neighbors : Z)
  (o : outcome (option (cloud Ffld * py_tree))) : Prop :=
  if shape_ok a then
    exists e, (forall ps, row_points a = Ok ps -> py_preprocess (bare jn jc ps) resolution num_neighbors e) /\
      o = (let* _ := row_points a in let* r := e in Ok (Some r))
  else o = Ok None.
Definition py_preprocess_cloud (c : cloud Ffld) (resolution : f64) (num_neighbors : Z)
  (o : outcome (option (cloud Ffld * py_tree))) : Prop :=
  match cl_points c with
  | [] => o = Ok None
  | _ => exists e, py_preprocess c resolution num_neighbors e /\ o = (let* r := e in Ok (Some r))
  end.

(** The registration_type strings, align.cpp:49-60 and 163-172. *)
Definition type_of_array (s : string) : option reg_type :=
  if (s =? "ICP")%string then Some TypeICP
  else if (s =? "PLANE_ICP")%string then Some TypePlaneICP
  else if (s =? "GICP")%string then Some TypeGICP
  else if (s =? "VGICP")%string then Some TypeVGICP
  else None.
Definition type_of_cloud (s : string) : option reg_type :=
  if (s =? "ICP")%string then Some TypeICP
  else if (s =? "PLANE_ICP")%string then Some TypePlaneICP
  else if (s =? "GICP")%string then Some TypeGICP
  else None.

Context (default_criteria : criteria Ffld) (init_lambda lambda_factor : f64).
Context (solve : m6 Ffld -> v6 Ffld -> v6 Ffld) (exp6 : v6 Ffld -> pose Ffld).
Context (omp_lin : nat -> (nat -> factor Ffld -> outcome (factor Ffld * option (sys Ffld))) ->
                   list (factor Ffld) -> outcome (list (factor Ffld) * sys Ffld)).
Context (omp_err : nat -> (factor Ffld -> outcome f64) -> list (factor Ffld) -> outcome f64).
Context (sample_omp : Z -> f64 -> cloud Ffld -> outcome (cloud Ffld)).
Context (estimate_omp : cloud Ffld -> kdtree Fnum nat -> Z -> Z -> outcome (cloud Ffld)).

(** What all three overloads of align take. *)
Record options : Type := mkOptions {
  o_max_correspondence_distance : f64; o_num_threads : Z; o_max_iterations : Z;
  o_rotation_epsilon : f64; o_translation_epsilon : f64; o_verbose : bool
}.
(** RegistrationResult(Isometry3d::Identity()), registration_result.hpp:14-16, and no events. *)
Definition identity_result : result Ffld * list (event Ffld (factor Ffld)) := (result_init pose_id, []).

(** align(target_points, source_points, …) on arrays, align.cpp:26-94. *)
Definition py_align_arrays (target source : matrix) (init_T : pose Ffld) (registration_type : string)
  (voxel_resolution downsampling_resolution : f64) (op : options)
  : outcome (result Ffld * list (event Ffld (factor Ffld))) :=
  if negb (shape_ok target) then Ok identity_result
  else if negb (shape_ok source) then Ok identity_result
  else
    match type_of_array registration_type with
    | None => Ok identity_result
    | Some ty =>
        let s := mkSetting (D := Ffld) ty voxel_resolution downsampling_resolution (o_max_correspondence_distance op)
                   (o_rotation_epsilon op) (o_translation_epsilon op) (o_num_threads op) (o_max_iterations op) (o_verbose op) in
        let* t := row_points target in
        let* sc := row_points source in
        align_points (D := Ffld) default_criteria init_lambda lambda_factor solve exp6 omp_lin omp_err
          (sample m sort jn jc) sample_omp (build ne) (tree_nn order)
          (estimate_all order eig of_nat milli jp jn jc) estimate_omp (voxelmap m order of_nat)
          s (mkCloud (D := Ffld) t [] []) (mkCloud (D := Ffld) sc [] []) init_T
    end.

(** The search structure of a Python tree, kdtree.hpp:261-263, 296-298. *)
Definition py_tree_nn (t : py_tree) : HelperModel.search Ffld :=
  tree_nn order (mkCloud (D := Ffld) (k_points t) [] []) (k_tree t).

(** align(target, source, target_tree, …) on clouds, align.cpp:150-184, possible outcomes: the
    unused members of the setting keep their defaults (registration_helper.hpp:42-54). *)
Definition py_align_clouds (target source : cloud Ffld) (tree : option py_tree) (init_T : pose Ffld)
  (registration_type : string) (voxel_resolution downsampling_resolution : f64) (op : options)
  (o : outcome (result Ffld * list (event Ffld (factor Ffld)))) : Prop :=
  match type_of_cloud registration_type with
  | None => o = Ok identity_result
  | Some ty =>
      let s := mkSetting (D := Ffld) ty voxel_resolution downsampling_resolution (o_max_correspondence_distance op)
                 (o_rotation_epsilon op) (o_translation_epsilon op) (o_num_threads op) (o_max_iterations op) (o_verbose op) in
      exists t, match tree with Some t' => t = Ok t' | None => py_kdtree_cloud target t end /\
        o = (let* t := t in
             align_tree (D := Ffld) default_criteria init_lambda lambda_factor solve exp6 omp_lin omp_err
               s target source (py_tree_nn t) init_T)
  end.

(** align(target_voxelmap, source, …), align.cpp:235-254. *)
Definition py_align_voxelmap (leaf_size : f64) (st : vmap Fnum (gauss of_nat)) (source : cloud Ffld) (init_T : pose Ffld) (op : options)
  : outcome (result Ffld * list (event Ffld (factor Ffld))) :=
  let r := registration_default (D := Ffld) default_criteria init_lambda lambda_factor in
  registration_align (D := Ffld) solve exp6 omp_lin omp_err GICP
    (mkRegistration (D := Ffld) (mkCriteria (D := Ffld) (o_translation_epsilon op) (o_rotation_epsilon op))
      (f64_mul (o_max_correspondence_distance op) (o_max_correspondence_distance op)) (o_num_threads op)
      (mkLM (D := Ffld) (o_max_iterations op) (lm_max_inner (reg_optimizer r)) (lm_init_lambda (reg_optimizer r)) (lm_factor (reg_optimizer r))))
    (map_view of_nat st) source (map_nn m order of_nat leaf_size st) init_T.

(** voxel_points() of a map, voxelmap.cpp:98-101: rows mapped from the address of element 0.
    set_lru(horizon, clear_cycle), 80-83. *)
Definition py_voxel_points {C : contents Fnum} (st : vmap Fnum C) : outcome matrix :=
  let ps := voxel_points st in
  let* _ := get ps 0 in
  let* rows := mapM (fun i => let* p := get ps i in Ok (row4 p)) (seq 0 (length ps)) in
  Ok (mkMatrix 4 rows).
End Py.
