(** Model of the two odometry classes of src/example/kitti_odometry.py. *)
From Coq Require Import ZArith String.
From Verif Require Import Base Num Vec F64 FloorModel Lin FactorModel VoxModel VmapModel OptModel KdModel EstModel HelperModel PipeModel PyModel.
Open Scope nat_scope.

Section PyOdom.
Context (m : int_mode) (sort_omp : forall A : Type, (A -> A -> bool) -> list A -> list A).
Context (ne : (nat -> nat -> bool) -> nat -> list nat -> list nat) (order : sumtree).
Context (eig : m3 Ffld -> m3 Ffld) (of_nat : nat -> f64) (milli : f64) (jp jn : vec4 Ffld) (jc : m4 Ffld).
Context (default_criteria : criteria Ffld) (init_lambda lambda_factor : f64).
Context (solve : m6 Ffld -> v6 Ffld -> v6 Ffld) (exp6 : v6 Ffld -> pose Ffld).
Context (omp_lin : nat -> (nat -> factor Ffld -> outcome (factor Ffld * option (sys Ffld))) ->
                   list (factor Ffld) -> outcome (list (factor Ffld) * sys Ffld)).
Context (omp_err : nat -> (factor Ffld -> outcome f64) -> list (factor Ffld) -> outcome f64).
(** numpy's @ and linalg.inv on 4x4 matrices with last row 0 0 0 1, which stay of that form. *)
Context (matmul : pose Ffld -> pose Ffld -> pose Ffld) (inv : pose Ffld -> pose Ffld).
(** The default rotation_epsilon and translation_epsilon of align, align.cpp:145-146, 258-259, and
    the members of the setting that align on clouds does not use. *)
Context (rotation_epsilon translation_epsilon unused1 unused2 : f64).
Context (num_threads : Z).

(** The arguments kitti_odometry.py:25, 49 pass to align: only num_threads is not the default. *)
Definition align_options : options := mkOptions (f64_of 1 0) num_threads 20 rotation_epsilon translation_epsilon false.
(** preprocess_points(raw_points, 0.25), kitti_odometry.py:19, 43, with 10 neighbours. *)
Definition preprocess (frame : matrix) (o : outcome (option (cloud Ffld * py_tree))) : Prop :=
  py_preprocess_array m sort_omp ne order eig of_nat milli jp jn jc frame (f64_of 1 (-2)) 10 o.

(** ScanToScanMatchingOdometry, kitti_odometry.py:11-16. *)
Record scan_state : Type := mkScan { c_target : option (cloud Ffld * py_tree); c_last : pose Ffld; c_world : pose Ffld }.
Definition scan_start : scan_state := mkScan None pose_id pose_id.
(** estimate, kitti_odometry.py:18-31: possible outcomes.  A frame of the wrong shape gives no cloud,
    which align refuses. *)
Definition scan_estimate (s : scan_state) (frame : matrix) (o : outcome (scan_state * pose Ffld)) : Prop :=
  exists e, preprocess frame e /\
    match e with
    | Ok (Some (c, kd)) =>
        match c_target s with
        | None => o = Ok (mkScan (Some (c, kd)) (c_last s) (c_world s), c_world s)
        | Some (c0, kd0) =>
            exists a, py_align_clouds ne order default_criteria init_lambda lambda_factor solve exp6 omp_lin omp_err
                        c0 c (Some kd0) (c_last s) "GICP" unused1 unused2 align_options a /\
              o = (let* (r, _) := a in
                   let T := matmul (c_world s) (r_T r) in
                   Ok (mkScan (Some (c, kd)) (r_T r) T, T))
        end
    | Ok None => o = Abort
    | e => o = (let* _ := e in Abort)
    end.

(** ScanToModelMatchingOdometry, kitti_odometry.py:35-40. *)
Record model_state : Type := mkModel { g_target : vmap Fnum (gauss of_nat); g_last : pose Ffld; g_world : pose Ffld }.
Definition model_start : model_state := mkModel (new_map Fnum (gauss of_nat) 100 10) pose_id pose_id.
(** insert(points, T) of a map, voxelmap.cpp:57-59, with voxels of size 1. *)
Definition map_insert (st : vmap Fnum (gauss of_nat)) (c : cloud Ffld) (T : pose Ffld) : outcome (vmap Fnum (gauss of_nat)) :=
  let* qs := items c in
  VmapModel.insert (voxel_of m (inv_leaf (f64_of 1 0))) (pose Ffld) moved st (T, qs).
(** estimate, kitti_odometry.py:42-57: the drawing reads voxel_points(). *)
Definition model_estimate (s : model_state) (frame : matrix) (o : outcome (model_state * pose Ffld)) : Prop :=
  exists e, preprocess frame e /\
    match e with
    | Ok (Some (c, _)) =>
        o = if map_size (g_target s) =? 0 then
              let* st := map_insert (g_target s) c pose_id in
              Ok (mkModel st (g_last s) (g_world s), g_world s)
            else
              let* (r, _) := py_align_voxelmap m order of_nat default_criteria init_lambda lambda_factor solve exp6 omp_lin omp_err
                               (f64_of 1 0) (g_target s) c (matmul (g_world s) (g_last s)) align_options in
              let T := r_T r in
              let last := matmul (inv (g_world s)) T in
              let* st := map_insert (g_target s) c T in
              let* _ := py_voxel_points st in
              Ok (mkModel st last T, T)
    | Ok None => o = Abort
    | e => o = (let* _ := e in Abort)
    end.

(** The loop over the files, kitti_odometry.py:80-97: the poses of the frames, in order. *)
Section Loop.
Context {S : Type} (estimate : S -> matrix -> outcome (S * pose Ffld) -> Prop).
Inductive drive : S -> list matrix -> outcome (list (pose Ffld)) -> Prop :=
| DriveEnd : forall s, drive s [] (Ok [])
| DriveFrame : forall s frame frames s' T o,
    estimate s frame (Ok (s', T)) -> drive s' frames o -> drive s (frame :: frames) (let* l := o in Ok (T :: l))
| DriveFail : forall s frame frames e,
    estimate s frame e -> (forall x, e <> Ok x) -> drive s (frame :: frames) (let* _ := e in Ok []).
End Loop.
Definition scan_to_scan : list matrix -> outcome (list (pose Ffld)) -> Prop := drive scan_estimate scan_start.
Definition scan_to_model : list matrix -> outcome (list (pose Ffld)) -> Prop := drive model_estimate model_start.
End PyOdom.
