(** The convenience interface: registration/registration_helper.hpp and
    src/small_gicp/registration/registration_helper.cpp. *)
From Coq Require Import ZArith.
From Verif Require Import Base Num Vec Lin FactorModel ReduceModel OptModel.

Section Omp.
Context {F S : Type} (zero : S) (plus : S -> S -> S).
(** Possible outcomes of ParallelReductionOMP::linearize (reduction_omp.hpp:20-55) and ::error
    (57-66): some complete schedule of the parallel loop, or one that fails. *)
Definition omp_linearized (threads : nat) (lin : nat -> F -> outcome (F * option S)) (fs : list F)
  (o : outcome (list F * S)) : Prop :=
  exists e, omp_runs plus lin threads (omp_init zero threads fs) e /\
    (forall st, e = Ok st -> o_todo st = []) /\
    o = (let* st := e in let* s := omp_result plus (o_accs st) in Ok (o_factors st, s)).
Definition omp_summed (threads : nat) (err : F -> outcome S) (fs : list F) (o : outcome S) : Prop :=
  exists e, omp_runs plus (fun _ f => let* x := err f in Ok (f, Some x)) threads (omp_init zero threads fs) e /\
    (forall st, e = Ok st -> o_todo st = []) /\
    exists s, (forall st, e = Ok st -> omp_error_result zero plus (o_accs st) s) /\
      o = (let* st := e in Ok s).
End Omp.

Section Helper.
Context (D : fld).
Notation K := (car D).

(** RegistrationSetting, registration_helper.hpp:42-54.  The type is an enumeration; a value
    outside of it is [InvalidType]. *)
Inductive reg_type : Type := TypeICP | TypePlaneICP | TypeGICP | TypeVGICP | InvalidType.
Record setting : Type := mkSetting {
  s_type : reg_type; s_voxel_resolution : K; s_downsampling_resolution : K;
  s_max_correspondence_distance : K; s_rotation_eps : K; s_translation_eps : K;
  s_num_threads : Z; s_max_iterations : Z; s_verbose : bool
}.

(** The constants of the default constructors: TerminationCriteria (termination_criteria.hpp:12),
    init_lambda 1e-3 and lambda_factor 10.0 (optimizer.hpp:73), and ldlt().solve and se3_exp. *)
Context (default_criteria : criteria D) (init_lambda lambda_factor : K).
Context (solve : m6 D -> v6 D -> v6 D) (exp6 : v6 D -> pose D).
(** ParallelReductionOMP.  Simplification: the schedule the runtime picks is a function of the
    number of threads, the loop body and the factors. *)
Context (omp_lin : nat -> (nat -> factor D -> outcome (factor D * option (sys D))) ->
                   list (factor D) -> outcome (list (factor D) * sys D)).
Context (omp_err : nat -> (factor D -> outcome K) -> list (factor D) -> outcome K).

Definition search : Type := vec4 D -> outcome (option (N * K)).

(** Registration<…, ParallelReductionOMP> with NullFactor, DistanceRejector and
    LevenbergMarquardtOptimizer: members and default values, registration.hpp:16-52,
    reduction_omp.hpp:18, rejector.hpp:22, optimizer.hpp:73. *)
Record registration : Type := mkRegistration {
  reg_criteria : criteria D; reg_max_dist_sq : K; reg_num_threads : Z; reg_optimizer : lm_settings D
}.
Definition registration_default : registration :=
  mkRegistration default_criteria fone 4 (mkLM 20 10 init_lambda lambda_factor).

(** Registration::align, registration.hpp:30-41. *)
Definition registration_align (k : kind) (r : registration) (target : view D N) (source : cloud D)
  (nn : search) (init_T : pose D) : outcome (result D * list (event D (factor D))) :=
  let threads := Z.to_nat (reg_num_threads r) in
  let src := cloud_view source in
  levenberg_marquardt
    (fun T => omp_lin threads (linearize nn (distance_rejector (reg_max_dist_sq r)) target src k T))
    (fun T => omp_err threads (error target src k T))
    null_factor solve exp6 inlier (reg_criteria r) (reg_optimizer r) init_T
    (initial_factors (length (cl_points source))).

(** The assignments of registration_helper.cpp:90-95, 100-105, 110-115. *)
Definition configured (s : setting) : registration :=
  let r := registration_default in
  mkRegistration (mkCriteria (s_translation_eps s) (s_rotation_eps s))
    (nmul (s_max_correspondence_distance s) (s_max_correspondence_distance s))
    (s_num_threads s)
    (mkLM (s_max_iterations s) (lm_max_inner (reg_optimizer r)) (lm_init_lambda (reg_optimizer r)) (lm_factor (reg_optimizer r))).

(** align(target, source, target_tree, init_T, setting), registration_helper.cpp:81-123. *)
Definition align_tree (s : setting) (target source : cloud D) (nn : search) (init_T : pose D)
  : outcome (result D * list (event D (factor D))) :=
  match s_type s with
  | InvalidType => Abort
  | TypeICP => registration_align ICP (configured s) (cloud_viewN target) source nn init_T
  | TypePlaneICP => registration_align PlaneICP (configured s) (cloud_viewN target) source nn init_T
  | TypeGICP => registration_align GICP (configured s) (cloud_viewN target) source nn init_T
  | TypeVGICP => Ok (result_init pose_id, [])
  end.

(** align(GaussianVoxelMap, source, init_T, setting), registration_helper.cpp:126-139: the
    rejector is left at its default.  The warning about the type is output only. *)
Definition align_voxelmap (s : setting) (target : view D N) (source : cloud D) (nn : search) (init_T : pose D)
  : outcome (result D * list (event D (factor D))) :=
  let r := registration_default in
  registration_align GICP
    (mkRegistration (mkCriteria (s_translation_eps s) (s_rotation_eps s)) (reg_max_dist_sq r) (s_num_threads s)
      (mkLM (s_max_iterations s) (lm_max_inner (reg_optimizer r)) (lm_init_lambda (reg_optimizer r)) (lm_factor (reg_optimizer r))))
    target source nn init_T.

(** preprocess_points, registration_helper.cpp:22-34, over the sampling, tree and estimation
    functions; [nn_of] reads the (then complete) cloud through the tree.  voxelgrid_sampling_omp is called with its default of four threads
    (downsampling_omp.hpp:30). *)
Context (sample : K -> cloud D -> outcome (cloud D)) (sample_omp : Z -> K -> cloud D -> outcome (cloud D)).
Context (tree : Type) (build : cloud D -> outcome tree) (nn_of : cloud D -> tree -> search).
Context (estimate : cloud D -> tree -> Z -> outcome (cloud D)).
Context (estimate_omp : cloud D -> tree -> Z -> Z -> outcome (cloud D)).
Definition preprocess_points (points : cloud D) (resolution : K) (num_neighbors num_threads : Z)
  : outcome (cloud D * tree) :=
  if (num_threads =? 1)%Z then
    let* sampled := sample resolution points in
    let* kdtree := build sampled in
    let* sampled := estimate sampled kdtree num_neighbors in
    Ok (sampled, kdtree)
  else
    let* sampled := sample_omp 4%Z resolution points in
    let* kdtree := build sampled in
    let* sampled := estimate_omp sampled kdtree num_neighbors num_threads in
    Ok (sampled, kdtree).

(** create_gaussian_voxelmap(points, voxel_resolution), lines 50-54: the map as a point cloud
    and as a search structure. *)
Context (voxelmap : cloud D -> K -> outcome (view D N * search)).

(** align(target, source, init_T, setting) on vectors of points, lines 58-70. *)
Definition align_points (s : setting) (target source : cloud D) (init_T : pose D)
  : outcome (result D * list (event D (factor D))) :=
  let* (target, kdtree) := preprocess_points target (s_downsampling_resolution s) 10 (s_num_threads s) in
  let* (source, _) := preprocess_points source (s_downsampling_resolution s) 10 (s_num_threads s) in
  match s_type s with
  | TypeVGICP =>
      let* (map, nn) := voxelmap target (s_voxel_resolution s) in
      align_voxelmap s map source nn init_T
  | _ => align_tree s target source (nn_of target kdtree) init_T
  end.
End Helper.
Arguments mkSetting {D}. Arguments s_type {D}. Arguments s_voxel_resolution {D}. Arguments s_downsampling_resolution {D}.
Arguments s_max_correspondence_distance {D}. Arguments s_rotation_eps {D}. Arguments s_translation_eps {D}.
Arguments s_num_threads {D}. Arguments s_max_iterations {D}. Arguments s_verbose {D}.
Arguments mkRegistration {D}. Arguments reg_criteria {D}. Arguments reg_max_dist_sq {D}.
Arguments reg_num_threads {D}. Arguments reg_optimizer {D}. Arguments registration_default {D}.
Arguments registration_align {D}. Arguments configured {D}. Arguments align_tree {D}. Arguments align_voxelmap {D}.
Arguments preprocess_points {D} sample sample_omp {tree}. Arguments align_points {D} default_criteria init_lambda lambda_factor solve exp6 omp_lin omp_err sample sample_omp {tree}.
