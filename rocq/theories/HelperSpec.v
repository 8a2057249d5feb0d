(** What honouring the settings means, read off a registration's event log. *)
From Coq Require Import ZArith.
From Verif Require Import Base Num Vec Lin FactorModel OptModel OptSpec HelperModel.

Section Spec.
Context {D : fld}.

(** Correspondences made at pose T: source point i is an inlier exactly when the search found
    a target point for its transformed position at a squared distance not above the limit. *)
Definition within_limit (nn : vec4 D -> outcome (option (N * car D))) (source : cloud D) (limit_sq : car D)
  (T : pose D) (fs : list (factor D)) : Prop :=
  length fs = length (cl_points source) /\
  forall i f, nth_error fs i = Some f -> exists p found,
    nth_error (cl_points source) i = Some p /\ nn (pose_pt T p) = Ok found /\
    match found with
    | None => inlier f = false
    | Some (ti, sq_dist) =>
        if nlt limit_sq sq_dist then inlier f = false else inlier f = true /\ f_target f = Some ti
    end.

(** A step below both thresholds. *)
Definition small_step (rotation_eps translation_eps : car D) (delta : v6 D) : Prop :=
  nle (fsqrt (dot3 (rv delta) (rv delta))) rotation_eps = true /\
  nle (fsqrt (dot3 (tv delta) (tv delta))) translation_eps = true.

(** Replay of a log from factors fs: every linearization is an outcome of the parallel loop of
    this error type on [threads] threads from the factors before it, and every trial error an
    outcome of the parallel sum over the current factors. *)
Section Replay.
Context (k : kind) (threads : nat) (nn : vec4 D -> outcome (option (N * car D))) (limit_sq : car D).
Context (target : view D N) (source : cloud D).
Fixpoint replayed (fs : list (factor D)) (log : list (event D (factor D))) : Prop :=
  match log with
  | [] => True
  | Linearized T fs' s :: l =>
      omp_linearized sys_zero sys_add threads (linearize nn (distance_rejector limit_sq) target (cloud_view source) k T)
        fs (Ok (fs', s)) /\ replayed fs' l
  | Tried _ _ T' _ e _ :: l =>
      omp_summed nzero nadd threads (error target (cloud_view source) k T') fs (Ok e) /\ replayed fs l
  | Stepped _ _ :: _ => False
  end.
End Replay.

(** The run starts at the initial pose, makes correspondences within the distance limit only,
    linearises at most max_iterations times and gives up earlier only when it has converged or
    after ten rejected steps, returns the pose of its last accepted step, says
    converged only after a step below the thresholds, counts the inliers of its last
    correspondences, and does all this with the error type and the number of threads. *)
Record honoured (k : kind) (threads : Z) (target : view D N) (nn : vec4 D -> outcome (option (N * car D))) (source : cloud D) (limit_sq : car D)
  (rotation_eps translation_eps : car D) (max_iterations : Z) (init_T : pose D)
  (r : result D) (log : list (event D (factor D))) : Prop := mkHonoured {
  h_start : match log with [] => r_T r = init_T | ev :: _ => exists fs s, ev = Linearized init_T fs s end;
  h_limit : forall T fs s, In (Linearized T fs s) log -> within_limit nn source limit_sq T fs;
  h_iterations : linearizations log <= Z.to_nat max_iterations;
  h_pose : r_T r = final_pose init_T log;
  h_converged : r_converged r = true -> exists log' lambda delta e e',
    log = log' ++ [Tried lambda delta (r_T r) e e' true] /\ small_step rotation_eps translation_eps delta;
  h_inliers : forall log1 T fs s log2, log = log1 ++ Linearized T fs s :: log2 -> linearizations log2 = 0 ->
    r_inliers r = length (filter inlier fs);
  h_stops : r_converged r = true \/ linearizations log = Z.to_nat max_iterations \/
    exists log' T fs s rejected, log = log' ++ Linearized T fs s :: rejected /\ length rejected = 10 /\
      Forall (fun ev => exists lambda delta T' e e', ev = Tried lambda delta T' e e' false) rejected;
  h_work : replayed k (Z.to_nat threads) nn limit_sq target source (initial_factors (length (cl_points source))) log
}.

(** The inputs have what the error type reads: every search succeeds, what it finds has a
    point and the needed attribute, and source points have covariances if they are needed. *)
Definition usable (k : kind) (nn : vec4 D -> outcome (option (N * car D))) (target : view D N) (source : cloud D) : Prop :=
  (k = GICP -> length (cl_points source) <= length (cl_covs source)) /\
  forall q, exists found, nn q = Ok found /\
    match found with
    | None => True
    | Some (ti, _) =>
        (exists p, at_point target ti = Ok p) /\ (k = PlaneICP -> exists n, at_normal target ti = Ok n) /\
        (k = GICP -> exists c, at_cov target ti = Ok c)
    end.
End Spec.
