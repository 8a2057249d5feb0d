(** C26, C27, C28, C36, C48: the optimizers and what they report. *)
From Coq Require Import Reals ZArith Lra.
From Verif Require Import Base BaseProofs Num Vec F64 F64Proofs RNum Lin LinProofs FactorModel FactorProofs
  ReduceModel ReduceSpec ReduceProofs OptModel OptSpec OptProofs RegF64.
Open Scope nat_scope.

Lemma f64_commutes (a b : car Ffld) : nmul a b = nmul b a.
Proof. exact (f64_mul_comm a b). Qed.
Lemma real_commutes (a b : car Rfld) : nmul a b = nmul b a.
Proof. exact (Rmult_comm a b). Qed.

(** * C28 *)
(** In every number system (so bit for bit in double precision) the error written by
    linearize is the error that error() computes at the same pose, and a factor without an
    accepted correspondence contributes nothing, has error zero and is no inlier. *)
Theorem C28_linearize_matches_error : forall (D : fld) nn reject (target : view D N) source k T si f f' r,
  linearize nn reject target source k T si f = Ok (f', r) ->
  match r with
  | Some s => error target source k T f' = Ok (se s) /\ inlier f' = true
  | None => error target source k T f' = Ok nzero /\ inlier f' = false
  end.
Proof.
  intros D nn reject target source k T si f f' r H.
  destruct (error_after_linearize D nn reject target source k T si f f' r H) as [E I]. destruct r; auto.
Qed.
Theorem C28_robust_f64 : forall nn reject (target : view Ffld N) source weight k T si f f' s,
  linearize_robust nn reject target source weight k T si f = Ok (f', Some s) ->
  error_robust target source weight k T f' = Ok (se s) /\ inlier f' = true.
Proof.
  intros nn reject target source weight k T si f f' s H.
  exact (error_after_linearize_robust Ffld nn reject target source f64_commutes weight k T si f f' (Some s) H).
Qed.
Theorem C28_robust_real : forall nn reject (target : view Rfld N) source weight k T si f f' r,
  linearize_robust nn reject target source weight k T si f = Ok (f', r) ->
  match r with
  | Some s => error_robust target source weight k T f' = Ok (se s) /\ inlier f' = true
  | None => error_robust target source weight k T f' = Ok 0%R /\ inlier f' = false
  end.
Proof.
  intros nn reject target source weight k T si f f' r H.
  destruct (error_after_linearize_robust Rfld nn reject target source real_commutes weight k T si f f' r H) as [E I].
  destruct r; auto. split; auto. rewrite E. f_equal. exact (Rmult_0_r _).
Qed.

(** * C26 *)
(** For any reduction whose two error computations agree and any general factor that adds no
    error: replaying the run, every trial was accepted exactly when its error was not larger
    than that of the pose it started from, for the same correspondences. *)
Theorem C26_lm_never_worse : forall (D : fld) F lin err g solve exp6 (inl : F -> bool) crit c T fs r log,
  errors_agree err lin -> no_error g ->
  levenberg_marquardt lin err g solve exp6 inl crit c T fs = Ok (r, log) ->
  monotone_log (D := D) err exp6 T fs log.
Proof.
  intros D F lin err g solve exp6 inl crit c T fs r log EA NE H. unfold levenberg_marquardt in H.
  match type of H with context [lm_loop _ _ _ _ _ _ ?a ?b ?c ?d ?e ?f] =>
    destruct (lm_loop lin err g solve exp6 crit a b c d e f) as [[[rf fsf] lg]| | |] eqn:E end; cbn [bind] in H; try discriminate.
  inversion H; subst. apply (lm_loop_monotone D F lin err g solve exp6 crit EA NE _ _ _ _ _ _ _ _ _ E).
Qed.

Lemma null_no_error (D : fld) : no_error (null_factor (D := D)).
Proof. split; reflexivity. Qed.
Lemma restrict_no_error (D : fld) lambda mask : no_error (restrict_dof (D := D) lambda mask).
Proof. split; reflexivity. Qed.

(** Double precision, serial reduction, all three factors and NullFactor / RestrictDoFFactor. *)
Theorem C26_serial_f64 : forall nn reject (target : view Ffld N) source k g solve exp6 crit c T fs r log,
  g = null_factor \/ (exists lambda mask, g = restrict_dof lambda mask) ->
  levenberg_marquardt (reg_lin Ffld nn reject target source k) (reg_err Ffld target source k)
    g solve exp6 inlier crit c T fs = Ok (r, log) ->
  monotone_log (reg_err Ffld target source k) exp6 T fs log.
Proof.
  intros nn reject target source k g solve exp6 crit c T fs r log G H.
  eapply C26_lm_never_worse; [| |exact H].
  - eapply serial_errors_agree. exact f64_zero_absorbed.
  - destruct G as [->|(lambda & mask & ->)]; [apply null_no_error|apply restrict_no_error].
Qed.
(** The same for robust factors with a Huber kernel of positive width. *)
Theorem C26_serial_huber_f64 : forall nn reject (target : view Ffld N) source width k solve exp6 crit c T fs r log,
  f64_lt (nzero (n := Fnum)) width = true ->
  levenberg_marquardt (reg_lin_robust Ffld nn reject target source (huber (D := Ffld) width) k)
    (reg_err_robust Ffld target source (huber (D := Ffld) width) k) null_factor solve exp6 inlier crit c T fs = Ok (r, log) ->
  monotone_log (reg_err_robust Ffld target source (huber (D := Ffld) width) k) exp6 T fs log.
Proof.
  intros nn reject target source width k solve exp6 crit c T fs r log W H.
  eapply C26_lm_never_worse; [| |exact H].
  - eapply serial_errors_agree_robust; [exact f64_commutes|exact f64_zero_absorbed|]. apply huber_zero_f64. exact W.
  - apply null_no_error.
Qed.
(** Real arithmetic: any kernel. *)
Lemma real_zero_absorbed : zero_absorbed Rfld (fun _ => True).
Proof. split; [exact I|]. split; [intros; exact I|]. intros a _. exact (Rplus_0_r a). Qed.
Theorem C26_serial_robust_real : forall nn reject (target : view Rfld N) source weight k solve exp6 crit c T fs r log,
  levenberg_marquardt (reg_lin_robust Rfld nn reject target source weight k)
    (reg_err_robust Rfld target source weight k) null_factor solve exp6 inlier crit c T fs = Ok (r, log) ->
  monotone_log (reg_err_robust Rfld target source weight k) exp6 T fs log.
Proof.
  intros nn reject target source weight k solve exp6 crit c T fs r log H.
  eapply C26_lm_never_worse; [| |exact H].
  - eapply serial_errors_agree_robust; [exact real_commutes|exact real_zero_absorbed|]. exact (Rmult_0_r _).
  - apply null_no_error.
Qed.

(** A general factor that adds error: one source point at the origin, one target point at
    x = 1, general error 10 x^2.  One LM step moves to x = 1/2; the total error rises from
    1/2 to 2.625 and the step is accepted, because update_error was applied to the old error. *)
Definition fl (m e : Z) : car Ffld := f64_of m e.
Definition pt (x : Z) : vec4 Ffld := V4 (fl x 0) nzero nzero (fl 1 0).
Definition one_cloud (x : Z) : cloud Ffld := mkCloud [pt x] [] [].
Definition nn0 : vec4 Ffld -> outcome (option (N * car Ffld)) := fun _ => Ok (Some (0%N, nzero)).
Definition diag_solve (M : m6 Ffld) (v : v6 Ffld) : v6 Ffld :=
  P6 (P3 (ndiv (p0 (rv v)) (p0 (r0 (brr M)))) (ndiv (p1 (rv v)) (p1 (r1 (brr M)))) (ndiv (p2 (rv v)) (p2 (r2 (brr M)))))
     (P3 (ndiv (p0 (tv v)) (p0 (r0 (btt M)))) (ndiv (p1 (tv v)) (p1 (r1 (btt M)))) (ndiv (p2 (tv v)) (p2 (r2 (btt M))))).
Definition shift (d : v6 Ffld) : pose Ffld := mkPose id3 (tv d).
Definition pull (T : pose Ffld) : car Ffld := nmul (fl 10 0) (nmul (p0 (tra T)) (p0 (tra T))).
Definition pull_factor : general Ffld :=
  mkGeneral (fun T s => mkSys (sH s) (sb s) (nadd (se s) (pull T))) (fun T e => nadd e (pull T)).
Definition eps : criteria Ffld := mkCriteria (fl 1 (-10)) (fl 1 (-10)).
Definition demo_lm : lm_settings Ffld := mkLM 1 10 (fl 1 0) (fl 10 0).
Definition demo_run (g : general Ffld) :=
  levenberg_marquardt (reg_lin Ffld nn0 null_rejector (cloud_viewN (one_cloud 1)) (cloud_view (one_cloud 0)) ICP)
    (reg_err Ffld (cloud_viewN (one_cloud 1)) (cloud_view (one_cloud 0)) ICP)
    g diag_solve shift inlier eps demo_lm pose_id (initial_factors 1).
Definition total_error (T : pose Ffld) (f : factor Ffld) : outcome f64 :=
  let* e := error (cloud_viewN (one_cloud 1)) (cloud_view (one_cloud 0)) ICP T f in Ok (f64_add e (pull T)).

Definition accepted_worse (o : outcome (result Ffld * list (event Ffld (factor Ffld)))) : bool :=
  match o with
  | Ok (_, [Linearized T [f] _; Tried _ _ T' _ _ true]) =>
      match total_error T f, total_error T' f with
      | Ok a, Ok b => f64_lt a (f64_of 1 0) && f64_lt (f64_of 2 0) b
      | _, _ => false
      end
  | _ => false
  end.
Theorem C26_general_factor_refuted :
  adds_error pull_factor pull /\
  exists r log T f s lambda delta T' e e',
    demo_run pull_factor = Ok (r, log) /\ log = [Linearized T [f] s; Tried lambda delta T' e e' true] /\
    exists a b, total_error T f = Ok a /\ total_error T' f = Ok b /\
      f64_lt a (f64_of 1 0) = true /\ f64_lt (f64_of 2 0) b = true.
Proof.
  split; [split; reflexivity|].
  assert (H : accepted_worse (demo_run pull_factor) = true) by (vm_compute; reflexivity).
  destruct (demo_run pull_factor) as [[r log]| | |]; try discriminate H. unfold accepted_worse in H.
  destruct log as [|[T [|f [|]] s| |] [|[|lambda delta T' e e' [|]|] [|]]]; try discriminate H.
  exists r, [Linearized T [f] s; Tried lambda delta T' e e' true], T, f, s, lambda, delta, T', e, e'.
  split; [reflexivity|]. split; [reflexivity|].
  destruct (total_error T f) as [a| | |]; try discriminate H.
  destruct (total_error T' f) as [b| | |]; try discriminate H.
  exists a, b. apply andb_prop in H. destruct H. auto.
Qed.
(** The same problem without the general factor: the step is taken, and the run is monotone. *)
Definition accepted_better (o : outcome (result Ffld * list (event Ffld (factor Ffld)))) : bool :=
  match o with
  | Ok (r, [Linearized T [f] _; Tried _ _ T' e e' true]) => f64_lt e' e && (r_inliers r =? 1)
  | _ => false
  end.
Example C26_run : exists r log, demo_run null_factor = Ok (r, log) /\ linearizations log = 1 /\ trials log = 1 /\
  r_inliers r = 1 /\
  monotone_log (reg_err Ffld (cloud_viewN (one_cloud 1)) (cloud_view (one_cloud 0)) ICP) shift pose_id (initial_factors 1) log.
Proof.
  assert (H : accepted_better (demo_run null_factor) = true) by (vm_compute; reflexivity).
  destruct (demo_run null_factor) as [[r log]| | |] eqn:E; try discriminate H. exists r, log.
  split; [reflexivity|]. split; [|split; [|split]]; [| | |eapply C26_serial_f64; [left; reflexivity|exact E]].
  all: unfold accepted_better in H;
    destruct log as [|[T [|f [|]] s| |] [|[|lambda delta T' e e' [|]|] [|]]]; try discriminate H; auto.
  apply andb_prop in H. destruct H as [_ H]. apply Nat.eqb_eq. exact H.
Qed.

(** * C27 *)
Definition thresholds_met {D : fld} (crit : criteria D) (delta : v6 D) : Prop :=
  nle (fsqrt (dot3 (rv delta) (rv delta))) (rotation_eps crit) = true /\
  nle (fsqrt (dot3 (tv delta) (tv delta))) (translation_eps crit) = true.
Lemma converged_iff {D : fld} (crit : criteria D) delta : converged crit delta = true <-> thresholds_met crit delta.
Proof. unfold converged, thresholds_met, norm3. apply Bool.andb_true_iff. Qed.

(** Levenberg-Marquardt: at most max_iterations linearisations and max_inner_iterations trials
    each; the returned pose is the last accepted one; converged only after an accepted step
    below both thresholds; iterations is the number of linearisations minus one; it stops
    only when converged, at max_iterations, or after max_inner_iterations rejected trials. *)
Theorem C27_lm : forall (D : fld) F lin err g solve exp6 (inl : F -> bool) (crit : criteria D) c T fs r log,
  levenberg_marquardt lin err g solve exp6 inl crit c T fs = Ok (r, log) ->
  let n := linearizations log in
  n <= Z.to_nat (lm_max_iterations c) /\ trials log <= n * Z.to_nat (lm_max_inner c) /\
  r_T r = final_pose T log /\
  (n = 0 -> (lm_max_iterations c <= 0)%Z /\ log = [] /\ r_T r = T /\ r_converged r = false /\ r_iterations r = 0) /\
  (0 < n -> r_iterations r + 1 = n /\
     (r_converged r = true -> exists log' lambda delta e e',
        log = log' ++ [Tried lambda delta (r_T r) e e' true] /\ thresholds_met crit delta) /\
     (r_converged r = true \/ n = Z.to_nat (lm_max_iterations c) \/
      exists log' T1 fs1 s1 rej, log = log' ++ Linearized T1 fs1 s1 :: rej /\
        length rej = Z.to_nat (lm_max_inner c) /\
        Forall (fun ev => exists l d T' e e', ev = Tried l d T' e e' false) rej)).
Proof.
  intros D F lin err g solve exp6 inl crit c T fs r log H n. subst n. unfold levenberg_marquardt in H.
  match type of H with context [lm_loop _ _ _ _ _ _ ?a ?b ?c ?d ?e ?f] =>
    destruct (lm_loop lin err g solve exp6 crit a b c d e f) as [[[rf fsf] lg]| | |] eqn:E end; cbn [bind] in H; try discriminate.
  inversion H; subst. clear H.
  destruct (lm_loop_shape D F lin err g solve exp6 crit _ _ _ _ _ _ _ _ _ E) as (A & B & C & _ & _ & Z & P).
  cbn [set_inliers fst snd r_T r_converged r_iterations].
  split; auto. split; auto. split; [exact C|]. split.
  - intros K. destruct (Z K) as (-> & -> & Q). split; [|auto].
    destruct Q as [Q|Q]; [lia|discriminate].
  - intros K. destruct (P K) as (_ & P2 & P3 & P4). split; [lia|]. split.
    + intros Cv. destruct (P3 Cv) as (lg' & l & d & e & e' & -> & Q). exists lg', l, d, e, e'. split; auto.
      apply converged_iff. exact Q.
    + destruct P4 as [P4|[P4|(lg' & T1 & fs1 & s1 & rej & -> & R1 & R2)]]; auto. right; right.
      exists lg', T1, fs1, s1, rej. split; auto. split; auto. eapply Forall_impl; [|exact R1].
      intros [| l d T' e e' [|] |] Q; simpl in Q; try contradiction. eauto 10.
Qed.

(** Gauss-Newton. *)
Theorem C27_gauss_newton : forall (D : fld) F lin g solve exp6 (inl : F -> bool) (crit : criteria D) lambda max_iterations T fs r log,
  gauss_newton lin g solve exp6 inl crit lambda max_iterations T fs = Ok (r, log) ->
  let n := linearizations log in
  n <= Z.to_nat max_iterations /\ r_T r = final_pose T log /\
  (n = 0 -> (max_iterations <= 0)%Z /\ log = [] /\ r_T r = T /\ r_converged r = false /\ r_iterations r = 0) /\
  (0 < n -> r_iterations r + 1 = n /\ (r_converged r = true \/ n = Z.to_nat max_iterations) /\
     exists log' T1 fs1 s1 delta, log = log' ++ [Linearized T1 fs1 s1; Stepped delta (r_T r)] /\
       r_T r = pose_mul T1 (exp6 delta) /\ (r_converged r = true <-> thresholds_met crit delta)).
Proof.
  intros D F lin g solve exp6 inl crit lambda m T fs r log H n. subst n. unfold gauss_newton in H.
  match type of H with context [gn_loop _ _ _ _ _ ?a ?b ?c ?d ?e] =>
    destruct (gn_loop lin g solve exp6 crit a b c d e) as [[[rf fsf] lg]| | |] eqn:E end; cbn [bind] in H; try discriminate.
  inversion H; subst. clear H.
  destruct (gn_loop_shape D F lin g solve exp6 crit _ _ _ _ _ _ _ _ E) as (A & C & _ & _ & Z & P).
  cbn [set_inliers fst snd r_T r_converged r_iterations].
  split; auto. split; [exact C|]. split.
  - intros K. destruct (Z K) as (-> & -> & Q). split; [|auto]. destruct Q as [Q|Q]; [lia|discriminate].
  - intros K. destruct (P K) as (_ & P2 & P3 & P4). split; [lia|]. split; auto.
    destruct P3 as (lg' & T1 & fs1 & s1 & d & Q1 & Q2 & Q3 & _). exists lg', T1, fs1, s1, d.
    split; auto. split; auto. rewrite Q3. apply converged_iff.
Qed.

(** Both return whenever linearize and error are defined on the factor arrays that occur. *)
Theorem C27_always_returns : forall (D : fld) F lin err g solve exp6 (inl : F -> bool) (crit : criteria D) c lambda m T fs (P : list F -> Prop),
  P fs -> (forall T fs, P fs -> exists fs' s, lin T fs = Ok (fs', s) /\ P fs') ->
  (forall T fs, P fs -> exists e, err T fs = Ok e) ->
  (exists out, levenberg_marquardt lin err g solve exp6 inl crit c T fs = Ok out) /\
  (exists out, gauss_newton lin g solve exp6 inl crit lambda m T fs = Ok out).
Proof.
  intros D F lin err g solve exp6 inl crit c lambda m T fs P H0 H1 H2. split.
  - destruct (lm_loop_total D F lin err g solve exp6 crit P H1 H2 c (Z.to_nat (lm_max_iterations c)) 0 (result_init T) (lm_init_lambda c) fs H0)
      as ([[rf fsf] log] & E).
    unfold levenberg_marquardt. rewrite E. cbn [bind]. eauto.
  - destruct (gn_loop_total D F lin g solve exp6 crit P H1 lambda (Z.to_nat m) 0 (result_init T) fs H0) as ([[rf fsf] log] & E).
    unfold gauss_newton. rewrite E. cbn [bind]. eauto.
Qed.

(** "iterations" does not tell how many iterations were made: runs with no and with one
    linearisation both report 0. *)
Definition demo_lm0 : lm_settings Ffld := mkLM 0 10 (fl 1 0) (fl 10 0).
Theorem C27_iteration_count_refuted : exists r0 r1 log0 log1,
  demo_run null_factor = Ok (r1, log1) /\
  levenberg_marquardt (reg_lin Ffld nn0 null_rejector (cloud_viewN (one_cloud 1)) (cloud_view (one_cloud 0)) ICP)
    (reg_err Ffld (cloud_viewN (one_cloud 1)) (cloud_view (one_cloud 0)) ICP)
    null_factor diag_solve shift inlier eps demo_lm0 pose_id (initial_factors 1) = Ok (r0, log0) /\
  linearizations log1 = 1 /\ linearizations log0 = 0 /\ r_iterations r1 = 0 /\ r_iterations r0 = 0.
Proof.
  destruct C26_run as (r1 & log1 & E1 & L1 & _). eexists; exists r1; eexists; exists log1. split; [exact E1|].
  split; [reflexivity|]. split; [exact L1|]. split; [reflexivity|]. split; [|reflexivity].
  pose proof (C27_lm _ _ _ _ _ _ _ _ _ _ _ _ _ _ E1) as (_ & _ & _ & _ & P). cbv zeta in P.
  destruct (P ltac:(rewrite L1; lia)) as (Q & _). rewrite L1 in Q. lia.
Qed.

(** * C36 *)
(** With DistanceRejector a factor contributes only if the squared distance reported by the
    search is not larger than max_dist_sq, and then it is an inlier; otherwise it writes
    nothing and is no inlier. *)
Theorem C36_rejected_never_contribute : forall (D : fld) nn max_dist_sq (target : view D N) source k T si f f' r,
  linearize nn (distance_rejector max_dist_sq) target source k T si f = Ok (f', r) ->
  exists p found, at_point source si = Ok p /\ nn (pose_pt T p) = Ok found /\
    match found with
    | None => r = None /\ inlier f' = false
    | Some (_, sq_dist) =>
        if nlt max_dist_sq sq_dist then r = None /\ inlier f' = false
        else (exists s, r = Some s) /\ inlier f' = true
    end.
Proof.
  intros D nn m target source k T si f f' r H.
  destruct (linearize_cases D nn _ target source k T si f f' r H) as (p & found & Ep & En & M).
  pose proof (error_after_linearize D nn _ target source k T si f f' r H) as (_ & I).
  exists p, found. split; auto. split; auto. destruct r as [s|].
  - destruct M as (ti & d & -> & R & _). unfold distance_rejector in R. rewrite R. split; eauto.
  - destruct M as (_ & [->|(ti & d & -> & R)]); auto. unfold distance_rejector in R. rewrite R. auto.
Qed.

(** num_inliers is the number of factors that contributed to the last linearisation, for
    every rejector, kernel ([lin1] is linearize or linearize_robust) and optimizer. *)
Definition counts_inliers {D : fld} (lin1 : pose D -> nat -> factor D -> outcome (factor D * option (sys D))) : Prop :=
  forall T i f f' r, lin1 T i f = Ok (f', r) -> inlier f' = match r with Some _ => true | None => false end.
Definition reported_inliers {D : fld} (lin1 : pose D -> nat -> factor D -> outcome (factor D * option (sys D)))
    (fs : list (factor D)) (r : result D) (log : list (event D (factor D))) : Prop :=
  (linearizations log = 0 -> r_inliers r = length (filter inlier fs)) /\
  (0 < linearizations log -> exists log1 T fs' s log2 fsp rs,
     log = log1 ++ Linearized T fs' s :: log2 /\ linearizations log2 = 0 /\
     linearized_once (lin1 T) fsp fs' rs /\ r_inliers r = length (accepted rs)).
Lemma reported_from_log {D : fld} (lin1 : pose D -> nat -> factor D -> outcome (factor D * option (sys D))) g fs r log :
  counts_inliers lin1 ->
  Forall (from_lin D (factor D) (fun T => serial (sys_zero (D := D)) sys_add (lin1 T)) g) log ->
  r_inliers r = count_inliers inlier (final_factors fs log) -> reported_inliers lin1 fs r log.
Proof.
  intros CI FL EI. split.
  - intros Z. rewrite EI, no_linearization by auto. reflexivity.
  - intros P. destruct (last_linearization D (factor D) log P) as (log1 & T & fs' & s & log2 & E & Z & Q).
    rewrite E in FL. apply Forall_app in FL. destruct FL as (_ & FL). inversion FL as [|x l FL1 FL2]; subst x l.
    destruct FL1 as (fsp & s0 & EL & _). destruct (serial_fold _ _ _ _ _ _ _ _ EL) as (rs & LO & _).
    exists log1, T, fs', s, log2, fsp, rs. split; auto. split; auto. split; auto. rewrite EI, Q.
    eapply inliers_counted; [|exact LO]. apply CI.
Qed.
Lemma linearize_counts (D : fld) nn reject (target : view D N) source k : counts_inliers (linearize nn reject target source k).
Proof. intros T i f f' r H. apply (error_after_linearize D nn reject target source k T i f f' r H). Qed.
Lemma robust_counts (D : fld) nn reject (target : view D N) source weight k : counts_inliers (linearize_robust nn reject target source weight k).
Proof.
  intros T i f f' r H. unfold linearize_robust in H.
  destruct (linearize nn reject target source k T i f) as [[f1 r1]| | |] eqn:E; cbn [bind] in H; try discriminate.
  pose proof (linearize_counts D nn reject target source k T i f f1 r1 E) as I. destruct r1; inversion H; subst; exact I.
Qed.
Theorem C36_num_inliers_lm : forall (D : fld) lin1 err g solve exp6 (crit : criteria D) c T fs r log,
  (exists nn reject target source k, lin1 = linearize nn reject target source k) \/
  (exists nn reject target source weight k, lin1 = linearize_robust nn reject target source weight k) ->
  levenberg_marquardt (fun T => serial sys_zero sys_add (lin1 T)) err g solve exp6 inlier crit c T fs = Ok (r, log) ->
  reported_inliers lin1 fs r log.
Proof.
  intros D lin1 err g solve exp6 crit c T fs r log HL H. unfold levenberg_marquardt in H.
  match type of H with context [lm_loop ?x1 _ _ _ _ _ ?a ?b ?c ?d ?e ?f] =>
    destruct (lm_loop x1 err g solve exp6 crit a b c d e f) as [[[rf fsf] lg]| | |] eqn:E end; cbn [bind] in H; try discriminate.
  inversion H; subst. clear H.
  pose proof (lm_loop_from _ _ _ _ _ _ _ _ _ _ _ _ _ _ _ _ _ E) as FL.
  destruct (lm_loop_shape _ _ _ _ _ _ _ _ _ _ _ _ _ _ _ _ _ E) as (_ & _ & _ & FF & _).
  eapply reported_from_log; [|exact FL|].
  - destruct HL as [(nn & rj & tg & sr & k & ->)|(nn & rj & tg & sr & w & k & ->)]; [apply linearize_counts|apply robust_counts].
  - cbn [set_inliers r_inliers fst snd]. rewrite FF. reflexivity.
Qed.
Theorem C36_num_inliers_gn : forall (D : fld) lin1 g solve exp6 (crit : criteria D) lambda m T fs r log,
  (exists nn reject target source k, lin1 = linearize nn reject target source k) \/
  (exists nn reject target source weight k, lin1 = linearize_robust nn reject target source weight k) ->
  gauss_newton (fun T => serial sys_zero sys_add (lin1 T)) g solve exp6 inlier crit lambda m T fs = Ok (r, log) ->
  reported_inliers lin1 fs r log.
Proof.
  intros D lin1 g solve exp6 crit lambda m T fs r log HL H. unfold gauss_newton in H.
  match type of H with context [gn_loop ?x1 _ _ _ _ ?a ?b ?c ?d ?e] =>
    destruct (gn_loop x1 g solve exp6 crit a b c d e) as [[[rf fsf] lg]| | |] eqn:E end; cbn [bind] in H; try discriminate.
  inversion H; subst. clear H.
  pose proof (gn_loop_from _ _ _ _ _ _ _ _ _ _ _ _ _ _ _ E) as FL.
  destruct (gn_loop_shape _ _ _ _ _ _ _ _ _ _ _ _ _ _ _ E) as (_ & _ & FF & _).
  eapply reported_from_log; [|exact FL|].
  - destruct HL as [(nn & rj & tg & sr & k & ->)|(nn & rj & tg & sr & w & k & ->)]; [apply linearize_counts|apply robust_counts].
  - cbn [set_inliers r_inliers fst snd]. rewrite FF. reflexivity.
Qed.

(** * C48 *)
(** Levenberg-Marquardt (no error-adding general factor): the reported error is the error of
    the returned pose for the correspondences of the last linearisation. *)
Theorem C48_lm_error_of_returned_pose : forall (D : fld) F lin err g solve exp6 (inl : F -> bool) (crit : criteria D) c T fs r log,
  errors_agree err lin -> no_error g ->
  levenberg_marquardt lin err g solve exp6 inl crit c T fs = Ok (r, log) -> 0 < linearizations log ->
  err (r_T r) (final_factors fs log) = Ok (r_error r).
Proof.
  intros D F lin err g solve exp6 inl crit c T fs r log EA NE H P. unfold levenberg_marquardt in H.
  match type of H with context [lm_loop _ _ _ _ _ _ ?a ?b ?c ?d ?e ?f] =>
    destruct (lm_loop lin err g solve exp6 crit a b c d e f) as [[[rf fsf] lg]| | |] eqn:E end; cbn [bind] in H; try discriminate.
  inversion H; subst. clear H.
  destruct (lm_loop_shape _ _ _ _ _ _ _ _ _ _ _ _ _ _ _ _ _ E) as (_ & _ & _ & FF & _).
  destruct (lm_loop_monotone D F lin err g solve exp6 crit EA NE _ _ _ _ _ _ _ _ _ E) as (_ & Q).
  cbn [set_inliers r_T r_error fst snd]. rewrite <- FF. apply Q. exact P.
Qed.
(** Gauss-Newton reports the error of the pose before its last step. *)
Theorem C48_gn_error_of_previous_pose : forall (D : fld) F lin err g solve exp6 (inl : F -> bool) (crit : criteria D) lambda m T fs r log,
  errors_agree err lin -> no_error g ->
  gauss_newton lin g solve exp6 inl crit lambda m T fs = Ok (r, log) -> 0 < linearizations log ->
  exists log' T1 fs1 s1 delta, log = log' ++ [Linearized T1 fs1 s1; Stepped delta (r_T r)] /\
    r_T r = pose_mul T1 (exp6 delta) /\ err T1 fs1 = Ok (r_error r) /\ r_H r = sH s1 /\ r_b r = sb s1.
Proof.
  intros D F lin err g solve exp6 inl crit lambda m T fs r log EA NE H P. unfold gauss_newton in H.
  match type of H with context [gn_loop _ _ _ _ _ ?a ?b ?c ?d ?e] =>
    destruct (gn_loop lin g solve exp6 crit a b c d e) as [[[rf fsf] lg]| | |] eqn:E end; cbn [bind] in H; try discriminate.
  inversion H; subst. clear H.
  pose proof (gn_loop_from _ _ _ _ _ _ _ _ _ _ _ _ _ _ _ E) as FL.
  destruct (gn_loop_shape _ _ _ _ _ _ _ _ _ _ _ _ _ _ _ E) as (_ & _ & _ & _ & _ & Q).
  destruct (Q P) as (_ & _ & (lg' & T1 & fs1 & s1 & d & Q1 & Q2 & Q3 & Q4 & Q5 & Q6 & _) & _).
  exists lg', T1, fs1, s1, d. cbn [set_inliers r_T r_error r_H r_b fst snd]. split; auto. split; auto.
  rewrite Q1 in FL. apply Forall_app in FL. destruct FL as (_ & FL). inversion FL as [|x l FL1 FL2]; subst x l.
  destruct FL1 as (fsp & s0 & EL & ->). rewrite Q6, (proj2 NE). split; auto. eapply EA. exact EL.
Qed.
(** So after Gauss-Newton the reported error is not that of the returned pose: one step on the
    problem above. *)
Definition gn_run := gauss_newton
    (reg_lin Ffld nn0 null_rejector (cloud_viewN (one_cloud 1)) (cloud_view (one_cloud 0)) ICP)
    null_factor diag_solve shift inlier eps (fl 1 0) 1 pose_id (initial_factors 1).
Definition gn_stale (o : outcome (result Ffld * list (event Ffld (factor Ffld)))) : bool :=
  match o with
  | Ok (r, log) =>
      match reg_err Ffld (cloud_viewN (one_cloud 1)) (cloud_view (one_cloud 0)) ICP (r_T r)
              (final_factors (initial_factors 1) log) with
      | Ok e => f64_lt e (r_error r) | _ => false end
  | _ => false
  end.
Theorem C48_gn_error_refuted : exists r log e, gn_run = Ok (r, log) /\
  reg_err Ffld (cloud_viewN (one_cloud 1)) (cloud_view (one_cloud 0)) ICP (r_T r) (final_factors (initial_factors 1) log) = Ok e /\
  f64_lt e (r_error r) = true.
Proof.
  assert (H : gn_stale gn_run = true) by (vm_compute; reflexivity).
  destruct gn_run as [[r log]| | |]; try discriminate H. exists r, log. unfold gn_stale in H.
  match type of H with match ?x with _ => _ end = _ => destruct x as [e| | |] eqn:E; try discriminate H end.
  exists e. auto.
Qed.

Print Assumptions C28_linearize_matches_error.
Print Assumptions C26_lm_never_worse.
Print Assumptions C26_serial_f64.
Print Assumptions C26_general_factor_refuted.
Print Assumptions C27_lm.
Print Assumptions C27_gauss_newton.
Print Assumptions C36_rejected_never_contribute.
Print Assumptions C36_num_inliers_lm.
Print Assumptions C48_lm_error_of_returned_pose.
Print Assumptions C48_gn_error_refuted.
