(** C76: no step is longer than the current error allows. *)
From Coq Require Import Reals Lra Psatz.
From Verif Require Import Base BaseProofs Num Vec RNum Lin LinSpec LinProofs LieModel FactorModel ReduceModel ReduceProofs OptModel OptSpec FactorProofs
  FactorGrad EstSpec EstReal FactorSpec FactorReal StepProofs Prop_Factor EnergySpec EnergyProofs.
Open Scope R_scope.

(** The error predicted by the linearised problem is never negative. *)
Theorem C76_prediction : forall lin T fs fs' s, least_squares lin -> lin T fs = Ok (fs', s) -> model_nonneg s.
Proof. intros lin T fs fs' s L H. exact (proj2 (proj2 (problem_solid lin T fs fs' s L H))). Qed.

(** Every step tried by Levenberg-Marquardt and every step of Gauss-Newton. *)
Theorem C76_lm_steps : forall lin err g solve crit (c : lm_settings Rfld) T fs r log,
  least_squares lin -> library_factor g -> solves6 solve -> 0 < lm_init_lambda c -> 0 < lm_factor c ->
  levenberg_marquardt lin err g solve se3_exp inlier crit c T fs = Ok (r, log) ->
  steps_satisfy (0 : car Rfld) short_step None log.
Proof.
  intros lin err g solve crit c T fs r log HL G So L0 Lf H. unfold levenberg_marquardt in H.
  destruct (lm_loop _ _ _ _ _ _ _ _ _ _ _ _) as [[rf log']| | |] eqn:E; cbn [bind] in H; try discriminate. injection H as <- <-.
  eapply (lm_loop_steps Rfld (factor Rfld) _ _ _ solve se3_exp crit _ _ (fun l : R => 0 < l) (lm_factor c)); try exact E; auto.
  - intros l Hl. apply Rdiv_lt_0_compat; assumption.
  - intros l Hl. apply Rmult_lt_0_compat; assumption.
  - intros T1 fs1 fs1' s0 mu Hl EL. apply problem_solid in EL; [|exact HL]. exact (solved_length g solve T1 s0 mu G So EL Hl).
Qed.
Theorem C76_gn_steps : forall lin g solve crit (lambda : R) n T fs r log,
  least_squares lin -> library_factor g -> solves6 solve -> 0 < lambda ->
  gauss_newton lin g solve se3_exp inlier crit (lambda : car Rfld) n T fs = Ok (r, log) ->
  steps_satisfy (lambda : car Rfld) short_step None log.
Proof.
  intros lin g solve crit lambda n T fs r log HL G So L H. unfold gauss_newton in H.
  destruct (gn_loop _ _ _ _ _ _ _ _ _ _) as [[rf log']| | |] eqn:E; cbn [bind] in H; try discriminate. injection H as <- <-.
  eapply (gn_loop_steps Rfld (factor Rfld) _ g solve se3_exp crit); [|exact E].
  intros T1 fs1 fs1' s0 EL. apply problem_solid in EL; [|exact HL]. exact (solved_length g solve T1 s0 lambda G So EL L).
Qed.

(** With restricted axes the motion along them is bounded by the error and the restriction alone. *)
Theorem C76_lm_restricted : forall lin err (lr : R) mask solve crit (c : lm_settings Rfld) T fs r log,
  least_squares lin -> 0 <= lr -> mask01 mask -> solves6 solve -> 0 < lm_init_lambda c -> 0 < lm_factor c ->
  levenberg_marquardt lin err (restrict_dof (lr : car Rfld) mask) solve se3_exp inlier crit c T fs = Ok (r, log) ->
  steps_satisfy (0 : car Rfld) (restricted_step lr mask) None log.
Proof.
  intros lin err lr mask solve crit c T fs r log HL L M So L0 Lf H. unfold levenberg_marquardt in H.
  destruct (lm_loop _ _ _ _ _ _ _ _ _ _ _ _) as [[rf log']| | |] eqn:E; cbn [bind] in H; try discriminate. injection H as <- <-.
  eapply (lm_loop_steps Rfld (factor Rfld) _ _ _ solve se3_exp crit _ _ (fun l : R => 0 < l) (lm_factor c)); try exact E; auto.
  - intros l Hl. apply Rdiv_lt_0_compat; assumption.
  - intros l Hl. apply Rmult_lt_0_compat; assumption.
  - intros T1 fs1 fs1' s0 mu Hl EL. apply problem_solid in EL; [|exact HL]. exact (solved_restricted lr mask solve T1 s0 mu L M So EL Hl).
Qed.
Theorem C76_gn_restricted : forall lin (lr : R) mask solve crit (lambda : R) n T fs r log,
  least_squares lin -> 0 <= lr -> mask01 mask -> solves6 solve -> 0 < lambda ->
  gauss_newton lin (restrict_dof (lr : car Rfld) mask) solve se3_exp inlier crit (lambda : car Rfld) n T fs = Ok (r, log) ->
  steps_satisfy (lambda : car Rfld) (restricted_step lr mask) None log.
Proof.
  intros lin lr mask solve crit lambda n T fs r log HL LR M So L H. unfold gauss_newton in H.
  destruct (gn_loop _ _ _ _ _ _ _ _ _ _) as [[rf log']| | |] eqn:E; cbn [bind] in H; try discriminate. injection H as <- <-.
  eapply (gn_loop_steps Rfld (factor Rfld) _ _ solve se3_exp crit); [|exact E].
  intros T1 fs1 fs1' s0 EL. apply problem_solid in EL; [|exact HL]. exact (solved_restricted lr mask solve T1 s0 lambda LR M So EL L).
Qed.

(** The bound is attained: one pair of points, one apart, damping 1. *)
Theorem C76_attained : exists lin solve crit r log,
  least_squares lin /\ solves6 solve /\
  gauss_newton lin null_factor solve se3_exp inlier crit (1 : car Rfld) 1 pose_id (initial_factors 1) = Ok (r, log) /\ log <> [] /\
  steps_satisfy (1 : car Rfld) (fun _ _ s mu delta => (mu : R) * dot6 delta delta = se s / 2 /\ 0 < (se s : R)) None log.
Proof.
  assert (L : exists fs' s, reg_lin Rfld nn1 null_rejector (cloud_viewN tgt) (cloud_view src) ICP pose_id (initial_factors 1) = Ok (fs', s) /\
     se s = / 2 /\ mv6 (damped (sH s) (1 : car Rfld)) (P6 zero3 (P3 (/ 2 : car Rfld) 0 0)) = opp6 (sb s)).
  { do 2 eexists. split; [reflexivity|]. split; [cbn; req; field|]. unfold damped, mv6, opp6, sys_add. cbn [sH sb brr brt btr btt rv tv madd6 add6]. f_equal; lsplit; cbn; req; field. }
  destruct L as (fs' & s & L1 & E & D0).
  assert (LS : least_squares (reg_lin Rfld nn1 null_rejector (cloud_viewN tgt) (cloud_view src) ICP)).
  { exists nn1, null_rejector, (cloud_viewN tgt), (cloud_view src), ICP. split; [discriminate|]. left. reflexivity. }
  destruct (problem_solid _ _ _ _ _ LS L1) as (S & P & _).
  assert (D : dot6 (block_solve (damped (sH s) (1 : car Rfld)) (opp6 (sb s))) (block_solve (damped (sH s) (1 : car Rfld)) (opp6 (sb s))) = / 4).
  { assert (Q : block_solve (damped (sH s) (1 : car Rfld)) (opp6 (sb s)) = P6 zero3 (P3 (/ 2 : car Rfld) 0 0)).
    { apply (C30_unique (sH s) 1 _ _ P ltac:(lra)). rewrite D0. apply block_solve_correct; [apply damped_sym, S|apply damped_spd; [exact P|lra]]. }
    rewrite Q. cbn. req. field. }
  exists (reg_lin Rfld nn1 null_rejector (cloud_viewN tgt) (cloud_view src) ICP), block_solve, (mkCriteria (D := Rfld) 1 1).
  unfold gauss_newton. change (Z.to_nat 1) with 1%nat. cbn [gn_loop result_init r_converged r_T]. rewrite L1. cbn [bind fst snd].
  do 2 eexists. split; [|split; [apply block_solve_correct|split; [reflexivity|split; [discriminate|]]]].
  - exact LS.
  - cbn [steps_satisfy null_factor upd_sys]. rewrite D, E. change (car (fbase Rfld)) with R in *. split; [split; lra|exact I].
Qed.

(** A robust problem with covariances meets the hypothesis. *)
Example C76_robust : least_squares (reg_lin_robust Rfld nn1 null_rejector (cloud_viewN tgt) (cloud_view src) (fun e : R => / (1 + e * e)) GICP).
Proof.
  exists nn1, null_rejector, (cloud_viewN tgt), (cloud_view src), GICP. split; [intros _; apply one_usable|]. right.
  eexists. split; [|reflexivity]. intros e. left. apply Rinv_0_lt_compat. pose proof (Rle_0_sqr e). unfold Rsqr in *. lra.
Qed.

Print Assumptions C76_prediction.
Print Assumptions C76_lm_steps.
Print Assumptions C76_gn_steps.
Print Assumptions C76_lm_restricted.
Print Assumptions C76_gn_restricted.
Print Assumptions C76_attained.
