(** C29, C30, C32, C37, C44: the linearised systems of the factors over the reals, and the
    steps computed from them. *)
From Coq Require Import Reals Lra Psatz.
From Coquelicot Require Import Coquelicot.
From Verif Require Import Base BaseProofs Num Vec RNum Lin LinSpec LinProofs LieModel FactorModel ReduceModel OptModel OptSpec FactorProofs
  FactorGrad EstModel EstSpec EstProofs EstReal FactorSpec FactorReal StepProofs Prop_Est.
Open Scope R_scope.

(** * C29 *)
(** One factor: H is symmetric positive semidefinite, b is the gradient of the error (with the
    correspondence and, for GICP, the weight matrix of this linearisation). *)
Theorem C29_factor : forall nn reject target source k, homogeneous source -> (k = GICP -> usable_covs target source) ->
  forall T si f f' s, linearize (D := Rfld) nn reject target source k T si f = Ok (f', Some s) ->
  sym6 (sH s) /\ psd6 (sH s) /\
  forall delta, slope_along (fun T' => error target source k T' f') T delta (dot6 (sb s) delta).
Proof. intros nn reject target source k HS HC T si f f' s H. eapply factor_system; eauto. Qed.
(** H is the Gauss-Newton matrix: the error is half the squared (weighted) length of a vector
    that moves with the pose, and delta H delta is the squared length of its velocity. *)
Theorem C29_gauss_newton : forall nn reject target source k, homogeneous source ->
  forall T si f f' s, linearize (D := Rfld) nn reject target source k T si f = Ok (f', Some s) ->
  forall delta, exists (r : R -> v3 Rfld) (r' : v3 Rfld) (c : R),
    let W := match k with GICP => f_maha f' | _ => id3 end in
    (forall t : R, error target source k (pose_mul T (se3_exp (scale6 (t : car Rfld) delta))) f'
       = Ok (/ 2 * dot3 (r t) (mv3 W (r t)) + c)) /\
    LieSpec.dv3 r 0 r' /\ dot6 delta (mv6 (sH s) delta) = dot3 r' (mv3 W r') /\ (k = GICP -> c = 0).
Proof.
  intros nn reject target source k HS T si f f' s H delta.
  destruct (gn_form_holds nn reject target source k T si f f' s delta H) as (r & r' & c & A & B & _ & C & E).
  { intros p. apply HS. }
  exists r, r', c. auto.
Qed.
(** The reduced system of a whole problem. *)
Theorem C29_whole_problem : forall nn reject target source k, homogeneous source -> (k = GICP -> usable_covs target source) ->
  forall T fs fs' s, reg_lin Rfld nn reject target source k T fs = Ok (fs', s) ->
  sym6 (sH s) /\ psd6 (sH s) /\
  forall delta, slope_along (fun T' => reg_err Rfld target source k T' fs') T delta (dot6 (sb s) delta).
Proof. intros nn reject target source k HS HC T fs fs' s H. eapply whole_system; eauto. Qed.

(** Target (1,0,0), source at the origin, unit covariances. *)
Definition tgt : cloud Rfld := mkCloud [V4 (1 : car Rfld) 0 0 1] [V4 (1 : car Rfld) 0 0 0] [B4 id3 zero3 zero3 (0 : car Rfld)].
Definition src : cloud Rfld := mkCloud [V4 (0 : car Rfld) 0 0 1] [V4 (1 : car Rfld) 0 0 0] [B4 id3 zero3 zero3 (0 : car Rfld)].
Definition nn1 : vec4 Rfld -> outcome (option (N * R)) := fun _ => Ok (Some (0%N, 1)).
Lemma unit_cov : estimated_cov (B4 id3 zero3 zero3 (0 : car Rfld)).
Proof. left. reflexivity. Qed.
Lemma src_homogeneous : homogeneous (cloud_view src).
Proof. intros [|[|i]] p H; cbn in H; inversion H; subst. reflexivity. Qed.
Lemma one_usable : usable_covs (cloud_viewN tgt) (cloud_view src).
Proof.
  split.
  - intros i c H. apply get_Ok in H. cbn [cl_covs tgt] in H. destruct (N.to_nat i) as [|[|j]]; cbn in H; inversion H; subst;
      apply estimated_cov_block, unit_cov.
  - intros [|[|i]] c H; cbn in H; inversion H; subst. apply estimated_cov_block, unit_cov.
Qed.
Example C29_instance : exists f' s, linearize (D := Rfld) nn1 null_rejector (cloud_viewN tgt) (cloud_view src) ICP pose_id 0 factor_init = Ok (f', Some s) /\
  p0 (tv (sb s)) = -1 /\ homogeneous (cloud_view src) /\ usable_covs (cloud_viewN tgt) (cloud_view src).
Proof.
  do 2 eexists. split; [reflexivity|]. split; [cbn; req; ring|]. split; [apply src_homogeneous|apply one_usable].
Qed.

(** * C30 *)
(** For any positive semidefinite H and positive damping the step is determined by the damped
    system, and is a descent direction unless b is zero. *)
Theorem C30_unique : forall H (lambda : R) x y, psd6 H -> 0 < lambda ->
  mv6 (damped H (lambda : car Rfld)) x = mv6 (damped H (lambda : car Rfld)) y -> x = y.
Proof. intros H lambda x y P L E. eapply spd6_inj; [apply damped_spd; eassumption|exact E]. Qed.
Theorem C30_descent : forall H (lambda : R) b delta, psd6 H -> 0 < lambda ->
  mv6 (damped H (lambda : car Rfld)) delta = opp6 b ->
  dot6 b delta <= - (lambda * dot6 delta delta) /\ (b <> zero6 -> dot6 b delta < 0).
Proof. intros. apply damped_descent with (H := H); assumption. Qed.
(** A solver meeting the contract exists. *)
Theorem C30_solver_exists : solves6 block_solve.
Proof. exact block_solve_correct. Qed.

(** A step computed for a linearised problem: it solves the damped system, and the summed error
    decreases along it at the rate b.delta. *)
Definition good_step (err : pose Rfld -> list (factor Rfld) -> outcome R) (T : pose Rfld) (fs : list (factor Rfld)) (s : sys Rfld)
    (lambda : R) (delta : v6 Rfld) : Prop :=
  0 < lambda /\ mv6 (damped (sH s) (lambda : car Rfld)) delta = opp6 (sb s) /\
  slope_along (fun T' => err T' fs) T delta (dot6 (sb s) delta) /\ (sb s <> zero6 -> dot6 (sb s) delta < 0).
(** The general factors of the library. *)
Definition library_factor (g : general Rfld) : Prop :=
  g = null_factor \/ exists lr mask, 0 <= lr /\ mask01 mask /\ g = restrict_dof (lr : car Rfld) mask.

Lemma off_sym (mask : v6 Rfld) (lr : R) : sym6 (mscale6 (lr : car Rfld) (diag6 (mask_penalty mask))).
Proof.
  unfold sym6, tr6, mscale6, diag6. cbn [brr brt btr btt]. rewrite scaled_zero_sym.
  assert (E : forall v : v3 Rfld, tr3 (mscale3 (lr : car Rfld) (diag3 v)) = mscale3 (lr : car Rfld) (diag3 v)).
  { intros v. rewrite tr3_mscale, diag_sym. reflexivity. }
  rewrite !E. reflexivity.
Qed.
Lemma library_system g T s : library_factor g -> sym6 (sH s) -> psd6 (sH s) ->
  sb (upd_sys g T s) = sb s /\ se (upd_sys g T s) = se s /\ sym6 (sH (upd_sys g T s)) /\ psd6 (sH (upd_sys g T s)).
Proof.
  intros [->|(lr & mask & L & M & ->)] S P; [cbn; auto|]. cbn [restrict_dof upd_sys sb se sH].
  split; [reflexivity|]. split; [reflexivity|]. split; [apply sym6_add; [exact S|apply off_sym]|apply psd6_add; [exact P|]].
  intros d. rewrite mscale6_quad, penalty_quad by exact M. pose proof (dot6_self_nonneg (off_axes mask d)).
  change (car (fbase Rfld)) with R in *. nra.
Qed.
Lemma step_good nn reject target source k g solve : homogeneous source -> (k = GICP -> usable_covs target source) ->
  library_factor g -> solves6 solve -> forall T fs fs' s0 (lambda : R), 0 < lambda ->
  reg_lin Rfld nn reject target source k T fs = Ok (fs', s0) -> let s := upd_sys g T s0 in
  good_step (reg_err Rfld target source k) T fs' s lambda (solve (damped (sH s) (lambda : car Rfld)) (opp6 (sb s))).
Proof.
  intros HS HC G So T fs fs' s0 lambda L H. destruct (C29_whole_problem _ _ _ _ _ HS HC _ _ _ _ H) as (Sy & P & Sl).
  destruct (library_system g T s0 G Sy P) as (B & _ & Sy' & P'). cbv zeta.
  assert (E : mv6 (damped (sH (upd_sys g T s0)) (lambda : car Rfld)) (solve (damped (sH (upd_sys g T s0)) (lambda : car Rfld)) (opp6 (sb (upd_sys g T s0))))
     = opp6 (sb (upd_sys g T s0))).
  { apply So; [apply damped_sym, Sy'|apply damped_spd; assumption]. }
  split; [exact L|]. split; [exact E|]. split; [rewrite B at 2; apply Sl|]. apply (damped_descent _ lambda _ _ P' L E).
Qed.
Theorem C30_lm_steps : forall nn reject target source k g solve crit (c : lm_settings Rfld) T fs r log,
  homogeneous source -> (k = GICP -> usable_covs target source) -> library_factor g -> solves6 solve ->
  0 < lm_init_lambda c -> 0 < lm_factor c ->
  levenberg_marquardt (reg_lin Rfld nn reject target source k) (reg_err Rfld target source k) g solve se3_exp inlier crit c T fs = Ok (r, log) ->
  steps_satisfy (0 : car Rfld) (good_step (reg_err Rfld target source k)) None log.
Proof.
  intros nn reject target source k g solve crit c T fs r log HS HC G So L0 Lf H. unfold levenberg_marquardt in H.
  destruct (lm_loop _ _ _ _ _ _ _ _ _ _ _ _) as [[rf log']| | |] eqn:E; cbn [bind] in H; try discriminate. injection H as <- <-.
  eapply (lm_loop_steps Rfld (factor Rfld) _ _ g solve se3_exp crit _ _ (fun l : R => 0 < l) (lm_factor c)); try exact E; auto.
  - intros l Hl. apply Rdiv_lt_0_compat; assumption.
  - intros l Hl. apply Rmult_lt_0_compat; assumption.
  - intros T1 fs1 fs1' s0 lambda Hl EL. eapply step_good; eauto.
Qed.
Theorem C30_gn_steps : forall nn reject target source k g solve crit (lambda : R) n T fs r log,
  homogeneous source -> (k = GICP -> usable_covs target source) -> library_factor g -> solves6 solve -> 0 < lambda ->
  gauss_newton (reg_lin Rfld nn reject target source k) g solve se3_exp inlier crit (lambda : car Rfld) n T fs = Ok (r, log) ->
  steps_satisfy (lambda : car Rfld) (good_step (reg_err Rfld target source k)) None log.
Proof.
  intros nn reject target source k g solve crit lambda n T fs r log HS HC G So L H. unfold gauss_newton in H.
  destruct (gn_loop _ _ _ _ _ _ _ _ _ _) as [[rf log']| | |] eqn:E; cbn [bind] in H; try discriminate. injection H as <- <-.
  eapply (gn_loop_steps Rfld (factor Rfld) _ g solve se3_exp crit); [|exact E].
  intros T1 fs1 fs1' s0 EL. eapply step_good; eauto.
Qed.
(** A run with a step. *)
Example C30_run : exists r log, levenberg_marquardt (reg_lin Rfld nn1 null_rejector (cloud_viewN tgt) (cloud_view src) GICP)
    (reg_err Rfld (cloud_viewN tgt) (cloud_view src) GICP) null_factor block_solve se3_exp inlier
    (mkCriteria (D := Rfld) 1 1) (mkLM (D := Rfld) 1 1 1 10) pose_id (initial_factors 1) = Ok (r, log) /\ log <> [] /\
  homogeneous (cloud_view src) /\ usable_covs (cloud_viewN tgt) (cloud_view src).
Proof.
  assert (L : exists fs' s, reg_lin Rfld nn1 null_rejector (cloud_viewN tgt) (cloud_view src) GICP pose_id (initial_factors 1) = Ok (fs', s) /\
     forall T', exists e, reg_err Rfld (cloud_viewN tgt) (cloud_view src) GICP T' fs' = Ok e).
  { do 2 eexists. split; [reflexivity|]. intros T'. eexists. reflexivity. }
  destruct L as (fs' & s & L1 & L2). unfold levenberg_marquardt. cbn [lm_max_iterations lm_max_inner lm_init_lambda].
  change (Z.to_nat 1) with 1%nat. cbn [lm_loop result_init r_converged r_T]. rewrite L1. cbn [bind lm_inner lm_max_inner].
  change (Z.to_nat 1) with 1%nat. cbn [lm_inner].
  destruct (L2 (pose_mul pose_id (se3_exp (block_solve (damped (sH (upd_sys null_factor pose_id s)) (1 : car Rfld)) (opp6 (sb (upd_sys null_factor pose_id s))))))) as (e & ->).
  cbn [bind].
  destruct (nle e _); cbn [bind i_step]; do 2 eexists; (split; [reflexivity|]); (split; [discriminate|]); (split; [apply src_homogeneous|apply one_usable]).
Qed.

(** * C32 *)
(** With estimated covariances the weight matrix is the inverse of the symmetric positive
    definite fused covariance; the error is non-negative, zero only at zero residual, and for a
    rigid pose within fixed factors of the squared residual. *)
Theorem C32_weights : forall nn reject target source,
  (forall i c, at_cov target i = Ok c -> estimated_cov c) -> (forall i c, at_cov source i = Ok c -> estimated_cov c) ->
  forall T si f f' s, linearize (D := Rfld) nn reject target source GICP T si f = Ok (f', Some s) ->
  exists ti ct cs, f_target f' = Some ti /\ at_cov target ti = Ok ct /\ at_cov source si = Ok cs /\
    let F := madd3 (b33 ct) (mm3 (mm3 (rot T) (b33 cs)) (tr3 (rot T))) in
    sym3 F /\ spd3 F /\ mm3 F (f_maha f') = id3 /\ mm3 (f_maha f') F = id3 /\
    forall T2, exists r e, residual target source T2 ti si = Ok r /\ error target source GICP T2 f' = Ok e /\
      0 <= e /\ (e = 0 <-> head r = zero3) /\
      (rotation (rot T) -> / 4 * dot3 (head r) (head r) <= e <= 250 * dot3 (head r) (head r)).
Proof.
  intros nn reject target source Et Es T si f f' s H.
  destruct (linearize_cases _ _ _ _ _ _ _ _ _ _ _ H) as (p & found & Ep & _ & ti & d & _ & _ & EL & Ft & Fs).
  unfold linearize_at in EL. destruct (residual target source T ti si) as [q| | |] eqn:Er; cbn [bind] in EL; try discriminate.
  rewrite Ep in EL. cbn [bind] in EL.
  destruct (at_cov target ti) as [ct| | |] eqn:Ect; cbn [bind] in EL; try discriminate.
  destruct (at_cov source si) as [cs| | |] eqn:Ecs; cbn [bind] in EL; try discriminate.
  injection EL as <- <-. cbn [f_maha f_target] in *.
  exists ti, ct, cs. split; [reflexivity|]. split; [exact Ect|]. split; [reflexivity|].
  destruct (estimated_cov_block ct (Et _ _ Ect)) as [B1 P1]. destruct (estimated_cov_block cs (Es _ _ Ecs)) as [B2 P2].
  destruct (maha_sym_spd T ct cs B1 P1 B2) as (S & P & E). cbv zeta in *. rewrite E.
  pose proof (fun RT => fused_bounds T ct cs RT (Et _ _ Ect) (Es _ _ Ecs)) as FB. cbv zeta in FB.
  set (F := madd3 (b33 ct) (mm3 (mm3 (rot T) (b33 cs)) (tr3 (rot T)))) in *.
  assert (D : det3 F <> 0). { pose proof (spd3_det F S P). change (car (fbase Rfld)) with R in *. lra. }
  split; [exact S|]. split; [exact P|]. split; [apply inv3_r, D|]. split; [apply inv3_l, D|]. intros T2.
  unfold residual in Er. destruct (at_point target ti) as [q'| | |] eqn:Eq; cbn [bind] in Er; try discriminate. clear Er.
  exists (vsub q' (pose_pt T2 p)), (quad (inv3 F) (head (vsub q' (pose_pt T2 p)))).
  unfold error, residual. cbn [f_target f_source f_maha]. rewrite Eq, Ep. cbn [bind].
  split; [reflexivity|]. split; [reflexivity|]. set (r := head (vsub q' (pose_pt T2 p))). clearbody r.
  assert (Q : quad (inv3 F) r = / 2 * dot3 r (mv3 (inv3 F) r)) by reflexivity. rewrite Q.
  pose proof (spd3_inv F S P) as PI. split; [|split].
  - pose proof (spd3_psd3 _ PI r). change (car (fbase Rfld)) with R in *. lra.
  - split.
    + intros Z. destruct (v3_eq_dec r zero3) as [->|N]; [reflexivity|]. specialize (PI r N). change (car (fbase Rfld)) with R in *. lra.
    + intros ->. rewrite dot3_zero_l. change (car (fbase Rfld)) with R. ring.
  - intros RT. destruct (inverse_bounds F 2e-3 2 S ltac:(lra) ltac:(lra) (FB RT) r) as [A B].
    assert (/ 2e-3 = 500) by (apply (Rmult_eq_reg_l 2e-3); [rewrite Rinv_r; lra|lra]).
    change (car (fbase Rfld)) with R in *. split; [|rewrite H0 in B]; lra.
Qed.
(** Covariance estimation produces such covariances. *)
Theorem C32_estimated : forall knn eig st jp jn jc k (c c' : cloud Rfld),
  estimate (D := Rfld) knn eig INR (1e-3 : car Rfld) st jp jn jc k c = Ok c' -> has_covs st = true ->
  (forall pts, (5 <= length pts)%nat -> Forall (fun p => In p (cl_points c)) pts -> solves eig pts) ->
  forall i m, at_cov (cloud_view c') i = Ok m -> estimated_cov m.
Proof.
  intros knn eig st jp jn jc k c c' H HC SV i m Em. cbn [cloud_view at_cov] in Em. apply get_Ok in Em.
  destruct (C33_estimated_values knn eig st jp jn jc k c c' H) as (_ & _ & LC & _ & _ & V).
  assert (Li : (i < length (cl_points c))%nat). { rewrite <- LC. apply nth_error_Some. congruence. }
  destruct (nth_error (cl_points c) i) as [p|] eqn:Ep; [|apply nth_error_None in Ep; lia].
  destruct (V i p Ep) as (found & _ & Few & Many). destruct (Nat.lt_ge_cases (length found) 5) as [L|L].
  - destruct (Few L) as [_ C]. specialize (C HC). rewrite Em in C. injection C as ->. left. reflexivity.
  - destruct (Many L) as (pts & (_ & _ & FA) & G).
    assert (LP : length pts = length found) by (clear - FA; induction FA as [|j q l l' E _ IH]; cbn [length]; [reflexivity|rewrite IH; reflexivity]).
    destruct (G (SV pts ltac:(lia) ltac:(clear - FA; induction FA as [|j q l l' E _ IH]; constructor; [eapply nth_error_In; exact E|exact IH])))
      as (n & cov & (_ & N & _) & PC & _ & C).
    specialize (C HC). rewrite Em in C. injection C as ->. right. exists (head n). auto.
Qed.
Example C32_instance : exists f' s, linearize (D := Rfld) nn1 null_rejector (cloud_viewN tgt) (cloud_view src) GICP pose_id 0 factor_init = Ok (f', Some s) /\
  (forall i c, at_cov (cloud_viewN tgt) i = Ok c -> estimated_cov c) /\ (forall i c, at_cov (cloud_view src) i = Ok c -> estimated_cov c) /\
  rotation (rot (pose_id (D := Rfld))).
Proof.
  do 2 eexists. split; [reflexivity|]. split; [|split].
  - intros i c H. apply get_Ok in H. cbn [cl_covs tgt] in H. destruct (N.to_nat i) as [|[|j]]; cbn in H; inversion H; subst; apply unit_cov.
  - intros [|[|i]] c H; cbn in H; inversion H; subst. apply unit_cov.
  - split; [cbn [pose_id rot]; rewrite tr3_id, mm3_id_l; reflexivity|apply det3_id].
Qed.

(** * C37 *)
(** The plane factor's error is half the squared distance to the target plane when the normal
    is along an axis, and never less than a third of it. *)
Theorem C37_plane_error : forall nn reject target source T si f f' s,
  linearize (D := Rfld) nn reject target source PlaneICP T si f = Ok (f', Some s) ->
  exists ti n r, f_target f' = Some ti /\ at_normal target ti = Ok n /\ residual target source T ti si = Ok r /\
    let plane := / 2 * (dot3 (head n) (head r) * dot3 (head n) (head r)) in
    / 3 * plane <= se s /\
    (vw n * vw r = 0 -> (vx n = 0 /\ vy n = 0 \/ vx n = 0 /\ vz n = 0 \/ vy n = 0 /\ vz n = 0) -> se s = plane).
Proof.
  intros nn reject target source T si f f' s H.
  destruct (linearize_cases _ _ _ _ _ _ _ _ _ _ _ H) as (p & found & Ep & _ & ti & d & _ & _ & EL & Ft & _).
  unfold linearize_at in EL. destruct (residual target source T ti si) as [r| | |] eqn:Er; cbn [bind] in EL; try discriminate.
  rewrite Ep in EL. cbn [bind] in EL. destruct (at_normal target ti) as [n| | |] eqn:En; cbn [bind] in EL; try discriminate.
  injection EL as <- <-. exists ti, n, r. repeat (split; [first [exact Ft|exact En|exact Er|reflexivity]|]). clear.
  destruct n as [a b c w], r as [x y z v]. cbn. change (car (fbase Rfld)) with R in *. change (car Rnum) with R in *.
  set (P := a * x). set (Q := b * y). set (U := c * z). set (V := w * v). split.
  - pose proof (Rle_0_sqr (P - Q)). pose proof (Rle_0_sqr (P - U)). pose proof (Rle_0_sqr (Q - U)). pose proof (Rle_0_sqr V). unfold Rsqr in *. lra.
  - intros V0 [[E1 E2]|[[E1 E2]|[E1 E2]]]; unfold P, Q, U; rewrite ?E1, ?E2; rewrite V0; field.
Qed.
(** It is not that distance: a source point lying in the target plane has an error. *)
Definition slanted : cloud Rfld := mkCloud [V4 (0 : car Rfld) 0 0 1] [V4 (3 / 5 : car Rfld) (4 / 5) 0 0] [].
Definition in_plane : cloud Rfld := mkCloud [V4 (4 / 5 : car Rfld) (- (3 / 5)) 0 1] [] [].
Theorem C37_plane_distance_refuted : exists target source f' s n r,
  linearize (D := Rfld) nn1 null_rejector target source PlaneICP pose_id 0 factor_init = Ok (f', Some s) /\
  at_normal target 0%N = Ok n /\ residual target source pose_id 0%N 0 = Ok r /\
  dot3 (head n) (head n) = 1 /\ vw n = 0 /\ dot3 (head n) (head r) = 0 /\ se s = 144 / 625.
Proof.
  exists (cloud_viewN slanted), (cloud_view in_plane). do 4 eexists. split; [reflexivity|]. split; [reflexivity|]. split; [reflexivity|].
  split; [cbn; req; field|]. split; [reflexivity|]. split; [cbn; req; field|cbn; req; field].
Qed.
(** Non-vacuity of C37_plane_error: an axis-aligned case. *)
Example C37_instance : exists f' s, linearize (D := Rfld) nn1 null_rejector (cloud_viewN tgt) (cloud_view src) PlaneICP pose_id 0 factor_init = Ok (f', Some s) /\
  se s = / 2.
Proof. do 2 eexists. split; [reflexivity|]. cbn. req. field. Qed.

(** * C44 *)
Theorem C44_penalty_only : forall (lr : R) mask T (s : sys Rfld), 0 <= lr -> mask01 mask ->
  let s' := upd_sys (restrict_dof (lr : car Rfld) mask) T s in
  sb s' = sb s /\ se s' = se s /\
  (forall d, dot6 d (mv6 (sH s') d) = dot6 d (mv6 (sH s) d) + lr * dot6 (off_axes mask d) (off_axes mask d)) /\
  (sym6 (sH s) -> sym6 (sH s')) /\ (psd6 (sH s) -> psd6 (sH s')) /\
  forall T' e, upd_err (restrict_dof (lr : car Rfld) mask) T' e = e.
Proof.
  intros lr mask T s L M. cbv zeta. cbn [restrict_dof upd_sys upd_err sb se sH]. split; [reflexivity|]. split; [reflexivity|].
  assert (Q : forall d, dot6 d (mv6 (madd6 (sH s) (mscale6 (lr : car Rfld) (diag6 (mask_penalty mask)))) d) =
     dot6 d (mv6 (sH s) d) + lr * dot6 (off_axes mask d) (off_axes mask d)).
  { intros d. rewrite mv6_madd, dot6_add_r, mscale6_quad, penalty_quad by exact M. reflexivity. }
  split; [exact Q|]. split; [intros S; apply sym6_add; [exact S|apply off_sym]|]. split; [|reflexivity].
  intros P d. rewrite Q. specialize (P d). pose proof (dot6_self_nonneg (off_axes mask d)). change (car (fbase Rfld)) with R in *. nra.
Qed.
(** Motion along the switched-off axes in a whole Levenberg-Marquardt run. *)
Theorem C44_restricted_motion : forall nn reject target source k (lr : R) mask solve crit (c : lm_settings Rfld) T fs r log,
  homogeneous source -> (k = GICP -> usable_covs target source) -> 0 < lr -> mask01 mask -> solves6 solve ->
  0 < lm_init_lambda c -> 0 < lm_factor c ->
  levenberg_marquardt (reg_lin Rfld nn reject target source k) (reg_err Rfld target source k) (restrict_dof (lr : car Rfld) mask)
    solve se3_exp inlier crit c T fs = Ok (r, log) ->
  steps_satisfy (0 : car Rfld) (fun _ _ s (mu : R) delta =>
    dot6 (off_axes mask delta) (off_axes mask delta) <= dot6 (sb s) (sb s) / (4 * lr * mu)) None log.
Proof.
  intros nn reject target source k lr mask solve crit c T fs r log HS HC L M So L0 Lf H. unfold levenberg_marquardt in H.
  destruct (lm_loop _ _ _ _ _ _ _ _ _ _ _ _) as [[rf log']| | |] eqn:E; cbn [bind] in H; try discriminate. injection H as <- <-.
  eapply (lm_loop_steps Rfld (factor Rfld) _ _ _ solve se3_exp crit _ _ (fun l : R => 0 < l) (lm_factor c)); try exact E; auto.
  - intros l Hl. apply Rdiv_lt_0_compat; assumption.
  - intros l Hl. apply Rmult_lt_0_compat; assumption.
  - intros T1 fs1 fs1' s0 mu Hl EL. destruct (C29_whole_problem _ _ _ _ _ HS HC _ _ _ _ EL) as (Sy & P & _).
    assert (G : library_factor (restrict_dof (lr : car Rfld) mask)). { right. exists lr, mask. repeat split; auto. lra. }
    destruct (step_good nn reject target source k _ solve HS HC G So _ _ _ _ mu Hl EL) as (_ & E2 & _).
    eapply restricted_bound; [exact P|exact L|exact Hl|exact M|exact E2].
Qed.
(** There is no bound |b| / lambda independent of the damping. *)
Theorem C44_undamped_bound_refuted : exists (H : m6 Rfld) (b delta mask : v6 Rfld) (lr mu : R),
  sym6 H /\ psd6 H /\ mask01 mask /\ 0 < lr /\ 0 < mu /\
  mv6 (damped (sH (upd_sys (restrict_dof (lr : car Rfld) mask) pose_id (mkSys H b (0 : car Rfld)))) (mu : car Rfld)) delta = opp6 b /\
  dot6 b b = 1 /\ / lr < sqrt (dot6 (off_axes mask delta) (off_axes mask delta)).
Proof.
  set (Z := mzero3 (D := Rfld)).
  exists (M6 (M3 (P3 (199 : car Rfld) 2000 0) (P3 (2000 : car Rfld) 20199 0) (P3 (0 : car Rfld) 0 0)) Z Z Z).
  exists (P6 (P3 (1 : car Rfld) 0 0) zero3), (P6 (P3 (- (53 / 600) : car Rfld) (1 / 120) 0) zero3), (P6 (P3 (1 : car Rfld) 0 1) (P3 (1 : car Rfld) 1 1)), 1000, 1.
  split; [|split; [|split; [|split; [|split; [|split; [|split]]]]]].
  - unfold Z. reflexivity.
  - intros [[x y z] [u v w]]. unfold Z. cbn. change (car (fbase Rfld)) with R in *. rewrite ?Rmult_0_l, ?Rplus_0_r, ?Rplus_0_l, ?Rmult_0_r.
    pose proof (Rle_0_sqr (199 * x + 2000 * y)). pose proof (Rle_0_sqr y). unfold Rsqr in *. nra.
  - unfold mask01. cbn [rv tv p0 p1 p2]. repeat (apply Forall_cons; [lra|]); apply Forall_nil.
  - lra.
  - lra.
  - unfold Z. cbn [restrict_dof upd_sys sH]. apply P6_eq; apply P3_eq; cbn; req; unfold Rminus; rewrite ?Rplus_opp_r, ?Rabs_R0, ?Rplus_0_l, ?Rabs_Ropp, ?Rabs_R1; field.
  - cbn. req. ring.
  - unfold off_axes. cbn [rv tv p0 p1 p2]. repeat (destruct (Req_EM_T _ _) as [E|E]; try lra; try (exfalso; apply E; reflexivity); clear E).
    match goal with |- _ < sqrt ?e => assert (Q : e = (1 / 120) * (1 / 120)) by (cbn; req; field); rewrite Q end.
    rewrite sqrt_square by lra. lra.
Qed.
Example C44_instance : mask01 (P6 (P3 (0 : car Rfld) 0 1) (P3 (1 : car Rfld) 1 0)) /\ solves6 block_solve /\
  dot6 (off_axes (P6 (P3 (0 : car Rfld) 0 1) (P3 (1 : car Rfld) 1 0)) (P6 (P3 (1 : car Rfld) 2 3) (P3 (4 : car Rfld) 5 6)))
       (off_axes (P6 (P3 (0 : car Rfld) 0 1) (P3 (1 : car Rfld) 1 0)) (P6 (P3 (1 : car Rfld) 2 3) (P3 (4 : car Rfld) 5 6))) = 41.
Proof.
  split; [unfold mask01; cbn [rv tv p0 p1 p2]; repeat (apply Forall_cons; [lra|]); apply Forall_nil|]. split; [apply block_solve_correct|].
  unfold off_axes. cbn [rv tv p0 p1 p2]. repeat (destruct (Req_EM_T _ _) as [E|E]; try lra; try (exfalso; apply E; reflexivity); clear E). cbn. req. ring.
Qed.

Print Assumptions C29_factor.
Print Assumptions C29_gauss_newton.
Print Assumptions C29_whole_problem.
Print Assumptions C30_unique.
Print Assumptions C30_descent.
Print Assumptions C30_solver_exists.
Print Assumptions C30_lm_steps.
Print Assumptions C30_gn_steps.
Print Assumptions C32_weights.
Print Assumptions C32_estimated.
Print Assumptions C37_plane_error.
Print Assumptions C37_plane_distance_refuted.
Print Assumptions C44_penalty_only.
Print Assumptions C44_restricted_motion.
Print Assumptions C44_undamped_bound_refuted.
