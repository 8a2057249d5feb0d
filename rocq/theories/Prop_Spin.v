(** C70: how the source is turned about the origin of its own frame does not matter. *)
From Coq Require Import Reals Lra Lia ZArith List.
From Verif Require Import Base BaseProofs Num Vec RNum Lin LinSpec LinProofs FactorModel FactorSpec FactorProofs FactorReal ReduceModel ReduceSpec ReduceProofs
  OptModel OptSpec LieModel LieProofs StepProofs MoveSpec MoveProofs MoveFactor MoveTree SpinSpec SpinProofs Prop_Factor Prop_Robust Prop_Move Prop_Fit Prop_Lie Prop_Align.
Open Scope R_scope.

(** What the theorems ask for: a rotation, the turned source, homogeneous source points, usable
    covariances, a rejector that does not look at the pose, a general factor of the library
    that prefers no axis, a correct solver.  The search is arbitrary. *)
Record spun_problem (Q : m3 Rfld) (target : view Rfld N) (source source' : view Rfld nat)
    (reject : pose Rfld -> N -> nat -> car Rfld -> bool) (g : general Rfld) (k : kind) (solve : m6 Rfld -> v6 Rfld -> v6 Rfld) : Prop := {
  up_rotation : rotation Q;
  up_turned : moved_view (spin Q) source source';
  up_source : homogeneous source;
  up_covs : k = GICP -> usable_covs target source;
  up_reject : forall T ti si d, reject (unspin Q T) ti si d = reject T ti si d;
  up_library : library_factor g;
  up_free : frame_free Q g;
  up_solve : solves6 solve
}.

(** The same steps seen from the turned frame: the pose turned back, H and b turned, everything
    else identical. *)
Theorem C70_gauss_newton : forall Q target source source' nn reject g k solve crit (lambda : R) m T fs r log,
  spun_problem Q target source source' reject g k solve -> 0 < lambda ->
  gauss_newton (reg_lin Rfld nn reject target source k) g solve se3_exp inlier crit (lambda : car Rfld) m T fs = Ok (r, log) ->
  exists log', gauss_newton (reg_lin Rfld nn reject target source' k) g solve se3_exp inlier crit (lambda : car Rfld) m (unspin Q T) fs = Ok (spun_result Q r, log').
Proof.
  intros Q target source source' nn reject g k solve crit lambda m T fs r log [O MV HS HC RJ G GF SV] L H.
  eapply gauss_newton_spin; try exact H; try assumption.
  - intros T0 fs0 fs1 s E. eapply serial_spin; [|exact E]. intros i f f1 r0 El. apply (linearize_spin Q O target source source' MV nn reject RJ k). exact El.
  - intros T0 fs0 fs1 s E. destruct (C29_whole_problem _ _ _ _ _ HS HC _ _ _ _ E) as (Sy & P & _). destruct (library_system g T0 s G Sy P) as (_ & _ & S1 & P1). auto.
Qed.
Lemma errors_spin {F : Type} (e1 e2 : F -> outcome (car Rfld)) : (forall f, e2 f = e1 f) -> forall fs,
  serial_error nzero nadd e2 fs = serial_error (nzero (n := fbase Rfld)) (nadd (n := fbase Rfld)) e1 fs.
Proof.
  intros E fs. unfold serial_error. generalize (nzero (n := fbase Rfld)). induction fs as [|f fs IH]; intros z; cbn [foldM]; [reflexivity|].
  rewrite E. destruct (e1 f); cbn [bind]; auto.
Qed.
Theorem C70_levenberg_marquardt : forall Q target source source' nn reject g k solve crit (c : lm_settings Rfld) T fs r log,
  spun_problem Q target source source' reject g k solve -> 0 < lm_init_lambda c -> 0 < lm_factor c ->
  levenberg_marquardt (reg_lin Rfld nn reject target source k) (reg_err Rfld target source k) g solve se3_exp inlier crit c T fs = Ok (r, log) ->
  exists log', levenberg_marquardt (reg_lin Rfld nn reject target source' k) (reg_err Rfld target source' k) g solve se3_exp inlier crit c (unspin Q T) fs =
    Ok (spun_result Q r, log').
Proof.
  intros Q target source source' nn reject g k solve crit c T fs r log [O MV HS HC RJ G GF SV] L FP H.
  eapply levenberg_spin; try exact H; try assumption.
  - intros T0 fs0 fs1 s E. eapply serial_spin; [|exact E]. intros i f f1 r0 El. apply (linearize_spin Q O target source source' MV nn reject RJ k). exact El.
  - intros T0 fs0 fs1 s E. destruct (C29_whole_problem _ _ _ _ _ HS HC _ _ _ _ E) as (Sy & P & _). destruct (library_system g T0 s G Sy P) as (_ & _ & S1 & P1). auto.
  - intros T0 fs0 e E. rewrite <- E. apply errors_spin. intros f. apply (error_spin Q O target source source' MV k).
Qed.
(** The same with a robust kernel of positive weight, such as the two of the library. *)
Lemma robust_whole nn reject target source k (weight : R -> R) T fs fs' s : homogeneous source -> (k = GICP -> usable_covs target source) -> (forall e, 0 < weight e) ->
  reg_lin_robust Rfld nn reject target source weight k T fs = Ok (fs', s) -> sym6 (sH s) /\ psd6 (sH s).
Proof.
  intros HS HC W H. destruct (serial_fold _ _ _ _ _ _ _ _ H) as (rs & (L1 & L2 & L3) & ->).
  assert (Z6 : sym6 mzero6 /\ psd6 mzero6).
  { split; [unfold sym6, mzero6, tr6; cbn [brr brt btr btt]; assert (Z : tr3 (mzero3 (D := Rfld)) = mzero3) by (clear; lring); rewrite Z; reflexivity|].
    intros d. unfold mv6, mzero6. cbn [brr brt btr btt]. rewrite !mv3_mzero, !add3_zero_l. unfold dot6. cbn [rv tv]. rewrite !dot3_zero_r. cbn. lra. }
  apply fold_sH; [|apply Z6|apply Z6].
  apply Forall_forall. intros x Ix. assert (IR : In (Some x) rs).
  { clear - Ix. induction rs as [|[y|] rs IH]; cbn [accepted] in Ix; cbn [In]; [destruct Ix| |right; auto]. destruct Ix as [->|Ix]; auto. }
  apply In_nth_error in IR. destruct IR as (i & Ei). assert (Hi : (i < length fs)%nat) by (rewrite <- L2; apply nth_error_Some; congruence).
  destruct (nth_error fs i) as [f|] eqn:Ef; [|apply nth_error_None in Ef; lia].
  destruct (L3 _ _ Ef) as (f1 & r & El & _ & Er). rewrite Ei in Er. injection Er as <-. eapply C51_robust_hessian; eauto.
Qed.
Theorem C70_robust : forall Q target source source' nn reject g k (weight : R -> R) solve crit (c : lm_settings Rfld) T fs r log,
  spun_problem Q target source source' reject g k solve -> (forall e, 0 < weight e) -> 0 < lm_init_lambda c -> 0 < lm_factor c ->
  levenberg_marquardt (reg_lin_robust Rfld nn reject target source weight k) (reg_err_robust Rfld target source weight k) g solve se3_exp inlier crit c T fs = Ok (r, log) ->
  exists log', levenberg_marquardt (reg_lin_robust Rfld nn reject target source' weight k) (reg_err_robust Rfld target source' weight k) g solve se3_exp inlier crit c
    (unspin Q T) fs = Ok (spun_result Q r, log').
Proof.
  intros Q target source source' nn reject g k weight solve crit c T fs r log [O MV HS HC RJ G GF SV] W L FP H.
  eapply levenberg_spin; try exact H; try assumption.
  - intros T0 fs0 fs1 s E. eapply serial_spin; [|exact E]. intros i f f1 r0 El. apply (linearize_robust_spin Q O target source source' MV nn reject RJ k). exact El.
  - intros T0 fs0 fs1 s E. destruct (robust_whole _ _ _ _ _ _ _ _ _ _ HS HC W E) as (Sy & P). destruct (library_system g T0 s G Sy P) as (_ & _ & S1 & P1). auto.
  - intros T0 fs0 e E. rewrite <- E. apply errors_spin. intros f. apply (error_robust_spin Q O target source source' MV k).
Qed.

(** No general factor, and restrictions that treat the three rotations alike and the three
    translations alike, prefer no axis. *)
Definition even_mask (mask : v6 Rfld) : Prop := exists a b : R, mask = P6 (P3 (a : car Rfld) a a) (P3 (b : car Rfld) b b).
Lemma null_free Q : frame_free Q null_factor. Proof. split; reflexivity. Qed.
Lemma diag_even (a : car Rfld) : diag3 (P3 a a a) = mscale3 a (id3 (D := Rfld)). Proof. lring. Qed.
Theorem C70_even_restriction : forall Q (lr : R) mask, rotation Q -> even_mask mask -> frame_free Q (restrict_dof (lr : car Rfld) mask).
Proof.
  intros Q lr mask O (a & b & ->). split; [|reflexivity]. intros T s. cbn [restrict_dof upd_sys spun_sys sH sb se]. unfold spun_sys. cbn [sH sb se]. f_equal.
  unfold madd6, mscale6, conj6, diag6, mask_penalty. cbn [brr brt btr btt rv tv p0 p1 p2]. rewrite !diag_even, !conj3_madd, !conj3_mscale, conj3_id, conj3_zero by exact O. reflexivity.
Qed.

(** * What does depend on the frame of the source *)
(** One Gauss-Newton step of a single pair. *)
Definition lone (p : vec4 Rfld) : cloud Rfld := mkCloud [p] [] [].
Definition found_it : vec4 Rfld -> outcome (option (N * car Rfld)) := fun _ => Ok (Some (0%N, 0 : car Rfld)).
Lemma one_step g solve (crit : criteria Rfld) (lambda : R) (T : pose Rfld) (q p : vec4 Rfld) (delta : v6 Rfld) : library_factor g -> solves6 solve -> 0 < lambda -> vw p = 1 ->
  let J := point_jac T p in let r := vsub q (pose_pt T p) in
  let s := upd_sys g T (sys_add sys_zero (mkSys (jtj J) (jtr J (head r)) (nmul (fhalf (f := Rfld)) (sqnorm4 r)))) in
  mv6 (damped (sH s) (lambda : car Rfld)) delta = opp6 (sb s) ->
  exists x log, gauss_newton (reg_lin Rfld found_it null_rejector (cloud_viewN (lone q)) (cloud_view (lone p)) ICP) g solve se3_exp inlier crit
    (lambda : car Rfld) 1 T (initial_factors 1) = Ok (x, log) /\ r_T x = pose_mul T (se3_exp delta).
Proof.
  intros G SV L W J r s E.
  assert (EL : reg_lin Rfld found_it null_rejector (cloud_viewN (lone q)) (cloud_view (lone p)) ICP T (initial_factors 1) =
    Ok ([mkFactor (Some 0%N) 0 mzero3], sys_add sys_zero (mkSys (jtj J) (jtr J (head r)) (nmul (fhalf (f := Rfld)) (sqnorm4 r))))) by reflexivity.
  assert (HS : homogeneous (cloud_view (lone p))).
  { intros [|[|i]] x H; cbn in H; try discriminate. injection H as <-. exact W. }
  assert (HC : ICP = GICP -> usable_covs (cloud_viewN (lone q)) (cloud_view (lone p))) by discriminate.
  destruct (C29_whole_problem _ _ _ _ _ HS HC _ _ _ _ EL) as (Sy & P & _). destruct (library_system g T _ G Sy P) as (_ & _ & S1 & P1). fold s in S1, P1.
  unfold gauss_newton. change (Z.to_nat 1) with 1%nat. cbn [gn_loop result_init r_converged r_T]. rewrite EL. cbn [bind]. cbv zeta. fold s.
  assert (ED : solve (damped (sH s) (lambda : car Rfld)) (opp6 (sb s)) = delta).
  { apply (spd6_inj (damped (sH s) (lambda : car Rfld))); [apply damped_spd; assumption|]. rewrite SV, E; [reflexivity|apply damped_sym; exact S1|apply damped_spd; assumption]. }
  rewrite ED. cbn [bind fst snd]. do 2 eexists. split; [reflexivity|]. reflexivity.
Qed.

(** A restriction of one axis is a restriction in the frame of the source: held along the
    source's x axis, the source turned by 90 degrees is held along the other direction. *)
Definition quarter : m3 Rfld := M3 (P3 (D := Rfld) 0 (-1) 0) (P3 (D := Rfld) 1 0 0) (P3 (D := Rfld) 0 0 1).
Definition hold_x : v6 Rfld := P6 (P3 (D := Rfld) 1 1 1) (P3 (D := Rfld) 0 1 1).
Lemma quarter_rotation : rotation quarter.
Proof. split; [unfold quarter, id3, diag3; apply M3_eq; apply P3_eq; cbn; change (car (fbase Rfld)) with R; req; ring|unfold quarter, det3; cbn; change (car (fbase Rfld)) with R; req; ring]. Qed.
Lemma hold_x_library (lr : R) : 0 <= lr -> library_factor (restrict_dof (lr : car Rfld) hold_x).
Proof. intros L. right. exists lr, hold_x. split; [exact L|]. split; [|reflexivity]. unfold mask01, hold_x. cbn [rv tv p0 p1 p2]. repeat (apply Forall_cons; [auto|]). apply Forall_nil. Qed.
Lemma hold_penalty : mask_penalty hold_x = P6 zero3 (P3 (D := Rfld) 1 0 0).
Proof.
  assert (Z : Rabs (1 - 1) = 0) by (rewrite Rminus_diag_eq by reflexivity; apply Rabs_R0). assert (U : Rabs (0 - 1) = 1) by (rewrite Rminus_0_l, Rabs_Ropp; apply Rabs_R1).
  unfold mask_penalty, hold_x. cbn [rv tv p0 p1 p2]. apply P6_eq; apply P3_eq; first [exact Z|exact U].
Qed.
Theorem C70_restricted_axis_refuted : forall solve (crit : criteria Rfld), solves6 solve -> exists r log r' log',
  let run src T := gauss_newton (reg_lin Rfld found_it null_rejector (cloud_viewN (lone (rpt 1 1 0))) (cloud_view src) ICP) (restrict_dof (2 : car Rfld) hold_x) solve
    se3_exp inlier crit (1 : car Rfld) 1 T (initial_factors 1) in
  run (lone (rpt 0 0 0)) pose_id = Ok (r, log) /\ run (moved_cloud (spin quarter) (lone (rpt 0 0 0))) (unspin quarter pose_id) = Ok (r', log') /\
  r_T r' <> unspin quarter (r_T r).
Proof.
  intros solve crit SV.
  destruct (one_step (restrict_dof (2 : car Rfld) hold_x) solve crit 1 pose_id (rpt 1 1 0) (rpt 0 0 0) (P6 zero3 (P3 (D := Rfld) (1 / 4) (1 / 2) 0))) as (r & log & E & ET);
    [apply hold_x_library; lra|exact SV|lra|reflexivity| |].
  { cbv zeta. cbn [restrict_dof upd_sys sH sb]. rewrite hold_penalty. apply P6_eq; apply P3_eq; cbn; change (car (fbase Rfld)) with R; req; lra. }
  assert (EP : pose_pt (spin quarter) (rpt 0 0 0) = rpt 0 0 0) by (unfold pose_pt, spin, quarter, rpt; cbn; apply V4_eq; req; change (car (fbase Rfld)) with R; ring).
  destruct (one_step (restrict_dof (2 : car Rfld) hold_x) solve crit 1 (unspin quarter pose_id) (rpt 1 1 0) (rpt 0 0 0) (P6 zero3 (P3 (D := Rfld) (- 1 / 4) (1 / 2) 0))) as (r' & log' & E' & ET');
    [apply hold_x_library; lra|exact SV|lra|reflexivity| |].
  { cbv zeta. cbn [restrict_dof upd_sys sH sb]. rewrite hold_penalty. apply P6_eq; apply P3_eq; unfold unspin, quarter; cbn; change (car (fbase Rfld)) with R; req; lra. }
  exists r, log, r', log'. cbv zeta. split; [exact E|]. split.
  - unfold moved_cloud, lone. cbn [cl_points cl_normals cl_covs map]. rewrite EP. exact E'.
  - rewrite ET, ET', !se3_zero. intros X. apply (f_equal (fun T => p0 (tra T))) in X. unfold unspin, quarter, pose_mul in X. cbn in X. change (car (fbase Rfld)) with R in X. lra.
Qed.
(** The origin matters: the source moved by (1, 0, 0), started from the pose moved back, is also
    turned by the first step, because the damping weighs turning against shifting. *)
Lemma turned_by (w : R) : 1 / 100 < w < 1 -> rot (se3_exp (P6 (P3 (D := Rfld) 0 0 w) (P3 (D := Rfld) 0 w 0))) <> id3.
Proof.
  intros W. unfold se3_exp. cbn [rv rot]. set (omega := P3 (D := Rfld) 0 0 w).
  assert (D : dot3 omega omega = w * w) by (unfold omega; cbn; change (car (fbase Rfld)) with R; req; ring).
  rewrite rodrigues_large by (rewrite D; change (car (fbase Rfld)) with R; nra). rewrite D. change (car (fbase Rfld)) with R. rewrite sqrt_square by lra.
  intros E. apply (f_equal (fun M => p1 (r0 M))) in E. unfold rodrigues, omega in E. cbn in E. change (car (fbase Rfld)) with R in E.
  assert (S : 0 < sin w) by (apply sin_gt_0; [lra|]; pose proof PI2_3_2; unfold PI2 in *; lra).
  assert (E2 : sin w / w * w = sin w) by (field; lra). lra.
Qed.
Theorem C70_origin_refuted : forall solve (crit : criteria Rfld), solves6 solve -> exists r log r' log',
  let run src T := gauss_newton (reg_lin Rfld found_it null_rejector (cloud_viewN (lone (rpt 0 1 0))) (cloud_view src) ICP) null_factor solve
    se3_exp inlier crit (1 : car Rfld) 1 T (initial_factors 1) in
  run (lone (rpt 0 0 0)) pose_id = Ok (r, log) /\ run (moved_cloud (at_xyz 1 0 0) (lone (rpt 0 0 0))) (at_xyz (-1) 0 0) = Ok (r', log') /\
  r_T r' <> pose_mul (r_T r) (at_xyz (-1) 0 0).
Proof.
  intros solve crit SV.
  destruct (one_step null_factor solve crit 1 pose_id (rpt 0 1 0) (rpt 0 0 0) (P6 zero3 (P3 (D := Rfld) 0 (1 / 2) 0))) as (r & log & E & ET);
    [left; reflexivity|exact SV|lra|reflexivity| |].
  { apply P6_eq; apply P3_eq; cbn; change (car (fbase Rfld)) with R; req; lra. }
  assert (EP : pose_pt (at_xyz 1 0 0) (rpt 0 0 0) = rpt 1 0 0) by (unfold pose_pt, at_xyz, rpt; cbn; apply V4_eq; req; change (car (fbase Rfld)) with R; ring).
  destruct (one_step null_factor solve crit 1 (at_xyz (-1) 0 0) (rpt 0 1 0) (rpt 1 0 0) (P6 (P3 (D := Rfld) 0 0 (1 / 3)) (P3 (D := Rfld) 0 (1 / 3) 0))) as (r' & log' & E' & ET');
    [left; reflexivity|exact SV|lra|reflexivity| |].
  { apply P6_eq; apply P3_eq; cbn; change (car (fbase Rfld)) with R; req; lra. }
  exists r, log, r', log'. cbv zeta. split; [exact E|]. split.
  - unfold moved_cloud, lone. cbn [cl_points cl_normals cl_covs map]. rewrite EP. exact E'.
  - rewrite ET, ET', se3_zero. intros X. apply (f_equal rot) in X. cbn [pose_mul rot pose_id at_xyz] in X. rewrite !mm3_id_l in X. apply (turned_by (1 / 3)); [lra|exact X].
Qed.

(** * Non-vacuity *)
(** A GICP problem with two source points, turned by a quarter; and one whose run does move. *)
Definition two_sources : cloud Rfld := with_all [rpt 1 0 0; rpt 0 2 1].
Example C70_setup : forall k, spun_problem quarter (cloud_viewN (with_all [rpt 1 1 0])) (cloud_view two_sources) (cloud_view (moved_cloud (spin quarter) two_sources))
  null_rejector null_factor k block_solve /\ moved_cloud (spin quarter) two_sources <> two_sources.
Proof.
  intros k. split.
  - split.
    + exact quarter_rotation.
    + intros i. cbn [cloud_view moved_cloud at_point at_normal at_cov cl_points cl_normals cl_covs]. rewrite !get_map. auto.
    + intros [|[|i]] p H; cbn [cloud_view two_sources with_all cl_points at_point] in H; unfold get in H; cbn [nth_error] in H;
        [injection H as <-; reflexivity|injection H as <-; reflexivity|]. destruct i; discriminate H.
    + intros _. exact (proj2 (proj2 (with_all_attributes GICP [rpt 1 1 0] [rpt 1 0 0; rpt 0 2 1]))).
    + reflexivity.
    + left. reflexivity.
    + apply null_free.
    + exact block_solve_correct.
  - intros E. apply (f_equal (fun c => match cl_points c with p :: _ => vx p | [] => (0 : car Rfld) end)) in E.
    unfold moved_cloud, two_sources, with_all, pose_pt, spin, quarter, rpt in E. cbn in E. change (car (fbase Rfld)) with R in E. lra.
Qed.
Example C70_run : exists r log, gauss_newton (reg_lin Rfld found_it null_rejector (cloud_viewN (lone (rpt 0 1 0))) (cloud_view (lone (rpt 0 0 0))) ICP) null_factor
  block_solve se3_exp inlier (mkCriteria (D := Rfld) 0 0) (1 : car Rfld) 1 pose_id (initial_factors 1) = Ok (r, log) /\ r_T r <> pose_id.
Proof.
  destruct (one_step null_factor block_solve (mkCriteria (D := Rfld) 0 0) 1 pose_id (rpt 0 1 0) (rpt 0 0 0) (P6 zero3 (P3 (D := Rfld) 0 (1 / 2) 0))) as (r & log & E & ET);
    [left; reflexivity|exact block_solve_correct|lra|reflexivity| |].
  { apply P6_eq; apply P3_eq; cbn; change (car (fbase Rfld)) with R; req; lra. }
  exists r, log. split; [exact E|]. rewrite ET, se3_zero. intros X. apply (f_equal (fun T => p1 (tra T))) in X. cbn in X. change (car (fbase Rfld)) with R in X. lra.
Qed.

Print Assumptions C70_gauss_newton.
Print Assumptions C70_levenberg_marquardt.
Print Assumptions C70_robust.
Print Assumptions C70_even_restriction.
Print Assumptions C70_restricted_axis_refuted.
Print Assumptions C70_origin_refuted.
Print Assumptions C70_setup.
Print Assumptions C70_run.
