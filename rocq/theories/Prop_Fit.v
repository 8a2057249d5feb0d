(** C59: with point-to-point factors, Levenberg-Marquardt never ends further from the target
    than it started. *)
From Coq Require Import Reals Lra ZArith List.
From Flocq Require Import Core.
From Verif Require Import Base BaseProofs Num Vec RNum Lin LinSpec LinProofs FactorModel FactorSpec FactorProofs ReduceModel
  KnnModel KdModel KdSpec KdReal NthElement OptModel OptSpec LieModel StepProofs MoveSpec MoveProofs MoveFactor MoveTree FitSpec FitProofs Prop_Lie Prop_Move.
Open Scope nat_scope.

(** The two rejectors of the library. *)
Lemma distance_rejects (max_sq : R) : rejects_beyond max_sq (distance_rejector (D := Rfld) max_sq).
Proof. intros T ti si d _. exact (Rlt_bool_iff max_sq d). Qed.
Lemma null_rejects : rejects_beyond (nmaxv (n := Rnum)) (null_rejector (D := Rfld)).
Proof. intros T ti si d L. split; [discriminate|]. intros C. exfalso. lra. Qed.

(** For every search that reports a nearest point, every rejector by distance, every general
    factor that adds no error, every solver, every step map and every setting: the misfit at the
    returned pose is bounded by what the result reports (twice the error, plus the rejection
    limit for each point without correspondence), and this is at most the misfit at the initial
    pose. *)
Theorem C59_icp_never_worse : forall (target source : cloud Rfld) nn (limit : R) reject g solve exp6 crit c T r log,
  exact_search (cloud_viewN target) nn -> rejects_beyond limit reject -> no_error g -> (0 < lm_max_iterations c)%Z ->
  let n := length (cl_points source) in
  let d T := misfit (Rmin limit (nmaxv (n := Rnum))) (cl_points target) (cl_points source) T in
  levenberg_marquardt (reg_lin Rfld nn reject (cloud_viewN target) (cloud_view source) ICP)
    (reg_err Rfld (cloud_viewN target) (cloud_view source) ICP) g solve exp6 inlier crit c T (initial_factors n) = Ok (r, log) ->
  (d (r_T r) <= 2 * r_error r + Rmin limit (nmaxv (n := Rnum)) * INR (n - r_inliers r) <= d T)%R.
Proof.
  intros target source nn limit reject g solve exp6 crit c T r log X RJ NE P n d H. unfold levenberg_marquardt in H.
  match type of H with context [lm_loop ?a ?b ?c2 ?d2 ?e ?f ?g2 ?h ?i ?j ?k ?l] =>
    destruct (lm_loop a b c2 d2 e f g2 h i j k l) as [[[rf fsf] lg]| | |] eqn:E; cbn [bind] in H; try discriminate end.
  injection H as <- <-. destruct (Z.to_nat (lm_max_iterations c)) as [|m] eqn:EM; [lia|].
  destruct (loop_descends target source nn X limit reject RJ g NE solve exp6 crit c m _ _ _ _ _ _ _
    (repeat_length _ _) E eq_refl) as (A & B & L).
  cbn [result_init r_T fst snd set_inliers r_error r_inliers] in *. unfold known in *. rewrite L in *. split; assumption.
Qed.
(** With any number of iterations, also none. *)
Theorem C59_icp_descends : forall (target source : cloud Rfld) nn (limit : R) reject g solve exp6 crit c T r log,
  exact_search (cloud_viewN target) nn -> rejects_beyond limit reject -> no_error g ->
  let d T := misfit (Rmin limit (nmaxv (n := Rnum))) (cl_points target) (cl_points source) T in
  levenberg_marquardt (reg_lin Rfld nn reject (cloud_viewN target) (cloud_view source) ICP)
    (reg_err Rfld (cloud_viewN target) (cloud_view source) ICP) g solve exp6 inlier crit c T
    (initial_factors (length (cl_points source))) = Ok (r, log) ->
  (d (r_T r) <= d T)%R.
Proof.
  intros target source nn limit reject g solve exp6 crit c T r log X RJ NE d H.
  destruct (Z_lt_le_dec 0 (lm_max_iterations c)) as [P|P].
  - destruct (C59_icp_never_worse _ _ _ _ _ _ _ _ _ _ _ _ _ X RJ NE P H). eapply Rle_trans; eassumption.
  - unfold levenberg_marquardt in H. replace (Z.to_nat (lm_max_iterations c)) with 0 in H by lia. cbn [lm_loop bind] in H.
    injection H as <- <-. apply Rle_refl.
Qed.
(** Clouds with a kd-tree and the distance rejector. *)
Theorem C59_kdtree : forall order ne find_axis leaf (target source : cloud Rfld) tree (max_sq : R) solve exp6 crit c T r log,
  full_sum order -> nth_element_contract ne ->
  (forall range : list (vec4 Rnum), range <> [] -> exists n, find_axis range = Ok n /\ short n) ->
  (3 <= size_t_of_int leaf)%N -> cl_points target <> [] -> (N.of_nat (length (cl_points target)) <= 4294967295)%N ->
  (max_sq <= nmaxv (n := Rnum))%R ->
  build_tree (normal_apply (D := Rnum)) find_axis ne (cl_points target) leaf = Ok tree ->
  levenberg_marquardt
    (reg_lin Rfld (real_tree_nn order (cl_points target) tree) (distance_rejector (D := Rfld) max_sq) (cloud_viewN target) (cloud_view source) ICP)
    (reg_err Rfld (cloud_viewN target) (cloud_view source) ICP) null_factor solve exp6 inlier crit c T
    (initial_factors (length (cl_points source))) = Ok (r, log) ->
  (misfit max_sq (cl_points target) (cl_points source) (r_T r) <= misfit max_sq (cl_points target) (cl_points source) T)%R.
Proof.
  intros order ne fa leaf target source tree max_sq solve exp6 crit c T r log FS NE A L NZ SM MX B H.
  pose proof (C59_icp_descends target source _ max_sq _ null_factor solve exp6 crit c T r log
    (real_tree_exact order FS ne NE fa A target leaf L NZ SM tree B) (distance_rejects max_sq) ltac:(split; reflexivity) H) as D.
  cbv zeta in D. rewrite Rmin_left in D by exact MX. exact D.
Qed.

(** * GICP: the distance that is minimised changes with the correspondences *)
(** One source point at the origin, two target points, all covariances those of a plane with
    normal x.  The step moves along x, where the weight is large; the other target point becomes
    the nearest one and its weighted distance is larger than the initial one. *)
Definition plane_x : m4 Rfld := B4 (diag3 (P3 (D := Rfld) (1/1000)%R 1%R 1%R)) zero3 zero3 (0%R : car Rfld).
Definition switch_target : cloud Rfld := mkCloud [rpt 1 10 0; rpt 10.5 0 0] [] [plane_x; plane_x].
Definition switch_source : cloud Rfld := mkCloud [rpt 0 0 0] [] [plane_x].
Definition weight_x : m3 Rfld := diag3 (P3 (D := Rfld) 500%R (1/2)%R (1/2)%R).
Definition at_xyz (x y z : R) : pose Rfld := mkPose id3 (P3 (D := Rfld) x y z).

Lemma plane_x_weight x y z : maha_of (at_xyz x y z) plane_x plane_x = weight_x.
Proof.
  unfold maha_of. replace (b33 (fused_cov (at_xyz x y z) plane_x plane_x)) with (diag3 (P3 (D := Rfld) (1/500)%R 2%R 2%R)).
  - unfold inv3, weight_x, diag3, det3, dot3, cofactors, cof, tr3, mscale3, scale3. cbn. repeat (apply M3_eq || apply P3_eq); cbn; req; field.
  - unfold fused_cov, plane_x, at_xyz, diag3, id3. cbn. repeat (apply M3_eq || apply P3_eq); cbn; req; field.
Qed.
Lemma at_xyz_origin x y z : pose_pt (at_xyz x y z) (rpt 0 0 0) = rpt x y z.
Proof. unfold pose_pt, at_xyz, rpt, id3, diag3, mv3, dot3. cbn. apply V4_eq; req; ring. Qed.

(** A search in this cloud whose first (second) point is the nearer one finds it. *)
Lemma switch_found nn x y z : exact_search (cloud_viewN switch_target) nn ->
  let a := sq_gap (rpt 1 10 0) (rpt x y z) in let b := sq_gap (rpt 10.5 0 0) (rpt x y z) in
  (a < 1000)%R -> (b < 1000)%R -> a <> b ->
  nn (rpt x y z) = Ok (Some (if Rlt_bool a b then (0%N, a : car Rfld) else (1%N, b : car Rfld))).
Proof.
  intros X a b La Lb NE. destruct (X (rpt x y z)) as (o & -> & S). f_equal.
  assert (F : (1000 < nmaxv (n := Rnum))%R).
  { cbn [nmaxv Rnum]. apply Rlt_trans with (bpow radix2 10); [change (bpow radix2 10) with 1024%R; lra|apply bpow_lt; lia]. }
  pose proof (eq_refl : at_point (cloud_viewN switch_target) 0%N = Ok (rpt 1 10 0)) as E0.
  pose proof (eq_refl : at_point (cloud_viewN switch_target) 1%N = Ok (rpt 10.5 0 0)) as E1.
  destruct o as [[i d]|].
  - destruct S as ((p & Ep & M) & _ & p' & Ep' & ->). rewrite Ep in Ep'. injection Ep' as <-.
    pose proof (M _ _ E0) as M0. pose proof (M _ _ E1) as M1. fold a in M0. fold b in M1.
    cbn [cloud_viewN at_point switch_target cl_points] in Ep.
    destruct (N.to_nat i) as [|[|n]] eqn:I0; [| |destruct n; discriminate Ep]; injection Ep as <-.
    + assert (i = 0%N) as -> by lia. fold a in M1 |- *. destruct (Rlt_bool_spec a b); [reflexivity|]. exfalso. lra.
    + assert (i = 1%N) as -> by lia. fold b in M0 |- *. destruct (Rlt_bool_spec a b); [exfalso; lra|reflexivity].
  - exfalso. specialize (S _ _ E0). fold a in S. lra.
Qed.
Lemma switch_linearize nn x y z f i (d : car Rfld) q : nn (rpt x y z) = Ok (Some (i, d)) ->
  at_point (cloud_viewN switch_target) i = Ok q -> at_cov (cloud_viewN switch_target) i = Ok plane_x ->
  linearize nn no_limit (cloud_viewN switch_target) (cloud_view switch_source) GICP (at_xyz x y z) 0 f =
  Ok (mkFactor (Some i) 0 weight_x,
      Some (mkSys (jwj (point_jac (at_xyz x y z) (rpt 0 0 0)) weight_x)
                  (jtr (point_jac (at_xyz x y z) (rpt 0 0 0)) (mv3 weight_x (head (vsub q (rpt x y z)))))
                  (quad weight_x (head (vsub q (rpt x y z)))))).
Proof.
  intros E Ep Ec. unfold linearize. cbn [cloud_view at_point switch_source cl_points]. unfold get at 1. cbn [nth_error bind].
  rewrite at_xyz_origin, E. cbn [bind]. unfold no_limit, null_rejector, linearize_at, residual. rewrite Ep.
  cbn [cloud_view at_point at_cov switch_source cl_points cl_covs]. unfold get. cbn [nth_error bind]. rewrite Ec. cbn [bind].
  rewrite plane_x_weight, at_xyz_origin. reflexivity.
Qed.
(** The first system, its step, and the two weighted distances. *)
Lemma origin_jac x y z : point_jac (at_xyz x y z) (rpt 0 0 0) = Jac mzero3 (mopp3 id3).
Proof.
  unfold point_jac, at_xyz, rpt. cbn [rot head]. apply Jac_eq; [|reflexivity].
  unfold mm3, skew, head, id3, diag3, dot3, mzero3, zero3. cbn. repeat (apply M3_eq || apply P3_eq); cbn; req; ring.
Qed.
Definition damp : R := 19.5%R.
Definition switch_step : v6 Rfld := P6 zero3 (P3 (D := Rfld) (1000/1039)%R (1/4)%R 0%R).
Lemma switch_solution : mv6 (damped (jwj (Jac mzero3 (mopp3 id3)) weight_x) (damp : car Rfld)) switch_step =
  opp6 (jtr (Jac mzero3 (mopp3 id3)) (mv3 weight_x (head (vsub (rpt 1 10 0) (rpt 0 0 0))))).
Proof.
  unfold switch_step, weight_x, rpt, damp. cbn. repeat (apply P6_eq || apply P3_eq); cbn; req; lra.
Qed.
Lemma switch_psd : psd6 (jwj (Jac mzero3 (mopp3 id3)) weight_x).
Proof.
  apply psd6_jwj. intros u. destruct u as [a b c]. rcar. unfold weight_x, diag3, mv3, dot3. cbn.
  pose proof (Rle_0_sqr a). pose proof (Rle_0_sqr b). pose proof (Rle_0_sqr c). unfold Rsqr in *. nra.
Qed.
Definition switch_settings : lm_settings Rfld := mkLM 1 1 (damp : car Rfld) (10%R : car Rfld).

Theorem C59_gicp_refuted : forall nn solve crit, exact_search (cloud_viewN switch_target) nn -> solves6 solve ->
  exists r log fs0 s0 fs1 s1,
    levenberg_marquardt (reg_lin Rfld nn no_limit (cloud_viewN switch_target) (cloud_view switch_source) GICP)
      (reg_err Rfld (cloud_viewN switch_target) (cloud_view switch_source) GICP) null_factor solve se3_exp inlier crit switch_settings
      pose_id (initial_factors 1) = Ok (r, log) /\
    reg_lin Rfld nn no_limit (cloud_viewN switch_target) (cloud_view switch_source) GICP pose_id (initial_factors 1) = Ok (fs0, s0) /\
    reg_lin Rfld nn no_limit (cloud_viewN switch_target) (cloud_view switch_source) GICP (r_T r) (initial_factors 1) = Ok (fs1, s1) /\
    (r_error r < 30)%R /\ se s0 = 275%R /\ (20000 < se s1)%R.
Proof.
  intros nn solve crit X SV.
  set (LIN := reg_lin Rfld nn no_limit (cloud_viewN switch_target) (cloud_view switch_source) GICP).
  assert (ONE : forall T f0 f1 s, linearize nn no_limit (cloud_viewN switch_target) (cloud_view switch_source) GICP T 0 f0 = Ok (f1, Some s) ->
    LIN T [f0] = Ok ([f1], sys_add sys_zero s)).
  { intros T f0 f1 s E. unfold LIN, reg_lin, serial. cbn [length seq foldM visit]. unfold get. cbn [nth_error bind]. rewrite E. cbn [bind].
    unfold set. cbn [length Nat.ltb Nat.leb upd bind]. reflexivity. }
  change (@pose_id Rfld) with (at_xyz 0 0 0).
  assert (N0 : nn (rpt 0 0 0) = Ok (Some (0%N, sq_gap (rpt 1 10 0) (rpt 0 0 0) : car Rfld))).
  { rewrite (switch_found nn 0 0 0 X); unfold sq_gap, rpt; cbn [vx vy vz vw]; try lra. rewrite Rlt_bool_true by lra. reflexivity. }
  pose proof (switch_linearize nn 0 0 0 factor_init 0%N _ (rpt 1 10 0) N0 eq_refl eq_refl) as L0. rewrite origin_jac in L0.
  pose proof (ONE _ _ _ _ L0) as R0.
  set (T1 := at_xyz (1000/1039) (1/4) 0).
  assert (N1 : nn (rpt (1000/1039) (1/4) 0) = Ok (Some (1%N, sq_gap (rpt 10.5 0 0) (rpt (1000/1039) (1/4) 0) : car Rfld))).
  { rewrite (switch_found nn _ _ _ X); unfold sq_gap, rpt; cbn [vx vy vz vw]; try lra. rewrite Rlt_bool_false by lra. reflexivity. }
  pose proof (switch_linearize nn _ _ _ factor_init 1%N _ (rpt 10.5 0 0) N1 eq_refl eq_refl) as L1. pose proof (ONE _ _ _ _ L1) as R1.
  set (s0 := mkSys (jwj (Jac mzero3 (mopp3 id3)) weight_x) (jtr (Jac mzero3 (mopp3 id3)) (mv3 weight_x (head (vsub (rpt 1 10 0) (rpt 0 0 0)))))
    (quad weight_x (head (vsub (rpt 1 10 0) (rpt 0 0 0))))) in *.
  assert (Z0 : sys_add sys_zero s0 = s0).
  { unfold s0, sys_add, sys_zero. cbn [sH sb se]. f_equal; [| |exact (Rplus_0_l _)].
    - unfold weight_x. cbn. repeat (apply M6_eq || apply M3_eq || apply P3_eq); cbn; req; ring.
    - unfold weight_x, rpt. cbn. repeat (apply P6_eq || apply P3_eq); cbn; req; ring. }
  rewrite Z0 in R0.
  assert (ST : solve (damped (sH s0) (damp : car Rfld)) (opp6 (sb s0)) = switch_step).
  { assert (P : spd6 (damped (sH s0) (damp : car Rfld))) by (apply damped_spd; [exact switch_psd|unfold damp; lra]).
    apply (spd6_inj _ _ _ P). rewrite SV; [|apply damped_sym; cbn [sH s0]; apply sym6_jwj|exact P].
    - symmetry. exact switch_solution.
    - reflexivity. }
  assert (MV : pose_mul (at_xyz 0 0 0) (se3_exp switch_step) = T1).
  { unfold switch_step. rewrite se3_zero. unfold pose_mul, at_xyz, T1. cbn [rot tra]. rewrite mm3_id_l, mv3_id. unfold at_xyz. f_equal.
    unfold add3. cbn. repeat apply P3_eq; req; ring. }
  set (e1 := quad weight_x (head (vsub (rpt 1 10 0) (rpt (1000/1039) (1/4) 0))) : R).
  assert (ER : reg_err Rfld (cloud_viewN switch_target) (cloud_view switch_source) GICP T1 [mkFactor (Some 0%N) 0 weight_x] = Ok (0 + e1 : car Rfld)%R).
  { unfold reg_err, serial_error. cbn [foldM]. unfold error. cbn [f_target f_source f_maha]. unfold residual.
    cbn [cloud_viewN cloud_view at_point switch_target switch_source cl_points N.to_nat]. unfold get. cbn [nth_error bind].
    unfold T1. rewrite at_xyz_origin. reflexivity. }
  assert (V0 : se s0 = 275%R) by (unfold s0, quad, weight_x, rpt; cbn; req; lra).
  assert (V1 : (e1 < 30)%R) by (unfold e1, quad, weight_x, rpt; cbn; lra).
  assert (V2 : (20000 < quad weight_x (head (vsub (rpt 10.5 0 0) (rpt (1000/1039) (1/4) 0))) : Prop)%R) by (unfold quad, weight_x, rpt; cbn; lra).
  exists (mkResult T1 (converged crit switch_step) 0 1 (sH s0) (sb s0) (0 + e1 : car Rfld)%R).
  eexists. exists [mkFactor (Some 0%N) 0 weight_x], s0, [mkFactor (Some 1%N) 0 weight_x].
  eexists. split; [|split; [exact R0|split; [exact R1|]]].
  - unfold levenberg_marquardt. change (Z.to_nat (lm_max_iterations switch_settings)) with 1. cbn [lm_loop result_init r_converged r_T].
    change (initial_factors 1) with [factor_init (D := Rfld)]. fold LIN. rewrite R0. cbn [bind]. change (upd_sys null_factor (at_xyz 0 0 0) s0) with s0. cbv zeta.
    change (Z.to_nat (lm_max_inner switch_settings)) with 1. cbn [lm_inner]. change (lm_init_lambda switch_settings) with (damp : car Rfld).
    rewrite ST, MV, ER. cbn [bind]. change (upd_err null_factor T1 (se s0)) with (se s0). rewrite V0.
    change (nle (n := Rfld) (0 + e1)%R 275%R) with (Rle_bool (0 + e1) 275). rewrite Rle_bool_true by lra. cbn [bind i_step i_e i_lambda lm_loop].
    destruct (converged crit switch_step); cbn [bind]; reflexivity.
  - cbn [r_error r_T se sys_add sys_zero]. split; [lra|]. split; [exact V0|]. cbn [sys_add sys_zero se]. change (@nadd (fbase Rfld)) with Rplus. change (nzero (n := fbase Rfld)) with 0%R. lra.
Qed.

(** * Non-vacuity *)
Lemma switch_searchable : exists nn, exact_search (cloud_viewN switch_target) nn.
Proof.
  destruct (searchable switch_target) as (tree & B); [discriminate|vm_compute; discriminate|].
  exists (real_tree_nn eigen_order (cl_points switch_target) tree).
  exact (real_tree_exact eigen_order move_order_full sort_nth_element sort_nth_element_contract y_axis y_axis_short switch_target 20
    ltac:(vm_compute; discriminate) ltac:(discriminate) ltac:(vm_compute; discriminate) tree B).
Qed.
(** The same clouds with point-to-point factors: a run exists, with the library's exponential
    and a correct solver, and starts 101 away. *)
Example C59_setup : exists nn r log, exact_search (cloud_viewN switch_target) nn /\ solves6 block_solve /\
  levenberg_marquardt (reg_lin Rfld nn no_limit (cloud_viewN switch_target) (cloud_view switch_source) ICP)
    (reg_err Rfld (cloud_viewN switch_target) (cloud_view switch_source) ICP) null_factor block_solve se3_exp inlier
    (mkCriteria (D := Rfld) 1%R 1%R) switch_settings pose_id (initial_factors 1) = Ok (r, log) /\
  misfit (nmaxv (n := Rnum)) (cl_points switch_target) (cl_points switch_source) pose_id = 101%R.
Proof.
  destruct switch_searchable as (nn & X). exists nn.
  assert (N0 : nn (rpt 0 0 0) = Ok (Some (0%N, sq_gap (rpt 1 10 0) (rpt 0 0 0) : car Rfld))).
  { rewrite (switch_found nn 0 0 0 X); unfold sq_gap, rpt; cbn [vx vy vz vw]; try lra. rewrite Rlt_bool_true by lra. reflexivity. }
  assert (L0 : exists f s, reg_lin Rfld nn no_limit (cloud_viewN switch_target) (cloud_view switch_source) ICP pose_id (initial_factors 1) = Ok ([f], s) /\
    f_target f = Some 0%N /\ f_source f = 0).
  { unfold reg_lin, serial, initial_factors. cbn [repeat length seq foldM visit]. unfold get at 1. cbn [nth_error bind].
    unfold linearize. cbn [cloud_view at_point switch_source cl_points]. unfold get at 1. cbn [nth_error bind].
    change (@pose_id Rfld) with (at_xyz 0 0 0). rewrite at_xyz_origin, N0. cbn [bind].
    unfold no_limit, null_rejector, linearize_at, residual, get. cbn [at_point cloud_viewN cloud_view switch_target switch_source cl_points N.to_nat nth_error bind].
    unfold set. cbn [length Nat.ltb Nat.leb upd bind foldM]. do 2 eexists. split; [reflexivity|]. auto. }
  destruct L0 as (f & s & L0 & F1 & F2).
  assert (ER : forall T, exists e, reg_err Rfld (cloud_viewN switch_target) (cloud_view switch_source) ICP T [f] = Ok e).
  { intros T. unfold reg_err, serial_error. cbn [foldM]. unfold error. rewrite F1, F2. unfold residual.
    cbn [cloud_viewN cloud_view at_point switch_target switch_source cl_points N.to_nat]. unfold get. cbn [nth_error bind]. eauto. }
  assert (RUN : exists r log, levenberg_marquardt (reg_lin Rfld nn no_limit (cloud_viewN switch_target) (cloud_view switch_source) ICP)
    (reg_err Rfld (cloud_viewN switch_target) (cloud_view switch_source) ICP) null_factor block_solve se3_exp inlier
    (mkCriteria (D := Rfld) 1%R 1%R) switch_settings pose_id (initial_factors 1) = Ok (r, log)).
  { unfold levenberg_marquardt. change (Z.to_nat (lm_max_iterations switch_settings)) with 1. cbn [lm_loop result_init r_converged r_T].
    rewrite L0. cbn [bind]. cbv zeta. change (Z.to_nat (lm_max_inner switch_settings)) with 1. cbn [lm_inner]. cbv zeta.
    match goal with |- context [reg_err _ _ _ _ ?T [f]] => destruct (ER T) as (e & ->) end. cbn [bind].
    match goal with |- context [if nle ?a ?b then _ else _] => destruct (nle a b) end; cbn [bind i_step lm_loop]; eauto. }
  destruct RUN as (r & log & RUN). exists r, log. split; [exact X|]. split; [exact block_solve_correct|]. split; [exact RUN|].
  change (@pose_id Rfld) with (at_xyz 0 0 0). unfold misfit, switch_source. cbn [cl_points fold_right]. rewrite at_xyz_origin. unfold capped, switch_target.
  cbn [cl_points fold_right]. unfold sq_gap, rpt. cbn [vx vy vz vw].
  assert (F : (1000 < nmaxv (n := Rnum))%R).
  { cbn [nmaxv Rnum]. apply Rlt_trans with (bpow radix2 10); [change (bpow radix2 10) with 1024%R; lra|apply bpow_lt; lia]. }
  rewrite (Rmin_left _ (nmaxv (n := Rnum))) by lra. rewrite Rmin_left by lra. lra.
Qed.

Print Assumptions C59_icp_never_worse.
Print Assumptions C59_icp_descends.
Print Assumptions C59_kdtree.
Print Assumptions C59_gicp_refuted.
Print Assumptions C59_setup.
