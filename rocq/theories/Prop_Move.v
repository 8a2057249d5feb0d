(** C58: registration does not depend on the coordinate frame of the target. *)
From Coq Require Import Reals Lra ZArith.
From Flocq Require Import Core.
From Verif Require Import Base BaseProofs Num Vec RNum Lin LinSpec LinProofs FactorModel FactorProofs ReduceModel
  KnnModel KdModel KdSpec KdReal NthElement OptModel OptSpec MoveSpec MoveProofs MoveFactor MoveTree.
Open Scope nat_scope.

(** What the theorems ask for: a rigid motion, the moved target, homogeneous points, exact
    searches in the target and in the moved target, a rejector and a general factor that do not
    look at the pose, a factor other than PlaneICP. *)
Record same_problem (G : pose Rfld) (target target' : view Rfld N) (source : view Rfld nat)
    (nn nn' : vec4 Rfld -> outcome (option (N * car Rfld))) (reject : pose Rfld -> N -> nat -> car Rfld -> bool)
    (g : general Rfld) (k : kind) : Prop := {
  sp_rigid : rotation (rot G);
  sp_moved : moved_view G target target';
  sp_target : homogeneous_view target;
  sp_source : homogeneous_view source;
  sp_search : exact_search target nn;
  sp_search' : exact_search target' nn';
  sp_reject : forall T ti si d, reject (pose_mul G T) ti si d = reject T ti si d;
  sp_sys : forall T s, upd_sys g (pose_mul G T) s = upd_sys g T s;
  sp_err : forall T e, upd_err g (pose_mul G T) e = upd_err g T e;
  sp_kind : k <> PlaneICP;
  sp_covs : k = GICP -> plain_covs target /\ plain_covs source
}.

(** With a unique nearest point for every transformed source point at the poses where the run
    linearised: the run against the moved target, started from the moved pose, takes the same
    steps and returns the moved pose, the same H, b and error, and the same counts. *)
Theorem C58_gauss_newton : forall G target target' source nn nn' reject g k solve exp6 crit lambda n T size r log,
  same_problem G target target' source nn nn' reject g k ->
  gauss_newton (reg_lin Rfld nn reject target source k) g solve exp6 inlier crit lambda n T (initial_factors size) = Ok (r, log) ->
  (forall T', linearized_at log T' -> untied target source T') ->
  exists log', gauss_newton (reg_lin Rfld nn' reject target' source k) g solve exp6 inlier crit lambda n (pose_mul G T)
    (initial_factors size) = Ok (moved_result G r, log').
Proof.
  intros G target target' source nn nn' reject g k solve exp6 crit lambda n T size r log P H U.
  eapply gauss_newton_moved with (Rel := Forall2 (turned G)) (good := untied target source); try exact H; auto; try apply P.
  - intros T0 fs fs1 s fs' V E R. eapply serial_related; [|exact E|exact R].
    intros i f f1 r0 f' El Rf. eapply linearize_moved; eauto; apply P.
  - apply count_related. intros f f'. apply turned_inlier.
  - apply turned_initial.
Qed.
Theorem C58_levenberg_marquardt : forall G target target' source nn nn' reject g k solve exp6 crit c T size r log,
  same_problem G target target' source nn nn' reject g k ->
  levenberg_marquardt (reg_lin Rfld nn reject target source k) (reg_err Rfld target source k) g solve exp6 inlier crit c T
    (initial_factors size) = Ok (r, log) ->
  (forall T', linearized_at log T' -> untied target source T') ->
  exists log', levenberg_marquardt (reg_lin Rfld nn' reject target' source k) (reg_err Rfld target' source k) g solve exp6 inlier crit c
    (pose_mul G T) (initial_factors size) = Ok (moved_result G r, log').
Proof.
  intros G target target' source nn nn' reject g k solve exp6 crit c T size r log P H U.
  eapply levenberg_moved with (Rel := Forall2 (turned G)) (good := untied target source); try exact H; auto; try apply P.
  - intros T0 fs fs1 s fs' V E R. eapply serial_related; [|exact E|exact R].
    intros i f f1 r0 f' El Rf. eapply linearize_moved; eauto; apply P.
  - intros T0 fs e fs' E R. eapply serial_error_related; [|exact E|exact R].
    intros f f' e0 Ee Rf. eapply error_moved; eauto; apply P.
  - apply count_related. intros f f'. apply turned_inlier.
  - apply turned_initial.
Qed.
(** The same with a robust kernel. *)
Theorem C58_robust : forall G target target' source nn nn' reject g k weight solve exp6 crit c T size r log,
  same_problem G target target' source nn nn' reject g k ->
  levenberg_marquardt (reg_lin_robust Rfld nn reject target source weight k) (reg_err_robust Rfld target source weight k)
    g solve exp6 inlier crit c T (initial_factors size) = Ok (r, log) ->
  (forall T', linearized_at log T' -> untied target source T') ->
  exists log', levenberg_marquardt (reg_lin_robust Rfld nn' reject target' source weight k) (reg_err_robust Rfld target' source weight k)
    g solve exp6 inlier crit c (pose_mul G T) (initial_factors size) = Ok (moved_result G r, log').
Proof.
  intros G target target' source nn nn' reject g k weight solve exp6 crit c T size r log P H U.
  eapply levenberg_moved with (Rel := Forall2 (turned G)) (good := untied target source); try exact H; auto; try apply P.
  - intros T0 fs fs1 s fs' V E R. eapply serial_related; [|exact E|exact R].
    intros i f f1 r0 f' El Rf. eapply linearize_robust_moved; eauto; apply P.
  - intros T0 fs e fs' E R. eapply serial_error_related; [|exact E|exact R].
    intros f f' e0 Ee Rf. eapply error_robust_moved; eauto; apply P.
  - apply count_related. intros f f'. apply turned_inlier.
  - apply turned_initial.
Qed.

(** Clouds and kd-trees: the target and the moved target each with a tree of its own, built with
    any split directions of norm at most one. *)
Theorem C58_kdtree : forall order ne find_axis find_axis' leaf leaf' G (target source : cloud Rfld) tree tree' (max_sq : R) k
    solve exp6 crit c T r log,
  full_sum order -> nth_element_contract ne ->
  (forall range : list (vec4 Rnum), range <> [] -> exists n, find_axis range = Ok n /\ short n) ->
  (forall range : list (vec4 Rnum), range <> [] -> exists n, find_axis' range = Ok n /\ short n) ->
  (3 <= size_t_of_int leaf)%N -> (3 <= size_t_of_int leaf')%N ->
  rotation (rot G) -> cl_points target <> [] -> (N.of_nat (length (cl_points target)) <= 4294967295)%N ->
  Forall (fun p : vec4 Rfld => vw p = 1%R) (cl_points target) -> Forall (fun p : vec4 Rfld => vw p = 1%R) (cl_points source) ->
  k <> PlaneICP -> (k = GICP -> Forall plain_cov (cl_covs target) /\ Forall plain_cov (cl_covs source)) ->
  build_tree (normal_apply (D := Rnum)) find_axis ne (cl_points target) leaf = Ok tree ->
  build_tree (normal_apply (D := Rnum)) find_axis' ne (cl_points (moved_cloud G target)) leaf' = Ok tree' ->
  let run cl t T := levenberg_marquardt
    (reg_lin Rfld (real_tree_nn order (cl_points cl) t) (distance_rejector (D := Rfld) max_sq) (cloud_viewN cl) (cloud_view source) k)
    (reg_err Rfld (cloud_viewN cl) (cloud_view source) k) null_factor solve exp6 inlier crit c T (initial_factors (length (cl_points source))) in
  run target tree T = Ok (r, log) ->
  (forall T', linearized_at log T' -> untied (cloud_viewN target) (cloud_view source) T') ->
  exists log', run (moved_cloud G target) tree' (pose_mul G T) = Ok (moved_result G r, log').
Proof.
  intros order ne fa fa' leaf leaf' G target source tree tree' max_sq k solve exp6 crit c T r log FS NE A1 A2 L1 L2 O NZ SM HT HS NP PC B B' run H U.
  eapply C58_levenberg_marquardt; [|exact H|exact U].
  assert (IN : forall (X : Type) (l : list X) i a P, Forall P l -> get l i = Ok a -> P a).
  { intros X l i a P F E. apply get_Ok in E. apply nth_error_In in E. rewrite Forall_forall in F. auto. }
  split; auto.
  - apply moved_cloud_view.
  - intros i p E. eapply IN in E; [|exact HT]. exact E.
  - intros i p E. eapply IN in E; [|exact HS]. exact E.
  - apply (real_tree_exact order FS ne NE fa A1 target leaf L1 NZ SM tree B).
  - apply (real_tree_exact order FS ne NE fa' A2 (moved_cloud G target) leaf' L2); auto.
    + cbn [moved_cloud cl_points]. destruct (cl_points target); [congruence|discriminate].
    + cbn [moved_cloud cl_points]. rewrite map_length. exact SM.
  - intros K. destruct (PC K) as (P1 & P2). split; intros i x E; (eapply IN in E; [|eassumption]); exact E.
Qed.

(** * PlaneICP depends on the frame *)
(** One source point at (1, 1, 0), one target point at the origin with normal (3/5, 4/5, 0),
    and the rotation that takes this normal to the x axis.  PlaneICPFactor multiplies normal
    and residual component by component, so the error of the same alignment differs. *)
Definition rpt (x y z : R) : vec4 Rfld := V4 (D := Rfld) x y z 1%R.
Definition slanted : cloud Rfld := mkCloud [rpt 0 0 0] [V4 (D := Rfld) (3/5)%R (4/5)%R 0%R 0%R] [].
Definition straightening : pose Rfld :=
  mkPose (M3 (P3 (D := Rfld) (3/5)%R (4/5)%R 0%R) (P3 (D := Rfld) (-4/5)%R (3/5)%R 0%R) (P3 (D := Rfld) 0%R 0%R 1%R)) zero3.
Definition one_source : cloud Rfld := mkCloud [rpt 1 1 0] [] [].

Lemma straightening_rigid : rotation (rot straightening).
Proof.
  split; unfold straightening; cbn [rot].
  - unfold mm3, id3, diag3, dot3, tr3. cbn. repeat (apply M3_eq || apply P3_eq); req; lra.
  - unfold det3, dot3, cofactors, cof. cbn. req. lra.
Qed.
Lemma far_away : (4 < nmaxv (n := Rnum))%R.
Proof. cbn [nmaxv Rnum]. change 4%R with (bpow radix2 2). apply bpow_lt. lia. Qed.
(** An exact search in a cloud of one point finds that point, if it is not too far. *)
Lemma single_found (c : cloud Rfld) p nn q : cl_points c = [p] -> exact_search (cloud_viewN c) nn -> (sq_gap p q <= 4)%R ->
  nn q = Ok (Some (0%N, sq_gap p q : car Rfld)).
Proof.
  intros E X L. destruct (X q) as (o & -> & S). f_equal.
  assert (P0 : at_point (cloud_viewN c) 0%N = Ok p) by (cbn [cloud_viewN at_point]; rewrite E; reflexivity).
  destruct o as [[i d]|].
  - destruct S as (_ & _ & p' & E' & ->). cbn [cloud_viewN at_point] in E'. rewrite E in E'.
    destruct (N.to_nat i) as [|n] eqn:I0; [|destruct n; discriminate E']. assert (i = 0%N) as -> by lia. injection E' as <-. reflexivity.
  - pose proof (S _ _ P0). pose proof far_away. exfalso. lra.
Qed.
Definition no_limit : pose Rfld -> N -> nat -> car Rfld -> bool := null_rejector (D := Rfld).
Lemma one_step_error nn (target source : cloud Rfld) k solve exp6 crit lambda f0 f1 s :
  linearize nn no_limit (cloud_viewN target) (cloud_view source) k f0 0 factor_init = Ok (f1, Some s) -> (* the only factor *)
  exists r log, gauss_newton (reg_lin Rfld nn no_limit (cloud_viewN target) (cloud_view source) k) null_factor solve exp6 inlier crit lambda 1 f0
    (initial_factors 1) = Ok (r, log) /\ r_error r = (0 + se s)%R.
Proof.
  intros E. unfold gauss_newton. change (Z.to_nat 1) with 1. cbn [gn_loop result_init r_converged r_T].
  unfold reg_lin at 1, serial, initial_factors. cbn [repeat length seq foldM visit].
  unfold get. cbn [nth_error bind]. rewrite E. cbn [bind]. unfold set. cbn [length Nat.ltb Nat.leb upd bind foldM].
  do 2 eexists. split; [reflexivity|]. reflexivity.
Qed.
Theorem C58_plane_refuted : forall nn nn' solve exp6 crit lambda,
  exact_search (cloud_viewN slanted) nn -> exact_search (cloud_viewN (moved_cloud straightening slanted)) nn' ->
  exists r log r' log',
    gauss_newton (reg_lin Rfld nn no_limit (cloud_viewN slanted) (cloud_view one_source) PlaneICP) null_factor solve exp6 inlier crit
      lambda 1 pose_id (initial_factors 1) = Ok (r, log) /\
    gauss_newton (reg_lin Rfld nn' no_limit (cloud_viewN (moved_cloud straightening slanted)) (cloud_view one_source) PlaneICP) null_factor
      solve exp6 inlier crit lambda 1 (pose_mul straightening pose_id) (initial_factors 1) = Ok (r', log') /\
    r_error r = (1/2)%R /\ r_error r' = (49/50)%R.
Proof.
  intros nn nn' solve exp6 crit lambda X X'.
  assert (E1 : exists f1 s, linearize nn no_limit (cloud_viewN slanted) (cloud_view one_source) PlaneICP pose_id 0 factor_init = Ok (f1, Some s) /\
    se s = (1/2)%R).
  { unfold linearize. cbn [cloud_view at_point one_source cl_points get nth_error bind].
    rewrite (single_found slanted (rpt 0 0 0) nn _ eq_refl X).
    2:{ unfold sq_gap, pose_pt, pose_id, id3, diag3, mv3, dot3, rpt. cbn. lra. }
    cbn [bind]. unfold no_limit, null_rejector, linearize_at, residual, get. cbn. do 2 eexists. split; [reflexivity|]. cbn. req. lra. }
  assert (E2 : exists f1 s, linearize nn' no_limit (cloud_viewN (moved_cloud straightening slanted)) (cloud_view one_source) PlaneICP
    (pose_mul straightening pose_id) 0 factor_init = Ok (f1, Some s) /\ se s = (49/50)%R).
  { unfold linearize. cbn [cloud_view at_point one_source cl_points get nth_error bind].
    rewrite (single_found (moved_cloud straightening slanted) (pose_pt straightening (rpt 0 0 0)) nn' _ eq_refl X').
    2:{ unfold sq_gap, pose_pt, pose_mul, pose_id, straightening, id3, diag3, mv3, mm3, dot3, rpt. cbn. lra. }
    cbn [bind]. unfold no_limit, null_rejector, linearize_at, residual, get. cbn. do 2 eexists. split; [reflexivity|]. cbn. req. lra. }
  destruct E1 as (f1 & s & E1 & S1). destruct E2 as (f1' & s' & E2 & S2).
  destruct (one_step_error nn slanted one_source PlaneICP solve exp6 crit lambda pose_id f1 s E1) as (r & log & R1 & R2).
  destruct (one_step_error nn' _ one_source PlaneICP solve exp6 crit lambda _ f1' s' E2) as (r' & log' & R1' & R2').
  exists r, log, r', log'. split; [exact R1|]. split; [exact R1'|]. rewrite R2, R2', S1, S2. split; lra.
Qed.

(** * Non-vacuity *)
(** Two target points, one source point, a turned and shifted target, kd-tree searches in both. *)
Definition two_targets : cloud Rfld := mkCloud [rpt 0 0 0; rpt 3 0 0] [] [].
Definition shifted : pose Rfld := mkPose (rot straightening) (P3 (D := Rfld) 1%R 2%R 3%R).
Definition y_axis : list (vec4 Rnum) -> outcome (vec3 Rnum) := fun _ => Ok (V3 (D := Rnum) 0%R 1%R 0%R).
Lemma y_axis_short range : range <> [] -> exists n, y_axis range = Ok n /\ short n.
Proof.
  intros _. eexists. split; [reflexivity|]. unfold short; simpl. rewrite !Rmult_0_l, Rmult_1_l, Rplus_0_l, Rplus_0_r. apply Rle_refl.
Qed.
Lemma move_order_full : full_sum eigen_order.
Proof. unfold full_sum, eigen_order; simpl. constructor. apply perm_swap. Qed.
Lemma searchable (c : cloud Rfld) : cl_points c <> [] -> (N.of_nat (length (cl_points c)) <= 4294967295)%N ->
  exists tree, build_tree (normal_apply (D := Rnum)) y_axis sort_nth_element (cl_points c) 20 = Ok tree.
Proof.
  intros NZ SM.
  destruct (KdThms.kd_normal_real eigen_order move_order_full sort_nth_element sort_nth_element_contract y_axis y_axis_short (cl_points c) 20
    (rpt 0 0 0) NZ ltac:(vm_compute; discriminate) SM) as (tree & _ & B & _). eauto.
Qed.
Lemma two_nearest (i : N) : nearest_at (cloud_viewN two_targets) (pose_pt pose_id (rpt 1 1 0)) i -> i = 0%N.
Proof.
  intros (p & E & M). specialize (M 0%N (rpt 0 0 0) eq_refl). cbn [cloud_viewN at_point two_targets cl_points] in E.
  destruct (N.to_nat i) as [|[|n]] eqn:I0; [lia| |destruct n; discriminate E]. injection E as <-. exfalso.
  revert M. unfold sq_gap, pose_pt, pose_id, id3, diag3, mv3, dot3, rpt. cbn. lra.
Qed.
Example C58_setup : exists nn nn' r log,
  same_problem shifted (cloud_viewN two_targets) (cloud_viewN (moved_cloud shifted two_targets)) (cloud_view one_source) nn nn' no_limit null_factor ICP /\
  gauss_newton (reg_lin Rfld nn no_limit (cloud_viewN two_targets) (cloud_view one_source) ICP) null_factor (fun _ b => b)
    (fun d => mkPose id3 (tv d)) inlier (mkCriteria (D := Rfld) 1%R 1%R) 0%R 1 pose_id (initial_factors 1) = Ok (r, log) /\
  (forall T, linearized_at log T -> untied (cloud_viewN two_targets) (cloud_view one_source) T) /\ r_error r = 1%R /\ r_inliers r = 1.
Proof.
  destruct (searchable two_targets) as (tree & B); [discriminate|vm_compute; discriminate|].
  destruct (searchable (moved_cloud shifted two_targets)) as (tree' & B'); [discriminate|vm_compute; discriminate|].
  pose proof (real_tree_exact eigen_order move_order_full sort_nth_element sort_nth_element_contract y_axis y_axis_short two_targets 20
    ltac:(vm_compute; discriminate) ltac:(discriminate) ltac:(vm_compute; discriminate) tree B) as X.
  pose proof (real_tree_exact eigen_order move_order_full sort_nth_element sort_nth_element_contract y_axis y_axis_short (moved_cloud shifted two_targets) 20
    ltac:(vm_compute; discriminate) ltac:(discriminate) ltac:(vm_compute; discriminate) tree' B') as X'.
  exists (real_tree_nn eigen_order (cl_points two_targets) tree), (real_tree_nn eigen_order (cl_points (moved_cloud shifted two_targets)) tree').
  set (nn := real_tree_nn eigen_order (cl_points two_targets) tree) in *. set (nn' := real_tree_nn _ _ tree') in *. clearbody nn nn'.
  assert (E : nn (pose_pt pose_id (rpt 1 1 0)) = Ok (Some (0%N, sq_gap (rpt 0 0 0) (pose_pt pose_id (rpt 1 1 0)) : car Rfld))).
  { destruct (X (pose_pt pose_id (rpt 1 1 0))) as (o & -> & S). f_equal. destruct o as [[i d]|].
    - destruct S as (N1 & _ & p & Ep & ->). apply two_nearest in N1 as ->. injection Ep as <-. reflexivity.
    - specialize (S 0%N _ eq_refl). pose proof far_away. exfalso. revert S. unfold sq_gap, pose_pt, pose_id, id3, diag3, mv3, dot3, rpt. cbn [vx vy vz vw]. cbn. cbn in *. lra. }
  eexists _, _. split; [|split; [|split; [|split]]].
  - split; auto; try discriminate.
    + apply straightening_rigid.
    + apply moved_cloud_view.
    + intros i p Ei. cbn [cloud_viewN at_point two_targets cl_points] in Ei. destruct (N.to_nat i) as [|[|n]]; [| |destruct n; discriminate Ei]; injection Ei as <-; reflexivity.
    + intros i p Ei. cbn [cloud_view at_point one_source cl_points] in Ei. destruct i as [|n]; [|destruct n; discriminate Ei]; injection Ei as <-; reflexivity.
  - unfold gauss_newton. change (Z.to_nat 1) with 1. cbn [gn_loop result_init r_converged r_T].
    unfold reg_lin at 1, serial, initial_factors. cbn [repeat length seq foldM visit]. unfold get at 1. cbn [nth_error bind].
    unfold linearize. cbn [cloud_view at_point one_source cl_points]. unfold get at 1. cbn [nth_error bind]. rewrite E. cbn [bind].
    unfold no_limit, null_rejector, linearize_at, residual, get. cbn [at_point at_normal at_cov cloud_viewN cloud_view two_targets one_source cl_points N.to_nat nth_error bind].
    unfold set. cbn [length Nat.ltb Nat.leb upd bind foldM fst snd]. reflexivity.
  - intros T (fs & s & I0). cbn [In] in I0. destruct I0 as [I0|[I0|[]]]; [|discriminate]. injection I0 as <- _ _.
    intros i p Ei. cbn [cloud_view at_point one_source cl_points] in Ei. destruct i as [|n]; [|destruct n; discriminate Ei]. injection Ei as <-.
    intros a b Na Nb. rewrite (two_nearest a Na), (two_nearest b Nb). reflexivity.
  - cbn. req. lra.
  - reflexivity.
Qed.

Print Assumptions C58_gauss_newton.
Print Assumptions C58_levenberg_marquardt.
Print Assumptions C58_robust.
Print Assumptions C58_kdtree.
Print Assumptions C58_plane_refuted.
Print Assumptions C58_setup.
