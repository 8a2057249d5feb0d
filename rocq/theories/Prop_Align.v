(** C60: a start that is already an exact alignment is kept. *)
From Coq Require Import Reals Lra ZArith List.
From Flocq Require Import Core.
From Verif Require Import Base BaseProofs Num Vec RNum Lin LinSpec LinProofs FactorModel FactorSpec FactorProofs FactorReal ReduceModel
  KnnModel KdModel KdSpec KdReal NthElement OptModel OptSpec LieModel StepProofs MoveSpec MoveProofs MoveFactor MoveTree FitSpec FitProofs
  AlignSpec AlignProofs Prop_Lie Prop_Factor Prop_Move Prop_Fit.
Open Scope nat_scope.

(** What the theorems ask for: an exact search in the target, a rejector by distance with a
    nonnegative limit, the attributes the factor reads, homogeneous source points, a general
    factor of the library, a correct solver, nonnegative thresholds. *)
Record aligned_problem (target source : cloud Rfld) nn (limit : R) reject (g : general Rfld) (k : kind) solve (crit : criteria Rfld) (T : pose Rfld) : Prop := {
  ap_search : exact_search (cloud_viewN target) nn;
  ap_reject : rejects_beyond limit reject;
  ap_limit : (0 <= limit)%R;
  ap_general : library_factor g;
  ap_attributes : has_attributes k target source;
  ap_source : homogeneous (cloud_view source);
  ap_solve : solves6 solve;
  ap_translation : (0 <= translation_eps crit)%R;
  ap_rotation : (0 <= rotation_eps crit)%R;
  ap_lands : lands_on target source T
}.

Lemma aligned_parts target source nn limit reject g k solve crit T : aligned_problem target source nn limit reject g k solve crit T ->
  forall i f, i < length (cl_points source) ->
  exists f' s, linearize nn reject (cloud_viewN target) (cloud_view source) k T i f = Ok (f', Some s) /\ still s /\ inlier f' = true /\
    sym6 (sH s) /\ psd6 (sH s) /\ error (cloud_viewN target) (cloud_view source) k T f' = Ok (0%R : car Rfld).
Proof.
  intros P i f Hi. destruct (aligned_factor target source nn (ap_search _ _ _ _ _ _ _ _ _ _ P) limit reject (ap_reject _ _ _ _ _ _ _ _ _ _ P)
    (ap_limit _ _ _ _ _ _ _ _ _ _ P) k (ap_attributes _ _ _ _ _ _ _ _ _ _ P) T (ap_lands _ _ _ _ _ _ _ _ _ _ P) i f Hi) as (f' & s & E & B & Z).
  exists f', s. split; [exact E|]. split; [split; assumption|].
  destruct (error_after_linearize _ _ _ _ _ _ _ _ _ _ _ E) as (Er & I). split; [exact I|].
  destruct (C29_factor nn reject (cloud_viewN target) (cloud_view source) k (ap_source _ _ _ _ _ _ _ _ _ _ P)
    ltac:(intros ->; apply (ap_attributes _ _ _ _ _ _ _ _ _ _ P)) T i f f' s E) as (Sy & Pd & _).
  split; [exact Sy|]. split; [exact Pd|]. rewrite Er, Z. reflexivity.
Qed.
Lemma errors_once (lin1 : nat -> factor Rfld -> outcome (factor Rfld * option (sys Rfld))) (err1 : factor Rfld -> outcome R) fs fs' s :
  serial sys_zero sys_add lin1 fs = Ok (fs', s) ->
  (forall i f f' r, i < length fs -> lin1 i f = Ok (f', r) -> err1 f' = Ok 0%R) -> Forall (fun f => err1 f = Ok 0%R) fs'.
Proof.
  intros E H. destruct (ReduceProofs.serial_fold _ _ _ _ _ _ _ _ E) as (rs & (L1 & L2 & L3) & _). apply Forall_forall. intros f' I.
  apply In_nth_error in I. destruct I as (i & Ei). assert (Hi : i < length fs) by (rewrite <- L1; apply nth_error_Some; congruence).
  destruct (nth_error fs i) as [f|] eqn:Ef; [|apply nth_error_None in Ef; lia].
  destruct (L3 _ _ Ef) as (f1 & r & El & Ef1 & _). rewrite Ei in Ef1. injection Ef1 as <-. eauto.
Qed.

(** Every factor kind, every optimizer setting with at least one iteration and positive
    damping: the run returns the start pose exactly, converged in the first iteration, with
    every point an inlier, b zero and error zero. *)
Theorem C60_levenberg_marquardt : forall target source nn limit reject g k solve crit (c : lm_settings Rfld) T,
  aligned_problem target source nn limit reject g k solve crit T ->
  (0 < lm_init_lambda c)%R -> (0 < lm_max_iterations c)%Z -> (0 < lm_max_inner c)%Z ->
  let n := length (cl_points source) in
  exists r log, levenberg_marquardt (reg_lin Rfld nn reject (cloud_viewN target) (cloud_view source) k)
    (reg_err Rfld (cloud_viewN target) (cloud_view source) k) g solve se3_exp inlier crit c T (initial_factors n) = Ok (r, log) /\ kept T n r.
Proof.
  intros target source nn limit reject g k solve crit c T P L N1 N2 n.
  pose proof (aligned_parts _ _ _ _ _ _ _ _ _ _ P) as A.
  destruct (still_system (linearize nn reject (cloud_viewN target) (cloud_view source) k T) (initial_factors n)) as (fs' & s & E & St & Ln & IN & Sy & Pd).
  { intros i f Hi. unfold initial_factors in Hi. rewrite repeat_length in Hi. destruct (A i f Hi) as (f' & s & H1 & H2 & H3 & H4 & H5 & _). exists f', s. auto 10. }
  unfold initial_factors in Ln. rewrite repeat_length in Ln. enough (K : exists r log, levenberg_marquardt _ _ g solve se3_exp inlier crit c T (initial_factors n) = Ok (r, log) /\ kept T (length fs') r) by (rewrite Ln in K; exact K).
  eapply lm_kept; eauto; try apply P.
  apply still_errors. eapply errors_once; [exact E|]. intros i f f' r Hi El. unfold initial_factors in Hi. rewrite repeat_length in Hi.
  destruct (A i f Hi) as (f1 & s1 & H1 & H2 & H3 & H4 & H5 & H6). rewrite El in H1. injection H1 as -> ->. exact H6.
Qed.
Theorem C60_gauss_newton : forall target source nn limit reject g k solve crit (lambda : R) m T,
  aligned_problem target source nn limit reject g k solve crit T -> (0 < lambda)%R -> (0 < m)%Z ->
  let n := length (cl_points source) in
  exists r log, gauss_newton (reg_lin Rfld nn reject (cloud_viewN target) (cloud_view source) k) g solve se3_exp inlier crit
    (lambda : car Rfld) m T (initial_factors n) = Ok (r, log) /\ kept T n r.
Proof.
  intros target source nn limit reject g k solve crit lambda m T P L M n.
  pose proof (aligned_parts _ _ _ _ _ _ _ _ _ _ P) as A.
  destruct (still_system (linearize nn reject (cloud_viewN target) (cloud_view source) k T) (initial_factors n)) as (fs' & s & E & St & Ln & IN & Sy & Pd).
  { intros i f Hi. unfold initial_factors in Hi. rewrite repeat_length in Hi. destruct (A i f Hi) as (f' & s & H1 & H2 & H3 & H4 & H5 & _). exists f', s. auto 10. }
  unfold initial_factors in Ln. rewrite repeat_length in Ln. enough (K : exists r log, gauss_newton _ g solve se3_exp inlier crit (lambda : car Rfld) m T (initial_factors n) = Ok (r, log) /\ kept T (length fs') r) by (rewrite Ln in K; exact K).
  eapply gn_kept; eauto; apply P.
Qed.
(** With a robust kernel of nonnegative weight, such as the two of the library. *)
Lemma scale_sym (w : R) (A : m6 Rfld) : sym6 A -> sym6 (mscale6 (w : car Rfld) A).
Proof.
  destruct A as [A1 A2 A3 A4]. unfold sym6, tr6, mscale6. cbn [brr brt btr btt]. intros E. injection E as E1 E2 E3 E4.
  rewrite !tr3_mscale, E1, E2, E3, E4. reflexivity.
Qed.
Lemma scale_psd (w : R) (A : m6 Rfld) : (0 <= w)%R -> psd6 A -> psd6 (mscale6 (w : car Rfld) A).
Proof. intros W P d. rewrite mscale6_quad. apply Rmult_le_pos; [exact W|apply P]. Qed.
Lemma scale6_zero (w : R) : scale6 (w : car Rfld) zero6 = zero6.
Proof. unfold scale6, zero6, scale3, zero3. cbn [rv tv]. assert (Z : P3 (D := Rfld) (w * 0)%R (w * 0)%R (w * 0)%R = P3 (D := Rfld) 0%R 0%R 0%R) by (apply P3_eq; apply Rmult_0_r). f_equal; exact Z. Qed.
Theorem C60_robust : forall target source nn limit reject g k (weight : car Rfld -> car Rfld) solve crit (c : lm_settings Rfld) T,
  aligned_problem target source nn limit reject g k solve crit T -> (0 <= weight 0%R)%R ->
  (0 < lm_init_lambda c)%R -> (0 < lm_max_iterations c)%Z -> (0 < lm_max_inner c)%Z ->
  let n := length (cl_points source) in
  exists r log, levenberg_marquardt (reg_lin_robust Rfld nn reject (cloud_viewN target) (cloud_view source) weight k)
    (reg_err_robust Rfld (cloud_viewN target) (cloud_view source) weight k) g solve se3_exp inlier crit c T (initial_factors n) = Ok (r, log) /\ kept T n r.
Proof.
  intros target source nn limit reject g k weight solve crit c T P W L N1 N2 n.
  pose proof (aligned_parts _ _ _ _ _ _ _ _ _ _ P) as A.
  assert (A' : forall i f, i < length (initial_factors (D := Rfld) n) -> exists f' s,
    linearize_robust nn reject (cloud_viewN target) (cloud_view source) weight k T i f = Ok (f', Some s) /\ still s /\ inlier f' = true /\
    sym6 (sH s) /\ psd6 (sH s) /\ error_robust (cloud_viewN target) (cloud_view source) weight k T f' = Ok (0%R : car Rfld)).
  { intros i f Hi. unfold initial_factors in Hi. rewrite repeat_length in Hi. destruct (A i f Hi) as (f' & s & H1 & [H2 H2'] & H3 & H4 & H5 & H6).
    exists f', (scale_sys (D := Rfld) (weight (fsqrt (f := Rfld) (se s))) s). unfold linearize_robust. rewrite H1. cbn [bind]. split; [reflexivity|].
    assert (Z : fsqrt (f := Rfld) (se s) = 0%R) by (rewrite H2'; apply sqrt_0). rewrite Z.
    split; [split; cbn [scale_sys sb se]; [rewrite H2; apply scale6_zero|rewrite H2'; apply Rmult_0_l]|]. split; [exact H3|].
    cbn [scale_sys sH]. split; [apply scale_sym, H4|]. split; [apply scale_psd; assumption|].
    unfold error_robust. rewrite H6. cbn [bind]. f_equal. apply Rmult_0_r. }
  destruct (still_system (linearize_robust nn reject (cloud_viewN target) (cloud_view source) weight k T) (initial_factors n)) as (fs' & s & E & St & Ln & IN & Sy & Pd).
  { intros i f Hi. destruct (A' i f Hi) as (f' & s & H1 & H2 & H3 & H4 & H5 & _). exists f', s. auto 10. }
  unfold initial_factors in Ln. rewrite repeat_length in Ln. enough (K : exists r log, levenberg_marquardt _ _ g solve se3_exp inlier crit c T (initial_factors n) = Ok (r, log) /\ kept T (length fs') r) by (rewrite Ln in K; exact K).
  eapply lm_kept; eauto; try apply P.
  apply still_errors. eapply errors_once; [exact E|]. intros i f f' r Hi El.
  destruct (A' i f Hi) as (f1 & s1 & H1 & H2 & H3 & H4 & H5 & H6). rewrite El in H1. injection H1 as -> ->. exact H6.
Qed.
Lemma kernels_nonnegative (width : R) : (0 < width)%R -> (0 <= huber (D := Rfld) width 0)%R /\ (0 <= cauchy (D := Rfld) width 0)%R.
Proof.
  intros H. unfold huber, cauchy. split.
  - change (fabs (f := Rfld) 0%R) with (Rabs 0). rewrite Rabs_R0. change (nlt (n := Rfld) 0%R width) with (Rlt_bool 0 width).
    rewrite Rlt_bool_true by exact H. change (fone (f := Rfld)) with 1%R. lra.
  - change (0 <= width / (width + 0 * 0))%R. rewrite Rmult_0_l, Rplus_0_r. apply Rlt_le, Rdiv_lt_0_compat; exact H.
Qed.

(** Conversely, for point-to-point ICP: a run that ends with error zero and every point an
    inlier has found an exact alignment. *)
Lemma capped_nonneg far l q : (0 <= far)%R -> (0 <= capped far l q)%R.
Proof. intros F. apply capped_ge; [exact F|]. intros p _. unfold sq_gap. pose proof (pow2_ge_0 (vx p - vx q)). pose proof (pow2_ge_0 (vy p - vy q)).
  pose proof (pow2_ge_0 (vz p - vz q)). pose proof (pow2_ge_0 (vw p - vw q)). lra. Qed.
Lemma misfit_zero far target l T : (0 < far)%R -> (misfit far target l T <= 0)%R -> forall p, In p l -> In (pose_pt T p) target.
Proof.
  intros F. unfold misfit. induction l as [|p l IH]; cbn [fold_right In]; [tauto|].
  assert (NN : (0 <= fold_right (fun p s => capped far target (pose_pt T p) + s) 0 l)%R).
  { clear IH. induction l as [|x l IH]; cbn [fold_right]; [lra|]. pose proof (capped_nonneg far target (pose_pt T x) (Rlt_le _ _ F)). lra. }
  pose proof (capped_nonneg far target (pose_pt T p) (Rlt_le _ _ F)) as C. intros H q [<-|I]; [|apply IH; [lra|exact I]].
  assert (Z : (capped far target (pose_pt T p) <= 0)%R) by lra. clear - F Z. induction target as [|x l IH]; cbn [capped fold_right] in Z; [lra|].
  destruct (Rle_or_lt (sq_gap x (pose_pt T p)) 0) as [L|L].
  - left. apply gap_zero. exact L.
  - right. apply IH. unfold Rmin in Z. destruct (Rle_dec (sq_gap x (pose_pt T p)) _) in Z; [lra|exact Z].
Qed.
Theorem C60_zero_error_is_alignment : forall (target source : cloud Rfld) nn (limit : R) reject g solve exp6 crit c T r log,
  exact_search (cloud_viewN target) nn -> rejects_beyond limit reject -> (0 < limit)%R -> no_error g -> (0 < lm_max_iterations c)%Z ->
  let n := length (cl_points source) in
  levenberg_marquardt (reg_lin Rfld nn reject (cloud_viewN target) (cloud_view source) ICP)
    (reg_err Rfld (cloud_viewN target) (cloud_view source) ICP) g solve exp6 inlier crit c T (initial_factors n) = Ok (r, log) ->
  r_error r = 0%R -> r_inliers r = n -> lands_on target source (r_T r).
Proof.
  intros target source nn limit reject g solve exp6 crit c T r log X RJ L NE P n H E I.
  destruct (C59_icp_never_worse target source nn limit reject g solve exp6 crit c T r log X RJ NE P H) as [A _].
  fold n in A. rewrite E, I, Nat.sub_diag in A. intros p Ip.
  assert (MX : (0 < nmaxv (n := Rnum))%R) by (cbn [nmaxv Rnum]; apply bpow_gt_0).
  eapply misfit_zero; [|eapply Rle_trans; [exact A|]|exact Ip].
  - apply Rmin_glb_lt; assumption.
  - cbn [INR]. lra.
Qed.

(** A cloud registered onto itself from the identity, with its kd-tree and the distance
    rejector: the identity comes back. *)
Lemma lands_on_itself (c : cloud Rfld) : lands_on c c pose_id.
Proof.
  intros p I. assert (E : pose_pt pose_id p = p); [|rewrite E; exact I]. destruct p as [x y z w].
  unfold pose_pt, pose_id, id3, diag3, mv3, dot3. cbn. apply V4_eq; req; rcar; lra.
Qed.
Theorem C60_itself : forall order ne find_axis leaf (cl : cloud Rfld) tree (max_sq : R) g k solve (crit : criteria Rfld) (c : lm_settings Rfld),
  full_sum order -> nth_element_contract ne ->
  (forall range : list (vec4 Rnum), range <> [] -> exists n, find_axis range = Ok n /\ short n) ->
  (3 <= size_t_of_int leaf)%N -> cl_points cl <> [] -> (N.of_nat (length (cl_points cl)) <= 4294967295)%N ->
  build_tree (normal_apply (D := Rnum)) find_axis ne (cl_points cl) leaf = Ok tree ->
  (0 <= max_sq)%R -> library_factor g -> has_attributes k cl cl -> homogeneous (cloud_view cl) -> solves6 solve ->
  (0 <= translation_eps crit)%R -> (0 <= rotation_eps crit)%R ->
  (0 < lm_init_lambda c)%R -> (0 < lm_max_iterations c)%Z -> (0 < lm_max_inner c)%Z ->
  let n := length (cl_points cl) in
  exists r log, levenberg_marquardt
    (reg_lin Rfld (real_tree_nn order (cl_points cl) tree) (distance_rejector (D := Rfld) max_sq) (cloud_viewN cl) (cloud_view cl) k)
    (reg_err Rfld (cloud_viewN cl) (cloud_view cl) k) g solve se3_exp inlier crit c pose_id (initial_factors n) = Ok (r, log) /\
    kept pose_id n r.
Proof.
  intros order ne fa leaf cl tree max_sq g k solve crit c FS NE A L NZ SM B MX G HA HH SV E1 E2 C1 C2 C3 n.
  apply (C60_levenberg_marquardt cl cl _ max_sq); auto. split; auto.
  - apply (real_tree_exact order FS ne NE fa A cl leaf L NZ SM tree B).
  - apply distance_rejects.
  - apply lands_on_itself.
Qed.

(** * Non-vacuity *)
(** Two target points, a source that is the target moved by (-1, -2, -3), all three kinds. *)
Definition with_all (pts : list (vec4 Rfld)) : cloud Rfld :=
  mkCloud pts (map (fun _ => V4 (D := Rfld) 1%R 0%R 0%R 0%R) pts) (map (fun _ => plane_x) pts).
Definition pair_target : cloud Rfld := with_all [rpt 1 10 0; rpt 10.5 0 0].
Definition pair_source : cloud Rfld := with_all [rpt 0 8 (-3); rpt 9.5 (-2) (-3)].
Definition pair_pose : pose Rfld := at_xyz 1 2 3.
Lemma plane_x_block : block_cov plane_x /\ spd3 (b33 plane_x).
Proof.
  assert (Q : forall u : v3 Rfld, dot3 u (mv3 (b33 plane_x) u) = (p0 u * p0 u / 1000 + p1 u * p1 u + p2 u * p2 u)%R).
  { intros [a b c]. unfold plane_x, diag3. cbn. req. field. }
  split.
  - unfold block_cov. split; [reflexivity|]. split; [reflexivity|]. split; [reflexivity|]. split.
    + unfold sym3, plane_x, diag3, tr3. cbn. reflexivity.
    + intros u. rewrite Q. rcar. pose proof (Rle_0_sqr (p0 u)). pose proof (Rle_0_sqr (p1 u)). pose proof (Rle_0_sqr (p2 u)). unfold Rsqr in *. rcar. lra.
  - intros u N. rewrite Q. rcar. pose proof (Rle_0_sqr (p0 u)) as A. pose proof (Rle_0_sqr (p1 u)) as B. pose proof (Rle_0_sqr (p2 u)) as C.
    destruct (Req_dec (p0 u) 0) as [Z0|Z0]; [|pose proof (Rsqr_pos_lt _ Z0); unfold Rsqr in *; rcar; lra].
    destruct (Req_dec (p1 u) 0) as [Z1|Z1]; [|pose proof (Rsqr_pos_lt _ Z1); unfold Rsqr in *; rcar; lra].
    destruct (Req_dec (p2 u) 0) as [Z2|Z2]; [|pose proof (Rsqr_pos_lt _ Z2); unfold Rsqr in *; rcar; lra].
    exfalso. apply N. destruct u as [a b c]. cbn [p0 p1 p2] in *. rewrite Z0, Z1, Z2. reflexivity.
Qed.
Lemma with_all_attributes k a b : has_attributes k (with_all a) (with_all b).
Proof.
  destruct k; cbn [has_attributes with_all cl_points cl_normals cl_covs]; [exact I|apply map_length|].
  split; [apply map_length|]. split; [apply map_length|].
  assert (IN : forall (l : list (vec4 Rfld)) i c, get (map (fun _ => plane_x) l) i = Ok c -> c = plane_x).
  { intros l i c E. apply get_Ok, nth_error_In, in_map_iff in E. destruct E as (x & <- & _). reflexivity. }
  split; intros i c E; apply IN in E; subst c; apply plane_x_block.
Qed.
Example C60_setup : forall k, exists nn, aligned_problem pair_target pair_source nn (nmaxv (n := Rnum)) no_limit null_factor k block_solve
  (mkCriteria (D := Rfld) 0%R 0%R) pair_pose /\ pair_pose <> pose_id.
Proof.
  intros k. destruct switch_searchable as (nn & X). exists nn. split.
  - split; try (cbn [translation_eps rotation_eps]; lra).
    + exact X.
    + exact null_rejects.
    + pose proof far_away. lra.
    + left. reflexivity.
    + apply with_all_attributes.
    + intros [|[|i]] p H; cbn [cloud_view pair_source with_all cl_points at_point] in H; unfold get in H; cbn [nth_error] in H;
        [injection H as <-; reflexivity|injection H as <-; reflexivity|]. destruct i; discriminate H.
    + exact block_solve_correct.
    + intros p I. cbn [pair_source pair_target with_all cl_points In] in *. destruct I as [<-|[<-|[]]]; [left|right; left];
        unfold pose_pt, pair_pose, at_xyz, rpt, id3, diag3, mv3, dot3; cbn; apply V4_eq; req; lra.
  - intros E. apply (f_equal (fun T => p0 (tra T))) in E. cbn in E. rcar. lra.
Qed.

Print Assumptions C60_levenberg_marquardt.
Print Assumptions C60_gauss_newton.
Print Assumptions C60_robust.
Print Assumptions C60_zero_error_is_alignment.
Print Assumptions C60_itself.
Print Assumptions C60_setup.
