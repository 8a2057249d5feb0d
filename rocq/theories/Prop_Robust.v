(** C35 and C51: robust kernels (include/small_gicp/factors/robust_kernel.hpp). *)
From Coq Require Import Reals Lra Psatz.
From Flocq Require Import Core.
From Coquelicot Require Import Coquelicot.
From Verif Require Import Base BaseProofs Num Vec RNum Lin LinSpec LieSpec LinProofs LieModel LieProofs LieFlow
  FactorModel ReduceModel ReduceSpec ReduceProofs OptModel OptSpec FactorProofs FactorGrad EstReal FactorSpec FactorReal StepProofs RobustProofs.
Open Scope R_scope.

(** ** C35 *)
(** [weight] is a sound robust weight: in (0,1] and not larger for larger residuals. *)
Definition weights_down (weight : R -> R) : Prop :=
  (forall e, 0 < weight e <= 1) /\ (forall a b, Rabs a <= Rabs b -> weight b <= weight a).
Theorem C35_huber_weight : forall c : R, 0 < c -> weights_down (huber (D := Rfld) c) /\
  (forall e : R, Rabs e < c -> huber (D := Rfld) c e = 1).
Proof. intros c C. split; [split; [intros e; apply (hub_range c e C)|intros a b; apply (hub_antitone c a b C)]|intros e; apply hub_in]. Qed.
Theorem C35_cauchy_weight : forall c : R, 0 < c -> weights_down (cauchy (D := Rfld) c).
Proof. intros c C. split; [intros e; apply (cau_range c e C)|intros a b; apply (cau_antitone c a b C)]. Qed.

(** The error a robust factor reports is a function [phi] of the error its inner factor reports;
    phi is non-decreasing, between zero and the raw error, and bounded for Cauchy. *)
Definition robust_error_is (phi : R -> R) (weight : R -> R) : Prop :=
  forall target source k T f (e : R), (k = GICP -> psd3 (f_maha f)) ->
  (error (D := Rfld) target source k T f = Ok e ->
    0 <= e /\ error_robust (D := Rfld) target source weight k T f = Ok (phi e)).
Theorem C35_huber_error : forall c : R, 0 < c -> exists phi, robust_error_is phi (huber (D := Rfld) c) /\
  (forall a b, 0 <= a <= b -> 0 <= phi a <= phi b) /\ (forall e, 0 <= e -> phi e <= e) /\
  (forall e, 0 <= e < c * c -> phi e = e) /\ (forall e, c * c <= e -> phi e = c * sqrt e).
Proof.
  intros c C. exists (rho (hub c)). split; [|split; [|split; [|split]]].
  - intros target source k T f e G H. split; [exact (error_nonneg target source k T f e G H)|]. unfold error_robust. rewrite H. reflexivity.
  - intros a b L. split; [|apply rho_hub_mono; assumption]. unfold rho. pose proof (hub_range c (sqrt a) C). nra.
  - intros e P. apply rho_le; [intros x; apply hub_range, C|exact P].
  - intros e L. apply rho_hub_in; lra.
  - intros e L. apply rho_hub_out; assumption.
Qed.
Theorem C35_cauchy_error : forall c : R, 0 < c -> exists phi, robust_error_is phi (cauchy (D := Rfld) c) /\
  (forall a b, 0 <= a <= b -> 0 <= phi a <= phi b) /\ (forall e, 0 <= e -> phi e <= e /\ phi e < c).
Proof.
  intros c C. exists (rho (cau c)). split; [|split].
  - intros target source k T f e G H. split; [exact (error_nonneg target source k T f e G H)|]. unfold error_robust. rewrite H. reflexivity.
  - intros a b L. split; [|apply rho_cau_mono; assumption]. unfold rho. pose proof (cau_range c (sqrt a) C). nra.
  - intros e P. split; [apply rho_le; [intros x; apply cau_range, C|exact P]|apply rho_cau_bounded; assumption].
Qed.
Example C35_far : huber (D := Rfld) 1 4 = / 4 /\ cauchy (D := Rfld) 1 3 = / 10.
Proof.
  split.
  - change (hub 1 4 = / 4). rewrite hub_out; rewrite Rabs_pos_eq; lra.
  - change (cau 1 3 = / 10). rewrite cau_eq. lra.
Qed.

(** ** C51 *)
(** The system a robust factor contributes: b is the gradient of the robustified error inside
    Huber's width, twice the gradient outside; for Cauchy the gradient is b times the weight. *)
Theorem C51_huber : forall nn reject target source k (c : R) T si f f' s (e : R), 0 < c ->
  homogeneous source -> (k = GICP -> usable_covs target source) ->
  linearize_robust (D := Rfld) nn reject target source (huber (D := Rfld) c) k T si f = Ok (f', Some s) ->
  error target source k T f' = Ok e -> forall delta,
  (e < c * c -> slope_along (fun T' => error_robust target source (huber (D := Rfld) c) k T' f') T delta (dot6 (sb s) delta)) /\
  (c * c < e -> slope_along (fun T' => error_robust target source (huber (D := Rfld) c) k T' f') T delta (/ 2 * dot6 (sb s) delta)).
Proof.
  intros nn reject target source k c T si f f' s e C HS HC H E delta.
  destruct (robust_inv nn reject target source k _ _ _ _ _ _ H) as (s0 & H0 & -> & E0).
  rewrite E in E0. injection E0 as ->. rewrite scale_b. split; intros L.
  - assert (W : huber (D := Rfld) c (sqrt (se s0)) = 1).
    { apply hub_in. rewrite Rabs_pos_eq by apply sqrt_pos. destruct (Rle_lt_dec (se s0) 0) as [N|P]; [rewrite (sqrt_neg_0 _ N); exact C|].
      rewrite <- (sqrt_square c) by lra. apply sqrt_lt_1; nra. }
    rewrite W, Rmult_1_l. apply (robust_slope nn reject target source k HS HC (hub c) T si f f' s0 delta (fun x => x) H0).
    intros e sl N De Ee. apply hub_slope_in; auto. rewrite Ee. exact L.
  - rewrite <- Rmult_assoc. apply (robust_slope nn reject target source k HS HC (hub c) T si f f' s0 delta (fun x => / 2 * hub c (sqrt (se s0)) * x) H0).
    intros e sl N De Ee. rewrite <- Ee. apply hub_slope_out; auto. rewrite Ee. exact L.
Qed.
Theorem C51_cauchy : forall nn reject target source k (c : R) T si f f' s (e : R), 0 < c ->
  homogeneous source -> (k = GICP -> usable_covs target source) ->
  linearize_robust (D := Rfld) nn reject target source (cauchy (D := Rfld) c) k T si f = Ok (f', Some s) ->
  error target source k T f' = Ok e -> forall delta,
  slope_along (fun T' => error_robust target source (cauchy (D := Rfld) c) k T' f') T delta (c / (c + e) * dot6 (sb s) delta).
Proof.
  intros nn reject target source k c T si f f' s e C HS HC H E delta.
  destruct (robust_inv nn reject target source k _ _ _ _ _ _ H) as (s0 & H0 & -> & E0).
  assert (P : 0 <= e).
  { apply (error_nonneg target source k T f' e); [|exact E]. intros K.
    destruct (linearized_maha nn reject target source k HC _ _ _ _ _ H0 K) as (F & S & P & ->). apply spd3_psd3, spd3_inv; assumption. }
  rewrite E in E0. injection E0 as ->. rewrite scale_b.
  assert (W : cauchy (D := Rfld) c (sqrt (se s0)) = c / (c + se s0)).
  { change (cau c (sqrt (se s0)) = c / (c + se s0)). rewrite cau_eq, sqrt_def by exact P. reflexivity. }
  rewrite W, <- Rmult_assoc.
  apply (robust_slope nn reject target source k HS HC (cau c) T si f f' s0 delta (fun x => c / (c + se s0) * (c / (c + se s0)) * x) H0).
  intros e sl N De Ee. pose proof (cau_slope c e sl C N De) as Q. rewrite Ee in Q. unfold cau in Q. rewrite W in Q. exact Q.
Qed.

(** Two correspondences along the diagonal, one outside Huber's width and one inside. *)
Definition tgt2 : cloud Rfld := mkCloud [V4 (2 : car Rfld) 2 0 1; V4 (17/4 : car Rfld) (17/4) 0 1] [] [].
Definition src2 : cloud Rfld := mkCloud [V4 (0 : car Rfld) 0 0 1; V4 (5 : car Rfld) 5 0 1] [] [].
Definition nn2 : vec4 Rfld -> outcome (option (N * R)) := fun p => Ok (Some (if Rlt_bool (vx p) 3 then (0%N, 8) else (1%N, 9 / 8))).
Definition f1 : factor Rfld := mkFactor (Some 0%N) 0 mzero3.
Definition f2 : factor Rfld := mkFactor (Some 1%N) 1 mzero3.
(** The nearest target of both points. *)
Lemma nn2_nearest : forall i p, at_point (cloud_view src2) i = Ok p -> exists j d, nn2 p = Ok (Some (j, d)) /\
  forall j' q', at_point (cloud_viewN tgt2) j' = Ok q' -> d <= sqnorm4 (vsub q' p) /\ (j' = j -> d = sqnorm4 (vsub q' p)).
Proof.
  intros i p H. destruct i as [|[|[|i]]]; cbn in H; inversion H; subst; clear H.
  - exists 0%N, 8. split; [unfold nn2; cbn [vx]; rewrite (proj2 (Rlt_bool_iff 0 3)) by lra; reflexivity|].
    intros j' q' E. apply get_Ok in E. cbn [cl_points tgt2] in E. destruct (N.to_nat j') as [|[|j]] eqn:EJ; cbn in E; try (destruct j; discriminate E);
      injection E as <-; cbn [sqnorm4 vsub vx vy vz vw]; change (car (fbase Rfld)) with R in *; cbn; (split; [|intros ->]; try discriminate EJ; try req; lra).
  - exists 1%N, (9/8). split; [unfold nn2; cbn [vx]; rewrite (proj2 (Rlt_bool_false_iff 5 3)) by lra; reflexivity|].
    intros j' q' E. apply get_Ok in E. cbn [cl_points tgt2] in E. destruct (N.to_nat j') as [|[|j]] eqn:EJ; cbn in E; try (destruct j; discriminate E);
      injection E as <-; cbn [sqnorm4 vsub vx vy vz vw]; change (car (fbase Rfld)) with R in *; cbn; (split; [|intros ->]; try discriminate EJ; try req; lra).
Qed.
Lemma src2_homogeneous : homogeneous (cloud_view src2).
Proof. intros [|[|[|i]]] p H; cbn in H; inversion H; subst; reflexivity. Qed.
Lemma lin_1 : exists s, linearize_robust (D := Rfld) nn2 null_rejector (cloud_viewN tgt2) (cloud_view src2) (huber (D := Rfld) 1) ICP pose_id 0 factor_init = Ok (f1, Some s) /\
  sb s = P6 zero3 (P3 (-1 : car Rfld) (-1) 0) /\ error (cloud_viewN tgt2) (cloud_view src2) ICP pose_id f1 = Ok (4 : R).
Proof.
  unfold linearize_robust, linearize. cbn [at_point cloud_view get nth_error cl_points src2 bind]. unfold nn2.
  assert (E : Rlt_bool (vx (pose_pt (pose_id (D := Rfld)) (V4 (0 : car Rfld) 0 0 1))) 3 = true) by (apply Rlt_bool_iff; cbn; lra).
  rewrite E. cbn [bind null_rejector linearize_at residual at_point cloud_viewN cl_points tgt2 N.to_nat cloud_view src2 get nth_error factor_init f_maha].
  eexists. split; [reflexivity|].
  assert (Es : nmul (fhalf (f := Rfld)) (sqnorm4 (vsub (V4 (2 : car Rfld) 2 0 1) (pose_pt (pose_id (D := Rfld)) (V4 (0 : car Rfld) 0 0 1)))) = 4) by (cbn; req; field).
  split.
  - cbn [se scale_sys sb]. rewrite Es.
    assert (W : huber (D := Rfld) (1 : R) (fsqrt (f := Rfld) 4) = / 2).
    { change (hub 1 (sqrt 4) = / 2). replace (sqrt 4) with 2 by (symmetry; replace 4 with (2 * 2) by ring; apply sqrt_square; lra).
      rewrite hub_out; rewrite Rabs_pos_eq; lra. }
    rewrite W. apply P6_eq; apply P3_eq; cbn; req; field.
  - exact (f_equal Ok Es).
Qed.
Lemma lin_2 : exists s, linearize_robust (D := Rfld) nn2 null_rejector (cloud_viewN tgt2) (cloud_view src2) (huber (D := Rfld) 1) ICP pose_id 1 factor_init = Ok (f2, Some s) /\
  sb s = P6 zero3 (P3 (3/4 : car Rfld) (3/4) 0) /\ error (cloud_viewN tgt2) (cloud_view src2) ICP pose_id f2 = Ok (9/16 : R).
Proof.
  unfold linearize_robust, linearize. cbn [at_point cloud_view get nth_error cl_points src2 bind]. unfold nn2.
  assert (E : Rlt_bool (vx (pose_pt (pose_id (D := Rfld)) (V4 (5 : car Rfld) 5 0 1))) 3 = false) by (apply Rlt_bool_false_iff; cbn; lra).
  rewrite E. cbn [bind null_rejector linearize_at residual at_point cloud_viewN cl_points tgt2 N.to_nat Pos.to_nat Pos.iter_op Nat.add cloud_view src2 get nth_error factor_init f_maha].
  eexists. split; [reflexivity|].
  assert (Es : nmul (fhalf (f := Rfld)) (sqnorm4 (vsub (V4 (17/4 : car Rfld) (17/4) 0 1) (pose_pt (pose_id (D := Rfld)) (V4 (5 : car Rfld) 5 0 1)))) = 9/16) by (cbn; req; field).
  split.
  - cbn [se scale_sys sb]. rewrite Es.
    assert (W : huber (D := Rfld) (1 : R) (fsqrt (f := Rfld) (9/16)) = 1).
    { change (hub 1 (sqrt (9/16)) = 1). replace (sqrt (9/16)) with (3/4) by (symmetry; replace (9/16) with (3/4 * (3/4)) by field; apply sqrt_square; lra).
      rewrite hub_in; [reflexivity|rewrite Rabs_pos_eq; lra]. }
    rewrite W. apply P6_eq; apply P3_eq; cbn; req; field.
  - exact (f_equal Ok Es).
Qed.
Lemma slope_add (T : pose Rfld) delta g h a b : slope_along g T delta a -> slope_along h T delta b ->
  slope_along (fun T' => let* x := g T' in let* y := h T' in Ok (0 + x + y)) T delta (a + b).
Proof.
  intros (e & E & De) (e' & E' & De'). exists (fun t => 0 + e t + e' t). split.
  - intros t. rewrite E, E'. reflexivity.
  - apply d_plus; [|exact De']. replace a with (0 + a) by ring. apply d_plus; [apply d_const|exact De].
Qed.
Lemma slope_ext (g h : pose Rfld -> outcome R) T delta a : (forall T', g T' = h T') -> slope_along g T delta a -> slope_along h T delta a.
Proof. intros X (e & E & De). exists e. split; [intros t; rewrite <- X; apply E|exact De]. Qed.
(** Summed over a problem, b need not even point uphill: here -b is an ascent direction of the
    robustified error, so no damping makes a step of the optimizer decrease it to first order. *)
Theorem C51_whole_problem_refuted : exists nn target source (c : R) fs fs' s slope,
  0 < c /\ homogeneous source /\
  (forall i p, at_point source i = Ok p -> exists j d, nn p = Ok (Some (j, d)) /\
     forall j' q', at_point target j' = Ok q' -> d <= sqnorm4 (vsub q' p) /\ (j' = j -> d = sqnorm4 (vsub q' p))) /\
  reg_lin_robust Rfld nn null_rejector target source (huber (D := Rfld) c) ICP pose_id fs = Ok (fs', s) /\
  slope_along (fun T' => reg_err_robust Rfld target source (huber (D := Rfld) c) ICP T' fs') pose_id (opp6 (sb s)) slope /\
  0 < slope.
Proof.
  destruct lin_1 as (s1 & L1 & B1 & E1), lin_2 as (s2 & L2 & B2 & E2).
  exists nn2, (cloud_viewN tgt2), (cloud_view src2), 1, [factor_init; factor_init], [f1; f2], (sys_add (sys_add sys_zero s1) s2), (1/8).
  split; [lra|]. split; [exact src2_homogeneous|]. split; [exact nn2_nearest|]. split; [|split; [|lra]].
  - unfold reg_lin_robust, serial. cbn. rewrite L1. cbn. rewrite L2. reflexivity.
  - assert (SB : opp6 (sb (sys_add (sys_add sys_zero s1) s2)) = P6 zero3 (P3 (1/4 : car Rfld) (1/4) 0)).
    { cbn [sys_add sb sys_zero]. rewrite B1, B2. apply P6_eq; apply P3_eq; cbn; req; field. }
    rewrite SB. set (delta := P6 zero3 (P3 (1/4 : car Rfld) (1/4) 0)).
    assert (HC : ICP = GICP -> usable_covs (cloud_viewN tgt2) (cloud_view src2)) by discriminate.
    destruct (C51_huber nn2 null_rejector _ _ ICP 1 pose_id 0 factor_init f1 s1 4 Rlt_0_1 src2_homogeneous HC L1 E1 delta) as [_ S1].
    destruct (C51_huber nn2 null_rejector _ _ ICP 1 pose_id 1 factor_init f2 s2 (9/16) Rlt_0_1 src2_homogeneous HC L2 E2 delta) as [S2 _].
    specialize (S1 ltac:(lra)). specialize (S2 ltac:(lra)).
    replace (1/8) with (/ 2 * dot6 (sb s1) delta + dot6 (sb s2) delta) by (rewrite B1, B2; unfold delta; cbn; field).
    eapply slope_ext; [|exact (slope_add _ _ _ _ _ _ S1 S2)]. intros T'. unfold reg_err_robust, serial_error. cbn [foldM bind].
    destruct (error_robust (cloud_viewN tgt2) (cloud_view src2) (huber (D := Rfld) 1) ICP T' f1); cbn [bind]; try reflexivity.
Qed.
(** H stays symmetric positive semidefinite, so the damped system still has one solution. *)
Theorem C51_robust_hessian : forall nn reject target source k (weight : R -> R) T si f f' s,
  homogeneous source -> (k = GICP -> usable_covs target source) -> (forall e, 0 < weight e) ->
  linearize_robust (D := Rfld) nn reject target source weight k T si f = Ok (f', Some s) -> sym6 (sH s) /\ psd6 (sH s).
Proof.
  intros nn reject target source k weight T si f f' s HS HC W H.
  destruct (robust_inv nn reject target source k _ _ _ _ _ _ H) as (s0 & H0 & -> & _).
  destruct (factor_system nn reject target source k HS HC T si f f' s0 H0) as (A & B & _). cbn [scale_sys sH]. split.
  - unfold sym6 in *. set (w := weight (sqrt (se s0))). rewrite <- A at 2. destruct (sH s0) as [M1 M2 M3 M4].
    unfold tr6, mscale6. cbn [brr brt btr btt]. reflexivity.
  - intros d. rewrite mscale6_quad. apply Rmult_le_pos; [left; apply W|apply B].
Qed.
Example C51_instance : exists s, linearize_robust (D := Rfld) nn2 null_rejector (cloud_viewN tgt2) (cloud_view src2) (huber (D := Rfld) 1) ICP pose_id 0 factor_init = Ok (f1, Some s) /\
  sb s <> zero6 /\ 1 * 1 < 4 /\ error (cloud_viewN tgt2) (cloud_view src2) ICP pose_id f1 = Ok (4 : R) /\ (forall e : R, 0 < huber (D := Rfld) 1 e).
Proof.
  destruct lin_1 as (s & L & B & E). exists s. split; [exact L|]. split; [|split; [lra|split; [exact E|intros e; apply (hub_range 1 e Rlt_0_1)]]].
  rewrite B. intros X. apply (f_equal (fun d => p0 (tv d))) in X. cbn in X. change (car (fbase Rfld)) with R in X. lra.
Qed.

Print Assumptions C35_huber_weight.
Print Assumptions C35_cauchy_weight.
Print Assumptions C35_huber_error.
Print Assumptions C35_cauchy_error.
Print Assumptions C51_huber.
Print Assumptions C51_cauchy.
Print Assumptions C51_whole_problem_refuted.
Print Assumptions C51_robust_hessian.
