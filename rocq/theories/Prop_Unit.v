(** C72: without damping the unit of length does not matter. *)
From Coq Require Import Reals Lra Psatz Lia ZArith List Permutation.
From Verif Require Import Base BaseProofs Num Vec RNum Lin LinSpec LinProofs FactorModel FactorSpec FactorProofs FactorReal ReduceModel ReduceSpec ReduceProofs
  KnnModel KdModel KdSpec KdReal NthElement EstModel EstSpec EstProofs EstReal OptModel OptSpec LieModel LieProofs StepProofs MoveSpec MoveProofs MoveFactor MoveTree
  TurnSpec TurnProofs TurnTree AlignSpec Prop_Est Prop_Factor Prop_Robust Prop_Move Prop_Fit Prop_Lie Prop_Align Prop_Turn Prop_Spin ShiftSpec ShiftProofs Prop_Shift
  UnitSpec UnitProofs.
Open Scope R_scope.

(** What the theorems ask for: both clouds in the new unit, homogeneous points, usable
    covariances, rejectors and general factors of the library that correspond to each other, a
    correct solver. *)
Record unit_problem (s : R) (target target' : view Rfld N) (source source' : view Rfld nat)
    (reject reject' : pose Rfld -> N -> nat -> car Rfld -> bool) (g g' : general Rfld) (k : kind) (solve : m6 Rfld -> v6 Rfld -> v6 Rfld) : Prop := {
  xp_unit : 0 < s;
  xp_target : grown_view s target target';
  xp_source : grown_view s source source';
  xp_hom_target : homogeneous_view target;
  xp_hom_source : homogeneous_view source;
  xp_covs : k = GICP -> usable_covs target source;
  xp_reject : same_verdict s reject reject';
  xp_library : library_factor g;
  xp_general : same_general s g g';
  xp_solve : solves6 solve
}.
(** Whenever the run linearised, the two searches gave the same answers. *)
Definition searches_agree {F : Type} (s : R) (source : view Rfld nat) (nn nn' : vec4 Rfld -> outcome (option (N * car Rfld))) (log : list (event Rfld F)) : Prop :=
  forall T, linearized_at log T -> answers_agree s source nn nn' T.

Lemma usable_plain target source : usable_covs target source -> plain_covs source.
Proof. intros (_ & H) i c E. destruct (H i c E) as (H1 & H2 & H3 & _). repeat split; assumption. Qed.

(** The same steps in the new unit: the translation, H, b and the error converted, everything
    else identical. *)
Theorem C72_gauss_newton : forall s target target' source source' nn nn' reject reject' g g' k solve crit m T fs r log,
  unit_problem s target target' source source' reject reject' g g' k solve ->
  gauss_newton (reg_lin Rfld nn reject target source k) g solve se3_exp inlier crit (0 : car Rfld) m T fs = Ok (r, log) ->
  well_posed log -> searches_agree s source nn nn' log ->
  exists log', gauss_newton (reg_lin Rfld nn' reject' target' source' k) g' solve se3_exp inlier (grown_criteria s crit) (0 : car Rfld) m (grow s T) fs =
    Ok (grown_result s r, log').
Proof.
  intros s target target' source source' nn nn' reject reject' g g' k solve crit m T fs r log [P GT GS HT HS HC RJ L GF SV] H WP AG.
  eapply (gauss_newton_grow _ s P _ _ g g' solve SV inlier crit (answers_agree s source nn nn')); try exact H; try assumption.
  - intros T0 fs0 fs1 x A E. eapply serial_grow; [|exact E]. intros i f f1 r0 El.
    apply (linearize_grow s target target' source source' GT GS HT HS nn nn' reject reject' RJ k (fun e => usable_plain _ _ (HC e)) _ _ _ _ _ A El).
  - intros T0 fs0 fs1 x E. destruct (C29_whole_problem _ _ _ _ _ HS HC _ _ _ _ E) as (Sy & Ps & _). apply (library_system g T0 x L Sy Ps).
  - intros T0 fs0 x I. apply AG. exists fs0, x. exact I.
Qed.
Theorem C72_levenberg_marquardt : forall s target target' source source' nn nn' reject reject' g g' k solve crit (c : lm_settings Rfld) T fs r log,
  unit_problem s target target' source source' reject reject' g g' k solve -> lm_init_lambda c = (0 : car Rfld) ->
  levenberg_marquardt (reg_lin Rfld nn reject target source k) (reg_err Rfld target source k) g solve se3_exp inlier crit c T fs = Ok (r, log) ->
  well_posed log -> searches_agree s source nn nn' log ->
  exists log', levenberg_marquardt (reg_lin Rfld nn' reject' target' source' k) (reg_err Rfld target' source' k) g' solve se3_exp inlier (grown_criteria s crit) c
    (grow s T) fs = Ok (grown_result s r, log').
Proof.
  intros s target target' source source' nn nn' reject reject' g g' k solve crit c T fs r log [P GT GS HT HS HC RJ L GF SV] LA H WP AG.
  eapply (levenberg_grow _ s P _ _ _ _ g g' solve SV inlier crit (answers_agree s source nn nn')); try exact H; try assumption.
  - intros T0 fs0 fs1 x A E. eapply serial_grow; [|exact E]. intros i f f1 r0 El.
    apply (linearize_grow s target target' source source' GT GS HT HS nn nn' reject reject' RJ k (fun e => usable_plain _ _ (HC e)) _ _ _ _ _ A El).
  - intros T0 fs0 fs1 x E. destruct (C29_whole_problem _ _ _ _ _ HS HC _ _ _ _ E) as (Sy & Ps & _). apply (library_system g T0 x L Sy Ps).
  - intros T0 fs0 e E. eapply errors_grow; [|exact E]. intros f e0. apply (error_grow s target target' source source' GT GS HT HS k).
  - intros T0 fs0 x I. apply AG. exists fs0, x. exact I.
Qed.
(** The same with a robust kernel. *)
Theorem C72_robust : forall s target target' source source' nn nn' reject reject' g g' k (weight weight' : R -> R) solve crit (c : lm_settings Rfld) T fs r log,
  unit_problem s target target' source source' reject reject' g g' k solve -> lm_init_lambda c = (0 : car Rfld) ->
  (forall e, 0 < weight e) -> same_weight s weight weight' ->
  levenberg_marquardt (reg_lin_robust Rfld nn reject target source weight k) (reg_err_robust Rfld target source weight k) g solve se3_exp inlier crit c T fs = Ok (r, log) ->
  well_posed log -> searches_agree s source nn nn' log ->
  exists log', levenberg_marquardt (reg_lin_robust Rfld nn' reject' target' source' weight' k) (reg_err_robust Rfld target' source' weight' k) g' solve se3_exp inlier
    (grown_criteria s crit) c (grow s T) fs = Ok (grown_result s r, log').
Proof.
  intros s target target' source source' nn nn' reject reject' g g' k weight weight' solve crit c T fs r log [P GT GS HT HS HC RJ L GF SV] LA W WG H WP AG.
  eapply (levenberg_grow _ s P _ _ _ _ g g' solve SV inlier crit (answers_agree s source nn nn')); try exact H; try assumption.
  - intros T0 fs0 fs1 x A E. eapply serial_grow; [|exact E]. intros i f f1 r0 El.
    apply (linearize_robust_grow s P target target' source source' GT GS HT HS nn nn' reject reject' RJ k (fun e => usable_plain _ _ (HC e)) weight weight' WG _ _ _ _ _ A El).
  - intros T0 fs0 fs1 x E. destruct (robust_whole _ _ _ _ _ _ _ _ _ _ HS HC W E) as (Sy & Ps). apply (library_system g T0 x L Sy Ps).
  - intros T0 fs0 e E. eapply errors_grow; [|exact E]. intros f e0. apply (error_robust_grow s P target target' source source' GT GS HT HS k weight weight' WG).
  - intros T0 fs0 x I. apply AG. exists fs0, x. exact I.
Qed.

(** * How each setting is converted *)
(** Huber's constant is a length, Cauchy's a squared length. *)
Lemma nlt_grow s (a b : R) : 0 < s -> nlt (n := Rnum) (s * a) (s * b) = nlt (n := Rnum) a b.
Proof.
  intros P. cbn [nlt Rnum]. destruct (Raux.Rlt_bool_spec a b) as [L|L]; [apply Raux.Rlt_bool_true|apply Raux.Rlt_bool_false]; nra.
Qed.
Theorem C72_huber : forall s (c : R), 0 < s -> 0 < c -> same_weight s (huber (D := Rfld) (c : car Rfld)) (huber (D := Rfld) (s * c : car Rfld)).
Proof.
  intros s c P C e. change ((if nlt (n := Rnum) (Rabs (s * e)) (s * c) then 1 else s * c / Rabs (s * e)) = if nlt (n := Rnum) (Rabs e) c then 1 else c / Rabs e).
  rewrite Rabs_mult, (Rabs_right s), nlt_grow by lra. cbn [nlt Rnum]. destruct (Raux.Rlt_bool_spec (Rabs e) c) as [L|L]; [reflexivity|]. field. lra.
Qed.
Theorem C72_cauchy : forall s (c : R), 0 < s -> 0 < c -> same_weight s (cauchy (D := Rfld) (c : car Rfld)) (cauchy (D := Rfld) (s * s * c : car Rfld)).
Proof.
  intros s c P C e. change (s * s * c / (s * s * c + s * e * (s * e)) = c / (c + e * e)).
  assert (Q : 0 < c + e * e) by nra. replace (s * s * c + s * e * (s * e)) with (s * s * (c + e * e)) by ring. field. split; lra.
Qed.
(** The limit of the distance rejector is a squared length. *)
Theorem C72_distance_rejector : forall s (max_sq : R), 0 < s ->
  same_verdict s (distance_rejector (D := Rfld) (max_sq : car Rfld)) (distance_rejector (D := Rfld) (s * s * max_sq : car Rfld)).
Proof. intros s max_sq P T ti si d. unfold distance_rejector. apply (nlt_grow (s * s) max_sq d). nra. Qed.
Lemma null_verdict s : same_verdict s null_rejector null_rejector. Proof. intros T ti si d. reflexivity. Qed.
Lemma null_general s : same_general s null_factor null_factor. Proof. split; reflexivity. Qed.
(** The strength of a restriction of rotations is a squared length, that of a restriction of
    translations a plain number. *)
Lemma diag_zero : diag3 (zero3 (D := Rfld)) = mzero3. Proof. lring. Qed.
Lemma mscale_both (a b : car Rfld) (A : m3 Rfld) : mscale3 a (mscale3 b A) = mscale3 (a * b : car Rfld) A. Proof. lring. Qed.
Theorem C72_restricted_rotation : forall s (lr : R) mask, tv mask = P3 (1 : car Rfld) (1 : car Rfld) (1 : car Rfld) ->
  same_general s (restrict_dof (lr : car Rfld) mask) (restrict_dof (s * s * lr : car Rfld) mask).
Proof.
  intros s lr mask E. split; [|reflexivity]. intros T x. cbn [restrict_dof upd_sys]. unfold grown_sys. cbn [sH sb se]. f_equal.
  assert (Z : tv (mask_penalty mask) = zero3).
  { unfold mask_penalty. cbn [tv]. rewrite E. cbn [p0 p1 p2]. apply P3_eq; change (Rabs (1 - 1) = 0); rewrite Rminus_diag_eq by reflexivity; apply Rabs_R0. }
  unfold grown_H, madd6, mscale6, diag6. cbn [brr brt btr btt]. rewrite Z, diag_zero, !mscale_madd, !mscale_zero, mscale_both. reflexivity.
Qed.
Theorem C72_restricted_translation : forall s (lr : R) mask, rv mask = P3 (1 : car Rfld) (1 : car Rfld) (1 : car Rfld) ->
  same_general s (restrict_dof (lr : car Rfld) mask) (restrict_dof (lr : car Rfld) mask).
Proof.
  intros s lr mask E. split; [|reflexivity]. intros T x. cbn [restrict_dof upd_sys]. unfold grown_sys. cbn [sH sb se]. f_equal.
  assert (Z : rv (mask_penalty mask) = zero3).
  { unfold mask_penalty. cbn [rv]. rewrite E. cbn [p0 p1 p2]. apply P3_eq; change (Rabs (1 - 1) = 0); rewrite Rminus_diag_eq by reflexivity; apply Rabs_R0. }
  unfold grown_H, madd6, mscale6, diag6. cbn [brr brt btr btt]. rewrite Z, diag_zero, !mscale_madd, !mscale_zero. reflexivity.
Qed.

(** * Exact searches *)
(** Some target point is near enough to be found in both units. *)
Definition in_range (s : R) (target : view Rfld N) (q : vec4 Rfld) : Prop :=
  exists j p, at_point target j = Ok p /\ sq_gap p q < nmaxv (n := Rnum) /\ s * s * sq_gap p q < nmaxv (n := Rnum).
Lemma nearest_grow s (target target' : view Rfld N) (q : vec4 Rfld) i : 0 < s -> grown_view s target target' -> homogeneous_view target -> vw q = 1 ->
  nearest_at target' (grow_pt s q) i -> nearest_at target q i.
Proof.
  intros P GT HT W (p' & E & M). destruct (GT i) as (Ei & _). rewrite Ei in E. destruct (at_point target i) as [p| | |] eqn:Ep; cbn [bind] in E; try discriminate.
  injection E as <-. exists p. split; [exact Ep|]. intros j pj Ej. specialize (M j (grow_pt s pj)). destruct (GT j) as (Ej' & _). rewrite Ej', Ej in M.
  specialize (M eq_refl). rewrite !gap_grow in M by (rewrite W; first [exact (HT _ _ Ep)|exact (HT _ _ Ej)]). assert (0 < s * s) by nra. nra.
Qed.
Theorem C72_searches : forall s (target target' : view Rfld N) nn nn' (q : vec4 Rfld), 0 < s -> grown_view s target target' -> homogeneous_view target -> vw q = 1 ->
  exact_search target nn -> exact_search target' nn' -> one_nearest target q -> in_range s target q -> same_answer s nn nn' q.
Proof.
  intros s target target' nn nn' q P GT HT W X X' U (j & p & Ej & R1 & R2). unfold same_answer. assert (S2 : 0 < s * s) by nra.
  destruct (X q) as (o & -> & S). destruct (X' (grow_pt s q)) as (o' & -> & S'). cbn [bind]. f_equal.
  destruct (GT j) as (Ej' & _). rewrite Ej in Ej'. cbn [bind] in Ej'.
  destruct o as [[i d]|].
  2: { exfalso. specialize (S _ _ Ej). lra. }
  destruct o' as [[i' d']|].
  2: { exfalso. specialize (S' _ _ Ej'). rewrite gap_grow in S' by (rewrite W; exact (HT _ _ Ej)). lra. }
  destruct S as (Ni & _ & pi & Ei & ->). destruct S' as (Ni' & _ & pi' & Ei' & ->). apply (nearest_grow s target target' q i' P GT HT W) in Ni'.
  assert (i' = i) as -> by (apply U; assumption). destruct (GT i) as (Q & _). rewrite Ei', Ei in Q. cbn [bind] in Q. injection Q as ->.
  rewrite gap_grow by (rewrite W; exact (HT _ _ Ei)). reflexivity.
Qed.
Lemma grown_cloud_view s c : grown_view s (cloud_view c) (cloud_view (grown_cloud s c)).
Proof. intros i. cbn [cloud_view at_point at_normal at_cov grown_cloud cl_points cl_normals cl_covs]. rewrite get_map. auto. Qed.
Lemma grown_cloud_viewN s c : grown_view s (cloud_viewN c) (cloud_viewN (grown_cloud s c)).
Proof. intros i. cbn [cloud_viewN at_point at_normal at_cov grown_cloud cl_points cl_normals cl_covs]. rewrite get_map. auto. Qed.

(** Registration of clouds in both units, a kd-tree built for each, the distance rejector. *)
Definition all_in_range (s : R) (target : view Rfld N) (source : view Rfld nat) (T : pose Rfld) : Prop :=
  forall i p, at_point source i = Ok p -> in_range s target (pose_pt T p).
Theorem C72_kdtree : forall s order ne find_axis find_axis' leaf leaf' (target source : cloud Rfld) tree tree' (max_sq : R) k solve crit (c : lm_settings Rfld) T r log,
  0 < s -> full_sum order -> nth_element_contract ne ->
  (forall range : list (vec4 Rnum), range <> [] -> exists n, find_axis range = Ok n /\ short n) ->
  (forall range : list (vec4 Rnum), range <> [] -> exists n, find_axis' range = Ok n /\ short n) ->
  (3 <= size_t_of_int leaf)%N -> (3 <= size_t_of_int leaf')%N ->
  cl_points target <> [] -> (N.of_nat (length (cl_points target)) <= 4294967295)%N ->
  Forall (fun p : vec4 Rfld => vw p = 1%R) (cl_points target) -> Forall (fun p : vec4 Rfld => vw p = 1%R) (cl_points source) ->
  (k = GICP -> usable_covs (cloud_viewN target) (cloud_view source)) -> solves6 solve -> lm_init_lambda c = (0 : car Rfld) ->
  build_tree (normal_apply (D := Rnum)) find_axis ne (cl_points target) leaf = Ok tree ->
  build_tree (normal_apply (D := Rnum)) find_axis' ne (cl_points (grown_cloud s target)) leaf' = Ok tree' ->
  let run tgt t src (max_sq : R) crit T := levenberg_marquardt
    (reg_lin Rfld (real_tree_nn order (cl_points tgt) t) (distance_rejector (D := Rfld) (max_sq : car Rfld)) (cloud_viewN tgt) (cloud_view src) k)
    (reg_err Rfld (cloud_viewN tgt) (cloud_view src) k) null_factor solve se3_exp inlier crit c T (initial_factors (length (cl_points src))) in
  run target tree source max_sq crit T = Ok (r, log) -> well_posed log ->
  (forall T', linearized_at log T' -> untied (cloud_viewN target) (cloud_view source) T' /\ all_in_range s (cloud_viewN target) (cloud_view source) T') ->
  exists log', run (grown_cloud s target) tree' (grown_cloud s source) (s * s * max_sq) (grown_criteria s crit) (grow s T) = Ok (grown_result s r, log').
Proof.
  intros s order ne fa fa' leaf leaf' target source tree tree' max_sq k solve crit c T r log P FS NE A1 A2 L1 L2 NZ SM HT HS HC SV LA B B' run H WP U.
  assert (IN : forall (X : Type) (l : list X) i a P, Forall P l -> get l i = Ok a -> P a).
  { intros X l i a P0 F E. apply get_Ok in E. apply nth_error_In in E. rewrite Forall_forall in F. auto. }
  assert (HT' : homogeneous_view (cloud_viewN target)) by (intros i p E; eapply IN in E; [|exact HT]; exact E).
  assert (HS' : homogeneous_view (cloud_view source)) by (intros i p E; eapply IN in E; [|exact HS]; exact E).
  unfold run. assert (EL : length (cl_points (grown_cloud s source)) = length (cl_points source)) by apply map_length. rewrite EL.
  eapply (C72_levenberg_marquardt s (cloud_viewN target) _ (cloud_view source)); [|exact LA|exact H|exact WP|].
  - split; auto using grown_cloud_view, grown_cloud_viewN, C72_distance_rejector, null_general. left. reflexivity.
  - intros T0 LT i p E. destruct (U T0 LT) as (U1 & U2). apply (C72_searches s (cloud_viewN target) (cloud_viewN (grown_cloud s target))); auto using grown_cloud_viewN.
    + cbn [pose_pt vw]. exact (HS' _ _ E).
    + apply (real_tree_exact order FS ne NE fa A1 target leaf L1 NZ SM tree B).
    + apply (real_tree_exact order FS ne NE fa' A2 (grown_cloud s target) leaf' L2); auto.
      * cbn [grown_cloud cl_points]. destruct (cl_points target); [congruence|discriminate].
      * cbn [grown_cloud cl_points]. rewrite map_length. exact SM.
    + exact (U1 _ _ E).
    + exact (U2 _ _ E).
Qed.

(** * Preparing the clouds *)
Lemma along_grow s (u : v3 Rfld) (q : vec4 Rfld) : along u (grow_pt s q) = s * along u q.
Proof. unfold along. rewrite head_grow, dot3_scale_r. reflexivity. Qed.
Lemma sumR_scale {A : Type} (f : A -> R) (a : R) l : sumR (fun x => a * f x) l = a * sumR f l.
Proof. unfold sumR. induction l as [|x l IH]; cbn; [ring|]. rewrite IH. ring. Qed.
Lemma variance_grow s (u : v3 Rfld) (pts : list (vec4 Rfld)) : variance_along u (map (grow_pt s) pts) = s * s * variance_along u pts.
Proof.
  assert (M : mean_along u (map (grow_pt s) pts) = s * mean_along u pts).
  { unfold mean_along. rewrite map_length, sumR_map. rewrite (sumR_ext_in _ (fun q => s * along u q)) by (intros q I; apply along_grow). rewrite sumR_scale. unfold Rdiv. ring. }
  unfold variance_along. rewrite M, map_length, sumR_map.
  rewrite (sumR_ext_in _ (fun q => s * s * ((along u q - mean_along u pts) * (along u q - mean_along u pts)))); [rewrite sumR_scale; unfold Rdiv; ring_simplify; try ring|].
  all: try (intros q I; rewrite along_grow; change (car (fbase Rfld)) with R; ring).
Qed.
Lemma flattest_grow s pts pts' (u : v3 Rfld) : 0 < s -> Permutation (map (grow_pt s) pts) pts' -> flattest pts' u -> flattest pts u.
Proof.
  intros P PM (U & L). split; [exact U|]. intros w W. specialize (L w W). rewrite <- !(variance_perm _ _ _ PM), !variance_grow in L. assert (0 < s * s) by nra. nra.
Qed.
Lemma neighbours_grow s points found found' (pts pts' : list (vec4 Rfld)) : Permutation found found' ->
  Forall2 (fun j q => nth_error points j = Some q) found pts -> Forall2 (fun j q => nth_error (map (grow_pt s) points) j = Some q) found' pts' ->
  Permutation (map (grow_pt s) pts) pts'.
Proof.
  intros P F F'. set (d := V4 (D := Rfld) 0%R 0%R 0%R 0%R). rewrite (neighbours_nth _ _ _ d F).
  rewrite (neighbours_nth _ _ _ (grow_pt s d) F'), map_map. rewrite (map_ext (fun j => nth j (map (grow_pt s) points) (grow_pt s d)) (fun j => grow_pt s (nth j points d))) by (intros j; apply (map_nth (grow_pt s))).
  apply Permutation_map. exact P.
Qed.
Lemma plane_same c c' (n n' : v3 Rfld) : dot3 n n = 1 -> plane_cov c n -> plane_cov c' n' -> (n' = n \/ n' = opp3 n) -> c' = c.
Proof.
  intros N P P' E. assert (N' : dot3 n' n' = 1).
  { destruct E as [-> | ->]; [exact N|]. rewrite dot3_opp_l, dot3_opp_r, N. cbn. change (car (fbase Rfld)) with R. lra. }
  assert (B : b33 c' = b33 c).
  { apply m3_ext. intros u. rewrite (plane_apply c' n' u P' N'), (plane_apply c n u P N). destruct E as [-> | ->]; [reflexivity|apply plane_opp]. }
  destruct P as (Q1 & Q2 & Q3 & _), P' as (Q1' & Q2' & Q3' & _). apply m4_eq; congruence.
Qed.
Lemma head_opp_eq (n n' : vec4 Rfld) : vw n = 0 -> vw n' = 0 -> head n' = opp3 (head n) -> n' = vopp n.
Proof. intros Z Z' E. apply vec4_heads; [exact E|]. change ((vw n' : R) = - (vw n : R)). rewrite Z, Z'. lra. Qed.
(** Normals and covariances, estimated in each unit with a search and a solver of its own: the
    same covariances, and the same normals (one that is square to the line of sight may be
    reported the other way round). *)
Theorem C72_estimated : forall s knn knn' eig eig' st jp jn jc jp' jn' jc' k (c c2 d d' : cloud Rfld),
  0 < s -> cl_points c2 = map (grow_pt s) (cl_points c) -> same_found s knn knn' k (cl_points c) ->
  (forall pts, usable knn k c pts -> solves eig pts /\ flat_once pts) -> (forall pts, usable knn' k c2 pts -> solves eig' pts) ->
  estimate (D := Rfld) knn eig INR (1e-3)%R st jp jn jc k c = Ok d ->
  estimate (D := Rfld) knn' eig' INR (1e-3)%R st jp' jn' jc' k c2 = Ok d' ->
  (has_covs st = true -> cl_covs d' = cl_covs d) /\
  (has_normals st = true -> forall i p, nth_error (cl_points c) i = Some p -> exists n n',
     nth_error (cl_normals d) i = Some n /\ nth_error (cl_normals d') i = Some n' /\ (n' = n \/ (n' = vopp n /\ dot3 (head p) (head n) = 0))).
Proof.
  intros s knn knn' eig eig' st jp jn jc jp' jn' jc' k c c2 d d' P E2 SN SV SV' H H'.
  destruct (C33_estimated_values knn eig st jp jn jc k c d H) as (_ & LN & LC & _ & _ & V).
  destruct (C33_estimated_values knn' eig' st jp' jn' jc' k c2 d' H') as (_ & LN' & LC' & _ & _ & V').
  assert (ONE : forall i p, nth_error (cl_points c) i = Some p ->
    (has_covs st = true -> exists m, nth_error (cl_covs d) i = Some m /\ nth_error (cl_covs d') i = Some m) /\
    (has_normals st = true -> exists n n', nth_error (cl_normals d) i = Some n /\ nth_error (cl_normals d') i = Some n' /\
       (n' = n \/ (n' = vopp n /\ dot3 (head p) (head n) = 0)))).
  { intros i p E. assert (E' : nth_error (cl_points c2) i = Some (grow_pt s p)) by (rewrite E2, nth_error_map, E; reflexivity).
    destruct (V i p E) as (found & EF & FEW & MANY). destruct (V' i _ E') as (found' & EF' & FEW' & MANY').
    pose proof (SN p found found' (nth_error_In _ _ E) EF EF') as PM. pose proof (Permutation_length PM) as LF.
    destruct (Nat.lt_ge_cases (length found) 5) as [L|L].
    - destruct (FEW L) as (A & B). destruct (FEW' ltac:(lia)) as (A' & B'). split; intros S.
      + eexists. split; [apply B; exact S|]. apply B'. exact S.
      + eexists _, _. split; [apply A; exact S|]. split; [apply A'; exact S|]. left. reflexivity.
    - destruct (MANY L) as (pts & NB & GO). destruct (MANY' ltac:(lia)) as (pts' & NB' & GO').
      destruct (SV pts) as (S1 & FO). { exists i, p, found. auto. }
      pose proof (SV' pts') as S1'. lapply S1'; [clear S1'; intros S1'|exists i, (grow_pt s p), found'; split; auto; lia].
      destruct (GO S1) as (n & m & GN & PC & W1 & W2). destruct (GO' S1') as (n' & m' & GN' & PC' & W1' & W2').
      destruct NB as (_ & _ & F2). destruct NB' as (_ & _ & F2'). rewrite E2 in F2'.
      pose proof (neighbours_grow s _ _ _ _ _ PM F2 F2') as PP.
      destruct GN as (Z & U & FC & LE). destruct GN' as (Z' & U' & FC' & LE').
      assert (FL : flattest pts (head n')) by (eapply flattest_grow; eauto; split; auto).
      assert (DIR : head n' = head n \/ head n' = opp3 (head n)) by (exact (FO (head n) _ (conj U LE) FL)).
      split; intros S.
      + exists m. split; [apply W2; exact S|]. rewrite (W2' S). f_equal. apply (plane_same m m' (head n) (head n')); assumption.
      + exists n, n'. split; [apply W1; exact S|]. split; [apply W1'; exact S|].
        destruct DIR as [Q|Q]; [left; apply vec4_heads; congruence|]. right. split; [apply head_opp_eq; assumption|].
        rewrite Q, head_grow, dot3_scale_l, dot3_opp_r in FC'. change (s * - dot3 (head p) (head n) <= 0) in FC'. change (dot3 (head p) (head n) <= 0) in FC.
        change ((dot3 (head p) (head n) : R) = 0). nra. }
  split.
  - intros S. apply nth_error_ext. intros i. destruct (nth_error (cl_points c) i) as [p|] eqn:E.
    + destruct (proj1 (ONE i p E) S) as (m & -> & ->). reflexivity.
    + apply nth_error_None in E. rewrite (proj2 (nth_error_None (cl_covs d) i)) by lia. apply nth_error_None. rewrite LC', E2, map_length. exact E.
  - intros S i p E. apply (proj2 (ONE i p E) S).
Qed.
Theorem C72_same_neighbours : forall s points knn knn' k, 0 < s -> Forall (fun p : vec4 Rfld => vw p = 1%R) points ->
  exact_knn points knn k -> exact_knn (map (grow_pt s) points) knn' k -> (forall p, In p points -> clear_cut points p k) -> same_found s knn knn' k points.
Proof.
  intros s points knn knn' k P H X X' C p found found' I E E'. apply (nearest_unique points p k); auto.
  rewrite Forall_forall in H. destruct (X' _ _ (in_map (grow_pt s) _ _ I) E') as (N & L & B & M). rewrite map_length in L, B. repeat split; auto.
  intros i j q q' Ii Ij Ei Ej. specialize (M i j (grow_pt s q) (grow_pt s q') Ii Ij). rewrite !nth_error_map, Ei, Ej in M. specialize (M eq_refl eq_refl).
  pose proof (H _ (nth_error_In _ _ Ei)) as Q1. pose proof (H _ (nth_error_In _ _ Ej)) as Q2. pose proof (H _ I) as Q3.
  rewrite !gap_grow in M by congruence. assert (0 < s * s) by nra. nra.
Qed.

(** * Damping *)
(** The damping adds the same number to the rotations and to the translations, so with it the
    unit matters: whatever the damping, a step in metres and one in half metres turn the source
    differently. *)
Lemma turn_entry (w t : R) : 1 / 100 < w < 1 -> p1 (r0 (rot (se3_exp (P6 (P3 (D := Rfld) 0 0 w) (P3 (D := Rfld) 0 t 0))))) = - sin w.
Proof.
  intros W. unfold se3_exp. cbn [rv rot]. set (omega := P3 (D := Rfld) 0 0 w).
  assert (D : dot3 omega omega = w * w) by (unfold omega; cbn; change (car (fbase Rfld)) with R; req; ring).
  rewrite rodrigues_large by (rewrite D; change (car (fbase Rfld)) with R; nra). rewrite D. change (car (fbase Rfld)) with R. rewrite sqrt_square by lra.
  unfold rodrigues, omega. cbn. change (car (fbase Rfld)) with R. field. lra.
Qed.
Lemma turn_size (lambda : R) : 0 < lambda -> 2 / 5 < (2 + lambda) / (5 + lambda) < 1.
Proof. intros L. split; [apply (Rmult_lt_reg_r (5 + lambda)); [lra|]|apply (Rmult_lt_reg_r (5 + lambda)); [lra|]]; field_simplify; lra. Qed.
Theorem C72_damping_refuted : forall solve (crit : criteria Rfld) (lambda : R), solves6 solve -> 0 < lambda -> exists h r log r' log',
  let run tgt src crit T := gauss_newton (reg_lin Rfld found_it null_rejector (cloud_viewN tgt) (cloud_view src) ICP) null_factor solve
    se3_exp inlier crit (lambda : car Rfld) 1 T (initial_factors 1) in
  run (lone (rpt 1 h 0)) (lone (rpt 1 0 0)) crit pose_id = Ok (r, log) /\
  run (grown_cloud 2 (lone (rpt 1 h 0))) (grown_cloud 2 (lone (rpt 1 0 0))) (grown_criteria 2 crit) (grow 2 pose_id) = Ok (r', log') /\
  rot (r_T r') <> rot (r_T r).
Proof.
  intros solve crit lambda SV L. set (h := (2 + lambda) / 4). exists h.
  destruct (one_step null_factor solve crit lambda pose_id (rpt 1 h 0) (rpt 1 0 0) (P6 (P3 (D := Rfld) 0 0 (1 / 4)) (P3 (D := Rfld) 0 (1 / 4) 0))) as (r & log & E & ET);
    [left; reflexivity|exact SV|exact L|reflexivity| |].
  { unfold h. apply P6_eq; apply P3_eq; cbn; change (car (fbase Rfld)) with R; req; field. }
  set (w := (2 + lambda) / (5 + lambda)). set (t := (2 + lambda) / (2 * (5 + lambda))).
  assert (EG : grow 2 pose_id = pose_id) by (unfold grow, pose_id; cbn [rot tra]; rewrite scale3_zero; reflexivity).
  assert (EP : forall a b : R, grow_pt 2 (rpt a b 0) = rpt (2 * a) (2 * b) 0) by (intros a b; unfold grow_pt, rpt; cbn [vx vy vz vw]; rewrite Rmult_0_r; reflexivity).
  destruct (one_step null_factor solve (grown_criteria 2 crit) lambda pose_id (rpt (2 * 1) (2 * h) 0) (rpt (2 * 1) (2 * 0) 0) (P6 (P3 (D := Rfld) 0 0 w) (P3 (D := Rfld) 0 t 0))) as (r' & log' & E' & ET');
    [left; reflexivity|exact SV|exact L|reflexivity| |].
  { unfold h, w, t. apply P6_eq; apply P3_eq; cbn; change (car (fbase Rfld)) with R; req; field; lra. }
  exists r, log, r', log'. cbv zeta. split; [exact E|]. split.
  - rewrite EG. unfold grown_cloud, lone. cbn [cl_points cl_normals cl_covs map]. rewrite !EP. exact E'.
  - rewrite ET, ET'. cbn [pose_mul rot pose_id]. rewrite !mm3_id_l. intros X. apply (f_equal (fun M => p1 (r0 M))) in X.
    pose proof (turn_size lambda L) as W. fold w in W. rewrite !turn_entry in X by lra.
    pose proof PI2_3_2 as PI. unfold PI2 in PI. pose proof (sin_increasing_1 (1 / 4) w ltac:(lra) ltac:(lra) ltac:(lra) ltac:(lra) ltac:(lra)). lra.
Qed.

(** * Non-vacuity *)
(** The grid of C69 in metres and in half metres, any factor, a first undamped step that moves. *)
Lemma six_points i p : at_point (cloud_viewN six) i = Ok p ->
  (i = 0%N /\ p = rpt 0 0 0) \/ (i = 1%N /\ p = rpt 1 0 0) \/ (i = 2%N /\ p = rpt 2 0 0) \/ (i = 3%N /\ p = rpt 0 1 0) \/ (i = 4%N /\ p = rpt 1 1 0) \/ (i = 5%N /\ p = rpt 2 1 0).
Proof.
  cbn [cloud_viewN at_point six grid cl_points]. intros E. apply get_Ok in E. rewrite <- (Nnat.N2Nat.id i). 
  destruct (N.to_nat i) as [|[|[|[|[|[|n]]]]]]; cbn [nth_error] in E; [..|destruct n; discriminate E]; injection E as <-; tauto.
Qed.
Definition near_start : pose Rfld := shifted (at_xyz 1 0 0) (opp3 (P3 (D := Rfld) (2 / 5) 0 0)).
Lemma start_point (x y : R) : pose_pt near_start (rpt x y 0) = rpt (3 / 5 + x) y 0.
Proof. unfold pose_pt, near_start, shifted, at_xyz, rpt, id3, diag3, mv3, dot3; cbn; apply V4_eq; req; change (car (fbase Rfld)) with R; lra. Qed.
Lemma start_nearest (x y : R) i : (x = 0 \/ x = 1) -> (y = 0 \/ y = 1) -> nearest_at (cloud_viewN six) (rpt (3 / 5 + x) y 0) i ->
  at_point (cloud_viewN six) i = Ok (rpt (1 + x) y 0).
Proof.
  intros HX HY (p & E & M). rewrite E. f_equal.
  pose proof (M 1%N (rpt 1 0 0) eq_refl) as M1. pose proof (M 2%N (rpt 2 0 0) eq_refl) as M2. pose proof (M 4%N (rpt 1 1 0) eq_refl) as M4. pose proof (M 5%N (rpt 2 1 0) eq_refl) as M5. clear M.
  assert (G : forall a b c d : R, sq_gap (rpt a b 0) (rpt c d 0) = (a - c) * (a - c) + (b - d) * (b - d)) by (intros a b c d; unfold sq_gap, rpt; cbn [vx vy vz vw]; req; change (car (fbase Rfld)) with R; ring).
  destruct (six_points _ _ E) as [[_ ->]|[[_ ->]|[[_ ->]|[[_ ->]|[[_ ->]|[_ ->]]]]]]; destruct HX as [-> | ->]; destruct HY as [-> | ->]; rewrite !G in *;
    first [exfalso; clear - M1; lra|exfalso; clear - M2; lra|exfalso; clear - M4; lra|exfalso; clear - M5; lra|f_equal; lra].
Qed.
Lemma start_clear i p : at_point (cloud_view four) i = Ok p -> one_nearest (cloud_viewN six) (pose_pt near_start p) /\ in_range 2 (cloud_viewN six) (pose_pt near_start p) /\ vw p = 1.
Proof.
  intros E. assert (H : exists x y, p = rpt x y 0 /\ (x = 0 \/ x = 1) /\ (y = 0 \/ y = 1)).
  { cbn [cloud_view at_point four grid cl_points] in E. apply get_Ok in E. destruct i as [|[|[|[|n]]]]; cbn [nth_error] in E; [..|destruct n; discriminate E]; injection E as <-;
      do 2 eexists; (split; [reflexivity|]); auto. }
  clear E. destruct H as (x & y & -> & HX & HY). rewrite start_point. split; [|split; [|reflexivity]].
  - intros a b A B. pose proof (start_nearest x y a HX HY A) as PA. pose proof (start_nearest x y b HX HY B) as PB. clear A B.
    assert (D : forall u v w z : R, rpt u v 0 = rpt w z 0 -> u = w /\ v = z) by (intros u v w z Q; pose proof (f_equal vx Q) as Q1; pose proof (f_equal vy Q) as Q2; cbn in Q1, Q2; auto).
    destruct (six_points _ _ PA) as [[-> QA]|[[-> QA]|[[-> QA]|[[-> QA]|[[-> QA]|[-> QA]]]]]]; destruct (six_points _ _ PB) as [[-> QB]|[[-> QB]|[[-> QB]|[[-> QB]|[[-> QB]|[-> QB]]]]]];
      try reflexivity; exfalso; apply D in QA; apply D in QB; destruct QA as (QA1 & QA2), QB as (QB1 & QB2); lra.
  - pose proof far_away as F. assert (G : forall a b c d : R, sq_gap (rpt a b 0) (rpt c d 0) = (a - c) * (a - c) + (b - d) * (b - d)) by (intros a b c d; unfold sq_gap, rpt; cbn [vx vy vz vw]; req; change (car (fbase Rfld)) with R; ring).
    assert (Q : sq_gap (rpt (1 + x) y 0) (rpt (3 / 5 + x) y 0) = 4 / 25) by (rewrite G; field).
    unfold in_range. enough (A : exists j, at_point (cloud_viewN six) j = Ok (rpt (1 + x) y 0)).
    { destruct A as (j & A). exists j, (rpt (1 + x) y 0). split; [exact A|]. rewrite Q. lra. }
    assert (P : forall j (a b : R), at_point (cloud_viewN six) j = Ok (rpt a b 0) -> a = 1 + x -> b = y -> exists j, at_point (cloud_viewN six) j = Ok (rpt (1 + x) y 0)) by (intros j a b A -> ->; eauto).
    destruct HX as [-> | ->], HY as [-> | ->]; [apply (P 1%N 1 0)|apply (P 4%N 1 1)|apply (P 2%N 2 0)|apply (P 5%N 2 1)]; try reflexivity; lra.
Qed.
Lemma searchable_exact (c : cloud Rfld) : cl_points c <> [] -> (N.of_nat (length (cl_points c)) <= 4294967295)%N -> exists nn, exact_search (cloud_viewN c) nn.
Proof.
  intros NZ SM. destruct (searchable c NZ SM) as (tree & B). exists (real_tree_nn eigen_order (cl_points c) tree).
  apply (real_tree_exact eigen_order move_order_full sort_nth_element sort_nth_element_contract y_axis y_axis_short c 20
    ltac:(vm_compute; discriminate) NZ SM tree B).
Qed.
Example C72_run : forall k, exists nn nn' r log,
  exact_search (cloud_viewN six) nn /\ exact_search (cloud_viewN (grown_cloud 2 six)) nn' /\
  unit_problem 2 (cloud_viewN six) (cloud_viewN (grown_cloud 2 six)) (cloud_view four) (cloud_view (grown_cloud 2 four)) null_rejector null_rejector null_factor null_factor k block_solve /\
  gauss_newton (reg_lin Rfld nn null_rejector (cloud_viewN six) (cloud_view four) k) null_factor block_solve se3_exp inlier (mkCriteria (D := Rfld) 0 0) (0 : car Rfld) 1
    near_start (initial_factors 4) = Ok (r, log) /\
  well_posed log /\ searches_agree 2 (cloud_view four) nn nn' log /\ r_T r = at_xyz 1 0 0 /\ r_T r <> near_start.
Proof.
  intros k. assert (F : Forall (fun p : vec4 Rfld => vw p = 1) (cl_points four)) by (repeat constructor).
  destruct (six_problem k (cl_points four) (at_xyz 1 0 0) F (four_lands 1 (or_intror eq_refl))) as (nn & [X RJ LM GF A HS SV C1 C2 LO]).
  destruct (searchable_exact (grown_cloud 2 six) ltac:(discriminate) ltac:(vm_compute; discriminate)) as (nn' & X').
  assert (PN : pinned k six four (at_xyz 1 0 0)).
  { apply grid_pinned; [exact id_rotation|]. apply (corner_off_line 0 0); cbn [four grid cl_points In]; rewrite ?Rplus_0_l; auto. }
  assert (SM : small_shift six (nmaxv (n := Rnum)) (P3 (D := Rfld) (2 / 5) 0 0)) by (apply shift_small; lra).
  destruct (shifted_system six four nn X _ _ RJ k A HS (at_xyz 1 0 0) id_rotation LO (P3 (D := Rfld) (2 / 5) 0 0) (initial_factors 4) SM eq_refl) as (fs' & x & EL & L' & IN & Sy & Pd & MI & SPD & _).
  specialize (SPD PN). change (reg_lin Rfld nn null_rejector (cloud_viewN six) (cloud_view four) k near_start (initial_factors 4) = Ok (fs', x)) in EL.
  destruct (gauss_newton (reg_lin Rfld nn null_rejector (cloud_viewN six) (cloud_view four) k) null_factor block_solve se3_exp inlier (mkCriteria (D := Rfld) 0 0) (0 : car Rfld) 1
    near_start (initial_factors 4)) as [[r log]| | |] eqn:E.
  2-4: exfalso; unfold gauss_newton in E; change (Z.to_nat 1) with 1%nat in E; cbn [gn_loop result_init r_converged r_T] in E; rewrite EL in E; cbn [bind] in E; discriminate E.
  exists nn, nn', r, log. split; [exact X|]. split; [exact X'|]. split.
  { split; auto using grown_cloud_view, grown_cloud_viewN, null_general, null_verdict, block_solve_correct.
    - lra.
    - intros i p Ei. destruct (six_points _ _ Ei) as [[_ ->]|[[_ ->]|[[_ ->]|[[_ ->]|[[_ ->]|[_ ->]]]]]]; reflexivity.
    - intros _. exact (proj2 (proj2 (grid_attributes GICP (cl_points six) (cl_points four)))). }
  split; [exact E|].
  assert (LOG : forall T0 fs0 x0, In (Linearized T0 fs0 x0) log -> T0 = near_start /\ x0 = x).
  { unfold gauss_newton in E. change (Z.to_nat 1) with 1%nat in E. cbn [gn_loop result_init r_converged r_T] in E. rewrite EL in E. cbn [bind null_factor upd_sys] in E.
    apply (f_equal (fun o => match o with Ok z => snd z | _ => [] end)) in E. cbn [snd] in E. subst log. intros T0 fs0 x0 [Q|[Q|[]]]; [injection Q as <- <- <-; auto|discriminate Q]. }
  split; [intros T0 fs0 x0 I; destruct (LOG _ _ _ I) as (_ & ->); exact SPD|].
  split.
  - intros T0 (fs0 & x0 & I). destruct (LOG _ _ _ I) as (-> & _). intros i p Ei. destruct (start_clear _ _ Ei) as (U1 & U2 & W).
    apply (C72_searches 2 (cloud_viewN six) (cloud_viewN (grown_cloud 2 six))); auto using grown_cloud_viewN; [lra|].
    intros j q Ej. destruct (six_points _ _ Ej) as [[_ ->]|[[_ ->]|[[_ ->]|[[_ ->]|[[_ ->]|[_ ->]]]]]]; reflexivity.
  - assert (ET : r_T r = at_xyz 1 0 0).
    { destruct (C69_gauss_newton six four nn (nmaxv (n := Rnum)) no_limit k block_solve (mkCriteria (D := Rfld) 0 0) (at_xyz 1 0 0) (opp3 (P3 (D := Rfld) (2 / 5) 0 0)) 1) as (r1 & log1 & E1 & T1 & _);
        [split; assumption|exact id_rotation|exact PN| |lia|].
      - assert (Q : opp3 (P3 (D := Rfld) (2 / 5) 0 0) = P3 (D := Rfld) (- (2 / 5)) 0 0) by (apply P3_eq; cbn; change (car (fbase Rfld)) with R; req; lra).
        rewrite Q. apply shift_small. lra.
      - unfold near_start in E. assert (Q : Ok (r, log) = Ok (r1, log1)) by (rewrite <- E; exact E1). injection Q as <- _. exact T1. }
    split; [exact ET|]. rewrite ET. intros Q. apply (f_equal (fun T => p0 (tra T))) in Q. unfold near_start, shifted, at_xyz in Q. cbn in Q. change (car (fbase Rfld)) with R in Q. lra.
Qed.
(** The flat cross of C33 in both units. *)
Lemma cross_grown_solves : solves cross_eig (map (grow_pt 2) cross_pts).
Proof.
  intros W S Q. destruct W as [[a b c] [d e f] [g h i]]. unfold sym3 in S. cbn in S. injection S. intros.
  pose proof (Q (P3 (1 : car Rfld) 0 0)) as Q1. pose proof (Q (P3 (0 : car Rfld) 1 0)) as Q2. pose proof (Q (P3 (0 : car Rfld) 0 1)) as Q3.
  pose proof (Q (P3 (1 : car Rfld) 1 0)) as Q4. pose proof (Q (P3 (1 : car Rfld) 0 1)) as Q5. pose proof (Q (P3 (0 : car Rfld) 1 1)) as Q6.
  rewrite variance_grow, cross_variance in *. cbn in *. change (car (fbase Rfld)) with R in *. change (car Rfld) with R in *. change (car Rnum) with R in *.
  assert (E1 : a = 8 / 5) by lra. assert (E2 : e = 8 / 5) by lra. assert (E3 : i = 0) by lra.
  assert (E4 : b = 0) by lra. assert (E5 : c = 0) by lra. assert (E6 : f = 0) by lra.
  assert (E7 : d = 0) by lra. assert (E8 : g = 0) by lra. assert (E9 : h = 0) by lra. clear - E1 E2 E3 E4 E5 E6 E7 E8 E9. subst.
  split; [unfold cross_eig; apply M3_eq; apply P3_eq; cbn; req; ring|].
  exists (P3 (0 : car Rfld) (8 / 5) (8 / 5)). cbn [p0 p1 p2]. split; [|lra].
  unfold cross_eig. apply M3_eq; apply P3_eq; cbn; req; field.
Qed.
Lemma cross_usable (f : vec4 Rfld -> vec4 Rfld) pts : usable cross_knn 5 (mkCloud (map f cross_pts) [] []) pts -> pts = map f cross_pts.
Proof.
  intros (i & p & found & (_ & EF & F2) & _). injection EF as <-. rewrite (neighbours_nth _ _ _ (f (V4 (D := Rfld) 0 0 0 0)) F2). reflexivity.
Qed.
Example C72_cross : exists d d',
  estimate (D := Rfld) cross_knn cross_eig INR (1e-3)%R Both vzero vzero cov_invalid 5 Prop_Est.cross = Ok d /\
  estimate (D := Rfld) cross_knn cross_eig INR (1e-3)%R Both vzero vzero cov_invalid 5 (grown_cloud 2 Prop_Est.cross) = Ok d' /\
  cl_covs d' = cl_covs d /\ length (cl_covs d) = 5%nat /\ grown_cloud 2 Prop_Est.cross <> Prop_Est.cross.
Proof.
  assert (T : forall c : cloud Rfld, length (cl_points c) = 5%nat -> exists d, estimate (D := Rfld) cross_knn cross_eig INR (1e-3)%R Both vzero vzero cov_invalid 5 c = Ok d).
  { intros c L. apply C33_total. intros p _. exists [0; 1; 2; 3; 4]%nat. split; [reflexivity|]. rewrite L. repeat constructor. }
  destruct (T Prop_Est.cross eq_refl) as (d & D). destruct (T (grown_cloud 2 Prop_Est.cross) eq_refl) as (d' & D'). exists d, d'. split; [exact D|]. split; [exact D'|]. split; [|split].
  - eapply (C72_estimated 2 cross_knn cross_knn cross_eig cross_eig Both vzero vzero cov_invalid vzero vzero cov_invalid 5 Prop_Est.cross (grown_cloud 2 Prop_Est.cross)); try exact D; try exact D'; try reflexivity.
    + lra.
    + intros p found found' _ E E'. injection E as <-. injection E' as <-. apply Permutation_refl.
    + intros pts U. assert (pts = cross_pts) as ->. { rewrite <- (map_id cross_pts). apply cross_usable. rewrite map_id. exact U. }
      split; [exact cross_solves|]. apply cross_flat_once. reflexivity.
    + intros pts U. assert (pts = map (grow_pt 2) cross_pts) as -> by (apply cross_usable; exact U). exact cross_grown_solves.
  - destruct (C33_estimated_values _ _ _ _ _ _ _ _ _ D) as (_ & _ & -> & _). reflexivity.
  - intros E. apply (f_equal (fun c => match cl_points c with p :: _ => vx p | [] => (0 : car Rfld) end)) in E. cbn in E. change (car (fbase Rfld)) with R in E. lra.
Qed.

Print Assumptions C72_gauss_newton.
Print Assumptions C72_levenberg_marquardt.
Print Assumptions C72_robust.
Print Assumptions C72_huber.
Print Assumptions C72_cauchy.
Print Assumptions C72_distance_rejector.
Print Assumptions C72_restricted_rotation.
Print Assumptions C72_restricted_translation.
Print Assumptions C72_searches.
Print Assumptions C72_kdtree.
Print Assumptions C72_estimated.
Print Assumptions C72_same_neighbours.
Print Assumptions C72_damping_refuted.
Print Assumptions C72_run.
Print Assumptions C72_cross.
