(** C68: the order of the points does not matter. *)
From Coq Require Import Reals Lra ZArith Permutation.
From Verif Require Import Base BaseProofs Num Vec F64 RNum Lin LinSpec LinProofs FactorModel FactorProofs ReduceModel ReduceSpec ReduceProofs
  KnnModel KdModel KdSpec KdReal NthElement OptModel OptSpec MoveSpec MoveProofs MoveFactor MoveTree OrderSpec OrderProofs Prop_Reduce Prop_Move.
Open Scope nat_scope.

Lemma sum_monoid : comm_monoid (nzero (n := Rfld)) (nadd (n := Rfld)).
Proof. split; intros; cbn; [symmetry; apply Rplus_assoc|apply Rplus_comm|apply Rplus_0_l]. Qed.

(** What the theorems ask for: the source rearranged, the target renumbered, an exact search in
    each, rejection by distance. *)
Record same_clouds (order : list nat) (target target' : view Rfld N) (source source' : view Rfld nat)
    (nn nn' : vec4 Rfld -> outcome (option (N * car Rfld))) (reject reject' : pose Rfld -> N -> nat -> car Rfld -> bool) : Prop := {
  sc_source : rearranged order source source';
  sc_target : renumbered target target';
  sc_search : exact_search target nn;
  sc_search' : exact_search target' nn';
  sc_reject : by_distance reject reject'
}.

(** With a unique nearest point for every transformed source point at the poses where the run
    linearised: the run on the rearranged clouds returns the same result in every field. *)
Theorem C68_gauss_newton : forall order target target' source source' nn nn' reject reject' g k solve exp6 crit lambda n T r log,
  same_clouds order target target' source source' nn nn' reject reject' ->
  gauss_newton (reg_lin Rfld nn reject target source k) g solve exp6 inlier crit lambda n T (initial_factors (length order)) = Ok (r, log) ->
  (forall T', linearized_at log T' -> untied target source T') ->
  exists log', gauss_newton (reg_lin Rfld nn' reject' target' source' k) g solve exp6 inlier crit lambda n T (initial_factors (length order)) = Ok (r, log').
Proof.
  intros order target target' source source' nn nn' reject reject' g k solve exp6 crit lambda n T r log [(P & SD) RN X X' RJ] H U.
  rewrite <- (moved_id r). pattern T. rewrite <- (pose_mul_id T). cbv beta.
  eapply gauss_newton_moved with (Rel := matched _ (alike target target' source source') order) (good := untied target source); try exact H; auto.
  - intros T0 fs fs1 s fs' V E R. rewrite pose_mul_id. eapply serial_matched; [exact C25_sys_monoid|exact P| |exact E|exact R].
    intros i f f1 r0 f' Li El AL. eapply linearize_alike; eauto. apply searches_agree; auto.
  - intros. rewrite pose_mul_id. reflexivity.
  - apply count_matched; [exact P|]. apply alike_inlier.
  - apply initial_matched. exact P.
Qed.
Theorem C68_levenberg_marquardt : forall order target target' source source' nn nn' reject reject' g k solve exp6 crit c T r log,
  same_clouds order target target' source source' nn nn' reject reject' ->
  levenberg_marquardt (reg_lin Rfld nn reject target source k) (reg_err Rfld target source k) g solve exp6 inlier crit c T
    (initial_factors (length order)) = Ok (r, log) ->
  (forall T', linearized_at log T' -> untied target source T') ->
  exists log', levenberg_marquardt (reg_lin Rfld nn' reject' target' source' k) (reg_err Rfld target' source' k) g solve exp6 inlier crit c T
    (initial_factors (length order)) = Ok (r, log').
Proof.
  intros order target target' source source' nn nn' reject reject' g k solve exp6 crit c T r log [(P & SD) RN X X' RJ] H U.
  rewrite <- (moved_id r). pattern T. rewrite <- (pose_mul_id T). cbv beta.
  eapply levenberg_moved with (Rel := matched _ (alike target target' source source') order) (good := untied target source); try exact H; auto.
  - intros T0 fs fs1 s fs' V E R. rewrite pose_mul_id. eapply serial_matched; [exact C25_sys_monoid|exact P| |exact E|exact R].
    intros i f f1 r0 f' Li El AL. eapply linearize_alike; eauto. apply searches_agree; auto.
  - intros T0 fs e fs' E R. rewrite pose_mul_id. eapply serial_error_matched; [exact sum_monoid|exact P| |exact E|exact R].
    intros f f' e0 Ee AL. eapply error_alike; eassumption.
  - intros. rewrite pose_mul_id. reflexivity.
  - intros. rewrite pose_mul_id. reflexivity.
  - apply count_matched; [exact P|]. apply alike_inlier.
  - apply initial_matched. exact P.
Qed.
(** The same with a robust kernel. *)
Theorem C68_robust : forall order target target' source source' nn nn' reject reject' g k weight solve exp6 crit c T r log,
  same_clouds order target target' source source' nn nn' reject reject' ->
  levenberg_marquardt (reg_lin_robust Rfld nn reject target source weight k) (reg_err_robust Rfld target source weight k) g solve exp6 inlier crit c T
    (initial_factors (length order)) = Ok (r, log) ->
  (forall T', linearized_at log T' -> untied target source T') ->
  exists log', levenberg_marquardt (reg_lin_robust Rfld nn' reject' target' source' weight k) (reg_err_robust Rfld target' source' weight k) g solve exp6
    inlier crit c T (initial_factors (length order)) = Ok (r, log').
Proof.
  intros order target target' source source' nn nn' reject reject' g k weight solve exp6 crit c T r log [(P & SD) RN X X' RJ] H U.
  rewrite <- (moved_id r). pattern T. rewrite <- (pose_mul_id T). cbv beta.
  eapply levenberg_moved with (Rel := matched _ (alike target target' source source') order) (good := untied target source); try exact H; auto.
  - intros T0 fs fs1 s fs' V E R. rewrite pose_mul_id. eapply serial_matched; [exact C25_sys_monoid|exact P| |exact E|exact R].
    intros i f f1 r0 f' Li El AL. eapply linearize_robust_alike; eauto. apply searches_agree; auto.
  - intros T0 fs e fs' E R. rewrite pose_mul_id. eapply serial_error_matched; [exact sum_monoid|exact P| |exact E|exact R].
    intros f f' e0 Ee AL. eapply error_robust_alike; eassumption.
  - intros. rewrite pose_mul_id. reflexivity.
  - intros. rewrite pose_mul_id. reflexivity.
  - apply count_matched; [exact P|]. apply alike_inlier.
  - apply initial_matched. exact P.
Qed.

(** Two clouds in two orders, a kd-tree for each target. *)
Theorem C68_kdtree : forall sums ne find_axis find_axis' leaf leaf' order order' (target target' source source' : cloud Rfld) tree tree' (max_sq : R) k
    g solve exp6 crit c T r log,
  full_sum sums -> nth_element_contract ne ->
  (forall range : list (vec4 Rnum), range <> [] -> exists n, find_axis range = Ok n /\ short n) ->
  (forall range : list (vec4 Rnum), range <> [] -> exists n, find_axis' range = Ok n /\ short n) ->
  (3 <= size_t_of_int leaf)%N -> (3 <= size_t_of_int leaf')%N ->
  cl_points target <> [] -> (N.of_nat (length (cl_points target)) <= 4294967295)%N ->
  sized target -> sized source -> shuffled order' target target' -> shuffled order source source' ->
  build_tree (normal_apply (D := Rnum)) find_axis ne (cl_points target) leaf = Ok tree ->
  build_tree (normal_apply (D := Rnum)) find_axis' ne (cl_points target') leaf' = Ok tree' ->
  let run tgt t src := levenberg_marquardt
    (reg_lin Rfld (real_tree_nn sums (cl_points tgt) t) (distance_rejector (D := Rfld) max_sq) (cloud_viewN tgt) (cloud_view src) k)
    (reg_err Rfld (cloud_viewN tgt) (cloud_view src) k) g solve exp6 inlier crit c T (initial_factors (length (cl_points src))) in
  run target tree source = Ok (r, log) ->
  (forall T', linearized_at log T' -> untied (cloud_viewN target) (cloud_view source) T') ->
  exists log', run target' tree' source' = Ok (r, log').
Proof.
  intros sums ne fa fa' leaf leaf' order order' target target' source source' tree tree' max_sq k g solve exp6 crit c T r log
    FS NE A1 A2 L1 L2 NZ SM ZT ZS ST SS B B' run H U. unfold run in *.
  assert (LS : length (cl_points source) = length order) by (symmetry; eapply order_length; exact SS).
  assert (LS' : length (cl_points source') = length order) by (destruct SS as (P & -> & _); rewrite pick_length by exact P; exact LS).
  assert (LT : length (cl_points target') = length (cl_points target)) by (destruct ST as (P & -> & _); apply pick_length; exact P).
  rewrite LS in H. rewrite LS'. eapply C68_levenberg_marquardt; [|exact H|exact U]. split.
  - apply shuffled_source; assumption.
  - eapply shuffled_target; eassumption.
  - apply (real_tree_exact sums FS ne NE fa A1 target leaf L1 NZ SM tree B).
  - apply (real_tree_exact sums FS ne NE fa' A2 target' leaf' L2); auto.
    + destruct (cl_points target'); [|discriminate]. destruct (cl_points target); [congruence|discriminate LT].
    + rewrite LT. exact SM.
  - intros T0 ti si ti' si' d. reflexivity.
Qed.

(** * Rounding *)
(** Over the doubles the order of the source points shows in the last bit of the error. *)
Definition fp (m e : Z) : vec4 Ffld := V4 (D := Ffld) (f64_of m e) (f64_of 0 0) (f64_of 0 0) (f64_of 1 0).
Definition fcloud (l : list (vec4 Ffld)) : cloud Ffld := mkCloud l [] [].
Definition ferror (l : list (vec4 Ffld)) : outcome f64 :=
  let* (r, _) := gauss_newton (reg_lin Ffld (fun _ => Ok (Some (0%N, nzero (n := Fnum)))) null_rejector (cloud_viewN (fcloud [fp 0 0])) (cloud_view (fcloud l)) ICP)
    (null_factor (D := Ffld)) (fun _ b => b) (fun d => mkPose id3 (tv d)) inlier (mkCriteria (D := Ffld) (f64_of 1 0) (f64_of 1 0)) (f64_of 0 0) 1 pose_id
    (initial_factors (length l)) in Ok (r_error r).
Theorem C68_rounding_refuted : exists l l' e e', Permutation l l' /\ ferror l = Ok e /\ ferror l' = Ok e' /\ nlt (n := Fnum) e e' = true.
Proof.
  exists [fp 1 0; fp 5 (-29); fp 5 (-29)], [fp 5 (-29); fp 5 (-29); fp 1 0].
  assert (H : match ferror [fp 1 0; fp 5 (-29); fp 5 (-29)], ferror [fp 5 (-29); fp 5 (-29); fp 1 0] with Ok e, Ok e' => nlt (n := Fnum) e e' | _, _ => false end = true)
    by (vm_compute; reflexivity).
  destruct (ferror [fp 1 0; _; _]) as [e| | |]; try discriminate H. destruct (ferror [fp 5 (-29); _; _]) as [e'| | |]; try discriminate H.
  exists e, e'. split; [apply (Permutation_cons_append [fp 5 (-29); fp 5 (-29)])|]. split; [reflexivity|]. split; [reflexivity|]. exact H.
Qed.

(** * Non-vacuity *)
(** Two target points and two source points, both clouds listed backwards, a kd-tree for each. *)
Definition two_sources : cloud Rfld := mkCloud [rpt 1 1 0; rpt 3 1 0] [] [].
Definition backwards (c : cloud Rfld) : cloud Rfld := mkCloud (pick [1; 0] (cl_points c)) (pick [1; 0] (cl_normals c)) (pick [1; 0] (cl_covs c)).
Lemma backwards_shuffled c : length (cl_points c) = 2 -> shuffled [1; 0] c (backwards c).
Proof. intros L. split; [rewrite L; apply perm_swap|]. repeat split. Qed.
Lemma second_nearest (i : N) : nearest_at (cloud_viewN two_targets) (pose_pt pose_id (rpt 3 1 0)) i -> i = 1%N.
Proof.
  intros (p & E & M). specialize (M 1%N (rpt 3 0 0) eq_refl). cbn [cloud_viewN at_point two_targets cl_points] in E.
  destruct (N.to_nat i) as [|[|n]] eqn:I0; [|lia|destruct n; discriminate E]. injection E as <-. exfalso.
  revert M. unfold sq_gap, pose_pt, pose_id, id3, diag3, mv3, dot3, rpt. cbn. lra.
Qed.
Example C68_setup : exists nn nn' r log,
  same_clouds [1; 0] (cloud_viewN two_targets) (cloud_viewN (backwards two_targets)) (cloud_view two_sources) (cloud_view (backwards two_sources)) nn nn' no_limit no_limit /\
  gauss_newton (reg_lin Rfld nn no_limit (cloud_viewN two_targets) (cloud_view two_sources) ICP) null_factor (fun _ b => b)
    (fun d => mkPose id3 (tv d)) inlier (mkCriteria (D := Rfld) 1%R 1%R) 0%R 1 pose_id (initial_factors 2) = Ok (r, log) /\
  (forall T, linearized_at log T -> untied (cloud_viewN two_targets) (cloud_view two_sources) T) /\ r_error r = (3/2)%R /\ r_inliers r = 2 /\
  cl_points (backwards two_sources) = [rpt 3 1 0; rpt 1 1 0].
Proof.
  destruct (searchable two_targets) as (tree & B); [discriminate|vm_compute; discriminate|].
  destruct (searchable (backwards two_targets)) as (tree' & B'); [discriminate|vm_compute; discriminate|].
  pose proof (real_tree_exact eigen_order move_order_full sort_nth_element sort_nth_element_contract y_axis y_axis_short two_targets 20
    ltac:(vm_compute; discriminate) ltac:(discriminate) ltac:(vm_compute; discriminate) tree B) as X.
  pose proof (real_tree_exact eigen_order move_order_full sort_nth_element sort_nth_element_contract y_axis y_axis_short (backwards two_targets) 20
    ltac:(vm_compute; discriminate) ltac:(discriminate) ltac:(vm_compute; discriminate) tree' B') as X'.
  exists (real_tree_nn eigen_order (cl_points two_targets) tree), (real_tree_nn eigen_order (cl_points (backwards two_targets)) tree').
  set (nn := real_tree_nn eigen_order (cl_points two_targets) tree) in *. set (nn' := real_tree_nn _ _ tree') in *. clearbody nn nn'.
  assert (E : nn (pose_pt pose_id (rpt 1 1 0)) = Ok (Some (0%N, sq_gap (rpt 0 0 0) (pose_pt pose_id (rpt 1 1 0)) : car Rfld))).
  { destruct (X (pose_pt pose_id (rpt 1 1 0))) as (o & -> & S). f_equal. destruct o as [[i d]|].
    - destruct S as (N1 & _ & p & Ep & ->). apply two_nearest in N1 as ->. injection Ep as <-. reflexivity.
    - specialize (S 0%N _ eq_refl). pose proof far_away. exfalso. revert S. unfold sq_gap, pose_pt, pose_id, id3, diag3, mv3, dot3, rpt. cbn [vx vy vz vw]. cbn. cbn in *. lra. }
  assert (E2 : nn (pose_pt pose_id (rpt 3 1 0)) = Ok (Some (1%N, sq_gap (rpt 3 0 0) (pose_pt pose_id (rpt 3 1 0)) : car Rfld))).
  { destruct (X (pose_pt pose_id (rpt 3 1 0))) as (o & -> & S). f_equal. destruct o as [[i d]|].
    - destruct S as (N1 & _ & p & Ep & ->). apply second_nearest in N1 as ->. injection Ep as <-. reflexivity.
    - specialize (S 1%N _ eq_refl). pose proof far_away. exfalso. revert S. unfold sq_gap, pose_pt, pose_id, id3, diag3, mv3, dot3, rpt. cbn [vx vy vz vw]. cbn. cbn in *. lra. }
  assert (Z1 : sized two_targets) by (split; right; reflexivity). assert (Z2 : sized two_sources) by (split; right; reflexivity).
  assert (L1 : exists f s, linearize nn no_limit (cloud_viewN two_targets) (cloud_view two_sources) ICP pose_id 0 factor_init = Ok (f, Some s) /\ inlier f = true /\ se s = 1%R).
  { unfold linearize. cbn [cloud_view at_point two_sources cl_points get nth_error bind]. rewrite E. cbn [bind].
    unfold no_limit, null_rejector, linearize_at, residual, get. cbn. do 2 eexists. split; [reflexivity|]. split; [reflexivity|]. cbn. req. lra. }
  assert (L2 : exists f s, linearize nn no_limit (cloud_viewN two_targets) (cloud_view two_sources) ICP pose_id 1 factor_init = Ok (f, Some s) /\ inlier f = true /\ se s = (1/2)%R).
  { unfold linearize. cbn [cloud_view at_point two_sources cl_points get nth_error bind]. rewrite E2. cbn [bind].
    unfold no_limit, null_rejector, linearize_at, residual, get. cbn. do 2 eexists. split; [reflexivity|]. split; [reflexivity|]. cbn. req. lra. }
  destruct L1 as (f1 & s1 & L1 & I1 & V1). destruct L2 as (f2 & s2 & L2 & I2 & V2).
  eexists _, _. split; [|split; [|split; [|split; [|split]]]].
  - split; auto.
    + apply shuffled_source; [exact Z2|apply backwards_shuffled; reflexivity].
    + eapply shuffled_target; [exact Z1|apply backwards_shuffled; reflexivity].
    + intros T0 ti si ti' si' d. reflexivity.
  - unfold gauss_newton. change (Z.to_nat 1) with 1. cbn [gn_loop result_init r_converged r_T].
    unfold reg_lin at 1, serial, initial_factors. cbn [repeat length seq foldM]. unfold visit at 1. unfold get at 1. cbn [nth_error bind]. rewrite L1. cbn [bind].
    unfold set at 1. cbn [length Nat.ltb Nat.leb upd bind foldM]. unfold visit at 1. unfold get at 1. cbn [nth_error bind]. rewrite L2. cbn [bind].
    unfold set at 1. cbn [length Nat.ltb Nat.leb upd bind foldM fst snd]. reflexivity.
  - intros T (fs & s & I0). cbn [In] in I0. destruct I0 as [I0|[I0|[]]]; [|discriminate]. injection I0 as <- _ _.
    intros i p Ei. cbn [cloud_view at_point two_sources cl_points] in Ei. destruct i as [|[|n]]; [| |destruct n; discriminate Ei]; injection Ei as <-.
    + intros a b Na Nb. rewrite (two_nearest a Na), (two_nearest b Nb). reflexivity.
    + intros a b Na Nb. rewrite (second_nearest a Na), (second_nearest b Nb). reflexivity.
  - cbn [r_error]. cbn. rewrite V1, V2. req. lra.
  - cbn [r_inliers]. unfold count_inliers. cbn [filter]. rewrite I1, I2. reflexivity.
  - reflexivity.
Qed.

Print Assumptions C68_gauss_newton.
Print Assumptions C68_levenberg_marquardt.
Print Assumptions C68_robust.
Print Assumptions C68_kdtree.
Print Assumptions C68_rounding_refuted.
