(** C69: a start that is off the true alignment by a shift of less than half the spacing of the
    target is corrected. *)
From Coq Require Import Reals Lra Lia ZArith List.
From Verif Require Import Base BaseProofs Num Vec RNum Lin LinSpec LinProofs FactorModel FactorSpec FactorProofs FactorReal ReduceModel
  KnnModel KdModel KdSpec KdReal NthElement OptModel OptSpec LieModel StepProofs EstReal MoveSpec MoveProofs MoveFactor MoveTree FitSpec FitProofs
  AlignSpec AlignProofs Prop_Lie Prop_Factor Prop_Move Prop_Fit Prop_Align ShiftSpec ShiftProofs.
Open Scope R_scope.

(** Gauss-Newton without damping, any factor: the true pose itself after the first iteration,
    the second confirms it. *)
Theorem C69_gauss_newton : forall target source nn limit reject k solve crit T d m,
  aligned_problem target source nn limit reject null_factor k solve crit T -> rotation (rot T) ->
  pinned k target source T -> small_shift target limit d -> (0 < m)%Z ->
  let n := length (cl_points source) in
  exists r log, gauss_newton (reg_lin Rfld nn reject (cloud_viewN target) (cloud_view source) k) null_factor solve se3_exp inlier crit
    (0 : car Rfld) m (shifted T d) (initial_factors n) = Ok (r, log) /\
    r_T r = T /\ (r_iterations r <= 1)%nat /\ r_inliers r = n /\ ((1 < m)%Z -> r_converged r = true).
Proof.
  intros target source nn limit reject k solve crit T d m [X RJ LM G A HS SV C1 C2 LO] RT PN SM M n.
  assert (OO : opp3 (opp3 d) = d) by (destruct d as [a b c]; apply P3_eq; cbn; change (car (fbase Rfld)) with R in *; req; ring).
  apply (gn_exact target source nn X limit reject RJ k A HS T RT LO solve SV crit C1 C2 m (shifted T d) (opp3 d) PN); [|rewrite OO; reflexivity|exact M].
  destruct SM as (S1 & S2 & S3). assert (DD : dot3 (opp3 d) (opp3 d) = dot3 d d) by (destruct d as [a b c]; cbn; change (car (fbase Rfld)) with R in *; req; ring).
  unfold small_shift. rewrite DD. auto.
Qed.

(** With damping, for point-to-point ICP and a source whose centroid is the origin: every
    iteration multiplies the shift by at most lambda / (n + lambda). *)
Theorem C69_damped_gauss_newton : forall target source nn limit reject solve crit T d (lambda : R) m,
  aligned_problem target source nn limit reject null_factor ICP solve crit T -> rotation (rot T) -> centred source -> cl_points source <> [] ->
  small_shift target limit d -> 0 < lambda -> (0 < m)%Z ->
  let n := length (cl_points source) in
  exists r log, gauss_newton (reg_lin Rfld nn reject (cloud_viewN target) (cloud_view source) ICP) null_factor solve se3_exp inlier crit
    (lambda : car Rfld) m (shifted T (opp3 d)) (initial_factors n) = Ok (r, log) /\
    r_inliers r = n /\ approached T d (INR n) lambda (translation_eps crit) (Z.to_nat m) r.
Proof.
  intros target source nn limit reject solve crit T d lambda m [X RJ LM G A HS SV C1 C2 LO] RT CE NE SM L M n.
  unfold gauss_newton. destruct (Z.to_nat m) as [|m1] eqn:Em; [exfalso; lia|].
  destruct (gn_centred target source nn X limit reject RJ ICP A HS T RT LO solve SV crit C1 C2 eq_refl CE NE lambda m1 L 0 d
    (result_init (shifted T (opp3 d))) (initial_factors n) SM ltac:(unfold initial_factors; apply repeat_length) eq_refl eq_refl) as (rf & fsf & log & E & LF & IN & c & j & H1 & H2 & H3 & H4 & H5 & H6).
  rewrite E. cbn [bind fst snd]. do 2 eexists. split; [reflexivity|]. cbn [set_inliers r_inliers]. split; [rewrite all_inliers by exact IN; exact LF|].
  exists c. cbn [set_inliers r_T r_iterations r_converged]. cbn [Nat.add] in H2. rewrite H2. auto.
Qed.
Theorem C69_levenberg_marquardt : forall target source nn limit reject solve crit (c : lm_settings Rfld) T d,
  aligned_problem target source nn limit reject null_factor ICP solve crit T -> rotation (rot T) -> centred source -> cl_points source <> [] ->
  small_shift target limit d -> 0 < lm_init_lambda c -> 1 <= lm_factor c -> (0 < lm_max_iterations c)%Z -> (0 < lm_max_inner c)%Z ->
  let n := length (cl_points source) in
  exists r log, levenberg_marquardt (reg_lin Rfld nn reject (cloud_viewN target) (cloud_view source) ICP)
    (reg_err Rfld (cloud_viewN target) (cloud_view source) ICP) null_factor solve se3_exp inlier crit c (shifted T (opp3 d)) (initial_factors n) = Ok (r, log) /\
    r_inliers r = n /\ approached T d (INR n) (lm_init_lambda c) (translation_eps crit) (Z.to_nat (lm_max_iterations c)) r.
Proof.
  intros target source nn limit reject solve crit c T d [X RJ LM G A HS SV C1 C2 LO] RT CE NE SM L F M MI n.
  unfold levenberg_marquardt. destruct (Z.to_nat (lm_max_iterations c)) as [|m1] eqn:Em; [exfalso; lia|].
  destruct (lm_centred target source nn X limit reject RJ ICP A HS T RT LO solve SV crit C1 C2 eq_refl CE NE c m1 (lm_init_lambda c) MI F 0 d
    (result_init (shifted T (opp3 d))) (initial_factors n) (lm_init_lambda c) (conj L (Rle_refl _)) SM ltac:(unfold initial_factors; apply repeat_length) eq_refl eq_refl)
    as (rf & fsf & log & E & LF & IN & x & j & H1 & H2 & H3 & H4 & H5 & H6).
  rewrite E. cbn [bind fst snd]. do 2 eexists. split; [reflexivity|]. cbn [set_inliers r_inliers]. split; [rewrite all_inliers by exact IN; exact LF|].
  exists x. cbn [set_inliers r_T r_iterations r_converged]. cbn [Nat.add] in H2. rewrite H2. auto.
Qed.
(** With damping the true pose is never hit: whatever the settings, a rest of the shift stays. *)
Theorem C69_exact_with_damping_refuted : forall target source nn limit reject solve crit (c : lm_settings Rfld) T d r log,
  aligned_problem target source nn limit reject null_factor ICP solve crit T -> rotation (rot T) -> centred source -> cl_points source <> [] ->
  small_shift target limit d -> d <> zero3 -> 0 < lm_init_lambda c -> 1 <= lm_factor c -> (0 < lm_max_iterations c)%Z -> (0 < lm_max_inner c)%Z ->
  levenberg_marquardt (reg_lin Rfld nn reject (cloud_viewN target) (cloud_view source) ICP)
    (reg_err Rfld (cloud_viewN target) (cloud_view source) ICP) null_factor solve se3_exp inlier crit c (shifted T (opp3 d))
    (initial_factors (length (cl_points source))) = Ok (r, log) -> r_T r <> T.
Proof.
  intros target source nn limit reject solve crit c T d r log P RT CE NE SM ND L F M MI E ET.
  destruct (C69_levenberg_marquardt target source nn limit reject solve crit c T d P RT CE NE SM L F M MI) as (r' & log' & E' & _ & x & H1 & H2 & _).
  rewrite E in E'. injection E' as <- <-. rewrite H1 in ET. apply ND. clear - ET H2. destruct H2 as [H2 _].
  assert (Z : opp3 (scale3 (x : car Rfld) d) = zero3).
  { apply (f_equal tra) in ET. cbn [shifted tra] in ET. revert ET. generalize (opp3 (scale3 (x : car Rfld) d)). destruct (tra T) as [a b g]. intros [e f h] ET.
    pose proof (f_equal p0 ET) as E0. pose proof (f_equal p1 ET) as E1. pose proof (f_equal p2 ET) as E2. cbn in E0, E1, E2. change (car (fbase Rfld)) with R in *.
    apply P3_eq; [apply (Rplus_0_r_uniq a); exact E0|apply (Rplus_0_r_uniq b); exact E1|apply (Rplus_0_r_uniq g); exact E2]. }
  apply opp3_zero in Z. apply (scale3_nonzero x); [lra|exact Z].
Qed.

(** On the kd-tree of the target with the distance rejector. *)
Theorem C69_kdtree : forall order ne find_axis leaf (target source : cloud Rfld) tree (max_sq : R) k solve (crit : criteria Rfld) T d m,
  full_sum order -> nth_element_contract ne ->
  (forall range : list (vec4 Rnum), range <> [] -> exists n, find_axis range = Ok n /\ short n) ->
  (3 <= size_t_of_int leaf)%N -> cl_points target <> [] -> (N.of_nat (length (cl_points target)) <= 4294967295)%N ->
  build_tree (normal_apply (D := Rnum)) find_axis ne (cl_points target) leaf = Ok tree ->
  has_attributes k target source -> homogeneous (cloud_view source) -> solves6 solve ->
  0 <= translation_eps crit -> 0 <= rotation_eps crit -> lands_on target source T -> rotation (rot T) ->
  pinned k target source T -> small_shift target max_sq d -> (0 < m)%Z ->
  let n := length (cl_points source) in
  exists r log, gauss_newton
    (reg_lin Rfld (real_tree_nn order (cl_points target) tree) (distance_rejector (D := Rfld) max_sq) (cloud_viewN target) (cloud_view source) k)
    null_factor solve se3_exp inlier crit (0 : car Rfld) m (shifted T d) (initial_factors n) = Ok (r, log) /\
    r_T r = T /\ (r_iterations r <= 1)%nat /\ r_inliers r = n /\ ((1 < m)%Z -> r_converged r = true).
Proof.
  intros order ne fa leaf target source tree max_sq k solve crit T d m FS NE A L NZ SM B HA HH SV E1 E2 LO RT PN SS M n.
  apply (C69_gauss_newton target source _ max_sq); auto. split; auto.
  - apply (real_tree_exact order FS ne NE fa A target leaf L NZ SM tree B).
  - apply distance_rejects.
  - destruct SS as (_ & _ & S3). eapply Rle_trans; [|exact S3]. apply dot3_self_nonneg.
  - left. reflexivity.
Qed.

(** * Non-vacuity *)
(** A grid of six target points one apart, a source of four of them. *)
Definition grid (pts : list (vec4 Rfld)) : cloud Rfld :=
  mkCloud pts (map (fun _ => V4 (D := Rfld) 1 1 1 0) pts) (map (fun _ => plane_x) pts).
Definition six : cloud Rfld := grid [rpt 0 0 0; rpt 1 0 0; rpt 2 0 0; rpt 0 1 0; rpt 1 1 0; rpt 2 1 0].
Definition four : cloud Rfld := grid [rpt 0 0 0; rpt 1 0 0; rpt 0 1 0; rpt 1 1 0].
(** The same four points about their centroid. *)
Definition middle : cloud Rfld := grid [rpt (-1 / 2) (-1 / 2) 0; rpt (1 / 2) (-1 / 2) 0; rpt (-1 / 2) (1 / 2) 0; rpt (1 / 2) (1 / 2) 0].
Lemma grid_attributes k a b : has_attributes k (grid a) (grid b).
Proof.
  destruct k; cbn [has_attributes grid cl_points cl_normals cl_covs]; [exact I|apply map_length|].
  split; [apply map_length|]. split; [apply map_length|].
  assert (IN : forall (l : list (vec4 Rfld)) i c, get (map (fun _ => plane_x) l) i = Ok c -> c = plane_x).
  { intros l i c E. apply get_Ok, nth_error_In, in_map_iff in E. destruct E as (x & <- & _). reflexivity. }
  split; intros i c E; apply IN in E; subst c; apply plane_x_block.
Qed.
Lemma six_searchable : exists nn, exact_search (cloud_viewN six) nn.
Proof.
  destruct (searchable six) as (tree & B); [discriminate|vm_compute; discriminate|].
  exists (real_tree_nn eigen_order (cl_points six) tree).
  apply (real_tree_exact eigen_order move_order_full sort_nth_element sort_nth_element_contract y_axis y_axis_short six 20
    ltac:(vm_compute; discriminate) ltac:(discriminate) ltac:(vm_compute; discriminate) tree B).
Qed.
Lemma six_spaced (gap : R) : gap < 1 -> spaced gap six.
Proof.
  intros G p q Ip Iq N. cbn [six grid cl_points In] in Ip, Iq.
  destruct Ip as [<-|[<-|[<-|[<-|[<-|[<-|[]]]]]]]; destruct Iq as [<-|[<-|[<-|[<-|[<-|[<-|[]]]]]]]; try (exfalso; apply N; reflexivity);
    unfold sq_gap, rpt; cbn [vx vy vz vw]; lra.
Qed.
Lemma id_rotation : rotation (id3 (D := Rfld)).
Proof. split; [lring|]. unfold det3, id3, diag3. cbn. change (car (fbase Rfld)) with R in *. req. ring. Qed.
Lemma corner_off_line (a b : R) l : In (rpt a b 0) l -> In (rpt (a + 1) b 0) l -> In (rpt a (b + 1) 0) l -> off_line (grid l).
Proof.
  intros I1 I2 I3. exists (rpt a b 0), (rpt (a + 1) b 0), (rpt a (b + 1) 0). cbn [grid cl_points]. repeat split; [assumption..|].
  intros E. apply (f_equal p2) in E. unfold cross, rpt in E. cbn in E. change (car (fbase Rfld)) with R in *. lra.
Qed.
Lemma grid_pinned k l l' T : rotation (rot T) -> off_line (grid l') -> pinned k (grid l) (grid l') T.
Proof.
  intros RT O. destruct k; cbn [pinned]; [exact O| |exact O]. intros omega v NZ. destruct (off_line_moves _ _ _ O NZ) as (p & Ip & Mv).
  exists p. split; [exact Ip|]. intros j n _ En Z. cbn [grid cl_normals] in En. apply nth_error_In, in_map_iff in En. destruct En as (x & <- & _).
  apply Mv, (rot_nonzero _ _ RT). rewrite <- Z. clear. generalize (mv3 (rot T) (velocity omega v (head p))). intros [a b c].
  apply P3_eq; cbn; change (car (fbase Rfld)) with R in *; req; ring.
Qed.
Lemma grid_homogeneous l : Forall (fun p : vec4 Rfld => vw p = 1) l -> homogeneous (cloud_view (grid l)).
Proof.
  intros F i p H. cbn [cloud_view grid cl_points at_point] in H. apply get_Ok, nth_error_In in H. rewrite Forall_forall in F. apply F. exact H.
Qed.
Lemma six_problem k l T : Forall (fun p : vec4 Rfld => vw p = 1) l -> lands_on six (grid l) T ->
  exists nn, aligned_problem six (grid l) nn (nmaxv (n := Rnum)) no_limit null_factor k block_solve (mkCriteria (D := Rfld) 0 0) T.
Proof.
  intros F LO. destruct six_searchable as (nn & X). exists nn. split; try (cbn [translation_eps rotation_eps]; lra).
  - exact X.
  - exact null_rejects.
  - pose proof far_away. lra.
  - left. reflexivity.
  - apply grid_attributes.
  - apply grid_homogeneous. exact F.
  - exact block_solve_correct.
  - exact LO.
Qed.
Lemma four_lands (a : R) : a = 0 \/ a = 1 -> lands_on six four (at_xyz a 0 0).
Proof.
  intros H p I. cbn [four six grid cl_points In] in *.
  assert (E : forall x y, pose_pt (at_xyz a 0 0) (rpt x y 0) = rpt (a + x) y 0).
  { intros x y. unfold pose_pt, at_xyz, rpt, id3, diag3, mv3, dot3; cbn; apply V4_eq; req; change (car (fbase Rfld)) with R; lra. }
  destruct I as [<-|[<-|[<-|[<-|[]]]]]; rewrite E; destruct H as [-> | ->].
  1: left. 2: right; left. 3: right; left. 4: right; right; left. 5: do 3 right; left. 6: do 4 right; left. 7: do 4 right; left. 8: do 5 right; left.
  all: f_equal; lra.
Qed.
Lemma shift_small (s : R) : - (1 / 2) < s < 1 / 2 -> small_shift six (nmaxv (n := Rnum)) (P3 (D := Rfld) s 0 0).
Proof.
  intros S. assert (E : dot3 (P3 (D := Rfld) s 0 0) (P3 (D := Rfld) s 0 0) = s * s) by (cbn; change (car (fbase Rfld)) with R; req; ring).
  unfold small_shift. rewrite E. pose proof far_away. assert (4 * (s * s) < 1) by nra. split; [apply six_spaced; assumption|]. lra.
Qed.
(** Half the spacing is the limit: from a shift beyond it, the neighbouring pose of the grid is
    returned, converged, with every point an inlier. *)
Theorem C69_beyond_half_refuted : forall k (s : R), 1 / 2 < s < 3 / 2 -> exists nn,
  aligned_problem six four nn (nmaxv (n := Rnum)) no_limit null_factor k block_solve (mkCriteria (D := Rfld) 0 0) (at_xyz 0 0 0) /\
  pinned k six four (at_xyz 0 0 0) /\
  exists r log, gauss_newton (reg_lin Rfld nn no_limit (cloud_viewN six) (cloud_view four) k) null_factor block_solve se3_exp inlier
    (mkCriteria (D := Rfld) 0 0) (0 : car Rfld) 20 (shifted (at_xyz 0 0 0) (P3 (D := Rfld) s 0 0)) (initial_factors 4) = Ok (r, log) /\
    r_T r = at_xyz 1 0 0 /\ r_inliers r = 4%nat /\ r_converged r = true.
Proof.
  intros k s S. assert (F : Forall (fun p : vec4 Rfld => vw p = 1) (cl_points four)) by (repeat constructor).
  destruct (six_problem k (cl_points four) (at_xyz 0 0 0) F (four_lands 0 (or_introl eq_refl))) as (nn & P). exists nn. split; [exact P|].
  assert (O : off_line four) by (apply (corner_off_line 0 0); cbn [four grid cl_points In]; rewrite ?Rplus_0_l; auto).
  split; [apply grid_pinned; [exact id_rotation|exact O]|].
  assert (P' : aligned_problem six four nn (nmaxv (n := Rnum)) no_limit null_factor k block_solve (mkCriteria (D := Rfld) 0 0) (at_xyz 1 0 0)).
  { destruct P. split; auto. apply four_lands. right. reflexivity. }
  assert (E : shifted (at_xyz 0 0 0) (P3 (D := Rfld) s 0 0) = shifted (at_xyz 1 0 0) (P3 (D := Rfld) (s - 1) 0 0)).
  { unfold shifted, at_xyz. cbn [rot tra]. f_equal. apply P3_eq; cbn; change (car (fbase Rfld)) with R; req; ring. }
  rewrite E. destruct (C69_gauss_newton six four nn (nmaxv (n := Rnum)) no_limit k block_solve (mkCriteria (D := Rfld) 0 0) (at_xyz 1 0 0) (P3 (D := Rfld) (s - 1) 0 0) 20
    P' id_rotation (grid_pinned k (cl_points six) (cl_points four) (at_xyz 1 0 0) id_rotation O) ltac:(apply shift_small; lra) ltac:(lia)) as (r & log & H1 & H2 & _ & H3 & H4).
  exists r, log. split; [exact H1|]. split; [exact H2|]. split; [exact H3|]. apply H4. lia.
Qed.
(** The hypotheses of the undamped and of the damped theorems. *)
Example C69_setup : forall k, exists nn, aligned_problem six four nn (nmaxv (n := Rnum)) no_limit null_factor k block_solve (mkCriteria (D := Rfld) 0 0) (at_xyz 1 0 0) /\
  rotation (rot (at_xyz 1 0 0)) /\ pinned k six four (at_xyz 1 0 0) /\ small_shift six (nmaxv (n := Rnum)) (P3 (D := Rfld) (2 / 5) 0 0).
Proof.
  intros k. assert (F : Forall (fun p : vec4 Rfld => vw p = 1) (cl_points four)) by (repeat constructor).
  destruct (six_problem k (cl_points four) (at_xyz 1 0 0) F (four_lands 1 (or_intror eq_refl))) as (nn & P). exists nn. split; [exact P|].
  split; [exact id_rotation|]. split; [|apply shift_small; lra]. apply grid_pinned; [exact id_rotation|].
  apply (corner_off_line 0 0); cbn [four grid cl_points In]; rewrite ?Rplus_0_l; auto.
Qed.
Example C69_damped_setup : exists nn, aligned_problem six middle nn (nmaxv (n := Rnum)) no_limit null_factor ICP block_solve (mkCriteria (D := Rfld) 0 0) (at_xyz (1 / 2) (1 / 2) 0) /\
  centred middle /\ small_shift six (nmaxv (n := Rnum)) (P3 (D := Rfld) (2 / 5) 0 0) /\ P3 (D := Rfld) (2 / 5) 0 0 <> zero3.
Proof.
  destruct (six_problem ICP (cl_points middle) (at_xyz (1 / 2) (1 / 2) 0)) as (nn & P).
  - repeat constructor.
  - intros p I. cbn [middle six grid cl_points In] in *.
    assert (E : forall x y, pose_pt (at_xyz (1 / 2) (1 / 2) 0) (rpt x y 0) = rpt (1 / 2 + x) (1 / 2 + y) 0).
    { intros x y. unfold pose_pt, at_xyz, rpt, id3, diag3, mv3, dot3; cbn; apply V4_eq; req; change (car (fbase Rfld)) with R; lra. }
    destruct I as [<-|[<-|[<-|[<-|[]]]]]; rewrite E; [left|right; left|do 3 right; left|do 4 right; left]; f_equal; lra.
  - exists nn. split; [exact P|]. split; [|split; [apply shift_small; lra|]].
    + unfold centred, middle, rpt. cbn [grid cl_points fold_right]. apply P3_eq; cbn; change (car (fbase Rfld)) with R; req; lra.
    + intros E. apply (f_equal p0) in E. cbn in E. change (car (fbase Rfld)) with R in E. lra.
Qed.

Print Assumptions C69_gauss_newton.
Print Assumptions C69_damped_gauss_newton.
Print Assumptions C69_levenberg_marquardt.
Print Assumptions C69_exact_with_damping_refuted.
Print Assumptions C69_kdtree.
Print Assumptions C69_beyond_half_refuted.
Print Assumptions C69_setup.
Print Assumptions C69_damped_setup.
