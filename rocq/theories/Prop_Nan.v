(** C71: points and poses that are not numbers, in double precision. *)
From Coq Require Import Reals.
From Flocq Require Import Core IEEE754.BinarySingleNaN.
From Verif Require Import Base BaseProofs NthElement Num Vec F64 F64Proofs FloorModel Lin FactorModel FactorProofs ReduceModel KnnModel KdModel KdSpec KdF64 KdThms SortSpec VoxModel VoxSpec VoxF64 VoxPar
  VmapModel EstModel OptModel OptSpec OptProofs HelperModel HelperSpec HelperProofs RegSafe Prop_Vox Prop_Helper Prop_KdTree
  PipeModel PipeSpec PipeSample PipeProofs PipeRun EstF64Spec PipeEst Prop_Pipe NanSpec NanProofs NanMap.
Open Scope nat_scope.

(** * With a kd-tree *)

(** The tree over any usable cloud always answers a query that is not a number, with some
    point of the cloud at a distance that is not a number, and no distance limit rejects it. *)
Theorem C71_kdtree_match : forall ne order (c : cloud Ffld) tree q,
  nth_element_contract ne -> full_sum order -> tree_ready (cl_points c) -> build ne c = Ok tree -> bad q ->
  exists i d, tree_nn order c tree q = Ok (Some (i, d)) /\ (i < N.of_nat (length (cl_points c)))%N /\ isnan d /\
    forall limit T si, distance_rejector (D := Ffld) limit T i si d = false.
Proof.
  intros ne order c tree q NE FS TR Eb B. destruct (build_ok ne NE order c TR) as (tree' & Eb' & W).
  rewrite Eb in Eb'. injection Eb' as <-.
  destruct (tree_nn_nan order c 20 tree q FS W B) as (i & d & E & L & Nd). exists i, d.
  split; [exact E|]. split; [exact L|]. split; [exact Nd|].
  intros limit T si. unfold distance_rejector. change (nlt (n := fbase Ffld) limit d) with (f64_lt limit d).
  apply nan_lt_r. exact Nd.
Qed.

Section Helper.
Context (ne : (nat -> nat -> bool) -> nat -> list nat -> list nat) (order : sumtree).
Context (default_criteria : criteria Ffld) (init_lambda lambda_factor : f64).
Context (solve : m6 Ffld -> v6 Ffld -> v6 Ffld) (exp6 : v6 Ffld -> pose Ffld).
Context (omp_lin : nat -> (nat -> factor Ffld -> outcome (factor Ffld * option (sys Ffld))) ->
                   list (factor Ffld) -> outcome (list (factor Ffld) * sys Ffld)).
Context (omp_err : nat -> (factor Ffld -> outcome f64) -> list (factor Ffld) -> outcome f64).
Context (NE : nth_element_contract ne) (FS : full_sum order) (RT : omp_runtime Ffld omp_lin omp_err).

(** align(target, source, target_tree, init_T, setting) on prepared clouds. *)
Definition align_prepared (s : setting Ffld) (target source : cloud Ffld) (init_T : pose Ffld) :=
  let* tree := build ne target in
  align_tree (D := Ffld) default_criteria init_lambda lambda_factor solve exp6 omp_lin omp_err s target source (tree_nn order target tree) init_T.

(** Clouds with everything a registration of any type reads. *)
Definition complete (target source : cloud Ffld) : Prop :=
  tree_ready (cl_points target) /\ length (cl_normals target) = length (cl_points target) /\
  length (cl_covs target) = length (cl_points target) /\ length (cl_points source) <= length (cl_covs source).

(** A single source point that is not a number, or an initial guess that is not, stops ICP,
    point-to-plane ICP and GICP: whatever the other points, the schedule, the solver and the
    settings are, the initial guess comes back, not converged and with an error that is not a
    number. *)
Theorem C71_guess_returned : forall s target source init_T,
  kind_of (s_type s) <> None -> (1 <= s_num_threads s)%Z -> (1 <= s_max_iterations s)%Z -> complete target source ->
  (exists p, In p (cl_points source) /\ bad p) \/ (bad_pose init_T /\ cl_points source <> []) ->
  exists r log, align_prepared s target source init_T = Ok (r, log) /\
    r_T r = init_T /\ r_converged r = false /\ r_iterations r = 0 /\ isnan (r_error r).
Proof using NE FS RT.
  intros s target source init_T Ty Th It (TR & LN & LC & LS) HB. destruct RT as [OL OE].
  unfold align_prepared. destruct (build_ok ne NE order target TR) as (tree & Eb & W). rewrite Eb. cbn [bind].
  set (nn := tree_nn order target tree).
  assert (HP : exists i p, nth_error (cl_points source) i = Some p /\ bad (pose_pt init_T p)).
  { destruct HB as [(p & Hp & Bp)|(BT & NE0)].
    - apply In_nth_error in Hp. destruct Hp as [i Hi]. exists i, p. split; [exact Hi|]. apply bad_moved, Bp.
    - destruct (cl_points source) as [|p ps]; [contradiction|]. exists 0, p. split; [reflexivity|]. apply bad_pose_moved, BT. }
  destruct HP as (i & p & Hi & Bp).
  assert (U : forall k, HelperSpec.usable k nn (cloud_viewN target) source).
  { intros k. split; [intros _; exact LS|]. intros q.
    destruct (tree_nn_ok order target target tree q W eq_refl) as (found & Ef & B). exists found. split; [exact Ef|].
    destruct found as [[j d]|]; [|exact I]. cbn [cloud_viewN at_point at_normal at_cov].
    assert (Lj : N.to_nat j < length (cl_points target)) by lia.
    split; [|split; intros _]; apply get_lt; rewrite ?LN, ?LC; exact Lj. }
  assert (X : forall k reg, (1 <= reg_num_threads reg)%Z -> (1 <= lm_max_iterations (reg_optimizer reg))%Z ->
    exists r log, registration_align solve exp6 omp_lin omp_err k reg (cloud_viewN target) source nn init_T = Ok (r, log) /\
      r_T r = init_T /\ r_converged r = false /\ r_iterations r = 0 /\ isnan (r_error r)).
  { intros k reg T1 T2.
    destruct (align_total solve exp6 omp_lin omp_err OL OE k reg (cloud_viewN target) source nn init_T T1 (U k)) as (r & log & E).
    exists r, log. split; [exact E|]. unfold registration_align in E. revert E. apply lm_nan; [exact T2|].
    intros fs' sy El.
    assert (Tp : 0 < Z.to_nat (reg_num_threads reg)) by lia.
    pose proof (OL (Z.to_nat (reg_num_threads reg))
      (linearize nn (distance_rejector (reg_max_dist_sq reg)) (cloud_viewN target) (cloud_view source) k init_T)
      (initial_factors (length (cl_points source))) Tp) as R. rewrite El in R.
    refine (omp_linearized_nan (factor Ffld) (sys Ffld) sys_zero sys_add (fun s => isnan (se s)) _ _ _ i _ _ _ _ _ _ R).
    - intros a b N. apply nan_add_l. exact N.
    - intros a b N. apply nan_add_r. exact N.
    - intros f f' r0 L. destruct (tree_nn_nan order target 20 tree (pose_pt init_T p) FS W Bp) as (j & d & En & Lj & Nd).
      apply (linearize_nan nn (reg_max_dist_sq reg) (cloud_viewN target) (cloud_view source) k init_T i f f' r0 p j d); auto.
      cbn [cloud_view at_point]. unfold get. rewrite Hi. reflexivity.
    - unfold initial_factors. rewrite repeat_length. apply nth_error_Some. rewrite Hi. discriminate. }
  unfold align_tree. destruct (s_type s); try (now destruct Ty); apply X; assumption.
Qed.

(** * With a voxel map, on x86 *)

(** The map of a cloud inside the grid does not answer a query that is not a number: the
    factor of such a source point writes nothing and is not an inlier, so the point is ignored
    as one without a correspondence. *)
Theorem C71_voxelmap_ignores : forall of_nat (target source : cloud Ffld) resolution map nn k T si p f reject,
  (forall p, In p (cl_points target) -> in_grid (inv_leaf resolution) p) ->
  voxelmap X86 order of_nat target resolution = Ok (map, nn) ->
  nth_error (cl_points source) si = Some p -> bad p ->
  exists f', linearize nn reject map (cloud_view source) k T si f = Ok (f', None) /\ inlier f' = false /\
    forall T', error map (cloud_view source) k T' f' = Ok nzero.
Proof.
  intros of_nat target source resolution map nn k T si p f reject G Em Ep B.
  unfold voxelmap in Em. apply bind_Ok in Em. destruct Em as (st & Es & Em). injection Em as <- <-.
  unfold linearize. cbn [cloud_view at_point]. unfold get. rewrite Ep. cbn [bind].
  rewrite (map_nn_bad order of_nat target resolution st (pose_pt T p) G Es (bad_moved T p B)). cbn [bind].
  eexists. split; [reflexivity|]. split; reflexivity.
Qed.
End Helper.

(** * Raw points, on x86 *)

(** Downsampling with one thread drops the points that are not numbers: what is registered is
    finite and a summary of the other points alone. *)
Definition number (p : vec4 Fnum) : bool := negb (is_nan (vx p) || is_nan (vy p) || is_nan (vz p)).
Lemma bad_number (p : vec4 Fnum) : bad (p : vec4 Ffld) <-> number p = false.
Proof.
  unfold bad, isnan, number.
  change (vx (D := Ffld) p) with (vx (D := Fnum) p). change (vy (D := Ffld) p) with (vy (D := Fnum) p). change (vz (D := Ffld) p) with (vz (D := Fnum) p).
  destruct (is_nan (vx p)), (is_nan (vy p)), (is_nan (vz p)); cbn; intuition discriminate.
Qed.
Lemma bad_not_in_grid inv (p : vec4 Fnum) : bad (p : vec4 Ffld) -> ~ in_grid inv p.
Proof.
  intros B ([X _] & [Y _] & [Z _] & _).
  assert (N : forall x : f64, is_finite (f64_mul x inv) = true -> ~ isnan x).
  { intros x F N. apply finite_factor in F. destruct F as [F _]. apply nan_eq in N. subst x. discriminate. }
  destruct B as [B|[B|B]]; [apply (N _ X)|apply (N _ Y)|apply (N _ Z)]; exact B.
Qed.
Lemma filter_number inv (points : list (vec4 Fnum)) : filter (in_gridb inv) (filter number points) = filter (in_gridb inv) points.
Proof.
  induction points as [|p ps IH]; [reflexivity|]. cbn [filter]. destruct (number p) eqn:N; cbn [filter]; rewrite IH; [reflexivity|].
  apply bad_number, (bad_not_in_grid inv) in N. destruct (in_gridb inv p) eqn:G; [|reflexivity].
  apply in_gridb_iff in G. contradiction.
Qed.

Theorem C71_raw_points_dropped : forall sort ne order eig of_nat milli jp jn jc omp_lin omp_err sample_omp estimate_omp s points,
  environment X86 sort sort ne order eig of_nat milli jp jn jc omp_lin omp_err sample_omp estimate_omp ->
  raw_ok X86 s points -> s_num_threads s = 1%Z ->
  exists t tree,
    preprocess_points (D := Ffld) (sample X86 sort jn jc) sample_omp (build ne) (estimate_all order eig of_nat milli jp jn jc) estimate_omp
      (mkCloud (D := Ffld) points [] []) (s_downsampling_resolution s) 10 (s_num_threads s) = Ok (t, tree) /\
    (forall p, In p (cl_points t) -> vfinite p) /\ cl_points t <> [] /\
    summarised_once (per_unit (s_downsampling_resolution s)) (filter number points) (cl_points t).
Proof.
  intros sort ne order eig of_nat milli jp jn jc omp_lin omp_err sample_omp estimate_omp s points E R T1.
  destruct (preprocess_ok X86 sort sort ne order eig of_nat milli jp jn jc omp_lin omp_err sample_omp estimate_omp E s points R) as (t & tree & Ep & P & _ & Fi & _).
  { rewrite T1. lia. }
  exists t, tree. split; [exact Ep|]. split; [exact Fi|]. split; [apply P|].
  destruct (p_once _ _ _ _ _ _ _ P T1) as (groups & G1 & G2 & G3 & G4). exists groups.
  split; [exact G1|]. split; [exact G2|]. split; [|exact G4]. rewrite filter_number. exact G3.
Qed.

(** With several threads they are not always dropped: if all points outside the grid are not
    numbers and a block starts among them, the downsampled cloud has a point that is not a
    number. *)
Theorem C71_parallel_downsampling_refuted : forall sort inv (points : list (vec4 Fnum)) sizes s,
  sort_contract sort -> moderate inv ->
  (forall p, In p points -> homogeneous p /\ (in_grid inv p \/ bad (p : vec4 Ffld))) ->
  (Z.of_nat (length points) <= 2 ^ 53)%Z ->
  list_sum sizes = length points -> Forall (fun s => 0 < s) sizes ->
  In s (starts 0 sizes) -> length (grid_positions inv points) <= s ->
  exists subs o, parallel_blocks (voxel_key X86 inv) sort points sizes = Ok subs /\ In o (concat subs) /\ bad (o : vec4 Ffld).
Proof.
  intros sort inv points sizes s SC M H Hn Hs HF Hin Hle.
  destruct (C12_stray_point_refuted sort X86 inv points sizes s SC) as (subs & p & o & E & Ho & Hp & NG & Q); auto.
  { intros p _. left. reflexivity. }
  { intros p Hp G. apply (in_grid_usable inv); auto. apply H, Hp. }
  exists subs, o. split; [exact E|]. split; [exact Ho|].
  destruct (H p Hp) as [_ [G|B]]; [contradiction|].
  assert (D : forall x y : f64, isnan x -> isnan (f64_div x y)) by (intros x y ->%nan_eq; destruct y; reflexivity).
  assert (EB : forall v : vec4 Fnum, bad (v : vec4 Ffld) -> bad (emit (D := Fnum) v : vec4 Ffld)).
  { intros v [N|[N|N]]; [left|right; left|right; right]; apply D, N. }
  destruct Q as [-> | ->]; apply EB; [exact B|].
  destruct B as [B|[B|B]]; [left|right; left|right; right]; apply nan_add_r, B.
Qed.

(** * A point that is not a number is not ignored by a registration with a kd-tree. *)
Definition nan64 : f64 := B754_nan.
Definition nan_pt : vec4 Fnum := V4 (D := Fnum) (f64_of 1 0) nan64 (f64_of 2 0) (f64_of 1 0).
Definition with_covs (points : list (vec4 Fnum)) : cloud Ffld :=
  mkCloud (D := Ffld) points points (repeat (pose_mat pose_id) (length points)).
Definition demo_align (ty : reg_type) (source : list (vec4 Fnum)) :=
  align_prepared sort_nth_element eigen_order (@mkCriteria Ffld (f64_of 1 0) (f64_of 1 0)) (f64_of 1 0) (f64_of 1 0)
    zero_step (fun _ => pose_id) (one_thread_lin Ffld) (one_thread_err Ffld) (demo_setting ty 2) (with_covs cloud7) (with_covs source) pose_id.
Theorem C71_ignored_refuted :
  map (fun ty => summary (demo_align ty cloud7)) [TypeICP; TypePlaneICP; TypeGICP] = repeat (Some (true, 7, 2)) 3 /\
  map (fun ty => summary (demo_align ty (cloud7 ++ [nan_pt]))) [TypeICP; TypePlaneICP; TypeGICP] = repeat (Some (false, 8, 11)) 3.
Proof. split; vm_compute; reflexivity. Qed.

(** * The hypotheses are met. *)
Example C71_nan_pt : bad (nan_pt : vec4 Ffld).
Proof. right. left. reflexivity. Qed.
Lemma cloud7_ready : tree_ready cloud7.
Proof.
  split; [discriminate|]. split; [|vm_compute; discriminate].
  intros p Hp. repeat destruct Hp as [<-|Hp]; try destruct Hp; repeat split.
Qed.
Example C71_guess_case : forall ty, kind_of ty <> None -> exists r log, demo_align ty (cloud7 ++ [nan_pt]) = Ok (r, log) /\ r_T r = pose_id /\ r_converged r = false.
Proof.
  intros ty K. destruct (C71_guess_returned sort_nth_element eigen_order (@mkCriteria Ffld (f64_of 1 0) (f64_of 1 0)) (f64_of 1 0) (f64_of 1 0)
    zero_step (fun _ => pose_id) (one_thread_lin Ffld) (one_thread_err Ffld) sort_nth_element_contract eigen_order_full (C43_runtime_exists Ffld)
    (demo_setting ty 2) (with_covs cloud7) (with_covs (cloud7 ++ [nan_pt])) pose_id) as (r & log & E & A & B & _).
  - exact K.
  - cbn. lia.
  - cbn. lia.
  - split; [exact cloud7_ready|]. split; [reflexivity|]. split; [reflexivity|]. apply le_n.
  - left. exists nan_pt. split; [cbn; tauto|exact C71_nan_pt].
  - exists r, log. auto.
Qed.
Example C71_map_case : exists map nn, voxelmap X86 eigen_order (fun n => f64_of (Z.of_nat n) 0) (with_covs cloud7) (f64_of 1 2) = Ok (map, nn) /\
  (forall p, In p (cl_points (with_covs cloud7)) -> in_grid (inv_leaf (f64_of 1 2)) p) /\
  nth_error (cl_points (with_covs (cloud7 ++ [nan_pt]))) 7 = Some (nan_pt : vec4 Ffld).
Proof.
  destruct (gaussian_map_ok (fun n => f64_of (Z.of_nat n) 0) (with_covs cloud7) (f64_of 1 2)) as (st & E & _).
  - apply le_n.
  - vm_compute. discriminate.
  - exists (map_view (fun n => f64_of (Z.of_nat n) 0) st), (map_nn X86 eigen_order (fun n => f64_of (Z.of_nat n) 0) (f64_of 1 2) st).
    unfold voxelmap. rewrite E. split; [reflexivity|]. split; [exact cloud7_in_grid|reflexivity].
Qed.
Example C71_raw_case : raw_ok X86 (demo_setting TypeGICP 1) (cloud7 ++ [nan_pt]).
Proof.
  destruct (C52_raw X86 TypeGICP 1) as [A B C D E F]. split.
  - exact A.
  - intros p _. left. reflexivity.
  - intros p Hp. apply in_app_iff in Hp. destruct Hp as [Hp|[<-|[]]]; [auto|reflexivity].
  - rewrite app_length. change (length cloud7) with 7. cbn [length Nat.add]. lia.
  - destruct E as (p & Hp & G). exists p. split; [apply in_app_iff; auto|exact G].
  - cbn [demo_setting s_num_threads]. intros K. now destruct K.
Qed.
(** 1024 points in the grid and one that is not a number, with OpenMP's blocks of 1024. *)
Example C71_parallel_case : exists subs o,
  parallel_blocks (voxel_key X86 (f64_of 1 (-2))) isort (repeat (fpt 1 2 3) 1024 ++ [nan_pt]) (omp_sizes 1025 1025 1024) = Ok subs /\
  In o (concat subs) /\ bad (o : vec4 Ffld).
Proof.
  set (points := repeat (fpt 1 2 3) 1024 ++ [nan_pt]).
  assert (Lc : length points = 1025) by (unfold points; rewrite app_length, repeat_length; reflexivity).
  assert (G : in_grid (f64_of 1 (-2)) (fpt 1 2 3)) by (apply in_grid_compute; vm_compute; reflexivity).
  apply (C71_parallel_downsampling_refuted isort (f64_of 1 (-2)) points (omp_sizes 1025 1025 1024) 1024).
  - apply isort_contract.
  - pose proof (r_resolution _ _ _ (C52_raw X86 TypeGICP 1)) as M. cbn [demo_setting s_downsampling_resolution] in M.
    change (per_unit (f64_of 1 2)) with (inv_leaf (f64_of 1 2)) in M. rewrite quarter_inv in M. exact M.
  - intros p Hp. apply in_app_iff in Hp. destruct Hp as [Hp|[<-|[]]].
    + apply repeat_spec in Hp. subst p. split; [reflexivity|left; exact G].
    + split; [reflexivity|right; exact C71_nan_pt].
  - rewrite Lc. vm_compute. discriminate.
  - rewrite Lc. vm_compute. reflexivity.
  - change (omp_sizes 1025 1025 1024) with [1024; 1]. repeat constructor; lia.
  - change (omp_sizes 1025 1025 1024) with [1024; 1]. right; left; reflexivity.
  - unfold grid_positions. rewrite Lc. change 1025 with (1024 + 1) at 1. rewrite seq_app, filter_app, app_length.
    assert (H1 : length (filter (fun i => match nth_error points i with
        Some p => in_gridb (f64_of 1 (-2)) p | None => false end) (seq (0 + 1024) 1)) = 0).
    { cbn [seq filter]. change (0 + 1024) with 1024.
      replace (nth_error points 1024) with (Some nan_pt).
      - destruct (in_gridb (f64_of 1 (-2)) nan_pt) eqn:Q; [|reflexivity].
        apply in_gridb_iff in Q. destruct (bad_not_in_grid _ _ C71_nan_pt Q).
      - unfold points. rewrite nth_error_app2 by (rewrite repeat_length; lia).
        rewrite repeat_length. reflexivity. }
    rewrite H1, Nat.add_0_r.
    assert (FL : forall (f : nat -> bool) l, length (filter f l) <= length l).
    { clear. intros f l. induction l; simpl; [lia|]. destruct (f a); simpl; lia. }
    etransitivity; [apply FL|]. rewrite seq_length. lia.
Qed.

Print Assumptions C71_kdtree_match.
Print Assumptions C71_guess_returned.
Print Assumptions C71_voxelmap_ignores.
Print Assumptions C71_raw_points_dropped.
Print Assumptions C71_parallel_downsampling_refuted.
Print Assumptions C71_ignored_refuted.
