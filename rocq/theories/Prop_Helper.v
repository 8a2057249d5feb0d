(** C43: which settings the convenience interface honours. *)
From Coq Require Import ZArith Reals Lra.
From Flocq Require Import IEEE754.BinarySingleNaN.
From Verif Require Import Base BaseProofs Num Vec F64 RNum Lin LinProofs FactorModel FactorProofs ReduceModel ReduceSpec ReduceProofs
  OptModel OptSpec OptProofs HelperModel HelperSpec HelperProofs Prop_Reduce.
Open Scope nat_scope.

(** An OpenMP runtime: for every thread count and loop some complete schedule of it. *)
Definition omp_runtime (D : fld)
  (omp_lin : nat -> (nat -> factor D -> outcome (factor D * option (sys D))) -> list (factor D) -> outcome (list (factor D) * sys D))
  (omp_err : nat -> (factor D -> outcome (car D)) -> list (factor D) -> outcome (car D)) : Prop :=
  (forall threads lin fs, 0 < threads -> omp_linearized sys_zero sys_add threads lin fs (omp_lin threads lin fs)) /\
  (forall threads err fs, 0 < threads -> omp_summed nzero nadd threads err fs (omp_err threads err fs)).

Definition one_thread_lin (D : fld) threads lin fs := omp_inorder (factor D) (sys D) sys_zero sys_add lin threads fs.
Definition one_thread_err (D : fld) threads (err : factor D -> outcome (car D)) fs : outcome (car D) :=
  let* (_, a) := foldM (fun st i => visit nadd (fun _ f => let* x := err f in Ok (f, Some x)) i st) (seq 0 (length fs)) (fs, nzero) in
  Ok (fold_left nadd (a :: repeat nzero (threads - 1)) nzero).
Example C43_runtime_exists (D : fld) : omp_runtime D (one_thread_lin D) (one_thread_err D).
Proof.
  split.
  - intros threads lin fs T. apply inorder_possible. exact T.
  - intros threads err fs T. apply inorder_summed. exact T.
Qed.

(** Error type of the point cloud registration types. *)
Definition kind_of (t : reg_type) : option kind :=
  match t with TypeICP => Some ICP | TypePlaneICP => Some PlaneICP | TypeGICP => Some GICP | _ => None end.

Section Settings.
Context (D : fld) (default_criteria : criteria D) (init_lambda lambda_factor : car D).
Context (solve : m6 D -> v6 D -> v6 D) (exp6 : v6 D -> pose D).

(** ICP, point-to-plane ICP and GICP honour the initial pose, the maximum correspondence
    distance, the iteration limit and both thresholds, in every number system and under every
    schedule. *)
Theorem C43_point_types_honoured : forall omp_lin omp_err s target source nn init_T r log,
  omp_runtime D omp_lin omp_err -> forall k, kind_of (s_type s) = Some k -> (1 <= s_num_threads s)%Z ->
  align_tree default_criteria init_lambda lambda_factor solve exp6 omp_lin omp_err s target source nn init_T = Ok (r, log) ->
  honoured k (s_num_threads s) (cloud_viewN target) nn source
    (nmul (s_max_correspondence_distance s) (s_max_correspondence_distance s))
    (s_rotation_eps s) (s_translation_eps s) (s_max_iterations s) init_T r log.
Proof.
  intros omp_lin omp_err s target source nn init_T r log [OL OE] k K Th H. unfold align_tree in H.
  destruct (s_type s); inversion K; subst k;
    apply (align_honoured solve exp6 omp_lin omp_err OL OE) in H; auto.
Qed.

(** Registration against a voxel map honours all of them but the distance, for which it uses
    the rejector's default of 1 whatever the setting says. *)
Theorem C43_voxelmap_honoured_but_distance : forall omp_lin omp_err s target source nn init_T r log,
  omp_runtime D omp_lin omp_err -> (1 <= s_num_threads s)%Z ->
  align_voxelmap default_criteria init_lambda lambda_factor solve exp6 omp_lin omp_err s target source nn init_T = Ok (r, log) ->
  honoured GICP (s_num_threads s) target nn source fone (s_rotation_eps s) (s_translation_eps s) (s_max_iterations s) init_T r log.
Proof.
  intros omp_lin omp_err s target source nn init_T r log [OL OE] Th H. unfold align_voxelmap in H.
  apply (align_honoured solve exp6 omp_lin omp_err OL OE) in H; auto.
Qed.

(** An invalid type aborts and never returns a result. *)
Theorem C43_invalid_type : forall omp_lin omp_err s target source nn init_T,
  s_type s = InvalidType ->
  forall x, align_tree default_criteria init_lambda lambda_factor solve exp6 omp_lin omp_err s target source nn init_T <> Ok x.
Proof. intros omp_lin omp_err s target source nn init_T E x. unfold align_tree. rewrite E. discriminate. Qed.

(** VGICP with a kd-tree: the initial pose is dropped.  Whatever it is, and whatever the
    clouds are, the result is the identity with zero inliers, not converged. *)
Theorem C43_vgicp_with_tree_refuted : forall omp_lin omp_err s target source nn init_T,
  s_type s = TypeVGICP ->
  exists r, align_tree default_criteria init_lambda lambda_factor solve exp6 omp_lin omp_err s target source nn init_T = Ok (r, []) /\
    r_T r = pose_id /\ r_converged r = false /\ r_inliers r = 0 /\
    (init_T <> pose_id -> forall k limit, ~ honoured k (s_num_threads s) (cloud_viewN target) nn source limit (s_rotation_eps s) (s_translation_eps s) (s_max_iterations s) init_T r []).
Proof.
  intros omp_lin omp_err s target source nn init_T E. exists (result_init pose_id). unfold align_tree. rewrite E.
  split; [reflexivity|]. repeat (split; [reflexivity|]). intros NE k limit [HS _ _ _ _ _ _ _]. apply NE. symmetry. exact HS.
Qed.

(** The vector interface registers the preprocessed clouds. *)
Theorem C43_vectors_honoured : forall omp_lin omp_err sample sample_omp (tree : Type) (build : cloud D -> outcome tree) nn_of estimate estimate_omp voxelmap s target source init_T r log,
  omp_runtime D omp_lin omp_err -> (1 <= s_num_threads s)%Z ->
  align_points default_criteria init_lambda lambda_factor solve exp6 omp_lin omp_err sample sample_omp build nn_of estimate estimate_omp
    voxelmap s target source init_T = Ok (r, log) ->
  exists t kdtree sc any,
    preprocess_points sample sample_omp build estimate estimate_omp target (s_downsampling_resolution s) 10 (s_num_threads s) = Ok (t, kdtree) /\
    preprocess_points sample sample_omp build estimate estimate_omp source (s_downsampling_resolution s) 10 (s_num_threads s) = Ok (sc, any) /\
    match s_type s with
    | TypeVGICP => exists map nn, voxelmap t (s_voxel_resolution s) = Ok (map, nn) /\
        honoured GICP (s_num_threads s) map nn sc fone (s_rotation_eps s) (s_translation_eps s) (s_max_iterations s) init_T r log
    | InvalidType => False
    | _ => exists k, kind_of (s_type s) = Some k /\
             honoured k (s_num_threads s) (cloud_viewN t) (nn_of t kdtree) sc
               (nmul (s_max_correspondence_distance s) (s_max_correspondence_distance s)) (s_rotation_eps s) (s_translation_eps s) (s_max_iterations s) init_T r log
    end.
Proof.
  intros omp_lin omp_err sample sample_omp tree build nn_of estimate estimate_omp voxelmap s target source init_T r log R Th H.
  unfold align_points in H. apply bind_Ok in H. destruct H as ([t kdtree] & E1 & H).
  apply bind_Ok in H. destruct H as ([sc any] & E2 & H). exists t, kdtree, sc, any. split; [exact E1|]. split; [exact E2|].
  destruct (s_type s) eqn:Ek.
  1-3: eexists; split; [reflexivity|]; eapply C43_point_types_honoured; eauto; rewrite Ek; reflexivity.
  - apply bind_Ok in H. destruct H as ([map nn] & E3 & H). exists map, nn. split; [exact E3|].
    eapply C43_voxelmap_honoured_but_distance; eauto.
  - unfold align_tree in H. rewrite Ek in H. discriminate.
Qed.

(** Downsampling ignores num_threads: it asks for four threads whenever the setting is not 1. *)
Theorem C43_downsampling_threads_refuted :
  (forall sample (tree : Type) (build : cloud D -> outcome tree) estimate estimate_omp sample_omp sample_omp' points resolution k threads,
     (forall c, sample_omp 4%Z resolution c = sample_omp' 4%Z resolution c) ->
     preprocess_points (D := D) sample sample_omp build estimate estimate_omp points resolution k threads =
     preprocess_points sample sample_omp' build estimate estimate_omp points resolution k threads) /\
  (forall sample (tree : Type) (build : cloud D -> outcome tree) estimate estimate_omp points resolution k threads, threads <> 1%Z -> threads <> 4%Z ->
     preprocess_points (D := D) sample (fun t _ c => if (t =? threads)%Z then Ok c else Abort) build estimate estimate_omp points resolution k threads = Abort).
Proof.
  split.
  - intros. unfold preprocess_points. destruct (threads =? 1)%Z; auto. rewrite H. reflexivity.
  - intros. unfold preprocess_points. destruct (threads =? 1)%Z eqn:E; [apply Z.eqb_eq in E; lia|].
    destruct (4 =? threads)%Z eqn:E4; [apply Z.eqb_eq in E4; lia|]. reflexivity.
Qed.
End Settings.

(** With exact arithmetic the number of threads and the schedule change nothing: two runs whose
    settings differ in num_threads and verbose only return the same result. *)
Definition same_but_threads {D : fld} (s s' : setting D) : Prop :=
  s_type s = s_type s' /\ s_max_correspondence_distance s = s_max_correspondence_distance s' /\
  s_rotation_eps s = s_rotation_eps s' /\ s_translation_eps s = s_translation_eps s' /\
  s_max_iterations s = s_max_iterations s'.

Lemma real_sum_monoid : comm_monoid (nzero (n := Rfld)) nadd.
Proof. split; intros; cbn; ring. Qed.

Theorem C43_thread_count : forall default_criteria init_lambda lambda_factor solve exp6 lin1 err1 lin2 err2
    (s1 s2 : setting Rfld) target source nn init_T,
  omp_runtime Rfld lin1 err1 -> omp_runtime Rfld lin2 err2 -> same_but_threads s1 s2 ->
  (1 <= s_num_threads s1)%Z -> (1 <= s_num_threads s2)%Z ->
  (forall k, kind_of (s_type s1) = Some k -> usable k nn (cloud_viewN target) source) ->
  align_tree default_criteria init_lambda lambda_factor solve exp6 lin1 err1 s1 target source nn init_T =
  align_tree default_criteria init_lambda lambda_factor solve exp6 lin2 err2 s2 target source nn init_T.
Proof.
  intros dc il lf solve exp6 lin1 err1 lin2 err2 s1 s2 target source nn init_T [L1 E1] [L2 E2] (A & B & C & D & E) T1 T2 U.
  unfold align_tree. rewrite <- A. destruct (s_type s1) eqn:K; auto.
  all: specialize (U _ eq_refl).
  all: rewrite (align_exact Rfld C25_sys_monoid real_sum_monoid solve exp6 lin1 err1 L1 E1) by auto.
  all: rewrite (align_exact Rfld C25_sys_monoid real_sum_monoid solve exp6 lin2 err2 L2 E2) by auto.
  all: unfold configured; rewrite B, C, D, E; reflexivity.
Qed.
Theorem C43_voxelmap_thread_count : forall default_criteria init_lambda lambda_factor solve exp6 lin1 err1 lin2 err2
    (s1 s2 : setting Rfld) target source nn init_T,
  omp_runtime Rfld lin1 err1 -> omp_runtime Rfld lin2 err2 -> same_but_threads s1 s2 ->
  (1 <= s_num_threads s1)%Z -> (1 <= s_num_threads s2)%Z -> usable GICP nn target source ->
  align_voxelmap default_criteria init_lambda lambda_factor solve exp6 lin1 err1 s1 target source nn init_T =
  align_voxelmap default_criteria init_lambda lambda_factor solve exp6 lin2 err2 s2 target source nn init_T.
Proof.
  intros dc il lf solve exp6 lin1 err1 lin2 err2 s1 s2 target source nn init_T [L1 E1] [L2 E2] (A & B & C & D & E) T1 T2 U.
  unfold align_voxelmap.
  rewrite (align_exact Rfld C25_sys_monoid real_sum_monoid solve exp6 lin1 err1 L1 E1) by auto.
  rewrite (align_exact Rfld C25_sys_monoid real_sum_monoid solve exp6 lin2 err2 L2 E2) by auto.
  rewrite C, D, E; reflexivity.
Qed.

(** ** The distance setting is ignored for VGICP: a concrete run in double precision.  The map
    has one voxel with mean (1/2, 0, 0); the source is the origin; the setting allows
    correspondences up to 1/4; the run makes one at 1/2. *)
Definition w_half : f64 := f64_of 1 (-1).
Definition w_quarter : f64 := f64_of 1 (-2).
Definition w_one : f64 := f64_of 1 0.
Definition w_zero : f64 := nzero (n := Fnum).
Definition w_mean : vec4 Ffld := @V4 Ffld w_half w_zero w_zero w_one.
Definition w_cov : m4 Ffld := pose_mat pose_id.
Definition w_map : view Ffld N :=
  mkView (fun i => if (i =? 0)%N then Ok w_mean else UB) (fun _ => UB) (fun i => if (i =? 0)%N then Ok w_cov else UB).
Definition w_nn : search Ffld := fun q => Ok (Some (0%N, sqnorm4 (vsub w_mean q))).
Definition w_source : cloud Ffld := mkCloud [@V4 Ffld w_zero w_zero w_zero w_one] [] [w_cov].
Definition w_setting : setting Ffld :=
  @mkSetting Ffld TypeVGICP w_one w_one w_quarter w_quarter w_quarter 2 1 false.
Definition w_run : outcome (result Ffld * list (event Ffld (factor Ffld))) :=
  align_voxelmap (@mkCriteria Ffld w_quarter w_quarter) w_one w_one (fun _ b => b) (fun _ => pose_id)
    (one_thread_lin Ffld) (one_thread_err Ffld) w_setting w_map w_source w_nn pose_id.
Definition made_at_half (o : outcome (result Ffld * list (event Ffld (factor Ffld)))) : bool :=
  match o with
  | Ok (r, Linearized _ [f] _ :: _) => inlier f && (r_inliers r =? 1)
  | _ => false
  end.
Theorem C43_vgicp_distance_refuted :
  (forall D dc il lf solve exp6 lin err (s s' : setting D) target source nn init_T,
     s_rotation_eps s = s_rotation_eps s' -> s_translation_eps s = s_translation_eps s' ->
     s_max_iterations s = s_max_iterations s' -> s_num_threads s = s_num_threads s' ->
     align_voxelmap dc il lf solve exp6 lin err s target source nn init_T =
     align_voxelmap dc il lf solve exp6 lin err s' target source nn init_T) /\
  exists r log, w_run = Ok (r, log) /\ r_inliers r = 1 /\
    ~ honoured GICP 2 w_map w_nn w_source (f64_mul w_quarter w_quarter) w_quarter w_quarter 1 pose_id r log.
Proof.
  split.
  - intros D dc il lf solve exp6 lin err s s' target source nn init_T A B C E. unfold align_voxelmap. rewrite A, B, C, E. reflexivity.
  - assert (H : made_at_half w_run = true) by (vm_compute; reflexivity).
    destruct w_run as [[r log]| | |] eqn:Er; try discriminate H. exists r, log. split; [reflexivity|].
    destruct log as [|[T [|f [|]] s| |] log]; try discriminate H. cbn [made_at_half] in H.
    apply andb_prop in H. destruct H as [H1 H2]. split; [apply Nat.eqb_eq; exact H2|].
    intros [HS HL _ _ _ _ _ _]. cbn in HS. destruct HS as (fs & s1 & HS). inversion HS. subst T fs s1. clear HS.
    destruct (HL _ _ _ (or_introl eq_refl)) as [_ HW].
    destruct (HW 0 f eq_refl) as (p & found & Ep & En & M).
    cbn [w_source cl_points nth_error] in Ep. injection Ep as <-. unfold w_nn in En. injection En as <-.
    match type of M with if ?c then _ else _ => assert (Ec : c = true) by (vm_compute; reflexivity); rewrite Ec in M end.
    rewrite M in H1. discriminate.
Qed.

(** ** The hypotheses are met: runs that succeed, and clouds that are usable. *)
Definition ex_point (x : R) : vec4 Rfld := @V4 Rfld x 0%R 0%R 1%R.
Definition ex_target : cloud Rfld := mkCloud [ex_point 0; ex_point 1] [ex_point 1; ex_point 1] [pose_mat pose_id; pose_mat pose_id].
Definition ex_source : cloud Rfld := mkCloud [ex_point 3] [] [pose_mat pose_id].
Definition ex_nn : search Rfld := fun q => Ok (if Rlt_dec (vx q) 0 then None else Some (1%N, sqnorm4 (vsub (ex_point 1) q))).
Example C43_usable : forall k, usable k ex_nn (cloud_viewN ex_target) ex_source.
Proof.
  intros k. split; [intros _; cbn; lia|]. intros q. unfold ex_nn. destruct (Rlt_dec (vx q) 0); eexists; (split; [reflexivity|]).
  - exact I.
  - cbn. split; [|split]; intros; eexists; reflexivity.
Qed.
(** A schedule on two threads that is not the in-order one is covered as well. *)
Example C43_two_threads : forall (lin : nat -> factor Rfld -> outcome (factor Rfld * option (sys Rfld))) f g f' g' s s',
  lin 0 f = Ok (f', Some s) -> lin 1 g = Ok (g', Some s') ->
  omp_linearized sys_zero sys_add 2 lin [f; g] (Ok ([f'; g'], sys_add (sys_add sys_zero s') (sys_add sys_zero s))).
Proof.
  intros lin f g f' g' s s' E1 E2.
  exists (Ok (mkOmp [f'; g'] [sys_add sys_zero s'; sys_add sys_zero s] [])). split; [|split].
  - eapply OmpMore.
    + pose proof (OmpStep _ _ sys_add lin 2 [f; g] [sys_zero; sys_zero] [0] 1 [] 0 ltac:(lia)) as H.
      unfold visit in H. cbn [get nth_error bind app] in H. rewrite E2 in H. cbn [bind set upd length Nat.ltb Nat.leb] in H. exact H.
    + eapply OmpMore.
      * pose proof (OmpStep _ _ sys_add lin 2 [f; g'] [sys_add sys_zero s'; sys_zero] [] 0 [] 1 ltac:(lia)) as H.
        unfold visit in H. cbn [get nth_error bind app] in H. rewrite E1 in H. cbn [bind set upd length Nat.ltb Nat.leb] in H. exact H.
      * apply OmpHere.
  - intros st E. inversion E. reflexivity.
  - reflexivity.
Qed.
(** The point cloud types on the same data: the correspondence at 1/2 is rejected. *)
Definition w_target : cloud Ffld := mkCloud [w_mean] [w_mean] [w_cov].
Definition w_tree_run : outcome (result Ffld * list (event Ffld (factor Ffld))) :=
  align_tree (@mkCriteria Ffld w_quarter w_quarter) w_one w_one (fun _ b => b) (fun _ => pose_id)
    (one_thread_lin Ffld) (one_thread_err Ffld)
    (@mkSetting Ffld TypeGICP w_one w_one w_quarter w_quarter w_quarter 2 1 false) w_target w_source w_nn pose_id.
Definition rejected_at_half (o : outcome (result Ffld * list (event Ffld (factor Ffld)))) : bool :=
  match o with
  | Ok (r, Linearized _ [f] _ :: _) => negb (inlier f) && (r_inliers r =? 0)
  | _ => false
  end.
Example C43_tree_run : rejected_at_half w_tree_run = true.
Proof. vm_compute. reflexivity. Qed.

Print Assumptions C43_point_types_honoured.
Print Assumptions C43_voxelmap_honoured_but_distance.
Print Assumptions C43_invalid_type.
Print Assumptions C43_vgicp_with_tree_refuted.
Print Assumptions C43_vectors_honoured.
Print Assumptions C43_downsampling_threads_refuted.
Print Assumptions C43_thread_count.
Print Assumptions C43_voxelmap_thread_count.
Print Assumptions C43_vgicp_distance_refuted.
