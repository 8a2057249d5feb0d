(** C55, C56: registration, estimation and views of the Python interface. *)
From Coq Require Import Reals ZArith String FunctionalExtensionality ZifyBool ZifyNat ZifyN.
From Flocq Require Import IEEE754.BinarySingleNaN.
From Verif Require Import Base BaseProofs NthElement Num Vec F64 F64Proofs KnnModel KdModel KdParModel KdSpec KdF64 KdThms
  FloorModel Lin FactorModel ReduceModel EstModel EstProofs VoxModel VoxSpec VoxPar SortSpec VmapModel VmapProofs VmapHist OptModel OptSpec OptProofs
  HelperModel HelperSpec HelperProofs RegSafe Prop_Vox Prop_Vmap Prop_Est Prop_Helper Prop_KdTree
  PipeModel PipeSpec PipeSample PipeProofs PipeRun EstF64Spec PipeEst Prop_Pipe PyModel PySpec PyLoop PyProofs Prop_PyTree.
Open Scope nat_scope.
Open Scope list_scope.

(** A cloud a tree can be built from. *)
Definition searchable (c : cloud Ffld) : Prop :=
  cl_points c <> [] /\ (forall p, In p (cl_points c) -> vfinite p) /\
  (N.of_nat (length (cl_points c)) <= 4294967295)%N.
(** What the error type reads besides points. *)
Definition attributed (k : kind) (target source : cloud Ffld) : Prop :=
  (k = PlaneICP -> length (cl_points target) <= length (cl_normals target)) /\
  (k = GICP -> length (cl_points target) <= length (cl_covs target) /\ length (cl_points source) <= length (cl_covs source)).

Section Trees.
Context (order : sumtree) (ne : (nat -> nat -> bool) -> nat -> list nat -> list nat) (NE : nth_element_contract ne).

Lemma cloud_tree (c : cloud Ffld) : searchable c ->
  exists t0, build ne c = Ok t0 /\ kd_wf_f64 (cl_points c) 20 t0 /\
    (exists o, py_kdtree_cloud ne c o) /\
    forall o, py_kdtree_cloud ne c o -> exists t, o = Ok (mkPyTree (cl_points c) t) /\
      tree_nn order (mkCloud (D := Ffld) (cl_points c) [] []) t = tree_nn order (mkCloud (D := Ffld) (cl_points c) [] []) t0 /\
      tree_knn order (mkCloud (D := Ffld) (cl_points c) [] []) t = tree_knn order (mkCloud (D := Ffld) (cl_points c) [] []) t0.
Proof using NE.
  intros (N0 & Fi & L). destruct (built_ok order ne NE (cl_points c) N0 Fi L) as (t0 & Es & (b & Hb) & H).
  destruct (build_ok ne NE order c (conj N0 (conj Fi L))) as (t0' & Eb & W0).
  pose proof (eq_trans (eq_sym Es) Eb) as Q. injection Q as <-.
  exists t0. split; [exact Eb|]. split; [exact W0|]. split; [eexists; exists b; split; [exact Hb|reflexivity]|].
  intros o (bo & Hbo & ->). destruct (H bo Hbo) as (t1 & -> & W1 & S1). exists t1. split; [reflexivity|].
  split; apply functional_extensionality; intros q; [|apply functional_extensionality; intros k];
    unfold tree_nn, tree_knn, KdModel.nearest_neighbor_search, knn_search_api; cbn [cl_points]; rewrite S1; reflexivity.
Qed.
End Trees.

Section Env.
Context (m : int_mode) (sort sort_omp : forall A : Type, (A -> A -> bool) -> list A -> list A).
Context (ne : (nat -> nat -> bool) -> nat -> list nat -> list nat) (order : sumtree).
Context (eig : m3 Ffld -> m3 Ffld) (of_nat : nat -> f64) (milli : f64) (jp jn : vec4 Ffld) (jc : m4 Ffld).
Context (default_criteria : criteria Ffld) (init_lambda lambda_factor : f64).
Context (solve : m6 Ffld -> v6 Ffld -> v6 Ffld) (exp6 : v6 Ffld -> pose Ffld).
Context (omp_lin : nat -> (nat -> factor Ffld -> outcome (factor Ffld * option (sys Ffld))) ->
                   list (factor Ffld) -> outcome (list (factor Ffld) * sys Ffld)).
Context (omp_err : nat -> (factor Ffld -> outcome f64) -> list (factor Ffld) -> outcome f64).
Context (sample_omp : Z -> f64 -> cloud Ffld -> outcome (cloud Ffld)).
Context (estimate_omp : cloud Ffld -> kdtree Fnum nat -> Z -> Z -> outcome (cloud Ffld)).
Context (E : environment m sort sort_omp ne order eig of_nat milli jp jn jc omp_lin omp_err sample_omp estimate_omp).

Notation align_arrays := (py_align_arrays m sort ne order eig of_nat milli jp jn jc default_criteria init_lambda lambda_factor
  solve exp6 omp_lin omp_err sample_omp estimate_omp).
Notation align_clouds := (py_align_clouds ne order default_criteria init_lambda lambda_factor solve exp6 omp_lin omp_err).
Notation align_map := (py_align_voxelmap m order of_nat default_criteria init_lambda lambda_factor solve exp6 omp_lin omp_err).

(** ** C55 *)

(** align on arrays is the registration of C52 on the rows: it always returns, and the settings
    are honoured (the distance is not for VGICP, where it is 1). *)
Theorem C55_arrays : forall target source init_T name ty voxel_resolution downsampling_resolution op,
  In (name, ty) [("ICP", TypeICP); ("PLANE_ICP", TypePlaneICP); ("GICP", TypeGICP); ("VGICP", TypeVGICP)]%string ->
  (ty = TypeVGICP -> m = X86) -> (1 <= o_num_threads op)%Z ->
  well_shaped target -> unit_weights target -> well_shaped source -> unit_weights source ->
  let s := mkSetting (D := Ffld) ty voxel_resolution downsampling_resolution (o_max_correspondence_distance op)
             (o_rotation_epsilon op) (o_translation_epsilon op) (o_num_threads op) (o_max_iterations op) (o_verbose op) in
  raw_ok m s (map denoted (m_rows target)) -> raw_ok m s (map denoted (m_rows source)) ->
  exists r log t sc, align_arrays target source init_T name voxel_resolution downsampling_resolution op = Ok (r, log) /\
    prepared order eig of_nat milli s (map denoted (m_rows target)) t /\ prepared order eig of_nat milli s (map denoted (m_rows source)) sc /\
    match ty with
    | TypeVGICP => exists map nn, voxelmap m order of_nat t voxel_resolution = Ok (map, nn) /\
        honoured GICP (o_num_threads op) map nn sc (f64_of 1 0)
          (o_rotation_epsilon op) (o_translation_epsilon op) (o_max_iterations op) init_T r log
    | _ => exists k nn, kind_of ty = Some k /\
        (forall q, vfinite q -> exists found, nn q = Ok found /\ nearest_in (fsqd order) (cl_points t) q found) /\
        honoured k (o_num_threads op) (cloud_viewN t) nn sc
          (f64_mul (o_max_correspondence_distance op) (o_max_correspondence_distance op))
          (o_rotation_epsilon op) (o_translation_epsilon op) (o_max_iterations op) init_T r log
    end.
Proof using E.
  intros target source init_T name ty vr dr op Hn Vg Th Wt Ut Ws Us s Rt Rs.
  assert (Ty : s_type s <> InvalidType) by (cbn; repeat destruct Hn as [Hn|Hn]; try (injection Hn as _ <-; discriminate); destruct Hn).
  assert (Tn : type_of_array name = Some ty).
  { repeat destruct Hn as [Hn|Hn]; try (injection Hn as <- <-; reflexivity); destruct Hn. }
  destruct (C52_register_total m sort sort_omp ne order eig of_nat milli jp jn jc default_criteria init_lambda lambda_factor solve exp6
    omp_lin omp_err sample_omp estimate_omp E s (map denoted (m_rows target)) (map denoted (m_rows source)) init_T Ty Vg Th Rt Rs)
    as (r & log & t & sc & Er & Pt & Ps & H).
  exists r, log, t, sc. split; [|split; [exact Pt|split; [exact Ps|destruct ty; exact H]]].
  unfold py_align_arrays. rewrite (shape_wf target Wt), (shape_wf source Ws), Tn. cbn [negb].
  rewrite (rows_ok target Wt Ut), (rows_ok source Ws Us). cbn [bind]. exact Er.
Qed.

(** Arrays of another shape and other names ("VGICP" among them, for clouds) are not an error: the
    result is the identity, not converged, whatever the initial pose. *)
Theorem C55_refused : forall target source init_T name voxel_resolution downsampling_resolution op,
  exists r, r_T r = pose_id /\ r_converged r = false /\ r_inliers r = 0 /\
    ((m_cols target <> 3 /\ m_cols target <> 4) \/ (m_cols source <> 3 /\ m_cols source <> 4) \/
       ~ In name ["ICP"; "PLANE_ICP"; "GICP"; "VGICP"]%string ->
     align_arrays target source init_T name voxel_resolution downsampling_resolution op = Ok (r, [])) /\
    (~ In name ["ICP"; "PLANE_ICP"; "GICP"]%string ->
     forall ct cs tree o, align_clouds ct cs tree init_T name voxel_resolution downsampling_resolution op o <-> o = Ok (r, [])).
Proof using.
  clear E. intros target source init_T name vr dr op. exists (result_init pose_id). do 3 (split; [reflexivity|]). split.
  - intros H.
    assert (Sh : forall a, m_cols a <> 3 /\ m_cols a <> 4 -> shape_ok a = false).
    { intros a [A B]. unfold shape_ok. destruct (Nat.eqb_spec (m_cols a) 3); [contradiction|]. destruct (Nat.eqb_spec (m_cols a) 4); [contradiction|]. reflexivity. }
    unfold py_align_arrays. destruct (shape_ok target) eqn:St; [|reflexivity]. destruct (shape_ok source) eqn:Ss; [|reflexivity]. cbn [negb].
    destruct H as [H|[H|H]]; [rewrite Sh in St by exact H; discriminate|rewrite Sh in Ss by exact H; discriminate|].
    assert (Tn : type_of_array name = None); [|rewrite Tn; reflexivity].
    unfold type_of_array. repeat match goal with |- (if (name =? ?s)%string then _ else _) = _ =>
      destruct (String.eqb_spec name s) as [->|_]; [exfalso; apply H; cbn [In]; tauto|] end. reflexivity.
  - intros H ct cs tree o. unfold py_align_clouds.
    assert (Tn : type_of_cloud name = None); [|rewrite Tn; reflexivity].
    unfold type_of_cloud. repeat match goal with |- (if (name =? ?s)%string then _ else _) = _ =>
      destruct (String.eqb_spec name s) as [->|_]; [exfalso; apply H; cbn [In]; tauto|] end. reflexivity.
Qed.

(** align on clouds: whether a tree of the target is passed or not, and however it was built, the
    outcome is one and the same result, with exact correspondences and the settings honoured. *)
Theorem C55_clouds : forall target source init_T name k voxel_resolution downsampling_resolution op,
  In (name, k) [("ICP", ICP); ("PLANE_ICP", PlaneICP); ("GICP", GICP)]%string -> (1 <= o_num_threads op)%Z ->
  searchable target -> attributed k target source ->
  exists r log nn,
    (forall tree, (forall kd, tree = Some kd -> py_kdtree_cloud ne target (Ok kd)) ->
       (exists o, align_clouds target source tree init_T name voxel_resolution downsampling_resolution op o) /\
       forall o, align_clouds target source tree init_T name voxel_resolution downsampling_resolution op o -> o = Ok (r, log)) /\
    (forall q, vfinite q -> exists found, nn q = Ok found /\ nearest_in (fsqd order) (cl_points target) q found) /\
    honoured k (o_num_threads op) (cloud_viewN target) nn source
      (f64_mul (o_max_correspondence_distance op) (o_max_correspondence_distance op))
      (o_rotation_epsilon op) (o_translation_epsilon op) (o_max_iterations op) init_T r log.
Proof using E.
  intros target source init_T name k vr dr op Hn Th St [AN AC].
  assert (Tn : exists ty, type_of_cloud name = Some ty /\ kind_of ty = Some k).
  { repeat destruct Hn as [Hn|Hn]; try (injection Hn as <- <-; eexists; split; reflexivity); destruct Hn. }
  destruct Tn as (ty & Tn & Tk).
  destruct (cloud_tree order ne (e_nth_element _ _ _ _ _ _ _ _ _ _ _ _ _ _ _ E) target St) as (t0 & _ & W0 & (o0 & Ho0) & HT).
  set (c0 := mkCloud (D := Ffld) (cl_points target) [] []) in *. set (nn := tree_nn order c0 t0) in *.
  set (s := mkSetting (D := Ffld) ty vr dr (o_max_correspondence_distance op)
             (o_rotation_epsilon op) (o_translation_epsilon op) (o_num_threads op) (o_max_iterations op) (o_verbose op)).
  destruct (e_runtime _ _ _ _ _ _ _ _ _ _ _ _ _ _ _ E) as [OL OE].
  assert (U : HelperSpec.usable k nn (cloud_viewN target) source).
  { split; [intros K; apply AC; exact K|]. intros q.
    destruct (tree_nn_ok order c0 c0 t0 q W0 eq_refl) as (found & Ef & B). exists found. split; [exact Ef|].
    destruct found as [[i d]|]; [|exact I]. cbn [cloud_viewN at_point at_normal at_cov].
    assert (Li : N.to_nat i < length (cl_points target)).
    { change (length (cl_points c0)) with (length (cl_points target)) in B. set (n := length (cl_points target)) in *. clearbody n. lia. }
    split; [apply get_lt; exact Li|]. split; intros K; apply get_lt; eapply Nat.lt_le_trans; [exact Li|apply AN; exact K|exact Li|apply AC; exact K]. }
  assert (X : exists r log, align_tree (D := Ffld) default_criteria init_lambda lambda_factor solve exp6 omp_lin omp_err s target source nn init_T = Ok (r, log)).
  { unfold align_tree. cbn [s_type s]. destruct ty; try discriminate Tk; injection Tk as <-;
      apply (align_total solve exp6 omp_lin omp_err OL OE); [exact Th|exact U|exact Th|exact U|exact Th|exact U]. }
  destruct X as (r & log & X). exists r, log, nn. split; [|split].
  - intros tree Ht.
    assert (K : forall o, align_clouds target source tree init_T name vr dr op o -> o = Ok (r, log)).
    { intros o Ho. unfold py_align_clouds in Ho. rewrite Tn in Ho. fold s in Ho. destruct Ho as (t & H & ->).
      assert (H' : py_kdtree_cloud ne target t) by (destruct tree as [kd|]; [subst t; apply Ht; reflexivity|exact H]).
      destruct (HT t H') as (t1 & -> & Q & _). cbn [bind]. unfold py_tree_nn. cbn [k_points k_tree]. fold c0. rewrite Q. exact X. }
    split; [|exact K]. unfold py_align_clouds. rewrite Tn. fold s.
    destruct tree as [kd|]; [eexists; exists (Ok kd); split; reflexivity|eexists; exists o0; split; [exact Ho0|reflexivity]].
  - intros q Hq. apply (nearest_tree m sort sort_omp ne order eig of_nat milli jp jn jc omp_lin omp_err sample_omp estimate_omp E c0 t0 q); auto. apply St.
  - exact (C43_point_types_honoured _ _ _ _ _ _ _ _ s _ _ _ _ _ _ (conj OL OE) k Tk Th X).
Qed.

(** align on a voxel map, after any history of insertions: it always returns and honours the
    settings including the distance, unlike the C++ function (C43). *)
Theorem C55_voxelmap : forall leaf_size horizon cycle calls st source init_T op,
  m = X86 -> (1 <= o_num_threads op)%Z -> length (cl_points source) <= length (cl_covs source) ->
  do_ops Fnum (gauss of_nat) (voxel_of m (per_unit leaf_size)) (pose Ffld) moved (new_map Fnum (gauss of_nat) horizon cycle) calls = Ok st ->
  (N.of_nat (length (flat_voxels st)) <= 4294967296)%N ->
  exists r log, align_map leaf_size st source init_T op = Ok (r, log) /\
    honoured GICP (o_num_threads op) (map_view of_nat st) (map_nn m order of_nat leaf_size st) source
      (f64_mul (o_max_correspondence_distance op) (o_max_correspondence_distance op))
      (o_rotation_epsilon op) (o_translation_epsilon op) (o_max_iterations op) init_T r log.
Proof using E.
  intros leaf_size horizon cycle calls st source init_T op Em Th LC Hs LV.
  assert (MR : map_ready of_nat st) by (split; [exact (proj2 (C18_voxelmap_consistent _ _ _ _ _ _ _ _ _ Hs))|exact LV]).
  destruct (e_runtime _ _ _ _ _ _ _ _ _ _ _ _ _ _ _ E) as [OL OE].
  assert (U : HelperSpec.usable GICP (map_nn m order of_nat leaf_size st) (map_view of_nat st) source).
  { split; [auto|]. intros q. rewrite Em. destruct (map_nn_ok order of_nat st leaf_size q MR) as (found & Ef & B). exists found. split; [exact Ef|].
    destruct found as [[i d]|]; [|exact I]. destruct B as [B1 B2]. split; [exact B1|]. split; [discriminate|auto]. }
  unfold py_align_voxelmap. match goal with |- context [registration_align _ _ _ _ _ ?r _ _ _ _] => set (reg := r) end.
  destruct (align_total solve exp6 omp_lin omp_err OL OE GICP reg (map_view of_nat st) source _ init_T Th U) as (r & log & X).
  exists r, log. split; [exact X|]. apply (align_honoured solve exp6 omp_lin omp_err OL OE) in X; [exact X|exact Th|reflexivity].
Qed.

(** align on arrays with "VGICP" is deaf to max_correspondence_distance. *)
Theorem C55_vgicp_distance_refuted : forall target source init_T voxel_resolution downsampling_resolution op d,
  align_arrays target source init_T "VGICP" voxel_resolution downsampling_resolution op =
  align_arrays target source init_T "VGICP" voxel_resolution downsampling_resolution
    (mkOptions d (o_num_threads op) (o_max_iterations op) (o_rotation_epsilon op) (o_translation_epsilon op) (o_verbose op)).
Proof using. reflexivity. Qed.

(** A run all of whose first linearizations are undefined. *)
Lemma lin_undefined k r target source nn init_T : (1 <= reg_num_threads r)%Z -> (1 <= lm_max_iterations (reg_optimizer r))%Z ->
  cl_points source <> [] ->
  (forall i f, i < length (cl_points source) ->
     linearize nn (distance_rejector (reg_max_dist_sq r)) target (cloud_view source) k init_T i f = UB) ->
  registration_align (D := Ffld) solve exp6 omp_lin omp_err k r target source nn init_T = UB.
Proof using E.
  intros Th It N0 H. destruct (e_runtime _ _ _ _ _ _ _ _ _ _ _ _ _ _ _ E) as [OL _]. unfold registration_align, levenberg_marquardt.
  destruct (Z.to_nat (lm_max_iterations (reg_optimizer r))) as [|n] eqn:En; [lia|].
  cbn [lm_loop result_init r_converged r_T].
  set (lin := linearize nn (distance_rejector (reg_max_dist_sq r)) target (cloud_view source) k init_T) in *.
  set (fs := initial_factors (length (cl_points source))).
  assert (L : length fs = length (cl_points source)) by apply repeat_length.
  assert (Tp : 0 < Z.to_nat (reg_num_threads r)) by lia.
  destruct (OL (Z.to_nat (reg_num_threads r)) lin fs Tp) as (e & R & C & Eo). rewrite Eo.
  assert (e = UB) as ->; [|reflexivity].
  assert (S : forall o, omp_step sys_add lin (Z.to_nat (reg_num_threads r)) (omp_init sys_zero (Z.to_nat (reg_num_threads r)) fs) o -> o = UB).
  { intros o St. remember (omp_init _ _ _) as st0 eqn:Q. destruct St as [fs1 accs l1 i l2 t Ht]. unfold omp_init in Q. injection Q as -> -> Q.
    destruct (get_lt (repeat (sys_zero (D := Ffld)) (Z.to_nat (reg_num_threads r))) t) as [a ->]; [rewrite repeat_length; exact Ht|]. cbn [bind].
    assert (Hi : i < length fs).
    { assert (In i (seq 0 (length fs))) as X by (rewrite <- Q; apply in_or_app; right; left; reflexivity). apply in_seq in X. lia. }
    unfold visit. destruct (get_lt fs i Hi) as [f ->]. cbn [bind]. rewrite (H i f) by (rewrite <- L; exact Hi). reflexivity. }
  inversion R as [st0 E0 E1|st0 st1 o St R' E0 E1|st0 o St N E0 E1].
  - subst e. specialize (C _ eq_refl). unfold omp_init in C. cbn [o_todo] in C.
    destruct (cl_points source) as [|p ps]; [now destruct N0|]. rewrite L in C. discriminate.
  - apply S in St. discriminate.
  - apply S in St. exact St.
Qed.

(** Whether a given tree is of the target is not checked: correspondences beyond the target's
    points are read out of range. *)
Theorem C55_foreign_tree_refuted : forall target source kd init_T name k voxel_resolution downsampling_resolution op o,
  In (name, k) [("ICP", ICP); ("PLANE_ICP", PlaneICP); ("GICP", GICP)]%string ->
  (1 <= o_num_threads op)%Z -> (1 <= o_max_iterations op)%Z -> cl_points source <> [] ->
  (forall p, In p (cl_points source) -> exists i d, py_tree_nn order kd (pose_pt (D := Ffld) init_T p) = Ok (Some (i, d)) /\
     f64_lt (f64_mul (o_max_correspondence_distance op) (o_max_correspondence_distance op)) d = false /\
     length (cl_points target) <= N.to_nat i) ->
  align_clouds target source (Some kd) init_T name voxel_resolution downsampling_resolution op o -> o = UB.
Proof using E.
  intros target source kd init_T name k vr dr op o Hn Th It N0 H Ho.
  assert (Tn : exists ty, type_of_cloud name = Some ty /\ kind_of ty = Some k).
  { repeat destruct Hn as [Hn|Hn]; try (injection Hn as <- <-; eexists; split; reflexivity); destruct Hn. }
  destruct Tn as (ty & Tn & Tk). unfold py_align_clouds in Ho. rewrite Tn in Ho. destruct Ho as (t & -> & ->). cbn [bind].
  unfold align_tree. cbn [s_type].
  assert (X : forall (r : registration Ffld) (k' : kind), reg_max_dist_sq r = f64_mul (o_max_correspondence_distance op) (o_max_correspondence_distance op) ->
    forall i f, i < length (cl_points source) ->
    linearize (D := Ffld) (py_tree_nn order kd) (distance_rejector (reg_max_dist_sq r)) (cloud_viewN target) (cloud_view source) k' init_T i f = UB).
  { intros r k' Er i f Hi. unfold linearize. cbn [cloud_view at_point].
    destruct (get_lt (cl_points source) i Hi) as [p Ep]. rewrite Ep. cbn [bind]. apply get_Ok in Ep. apply nth_error_In in Ep.
    destruct (H p Ep) as (j & d & -> & Rj & Lj). cbn [bind]. unfold distance_rejector. rewrite Er.
    change (nlt (n := Ffld)) with f64_lt. rewrite Rj. unfold linearize_at, residual. cbn [cloud_viewN cloud_view at_point].
    assert (G : get (cl_points target) (N.to_nat j) = UB) by (unfold get; now rewrite (proj2 (nth_error_None (cl_points target) (N.to_nat j)) Lj)).
    rewrite G. reflexivity. }
  destruct ty; try discriminate Tk; apply lin_undefined; auto.
Qed.

(** ** C56 *)

(** Normal and covariance estimation of a cloud: one result, whether a tree is passed or not,
    however it was built, for any number of threads and any schedule: the normals and
    covariances of the k nearest points. *)
Theorem C56_estimation : forall st c k, searchable c -> (0 < k < 2 ^ 31)%Z ->
  exists c', estimated (fsqd order) eig of_nat milli st (Z.to_nat k) c' /\ cl_points c' = cl_points c /\
    length (cl_normals c') = length (cl_points c) /\ length (cl_covs c') = length (cl_points c) /\
    forall threads tree, (forall kd, tree = Some kd -> py_kdtree_cloud ne c (Ok kd)) ->
      (exists o, py_estimate ne order eig of_nat milli jp jn jc st c tree k threads o) /\
      forall o, py_estimate ne order eig of_nat milli jp jn jc st c tree k threads o -> o = Ok c'.
Proof using E.
  intros st c k Sc Hk.
  destruct (cloud_tree order ne (e_nth_element _ _ _ _ _ _ _ _ _ _ _ _ _ _ _ E) c Sc) as (t0 & Eb & W0 & (o0 & Ho0) & HT).
  set (c0 := mkCloud (D := Ffld) (cl_points c) [] []) in *.
  destruct (C33_total Ffld (tree_knn order c0 t0) eig of_nat milli st jp jn jc (Z.to_nat k) c) as (c' & Ee).
  { intros p _. apply (tree_knn_ok order c0); [exact W0|lia]. }
  exists c'. split; [apply (estimate_exact order (e_sum _ _ _ _ _ _ _ _ _ _ _ _ _ _ _ E) eig of_nat milli jp jn jc st (Z.to_nat k) c c' t0); [apply Sc|exact W0|lia|exact Ee]|].
  destruct (estimate_writes (tree_knn order c0 t0) eig of_nat milli st jp jn jc (Z.to_nat k) c c' Ee) as (P & LN & LC & _).
  split; [exact P|]. split; [exact LN|]. split; [exact LC|]. intros threads tree Ht.
  destruct (C34_parallel_estimation Ffld (tree_knn order c0 t0) eig of_nat milli st jp jn jc (Z.to_nat k) c c' Ee _ (ParHere _ _ _ _ _ _ _ _))
    as (s0 & Q0 & _ & _ & _ & s1 & R1 & F1 & C1). injection Q0 as <-.
  split.
  - unfold py_estimate.
    assert (X : exists t, match tree with Some t' => Ok t = Ok t' | None => py_kdtree_cloud ne c (Ok t) end /\ py_kdtree_cloud ne c (Ok t)).
    { destruct tree as [kd|]; [exists kd; auto|]. destruct (HT o0 Ho0) as (t1 & -> & _). eauto. }
    destruct X as (t & X & Ht1). destruct (HT _ Ht1) as (t1 & Q & _ & Kn). injection Q as ->.
    destruct (threads =? 1)%Z eqn:T1.
    + eexists. exists (Ok (mkPyTree (cl_points c) t1)). split; [destruct tree; exact X|]. reflexivity.
    + eexists. exists (Ok (mkPyTree (cl_points c) t1)). split; [destruct tree; exact X|]. cbn [k_points k_tree]. fold c0.
      exists (Ok s1). change (fun q k => tree_knn order c0 t1 q k) with (tree_knn order c0 t1). rewrite Kn.
      split; [exact R1|]. split; [intros s Q; injection Q as <-; exact F1|reflexivity].
  - intros o (t & Hm & Ho).
    assert (Ht1 : py_kdtree_cloud ne c t) by (destruct tree as [kd|]; [subst t; apply Ht; reflexivity|exact Hm]).
    destruct (HT _ Ht1) as (t1 & -> & _ & Kn). cbn [k_points k_tree] in Ho. fold c0 in Ho.
    change (fun q k => tree_knn order c0 t1 q k) with (tree_knn order c0 t1) in Ho. rewrite Kn in Ho.
    destruct (threads =? 1)%Z; [rewrite Ho; exact Ee|]. destruct Ho as (e & R & F & ->).
    destruct (C34_parallel_estimation Ffld (tree_knn order c0 t0) eig of_nat milli st jp jn jc (Z.to_nat k) c c' Ee e R) as (s & -> & Fi & _).
    cbn [bind]. rewrite Fi by (apply F; reflexivity). reflexivity.
Qed.

(** preprocess_points on a cloud whose points are all inside the grid: every schedule gives a
    summary of the points, normals and covariances of the k nearest for all of them, and a tree of exactly these
    points that answers exactly; and some schedule ends. *)
Theorem C56_preprocess : forall (c : cloud Ffld) resolution k, cl_points c <> [] -> (0 < k < 2 ^ 31)%Z ->
  moderate (per_unit resolution) -> (forall p, In p (cl_points c) -> in_grid (per_unit resolution) p /\ homogeneous p) ->
  (N.of_nat (length (cl_points c)) <= 4294967295)%N ->
  (exists o, py_preprocess_cloud m sort_omp ne order eig of_nat milli jp jn jc c resolution k o) /\
  forall o, py_preprocess_cloud m sort_omp ne order eig of_nat milli jp jn jc c resolution k o ->
    exists c' kd, o = Ok (Some (c', kd)) /\ summarised (per_unit resolution) (cl_points c) (cl_points c') /\ cl_points c' <> [] /\
      length (cl_normals c') = length (cl_points c') /\ length (cl_covs c') = length (cl_points c') /\
      estimated (fsqd order) eig of_nat milli Both (Z.to_nat k) c' /\ k_points kd = cl_points c' /\ py_kdtree_cloud ne c' (Ok kd) /\
      forall q, vfinite q -> exists r i d, tree_nearest order kd q = Ok r /\ indices r = [i] /\ distances r = [d] /\
        nearest_answer (fsqd order) (cl_points c') q (num_found_neighbors r, i, d).
Proof using E.
  intros c resolution k N0 Hk M HG HL. unfold py_preprocess_cloud.
  assert (HZ : (Z.of_nat (length (cl_points c)) <= 2 ^ 53)%Z).
  { set (n := length (cl_points c)) in *. clearbody n. lia. }
  assert (Sm : forall o, sampled_omp m sort_omp jn jc resolution c o -> exists out, o = Ok (bare jn jc out) /\
    summarised (per_unit resolution) (cl_points c) out /\ searchable (bare jn jc out)).
  { intros o Ho. destruct (omp_summarised m sort_omp (e_sort_omp _ _ _ _ _ _ _ _ _ _ _ _ _ _ _ E) jn jc resolution c o M) as (out & -> & So); auto.
    - intros p Hp. apply in_grid_safe. apply HG. exact Hp.
    - intros p Hp. apply HG. exact Hp.
    - intros p Hp. apply HG. exact Hp.
    - exists out. split; [reflexivity|]. split; [exact So|]. destruct (summarised_length _ _ _ So) as [SL SN]. split; [|split].
      + apply SN. destruct (cl_points c) as [|p ps]; [now destruct N0|]. exists p. split; [left; reflexivity|apply HG; left; reflexivity].
      + apply (summarised_finite _ _ _ So).
      + cbn [bare cl_points]. change (length (A := vec4 (fbase Ffld)) out) with (length (A := vec4 Fnum) out).
        set (n := length (A := vec4 Fnum) out) in *. set (n' := length (cl_points c)) in *.
        change (length (A := vec4 Fnum) (cl_points c)) with n' in SL. clearbody n n'. lia. }
  assert (Es : forall out, searchable (bare jn jc out) -> forall t, py_kdtree_cloud ne (bare jn jc out) (Ok (mkPyTree out t)) ->
    exists c' : cloud Ffld, estimated (fsqd order) eig of_nat milli Both (Z.to_nat k) c' /\ cl_points c' = out /\ length (cl_normals c') = length out /\ length (cl_covs c') = length out /\
      (exists e, estimated_omp order eig of_nat milli jp jn jc (bare jn jc out) t k e) /\
      forall e, estimated_omp order eig of_nat milli jp jn jc (bare jn jc out) t k e -> e = Ok c').
  { intros out So t Ht. destruct (C56_estimation Both (bare jn jc out) k So Hk) as (c' & EX & P & LN & LC & H).
    exists c'. split; [exact EX|]. split; [exact P|]. split; [exact LN|]. split; [exact LC|].
    destruct (H 2%Z (Some (mkPyTree out t))) as [(o1 & H1) H2]; [intros kd Q; injection Q as <-; exact Ht|]. split.
    - destruct H1 as (t' & -> & (e & R & F & _)). eexists. exists e. split; [exact R|]. split; [exact F|reflexivity].
    - intros e (e' & R & F & ->). apply H2. exists (Ok (mkPyTree out t)). split; [reflexivity|]. exists e'. split; [exact R|]. split; [exact F|reflexivity]. }
  assert (NE := e_nth_element _ _ _ _ _ _ _ _ _ _ _ _ _ _ _ E).
  assert (Main : (exists o, py_preprocess m sort_omp ne order eig of_nat milli jp jn jc c resolution k o) /\
    forall o, py_preprocess m sort_omp ne order eig of_nat milli jp jn jc c resolution k o ->
    exists c' kd, o = Ok (c', kd) /\ summarised (per_unit resolution) (cl_points c) (cl_points c') /\ cl_points c' <> [] /\
      length (cl_normals c') = length (cl_points c') /\ length (cl_covs c') = length (cl_points c') /\
      estimated (fsqd order) eig of_nat milli Both (Z.to_nat k) c' /\ k_points kd = cl_points c' /\ py_kdtree_cloud ne c' (Ok kd) /\
      forall q, vfinite q -> exists r i d, tree_nearest order kd q = Ok r /\ indices r = [i] /\ distances r = [d] /\
        nearest_answer (fsqd order) (cl_points c') q (num_found_neighbors r, i, d)).
  { unfold py_preprocess. split.
    - pose proof (e_sample _ _ _ _ _ _ _ _ _ _ _ _ _ _ _ E 4%Z resolution c) as Hs. destruct (Sm _ Hs) as (out & Q & _ & So). rewrite Q in Hs.
      destruct (cloud_tree order ne NE (bare jn jc out) So) as (t0 & _ & _ & (o0 & Ho0) & HT).
      destruct (HT o0 Ho0) as (t1 & -> & _). destruct (Es out So t1 Ho0) as (c' & _ & P & _ & _ & (e & He) & HE).
      destruct Ho0 as (b & Hb & Qb). destruct b as [t2| | |]; try discriminate. cbn [bind] in Qb. injection Qb as <-.
      eexists. exists (Ok (bare jn jc out)). split; [exact Hs|]. exists (Ok t1). split; [exact Hb|]. exists e. split; [exact He|reflexivity].
    - intros o (s & Hs & Ho). destruct (Sm s Hs) as (out & -> & Su & So). destruct Ho as (b & Hb & Ho).
      cbn [bare cl_points] in Hb, Ho.
      destruct (built_ok order ne NE out) as (ts & _ & _ & HB); [apply So|apply So|apply So|].
      destruct (HB b Hb) as (t & -> & W & _). destruct Ho as (e & He & ->).
      assert (Ht : py_kdtree_cloud ne (bare jn jc out) (Ok (mkPyTree out t))) by (exists (Ok t); split; [exact Hb|reflexivity]).
      destruct (Es out So t Ht) as (c' & EX & P & LN & LC & _ & HE). rewrite (HE e He). cbn [bind].
      assert (Ht' : py_kdtree_cloud ne c' (Ok (mkPyTree (cl_points c') t))) by (exists (Ok t); rewrite P; split; [exact Hb|reflexivity]).
      exists c', (mkPyTree (cl_points c') t). split; [reflexivity|]. rewrite P in Ht' |- *. split; [exact Su|]. split; [apply So|].
      split; [exact LN|]. split; [exact LC|]. split; [exact EX|]. split; [reflexivity|]. split; [exact Ht'|]. intros q Hq.
      apply (nearest_exact order (e_sum _ _ _ _ _ _ _ _ _ _ _ _ _ _ _ E) (mkPyTree out t) W); [apply So|exact Hq]. }
  destruct Main as [(o0 & H0) H1]. destruct (cl_points c) as [|p ps] eqn:Ep; [now destruct N0|]. split.
  - eexists. exists o0. split; [exact H0|reflexivity].
  - intros o (e & He & ->). destruct (H1 e He) as (c' & kd & -> & H). exists c', kd. split; [reflexivity|exact H].
Qed.

(** An array without rows is not refused like a cloud without points is: the tree that comes back
    has no nodes, and searching it is undefined. *)
Theorem C56_empty_preprocess_refuted : forall a resolution k, (m_cols a = 3 \/ m_cols a = 4) -> m_rows a = [] ->
  (forall o, py_preprocess_cloud m sort_omp ne order eig of_nat milli jp jn jc (mkCloud (D := Ffld) [] [] []) resolution k o -> o = Ok None) /\
  (exists o, py_preprocess_array m sort_omp ne order eig of_nat milli jp jn jc a resolution k o) /\
  forall o, py_preprocess_array m sort_omp ne order eig of_nat milli jp jn jc a resolution k o ->
    exists c' kd, o = Ok (Some (c', kd)) /\ cl_points c' = [] /\ cl_covs c' = [] /\ forall q, tree_nearest order kd q = UB.
Proof using E.
  intros [cols rows] resolution k Hc Hr. cbn [m_cols m_rows] in *. subst rows. split; [intros o H; exact H|].
  assert (Sh : shape_ok (mkMatrix cols []) = true) by (unfold shape_ok; cbn [m_cols]; destruct Hc as [-> | ->]; reflexivity).
  unfold py_preprocess_array. rewrite Sh. change (row_points (mkMatrix cols [])) with (Ok (@nil (vec4 Fnum))). cbn [bind].
  set (c0 := bare jn jc (@nil (vec4 Fnum))). set (t0 := mkTree (D := Fnum) (P := nat) [] None []).
  assert (Sm : forall o, sampled_omp m sort_omp jn jc resolution c0 o -> o = Ok c0).
  { assert (X : forall st, creach (cinit (vec4 Fnum) vzero 0 []) st -> st = cinit (vec4 Fnum) vzero 0 []).
    { intros st R. remember (cinit (vec4 Fnum) vzero 0 []) as st0 eqn:Q. revert Q.
      induction R as [st|st st1 st2 w R IH W]; intros Q; auto. rewrite (IH Q), ?Q in W.
      unfold wstep in W. destruct w; discriminate W. }
    intros o [(subs & st & Eb & R & [[Fi Eo]|(w & e & W & N & Eo)])|[N Eo]].
    - cbn in Eb. injection Eb as <-. apply X in R. subst st. exact Eo.
    - cbn in Eb. injection Eb as <-. apply X in R. subst st. unfold wstep in W. destruct w; discriminate W.
    - exfalso. apply (N []). reflexivity. }
  assert (S : forall o, ~ par_step (D := Ffld) (tree_knn order c0 t0) eig of_nat milli Both (Z.to_nat k) (EstModel.par_init jp jn jc c0) o).
  { intros o St. inversion St as [x1 l1 x2 l2 x3 E1|x1 x2 l1 x3 x4 l2 E1]; destruct l1; discriminate. }
  set (c1 := s_cloud (EstModel.par_init jp jn jc c0)). assert (P1 : cl_points c1 = [] /\ cl_covs c1 = []) by (split; reflexivity).
  assert (Main : (exists o, py_preprocess m sort_omp ne order eig of_nat milli jp jn jc c0 resolution k o) /\
    forall o, py_preprocess m sort_omp ne order eig of_nat milli jp jn jc c0 resolution k o -> o = Ok (c1, mkPyTree [] t0)).
  { unfold py_preprocess. split.
    - pose proof (e_sample _ _ _ _ _ _ _ _ _ _ _ _ _ _ _ E 4%Z resolution c0) as Hs. rewrite (Sm _ Hs) in Hs.
      eexists. exists (Ok c0). split; [exact Hs|]. exists (Ok t0). split; [left; split; reflexivity|]. exists (Ok c1).
      split; [|reflexivity]. exists (Ok (EstModel.par_init jp jn jc c0)). split; [constructor|]. split; [|reflexivity].
      intros s Q. injection Q as <-. split; [reflexivity|constructor].
    - intros o (sc & Hs & Ho). rewrite (Sm sc Hs) in Ho. destruct Ho as (b & [[_ ->]|[N _]] & Ho); [|now destruct N].
      destruct Ho as (e & (e' & R & F & ->) & ->).
      assert (e' = Ok (EstModel.par_init jp jn jc c0)) as ->; [|reflexivity].
      inversion R as [st0 E0 E1|st0 st1 o St R' E0 E1|st0 o St N E0 E1]; [reflexivity|destruct (S _ St)..]. }
  destruct Main as [(o0 & H0) H1]. split.
  - eexists. exists o0. split; [intros ps Q; injection Q as <-; exact H0|reflexivity].
  - intros o (e & He & ->). rewrite (H1 e (He _ eq_refl)). cbn [bind]. exists c1, (mkPyTree [] t0). split; [reflexivity|].
    split; [apply P1|]. split; [apply P1|]. intros q. reflexivity.
Qed.
End Env.

(** The array views of a cloud and a map: points() gives back the points row by row, and a cloud
    made from it has the same points; likewise normals() and voxel_points(). *)
Theorem C56_views : forall (jn : vec4 Ffld) jc (c : cloud Ffld), cl_points c <> [] ->
  (exists a, py_points c = Ok a /\ m_cols a = 4 /\ length (m_rows a) = length (cl_points c) /\
     (forall i p, nth_error (cl_points c) i = Some p -> nth_error (m_rows a) i = Some [vx p; vy p; vz p; vw p]) /\
     exists c', py_cloud jn jc a = Ok c' /\ cl_points c' = cl_points c) /\
  (length (cl_normals c) = length (cl_points c) -> exists a, py_normals c = Ok a /\ m_cols a = 4 /\
     m_rows a = map (fun p => [vx p; vy p; vz p; vw p]) (cl_normals c)) /\
  forall (C : contents Fnum) (st : vmap Fnum C), voxel_points st <> [] ->
    exists a, py_voxel_points st = Ok a /\ m_cols a = 4 /\ m_rows a = map (fun p => [vx p; vy p; vz p; vw p]) (voxel_points st).
Proof.
  intros jn jc c N0. split; [|split].
  - exists (mkMatrix 4 (map row4 (cl_points c))). split; [apply points_total; exact N0|]. split; [reflexivity|]. cbn [m_rows].
    split; [apply map_length|]. split.
    + intros i p Hi. rewrite nth_error_map. change (nth_error (A := vec4 Fnum) (cl_points c) i) with (nth_error (A := vec4 (fbase Ffld)) (cl_points c) i). rewrite Hi. reflexivity.
    + exists (bare jn jc (cl_points c)). split; [|reflexivity]. unfold py_cloud. cbn [shape_ok m_cols Nat.eqb orb].
      assert (R : row_points (mkMatrix 4 (map row4 (cl_points c))) = Ok (cl_points c)); [|rewrite R; reflexivity].
      destruct c as [ps ns cs]. cbn [cl_points] in *. clear N0. unfold row_points. cbn [m_rows]. rewrite map_length.
      rewrite (mapM_map _ (fun i => nth i ps vzero)).
      * f_equal. pose proof (map_seq_nth (fun p : vec4 Fnum => p) vzero ps) as M. cbv beta in M. rewrite map_id in M. exact M.
      * intros i Hi. apply in_seq in Hi. unfold row_point, elem. cbn [m_rows m_cols]. unfold get.
        rewrite nth_error_map, (nth_error_nth' (A := vec4 Fnum) ps vzero) by lia. cbn [option_map bind row4 nth_error Nat.eqb].
        assert (V : forall q : vec4 Fnum, V4 (D := Fnum) (vx q) (vy q) (vz q) (vw q) = q) by (intros []; reflexivity). exact (f_equal Ok (V _)).
  - intros Ln. exists (mkMatrix 4 (map row4 (cl_normals c))). split; [|split; reflexivity].
    destruct c as [ps ns cs]. cbn [cl_points cl_normals] in *. unfold py_normals. cbn [cl_points cl_normals]. rewrite <- Ln.
    destruct ns as [|n ns]; [destruct ps; [now destruct N0|discriminate]|]. cbn [get nth_error bind].
    pose proof (rows_total (n :: ns)) as R. etransitivity; [|exact (f_equal (fun o => let* rows := o in Ok (mkMatrix 4 rows)) R)]. reflexivity.
  - intros C st V0. exists (mkMatrix 4 (map row4 (voxel_points st))). split; [|split; reflexivity].
    unfold py_voxel_points. pose proof (rows_total (voxel_points st)) as R. rewrite R.
    destruct (voxel_points st); [now destruct V0|]. reflexivity.
Qed.

(** The views of an empty cloud or map take the address of an element that is not there. *)
Theorem C56_empty_views_refuted : forall (c : cloud Ffld) (C : contents Fnum) horizon cycle,
  (cl_points c = [] -> py_points c = UB) /\ (cl_normals c = [] -> py_normals c = UB) /\
  py_voxel_points (new_map Fnum C horizon cycle) = UB.
Proof.
  intros [ps ns cs] C horizon cycle. cbn [cl_points cl_normals]. split; [|split].
  - intros ->. reflexivity.
  - intros ->. reflexivity.
  - reflexivity.
Qed.

(** * The hypotheses are met. *)
Definition c7 : cloud Ffld := mkCloud (D := Ffld) cloud7 (repeat (V4 (D := Fnum) (f64_of 0 0) (f64_of 0 0) (f64_of 1 0) (f64_of 0 0)) 7) (repeat (pose_mat pose_id) 7).
Definition opts : options := mkOptions (f64_of 1 0) 2 20 (f64_of 1 (-4)) (f64_of 1 (-4)) false.
Example C55_array_inputs : forall m ty, well_shaped rows7 /\ unit_weights rows7 /\
  raw_ok m (mkSetting (D := Ffld) ty (f64_of 1 0) (f64_of 1 2) (o_max_correspondence_distance opts)
    (o_rotation_epsilon opts) (o_translation_epsilon opts) (o_num_threads opts) (o_max_iterations opts) (o_verbose opts)) (map denoted (m_rows rows7)).
Proof.
  intros m ty. destruct C53_inputs as ([W _] & U & _ & Q & _). split; [exact W|]. split; [exact U|]. rewrite Q. exact (C52_raw m ty 2).
Qed.
Lemma c7_searchable : searchable c7.
Proof.
  split; [discriminate|]. split; [|vm_compute; discriminate].
  intros p Hp. repeat destruct Hp as [<-|Hp]; try destruct Hp; repeat split.
Qed.
Example C55_cloud_inputs : searchable c7 /\ (forall k, attributed k c7 c7) /\
  exists kd, py_kdtree_cloud sort_nth_element c7 (Ok kd).
Proof.
  split; [exact c7_searchable|]. split; [intros k; split; intros _; vm_compute; auto|].
  destruct (cloud_tree eigen_order sort_nth_element sort_nth_element_contract c7 c7_searchable) as (t0 & _ & _ & (o & Ho) & HT).
  destruct (HT o Ho) as (t & -> & _). eauto.
Qed.
(** One point as target, a tree of seven, and a source point nearest to the last of the seven. *)
Example C55_foreign_inputs : exists kd, py_kdtree_cloud sort_nth_element c7 (Ok kd) /\
  forall p, In p [nth 6 cloud7 vzero] -> exists i d, py_tree_nn eigen_order kd (pose_pt (D := Ffld) pose_id p) = Ok (Some (i, d)) /\
    f64_lt (f64_mul (o_max_correspondence_distance opts) (o_max_correspondence_distance opts)) d = false /\ 1 <= N.to_nat i.
Proof.
  destruct (cloud_tree eigen_order sort_nth_element sort_nth_element_contract c7 c7_searchable) as (t0 & Eb & _ & (o & Ho) & HT).
  destruct (HT o Ho) as (t & -> & Q & _). eexists. split; [exact Ho|]. intros p [<-|[]].
  unfold py_tree_nn. cbn [k_points k_tree]. rewrite Q.
  assert (X : exists i d, (let* t := build sort_nth_element c7 in tree_nn eigen_order (mkCloud (D := Ffld) (cl_points c7) [] []) t (pose_pt (D := Ffld) pose_id (nth 6 cloud7 vzero))) = Ok (Some (i, d)) /\
    f64_lt (f64_mul (o_max_correspondence_distance opts) (o_max_correspondence_distance opts)) d = false /\ 1 <= N.to_nat i).
  { eexists _, _. split; [vm_compute; reflexivity|]. split; [vm_compute; reflexivity|vm_compute; repeat constructor]. }
  rewrite Eb in X. exact X.
Qed.
(** Two insertions of the cloud with a change of the clearing parameters between them. *)
Example C55_map_inputs :
  let of_nat n := f64_of (Z.of_nat n) 0 in
  (let* qs := items c7 in
   let* st := do_ops Fnum (gauss of_nat) (voxel_of X86 (per_unit (f64_of 1 0))) (pose Ffld) moved (new_map Fnum (gauss of_nat) 100 10)
     [OpInsert _ _ (pose_id, qs); OpLru _ _ 5 1; OpInsert _ _ (pose_id, qs)] in
   Ok (length (flat_voxels st), length (voxel_points st))) = Ok (7, 7).
Proof. vm_compute. reflexivity. Qed.
Example C56_preprocess_inputs : moderate (per_unit (f64_of 1 2)) /\
  forall p, In p (cl_points c7) -> in_grid (per_unit (f64_of 1 2)) p /\ homogeneous p.
Proof.
  split; [apply (C52_raw X86 TypeICP 1)|]. intros p Hp. split; [apply cloud7_in_grid; exact Hp|].
  repeat destruct Hp as [<-|Hp]; try destruct Hp; exact eq_refl.
Qed.

Print Assumptions C55_arrays.
Print Assumptions C55_refused.
Print Assumptions C55_clouds.
Print Assumptions C55_voxelmap.
Print Assumptions C55_vgicp_distance_refuted.
Print Assumptions C55_foreign_tree_refuted.
Print Assumptions C56_estimation.
Print Assumptions C56_preprocess.
Print Assumptions C56_empty_preprocess_refuted.
Print Assumptions C56_views.
Print Assumptions C56_empty_views_refuted.
