(** C57: the odometry classes, over any sequence of frames. *)
From Coq Require Import Reals ZArith FunctionalExtensionality ZifyBool ZifyNat ZifyN.
From Flocq Require Import IEEE754.BinarySingleNaN.
From Verif Require Import Base BaseProofs NthElement Num Vec F64 F64Proofs KnnModel KdModel KdParModel KdSpec KdF64 KdThms
  FloorModel Lin FactorModel ReduceModel EstModel EstProofs VoxModel VoxSpec VoxPar SortSpec VmapModel VmapSpec VmapProofs VmapHist VmapBody
  OptModel OptSpec OptProofs HelperModel HelperSpec HelperProofs RegSafe Prop_Vox Prop_Vmap Prop_Est Prop_Helper Prop_KdTree
  PipeModel PipeSpec PipeSample PipeProofs PipeRun Prop_Pipe PyModel PyProofs OdomModel OdomSpec OdomProofs.
Open Scope nat_scope.
Open Scope list_scope.

Section Classes.
Context (m : int_mode) (sort : forall A : Type, (A -> A -> bool) -> list A -> list A).
Context (ne : (nat -> nat -> bool) -> nat -> list nat -> list nat) (order : sumtree).
Context (eig : m3 Ffld -> m3 Ffld) (of_nat : nat -> f64) (milli : f64) (jp jn : vec4 Ffld) (jc : m4 Ffld).
Context (default_criteria : criteria Ffld) (init_lambda lambda_factor : f64).
Context (solve : m6 Ffld -> v6 Ffld -> v6 Ffld) (exp6 : v6 Ffld -> pose Ffld).
Context (omp_lin : nat -> (nat -> factor Ffld -> outcome (factor Ffld * option (sys Ffld))) ->
                   list (factor Ffld) -> outcome (list (factor Ffld) * sys Ffld)).
Context (omp_err : nat -> (factor Ffld -> outcome f64) -> list (factor Ffld) -> outcome f64).

Notation gicp_omp := (small_gicp_omp m sort ne order eig of_nat milli jp jn jc default_criteria init_lambda lambda_factor solve exp6 omp_lin omp_err).
Notation vgicp_omp := (small_vgicp_omp m sort ne order eig of_nat milli jp jn jc default_criteria init_lambda lambda_factor solve exp6 omp_lin omp_err).
Notation gicp_model_omp := (small_gicp_model_omp m sort ne order eig of_nat milli jp jn jc default_criteria init_lambda lambda_factor solve exp6 omp_lin omp_err).
Notation vgicp_model_omp := (small_vgicp_model_omp m sort ne order eig of_nat milli jp jn jc default_criteria init_lambda lambda_factor solve exp6 omp_lin omp_err).
Notation flat := (flat_cov order).
Notation gauss := (gauss of_nat).

(** The library functions meet their contracts, the parallel reductions run under some schedule,
    and the parameters make sense. *)
Record setup (p : odometry_params) : Prop := mkSetup {
  u_sort : sort_contract sort; u_nth_element : nth_element_contract ne; u_sum : full_sum order;
  u_runtime : omp_runtime Ffld omp_lin omp_err;
  u_threads : (1 <= d_num_threads p)%Z; u_neighbors : (0 < d_num_neighbors p < 2 ^ 31)%Z;
  u_resolution : moderate (per_unit (d_downsampling_resolution p))
}.

(** A run of registration with the default stopping criteria. *)
Definition registers (threads : Z) (limit_sq : f64) (target : view Ffld N) (nn : search Ffld) (c : cloud Ffld) (T0 : pose Ffld) (r : result Ffld) : Prop :=
  exists log, honoured GICP threads target nn c limit_sq (rotation_eps default_criteria) (translation_eps default_criteria) 20 T0 r log.

Lemma nearest_tree' (c : cloud Ffld) tree q : full_sum order -> nth_element_contract ne -> (forall p, In p (cl_points c) -> vfinite p) ->
  kd_wf_f64 (cl_points c) 20 tree -> vfinite q ->
  exists found, tree_nn order c tree q = Ok found /\ nearest_in (fsqd order) (cl_points c) q found.
Proof.
  intros FS NE. apply (nearest_tree X86 isort isort ne order eig of_nat milli jp jn jc (one_thread_lin Ffld) (one_thread_err Ffld)
    (drive_sample X86 isort jn jc) (fun c tree k _ => estimate_all order eig of_nat milli jp jn jc c tree k)).
  split; [apply isort_contract|apply isort_contract|exact NE|exact FS|apply C43_runtime_exists|intros; apply drive_sample_ok|intros; apply estimate_all_ok].
Qed.

(** ** Scan to scan *)
Lemma scan_track_impl framed' (Q Q' : cloud Ffld -> cloud Ffld -> result Ffld -> Prop) : (forall prev c r, Q prev c r -> Q' prev c r) ->
  forall frames traj prev T0, scan_track framed' Q prev T0 frames traj -> scan_track framed' Q' prev T0 frames traj.
Proof.
  intros X. induction frames as [|points frames IH]; intros [|T traj] prev T0 H; cbn [scan_track] in *; try exact H.
  destruct H as (c & Fr & Hp & H). exists c. split; [exact Fr|]. split; [|apply IH; exact H].
  destruct prev as [c0|]; [|exact Hp]. destruct Hp as (r & Hr & ET). exists r. split; [apply X; exact Hr|exact ET].
Qed.
Section Scan.
Context (p : odometry_params) (U : setup p).
Context (target_of : cloud Ffld * kdtree Fnum nat -> outcome ready) (threads : Z) (Th : (1 <= threads)%Z).
(** What the stored target is to its cloud. *)
Context (is_target : cloud Ffld -> view Ffld N -> search Ffld -> Prop).
Context (fine : list (vec4 Fnum) -> Prop) (Fn : forall points, fine points -> points = [] \/ frame_ok m (d_downsampling_resolution p) points).
Context (TG : forall points (c : cloud Ffld) t0, fine points -> framed order eig of_nat milli (Z.to_nat (d_num_neighbors p)) (d_downsampling_resolution p) points c ->
  (points <> [] -> kd_wf_f64 (cl_points c) 20 t0) -> (forall q, In q (cl_points c) -> vfinite q) ->
  (N.of_nat (length (cl_points c)) <= 4294967295)%N ->
  exists v nn, is_target c v nn /\ (forall source : cloud Ffld, length (cl_points source) <= length (cl_covs source) -> HelperSpec.usable GICP nn v source) /\
    forall t, tree_nn order c t = tree_nn order c t0 -> target_of (c, t) = Ok (c, (v, nn))).

Notation step := (scan_step ne order eig of_nat milli jp jn jc default_criteria init_lambda lambda_factor solve exp6 omp_lin omp_err p target_of threads).
Notation registered := (fun prev c r => exists v nn, is_target prev v nn /\ registers threads (set_max_dist_sq p) v nn c pose_id r).

Definition scan_inv (_ : nat) (s : scan_state) : Prop :=
  match fst s with
  | None => True
  | Some (v, nn) => forall source : cloud Ffld, length (cl_points source) <= length (cl_covs source) -> HelperSpec.usable GICP nn v source
  end.
Definition scan_rel (s : scan_state) (points : list (vec4 Fnum)) (s' : scan_state) (T : pose Ffld) : Prop :=
  exists c v nn, framed order eig of_nat milli (Z.to_nat (d_num_neighbors p)) (d_downsampling_resolution p) points c /\ is_target c v nn /\ s' = (Some (v, nn), T) /\
    match fst s with
    | None => T = snd s
    | Some (v, nn) => exists r, registers threads (set_max_dist_sq p) v nn c pose_id r /\ T = pose_mul (snd s) (r_T r)
    end.

Lemma scan_next bound n s points : scan_inv n s -> fine points -> (N.of_nat (n + length points) <= bound)%N -> exists d s' T,
  sample m sort jn jc (d_downsampling_resolution p) (mkCloud (D := Ffld) points [] []) = Ok d /\ step s d (Ok (s', T)) /\
  (forall o, step s d o -> o = Ok (s', T)) /\ scan_inv (n + length points) s' /\ scan_rel s points s' T.
Proof using U Th TG Fn.
  intros I F _. destruct U as [SC NE FS RT Ut Hk M].
  destruct (frame_any m sort SC ne NE order FS eig of_nat milli jp jn jc p Hk points M (Fn _ F))
    as (d & c & t0 & Es & Fr & Lc & W & Fi & Lp & _ & _ & (t1 & Pt) & Pu & _).
  destruct (TG points c t0 F Fr W Fi) as (v & nn & Ht & Us & Et).
  { set (a := length (cl_points c)) in *. set (b := length points) in *. clearbody a b. lia. }
  assert (X : exists T, (forall t, tree_nn order c t = tree_nn order c t0 ->
      (let* f := Ok (c, t) in let* (c, target) := target_of f in
         match fst s with
         | None => Ok ((Some target, snd s), snd s)
         | Some (v, nn) =>
             let* (r, _) := gicp default_criteria init_lambda lambda_factor solve exp6 omp_lin omp_err (set_max_dist_sq p) threads v c nn pose_id in
             let T := pose_mul (snd s) (r_T r) in
             Ok ((Some target, T), T)
         end) = Ok ((Some (v, nn), T), T)) /\
      match fst s with
      | None => T = snd s
      | Some (v, nn) => exists r, registers threads (set_max_dist_sq p) v nn c pose_id r /\ T = pose_mul (snd s) (r_T r)
      end).
  { destruct s as [[[v0 nn0]|] T0]; cbn [fst snd] in *.
    - destruct (gicp_ok default_criteria init_lambda lambda_factor solve exp6 omp_lin omp_err RT (set_max_dist_sq p) threads v0 c nn0 pose_id Th) as (r & log & Eg & Hh).
      { apply I. rewrite (fd_covs _ _ _ _ _ _ _ _ Fr). apply le_n. }
      exists (pose_mul T0 (r_T r)). split; [|exists r; split; [exists log; exact Hh|reflexivity]].
      intros t Q. cbn [bind]. rewrite (Et t Q). cbn [bind]. rewrite Eg. reflexivity.
    - exists T0. split; [|reflexivity]. intros t Q. cbn [bind]. rewrite (Et t Q). reflexivity. }
  destruct X as (T & X & HT). exists d, (Some (v, nn), T), T. split; [exact Es|]. split; [|split; [|split]].
  - exists (Ok (c, t1)). split; [exact Pt|]. destruct (Pu _ Pt) as (t1' & Q & Qt). injection Q as <-. symmetry. apply (X t1 Qt).
  - intros o (e & He & ->). destruct (Pu _ He) as (t & -> & Qt). apply (X t Qt).
  - exact Us.
  - exists c, v, nn. split; [exact Fr|]. split; [exact Ht|]. split; [reflexivity|exact HT].
Qed.

Lemma scan_tracked frames : forall s traj prev, run scan_rel s frames traj ->
  match prev with None => fst s = None | Some c => exists v nn, fst s = Some (v, nn) /\ is_target c v nn end ->
  scan_track (framed order eig of_nat milli (Z.to_nat (d_num_neighbors p)) (d_downsampling_resolution p)) registered prev (snd s) frames traj.
Proof using.
  induction frames as [|points frames IH]; intros s traj prev R Hp; inversion R as [|x1 x2 x3 s' T tr Hr R']; subst; [exact I|].
  destruct Hr as (c & v & nn & Fr & Ht & -> & HT). cbn [scan_track]. exists c. split; [exact Fr|]. split.
  - destruct prev as [c0|].
    + destruct Hp as (v0 & nn0 & E0 & H0). rewrite E0 in HT. destruct HT as (r & Hr & ET). exists r. split; [exists v0, nn0; split; [exact H0|exact Hr]|exact ET].
    + rewrite Hp in HT. exact HT.
  - apply (IH (Some (v, nn), T) tr (Some c) R'). exists v, nn. split; [reflexivity|exact Ht].
Qed.

Lemma scan_total frames : Forall fine frames -> exists traj,
  online m sort jn jc (d_downsampling_resolution p) step (None, pose_id) frames (Ok traj) /\
  (forall o, online m sort jn jc (d_downsampling_resolution p) step (None, pose_id) frames o -> o = Ok traj) /\
  scan_track (framed order eig of_nat milli (Z.to_nat (d_num_neighbors p)) (d_downsampling_resolution p)) registered None pose_id frames traj.
Proof using U Th TG Fn.
  intros F. destruct (online_run m sort jn jc (d_downsampling_resolution p) step scan_inv fine scan_rel (N.of_nat (total frames))
    (fun n s points => scan_next (N.of_nat (total frames)) n s points) frames 0 (None, pose_id) I F) as (traj & R & O1 & O2).
  { cbn [Nat.add]. apply N.le_refl. }
  exists traj. split; [exact O1|]. split; [exact O2|]. apply (scan_tracked frames (None, pose_id) traj None R). reflexivity.
Qed.
End Scan.

Definition tree_target_of (prev : cloud Ffld) (v : view Ffld N) (nn : search Ffld) : Prop :=
  v = cloud_viewN prev /\ forall q, vfinite q -> exists found, nn q = Ok found /\ nearest_in (fsqd order) (cl_points prev) q found.
Lemma tree_TG p : full_sum order -> nth_element_contract ne ->
  forall points (c : cloud Ffld) t0, frame_ok m (d_downsampling_resolution p) points -> framed order eig of_nat milli (Z.to_nat (d_num_neighbors p)) (d_downsampling_resolution p) points c ->
  (points <> [] -> kd_wf_f64 (cl_points c) 20 t0) -> (forall q, In q (cl_points c) -> vfinite q) ->
  (N.of_nat (length (cl_points c)) <= 4294967295)%N ->
  exists v nn, tree_target_of c v nn /\ (forall source : cloud Ffld, length (cl_points source) <= length (cl_covs source) -> HelperSpec.usable GICP nn v source) /\
    forall t, tree_nn order c t = tree_nn order c t0 -> tree_target order (c, t) = Ok (c, (v, nn)).
Proof.
  intros FS NE points c t0 Fp Fr W Fi _.
  assert (W0 : kd_wf_f64 (cl_points c) 20 t0) by (apply W; intros ->; destruct Fp as [_ _ _ (q & [] & _)]).
  exists (cloud_viewN c), (tree_nn order c t0). split; [split; [reflexivity|]|split].
  - intros q Hq. apply nearest_tree'; auto.
  - intros source Ls. split; [auto|]. intros q. destruct (tree_nn_ok order c c t0 q W0 eq_refl) as (found & Ef & B). exists found. split; [exact Ef|].
    destruct found as [[i dd]|]; [|exact I]. cbn [cloud_viewN at_point at_normal at_cov].
    assert (Li : N.to_nat i < length (cl_points c)) by (set (n := length (cl_points c)) in *; clearbody n; lia).
    split; [apply get_lt; exact Li|]. split; [discriminate|]. intros _. apply get_lt. rewrite (fd_covs _ _ _ _ _ _ _ _ Fr). exact Li.
  - intros t Q. unfold tree_target. cbn [fst snd]. rewrite Q. reflexivity.
Qed.

(** small_gicp_omp: on frames that each have a point in the grid, whatever the schedules, there is
    one trajectory; its first pose is the identity, and each later one is the one before it
    composed with the registration, from the identity and with all parameters honoured, of the
    frame against exact nearest points of the frame before. *)
Theorem C57_gicp_tracks : forall p frames, setup p -> Forall (frame_ok m (d_downsampling_resolution p)) frames ->
  exists traj, gicp_omp p frames (Ok traj) /\ (forall o, gicp_omp p frames o -> o = Ok traj) /\
    scan_track (framed order eig of_nat milli (Z.to_nat (d_num_neighbors p)) (d_downsampling_resolution p))
      (fun prev c r => exists nn, (forall q, vfinite q -> exists found, nn q = Ok found /\ nearest_in (fsqd order) (cl_points prev) q found) /\
         registers (d_num_threads p) (f64_mul (d_max_correspondence_distance p) (d_max_correspondence_distance p)) (cloud_viewN prev) nn c pose_id r)
      None pose_id frames traj.
Proof.
  intros p frames U F. pose proof U as [SC NE FS RT Ut Hk M].
  destruct (scan_total p U (tree_target order) (d_num_threads p) Ut
    tree_target_of (frame_ok m (d_downsampling_resolution p)) (fun _ H => or_intror H)) with (frames := frames) as (traj & O1 & O2 & Tr).
  - apply tree_TG; assumption.
  - exact F.
  - exists traj. split; [exact O1|]. split; [exact O2|]. eapply scan_track_impl; [|exact Tr].
    intros prev c r (v & nn & (-> & Hn) & Hr). exists nn. split; [exact Hn|exact Hr].
Qed.

(** small_vgicp_omp: likewise against the Gaussian voxel map of the frame before, frames without
    points included, but always with four threads. *)
Theorem C57_vgicp_tracks : forall p frames, m = X86 -> setup p ->
  Forall (fun points => points = [] \/ frame_ok m (d_downsampling_resolution p) points) frames ->
  exists traj, vgicp_omp p frames (Ok traj) /\ (forall o, vgicp_omp p frames o -> o = Ok traj) /\
    scan_track (framed order eig of_nat milli (Z.to_nat (d_num_neighbors p)) (d_downsampling_resolution p))
      (fun prev c r => exists v nn, voxelmap m order of_nat prev (d_voxel_resolution p) = Ok (v, nn) /\
         registers 4 (f64_mul (d_max_correspondence_distance p) (d_max_correspondence_distance p)) v nn c pose_id r)
      None pose_id frames traj.
Proof.
  intros p frames Em U F. pose proof U as [SC NE FS RT Ut Hk M].
  apply (scan_total p U (map_target m order of_nat p) 4%Z ltac:(lia)
    (fun prev v nn => voxelmap m order of_nat prev (d_voxel_resolution p) = Ok (v, nn))
    (fun points => points = [] \/ frame_ok m (d_downsampling_resolution p) points) (fun _ H => H)); [|exact F].
  intros points c t0 Fp Fr _ Fi Lc.
  assert (L4 : (N.of_nat (length (cl_points c)) <= 4294967296)%N) by (set (n := length (cl_points c)) in *; clearbody n; lia).
  destruct (gaussian_map_ok of_nat c (d_voxel_resolution p)) as (st & Eg & MR); [rewrite (fd_covs _ _ _ _ _ _ _ _ Fr); apply le_n|exact L4|].
  exists (map_view of_nat st), (map_nn m order of_nat (d_voxel_resolution p) st).
  assert (V : voxelmap m order of_nat c (d_voxel_resolution p) = Ok (map_view of_nat st, map_nn m order of_nat (d_voxel_resolution p) st)).
  { unfold voxelmap. rewrite Em, Eg. reflexivity. }
  split; [exact V|]. split.
  - intros source Ls. split; [auto|]. intros q. rewrite Em. destruct (map_nn_ok order of_nat st (d_voxel_resolution p) q MR) as (found & Ef & B).
    exists found. split; [exact Ef|]. destruct found as [[i dd]|]; [|exact I]. destruct B as [B1 B2]. split; [exact B1|]. split; [discriminate|auto].
  - intros t _. unfold map_target. cbn [fst]. rewrite V. reflexivity.
Qed.

(** ** Scan to model *)
Section Model.
Context (p : odometry_params) (U : setup p) (Em : m = X86).
Context (C : contents Fnum) (cov_of : body C -> nat -> outcome (m4 Ffld)).
Context (P : coord -> body C -> Prop) (BI : body_inv Fnum C (voxel_of X86 (inv_leaf (d_voxel_resolution p))) P).
Context (PR : forall co b, P co b -> length (stored C b) <= 10 /\ forall j, j < length (stored C b) -> exists cv, cov_of b j = Ok cv).
Notation step := (model_step m ne order eig of_nat milli jp jn jc default_criteria init_lambda lambda_factor solve exp6 omp_lin omp_err p C cov_of).
Notation map_of := (fun h => VmapModel.inserts (voxel_of m (per_unit (d_voxel_resolution p))) (pose Ffld) moved (new_map Fnum C 100 10)
  (map (fun x : pose Ffld * cloud Ffld => (fst x, items_of (snd x))) h)).
Notation registered := (fun h T0 c r => exists st, map_of h = Ok st /\
  registers (d_num_threads p) (f64_of 1 0) (model_view C cov_of st) (model_nn m order p C st) c T0 r).

Definition model_inv (n : nat) (s : model_state C) : Prop :=
  match fst s with None => snd s = pose_id | Some st => map_fine C P n st end.
Definition model_rel (s : model_state C) (points : list (vec4 Fnum)) (s' : model_state C) (T : pose Ffld) : Prop :=
  exists c st', framed order eig of_nat milli (Z.to_nat (d_num_neighbors p)) (d_downsampling_resolution p) points c /\ s' = (Some st', T) /\
    match fst s with
    | None => T = snd s /\ map_of [(T, c)] = Ok st'
    | Some st => (exists r, registers (d_num_threads p) (f64_of 1 0) (model_view C cov_of st) (model_nn m order p C st) c (snd s) r /\ T = r_T r) /\
        VmapModel.insert (voxel_of m (per_unit (d_voxel_resolution p))) (pose Ffld) moved st (T, items_of c) = Ok st'
    end.

Lemma model_next n s points : model_inv n s -> points = [] \/ frame_ok m (d_downsampling_resolution p) points ->
  (N.of_nat (n + length points) <= 4294967296)%N -> exists d s' T,
  sample m sort jn jc (d_downsampling_resolution p) (mkCloud (D := Ffld) points [] []) = Ok d /\ step s d (Ok (s', T)) /\
  (forall o, step s d o -> o = Ok (s', T)) /\ model_inv (n + length points) s' /\ model_rel s points s' T.
Proof using U Em BI PR.
  intros I F Lb. destruct U as [SC NE FS RT Ut Hk M].
  destruct (frame_any m sort SC ne NE order FS eig of_nat milli jp jn jc p Hk points M F)
    as (d & c & t0 & Es & Fr & Lc & _ & Fi & Lp & O1 & O2 & _).
  pose proof (fd_covs _ _ _ _ _ _ _ _ Fr) as LC.
  assert (X : exists st' T, (let* c := Ok c in
         match fst s with
         | None =>
             let* st := model_insert m p C (new_map Fnum C 100 10) c pose_id in
             Ok ((Some st, snd s), snd s)
         | Some st =>
             let* (r, _) := gicp default_criteria init_lambda lambda_factor solve exp6 omp_lin omp_err (default_max_dist_sq default_criteria init_lambda lambda_factor)
               (d_num_threads p) (model_view C cov_of st) c (model_nn m order p C st) (snd s) in
             let T := r_T r in
             let* st' := model_insert m p C st c T in
             Ok ((Some st', T), T)
         end) = Ok ((Some st', T), T) /\ map_fine C P (n + length points) st' /\ model_rel s points (Some st', T) T).
  { unfold model_rel. destruct s as [[st|] T0]; cbn [fst snd] in *; cbn [bind].
    - destruct (gicp_ok default_criteria init_lambda lambda_factor solve exp6 omp_lin omp_err RT (default_max_dist_sq default_criteria init_lambda lambda_factor)
        (d_num_threads p) (model_view C cov_of st) c (model_nn m order p C st) T0 Ut) as (r & log & Eg & Hh).
      { split; [intros _; rewrite LC; apply le_n|]. intros q. rewrite Em.
        destruct (model_nn_ok order p C cov_of P PR n st q I) as (found & Ef & B).
        { set (b := length points) in *. clearbody b. lia. }
        exists found. split; [exact Ef|]. destruct found as [[i dd]|]; [|exact Logic.I]. destruct B as [B1 B2]. split; [exact B1|]. split; [discriminate|auto]. }
      destruct (insert_fine p C P BI n st c (r_T r) I LC) as (st' & E1 & E2 & G). rewrite <- Em in E1, E2.
      exists st', (r_T r). rewrite Eg. cbn [bind]. rewrite E1. split; [reflexivity|]. split.
      + eapply map_fine_le; [exact G|]. set (a := length (cl_points c)) in *. set (b := length points) in *. clearbody a b. lia.
      + exists c, st'. split; [exact Fr|]. split; [reflexivity|]. split; [exists r; split; [exists log; exact Hh|reflexivity]|exact E2].
    - destruct (insert_fine p C P BI 0 (new_map Fnum C 100 10) c pose_id (new_fine C P) LC) as (st' & E1 & E2 & G). rewrite <- Em in E1, E2.
      red in I. cbn [fst snd] in I. subst T0.
      exists st', pose_id. rewrite E1. cbn [bind]. split; [reflexivity|]. split.
      + eapply map_fine_le; [exact G|]. set (a := length (cl_points c)) in *. set (b := length points) in *. clearbody a b. lia.
      + exists c, st'. split; [exact Fr|]. split; [reflexivity|]. split; [reflexivity|].
        unfold VmapModel.inserts. cbn [map foldM fst snd]. change (per_unit (d_voxel_resolution p)) with (inv_leaf (d_voxel_resolution p)). rewrite E2. reflexivity. }
  destruct X as (st' & T & X & G & HT). exists d, (Some st', T), T. split; [exact Es|]. split; [|split; [|split]].
  - exists (Ok c). split; [exact O1|]. symmetry. exact X.
  - intros o (e & He & ->). rewrite (O2 e He). exact X.
  - exact G.
  - exact HT.
Qed.

Lemma model_tracked frames : forall s traj h, run model_rel s frames traj ->
  match h with [] => fst s = None | _ :: _ => exists st, fst s = Some st /\ map_of h = Ok st end ->
  model_track (framed order eig of_nat milli (Z.to_nat (d_num_neighbors p)) (d_downsampling_resolution p)) registered h (snd s) frames traj.
Proof using.
  induction frames as [|points frames IH]; intros s traj h R Hp; inversion R as [|x1 x2 x3 s' T tr Hr R']; subst; [exact I|].
  destruct Hr as (c & st' & Fr & -> & HT). cbn [model_track]. exists c. split; [exact Fr|].
  destruct h as [|k h].
  - rewrite Hp in HT. destruct HT as [ET Est]. split; [exact ET|]. apply (IH (Some st', T) tr [(T, c)] R'). exists st'. split; [reflexivity|exact Est].
  - destruct Hp as (st & E0 & Est). rewrite E0 in HT. destruct HT as ((r & Hr & ET) & Ei). split.
    + exists r. split; [exists st; split; [exact Est|exact Hr]|exact ET].
    + apply (IH (Some st', T) tr ((k :: h) ++ [(T, c)]) R'). cbn [app]. exists st'. split; [reflexivity|].
      change (k :: h ++ [(T, c)]) with ((k :: h) ++ [(T, c)]). rewrite map_app.
      apply inserts_snoc. exists st. split; [exact Est|exact Ei].
Qed.

Lemma model_total frames : Forall (fun points => points = [] \/ frame_ok m (d_downsampling_resolution p) points) frames ->
  (N.of_nat (total frames) <= 4294967296)%N -> exists traj,
  online m sort jn jc (d_downsampling_resolution p) step (None, pose_id) frames (Ok traj) /\
  (forall o, online m sort jn jc (d_downsampling_resolution p) step (None, pose_id) frames o -> o = Ok traj) /\
  model_track (framed order eig of_nat milli (Z.to_nat (d_num_neighbors p)) (d_downsampling_resolution p)) registered [] pose_id frames traj.
Proof using U Em BI PR.
  intros F L. destruct (online_run m sort jn jc (d_downsampling_resolution p) step model_inv _ model_rel 4294967296%N model_next
    frames 0 (None, pose_id) eq_refl F L) as (traj & R & O1 & O2).
  exists traj. split; [exact O1|]. split; [exact O2|]. apply (model_tracked frames (None, pose_id) traj [] R). reflexivity.
Qed.
End Model.

(** small_gicp_model_omp: on any frames of at most 2^32 points together, empty ones included, there
    is one trajectory; its first pose is the identity, and each later one is the registration of
    its frame, from the pose before, against the map of all frames before at their poses. *)
Theorem C57_gicp_model_tracks : forall p frames, m = X86 -> setup p ->
  Forall (fun points => points = [] \/ frame_ok m (d_downsampling_resolution p) points) frames -> (N.of_nat (total frames) <= 4294967296)%N ->
  exists traj, gicp_model_omp p frames (Ok traj) /\ (forall o, gicp_model_omp p frames o -> o = Ok traj) /\
    model_track (framed order eig of_nat milli (Z.to_nat (d_num_neighbors p)) (d_downsampling_resolution p))
      (fun h T0 c r => exists st,
         VmapModel.inserts (voxel_of m (per_unit (d_voxel_resolution p))) (pose Ffld) moved (new_map Fnum flat 100 10)
           (map (fun x => (fst x, items_of (snd x))) h) = Ok st /\
         registers (d_num_threads p) (f64_of 1 0) (model_view flat (flat_cov_of order) st) (model_nn m order p flat st) c T0 r)
      [] pose_id frames traj.
Proof.
  intros p frames Em U F L.
  apply (model_total p U Em flat (flat_cov_of order)
    (flat_voxel_ok (fsqd order) false true (f64_mul tenth tenth) 10 (voxel_of X86 (inv_leaf (d_voxel_resolution p))))); [apply flat_body_inv| |exact F|exact L].
  intros co b (I & (kept & K) & _). cbn [stored flat_cov flat_contents]. split; [apply I|].
  intros j Hj. unfold flat_cov_of. destruct (get_lt (fc_covs b) j) as [a ->]; [|eexists; reflexivity].
  destruct K as (K1 & _ & K3). cbv iota in K3. rewrite K3, map_length. rewrite K1, map_length in Hj. exact Hj.
Qed.

(** small_vgicp_model_omp likewise. *)
Theorem C57_vgicp_model_tracks : forall p frames, m = X86 -> setup p ->
  Forall (fun points => points = [] \/ frame_ok m (d_downsampling_resolution p) points) frames -> (N.of_nat (total frames) <= 4294967296)%N ->
  exists traj, vgicp_model_omp p frames (Ok traj) /\ (forall o, vgicp_model_omp p frames o -> o = Ok traj) /\
    model_track (framed order eig of_nat milli (Z.to_nat (d_num_neighbors p)) (d_downsampling_resolution p))
      (fun h T0 c r => exists st,
         VmapModel.inserts (voxel_of m (per_unit (d_voxel_resolution p))) (pose Ffld) moved (new_map Fnum gauss 100 10)
           (map (fun x => (fst x, items_of (snd x))) h) = Ok st /\
         registers (d_num_threads p) (f64_of 1 0) (map_view of_nat st) (map_nn m order of_nat (d_voxel_resolution p) st) c T0 r)
      [] pose_id frames traj.
Proof.
  intros p frames Em U F L.
  apply (model_total p U Em gauss (gauss_cov_of of_nat) (fun _ _ => True)); [split; auto| |exact F|exact L].
  intros co b _. split; [cbn; lia|]. intros j _. eexists. reflexivity.
Qed.

(** Frames to come do not change poses already given. *)
Lemma online_prefix resolution {S} (step : S -> cloud Ffld -> outcome (S * pose Ffld) -> Prop) before after : forall s traj,
  online m sort jn jc resolution step s (before ++ after) (Ok traj) ->
  online m sort jn jc resolution step s before (Ok (firstn (length before) traj)).
Proof.
  induction before as [|points before IH]; intros s traj O; [constructor|].
  cbn [app] in O. remember (points :: before ++ after) as fs eqn:Qf. remember (Ok traj) as o eqn:Qo.
  destruct O as [s|s x2 x3 d s' T o Es St O|s x2 x3 d e Es St N|s x2 x3 e Es N]; [discriminate|..]; injection Qf as -> ->.
  - destruct o as [l| | |]; try discriminate. cbn [bind] in Qo. injection Qo as <-. cbn [length firstn].
    exact (OnlineFrame m sort jn jc resolution step s points before d s' T (Ok _) Es St (IH s' l O)).
  - destruct e; try discriminate. exfalso. eapply N. reflexivity.
  - destruct e; try discriminate. exfalso. eapply N. reflexivity.
Qed.
Theorem C57_causal : forall p before after traj,
  (gicp_omp p (before ++ after) (Ok traj) -> gicp_omp p before (Ok (firstn (length before) traj))) /\
  (vgicp_omp p (before ++ after) (Ok traj) -> vgicp_omp p before (Ok (firstn (length before) traj))) /\
  (gicp_model_omp p (before ++ after) (Ok traj) -> gicp_model_omp p before (Ok (firstn (length before) traj))) /\
  (vgicp_model_omp p (before ++ after) (Ok traj) -> vgicp_model_omp p before (Ok (firstn (length before) traj))).
Proof. intros p before after traj. repeat split; apply online_prefix. Qed.

(** ** What does not hold *)
(** The two model classes are deaf to max_correspondence_distance. *)
Theorem C57_model_distance_refuted : forall p frames o d,
  let p' := mkParams (d_num_threads p) (d_num_neighbors p) (d_downsampling_resolution p) (d_voxel_resolution p) d in
  (gicp_model_omp p' frames o <-> gicp_model_omp p frames o) /\ (vgicp_model_omp p' frames o <-> vgicp_model_omp p frames o).
Proof. intros. split; reflexivity. Qed.

(** small_vgicp_omp is deaf to num_threads: it registers on four threads (C57_vgicp_tracks). *)
Theorem C57_vgicp_threads_refuted : forall p frames o n,
  let p' := mkParams n (d_num_neighbors p) (d_downsampling_resolution p) (d_voxel_resolution p) (d_max_correspondence_distance p) in
  vgicp_omp p' frames o <-> vgicp_omp p frames o.
Proof. intros. reflexivity. Qed.

(** small_gicp_omp does not survive a frame without points: the next one is searched for in a tree
    without nodes. *)
Section Empty.
Context (p : odometry_params) (U : setup p).
Notation step := (scan_step ne order eig of_nat milli jp jn jc default_criteria init_lambda lambda_factor solve exp6 omp_lin omp_err p (tree_target order) (d_num_threads p)).
Notation online := (online m sort jn jc (d_downsampling_resolution p) step).

Lemma lost s v nn points rest : fst s = Some (v, nn) -> (forall q, nn q = UB) -> frame_ok m (d_downsampling_resolution p) points ->
  (exists o, online s (points :: rest) o) /\ forall o, online s (points :: rest) o -> o = UB.
Proof using U.
  destruct s as [s0 T0]. cbn [fst]. intros -> Hn F. destruct U as [SC NE FS RT Ut Hk M].
  destruct (frame_ready m sort SC ne NE order FS eig of_nat milli jp jn jc p Hk points M F)
    as (d & c & t0 & Ed & Fr & _ & _ & _ & _ & _ & (t1 & Pt) & Pu).
  assert (G : gicp default_criteria init_lambda lambda_factor solve exp6 omp_lin omp_err (set_max_dist_sq p) (d_num_threads p) v c nn pose_id = UB).
  { unfold gicp. apply (align_undefined X86 isort isort ne order eig of_nat milli jp jn jc solve exp6 omp_lin omp_err
      (drive_sample X86 isort jn jc) (fun c tree k _ => estimate_all order eig of_nat milli jp jn jc c tree k)).
    - split; [apply isort_contract|apply isort_contract|exact NE|exact FS|exact RT|intros; apply drive_sample_ok|intros; apply estimate_all_ok].
    - exact Ut.
    - cbn. lia.
    - apply (fd_nonempty _ _ _ _ _ _ _ _ Fr). intros ->. destruct F as [_ _ _ (q & [] & _)].
    - intros q _. apply Hn. }
  assert (St : forall o, step (Some (v, nn), T0) d o <-> o = UB).
  { intros o. split.
    - intros (e & He & ->). destruct (Pu _ He) as (t & -> & _). cbn [bind tree_target fst snd]. rewrite G. reflexivity.
    - intros ->. exists (Ok (c, t1)). split; [exact Pt|]. cbn [bind tree_target fst snd]. rewrite G. reflexivity. }
  split.
  - exists UB. apply (OnlineFail m sort jn jc (d_downsampling_resolution p) step _ points rest d UB Ed); [apply St; reflexivity|discriminate].
  - intros o O. inversion O as [|x1 x2 x3 d2 s2 T2 o2 Es2 St2 O2|x1 x2 x3 d2 e2 Es2 St2 N2|x1 x2 x3 e2 Es2 N2]; subst.
    + rewrite Ed in Es2. injection Es2 as <-. apply St in St2. discriminate.
    + rewrite Ed in Es2. injection Es2 as <-. apply St in St2. subst e2. reflexivity.
    + exfalso. eapply N2. exact Ed.
Qed.

Lemma blinded n s : scan_inv n s -> exists d s' T v nn,
  sample m sort jn jc (d_downsampling_resolution p) (mkCloud (D := Ffld) (@nil (vec4 Fnum)) [] []) = Ok d /\ (forall o, step s d o <-> o = Ok (s', T)) /\
  fst s' = Some (v, nn) /\ forall q, nn q = UB.
Proof using U.
  intros I. destruct U as [SC NE FS RT Ut Hk M].
  destruct (frame_any m sort SC ne NE order FS eig of_nat milli jp jn jc p Hk [] M (or_introl eq_refl))
    as (d & c & t0 & Ed & Fr & Lc & _ & _ & _ & _ & _ & (t1 & Pt) & Pu & Hu).
  assert (X : exists T, match fst s with
         | None => Ok ((Some (cloud_viewN c, tree_nn order c t0), snd s), snd s)
         | Some (v, nn) =>
             let* (r, _) := gicp default_criteria init_lambda lambda_factor solve exp6 omp_lin omp_err (set_max_dist_sq p) (d_num_threads p) v c nn pose_id in
             let T := pose_mul (snd s) (r_T r) in
             Ok ((Some (cloud_viewN c, tree_nn order c t0), T), T)
         end = Ok ((Some (cloud_viewN c, tree_nn order c t0), T), T)).
  { destruct s as [[[v0 nn0]|] T0]; cbn [fst snd] in *; [|eauto].
    destruct (gicp_ok default_criteria init_lambda lambda_factor solve exp6 omp_lin omp_err RT (set_max_dist_sq p) (d_num_threads p) v0 c nn0 pose_id Ut) as (r & log & Eg & _).
    { apply I. rewrite (fd_covs _ _ _ _ _ _ _ _ Fr). apply le_n. }
    rewrite Eg. cbn [bind]. eauto. }
  destruct X as (T & X). exists d, (Some (cloud_viewN c, tree_nn order c t0), T), T, (cloud_viewN c), (tree_nn order c t0).
  split; [exact Ed|]. split; [|split; [reflexivity|apply Hu; reflexivity]]. intros o. split.
  - intros (e & He & ->). destruct (Pu _ He) as (t & -> & Q). cbn [bind tree_target fst snd]. rewrite Q. exact X.
  - intros ->. exists (Ok (c, t1)). split; [exact Pt|]. destruct (Pu _ Pt) as (t & Qt & Q). injection Qt as <-.
    cbn [bind tree_target fst snd]. rewrite Q. symmetry. exact X.
Qed.
End Empty.

Theorem C57_empty_frame_refuted : forall p before points rest, setup p ->
  Forall (frame_ok m (d_downsampling_resolution p)) before -> frame_ok m (d_downsampling_resolution p) points ->
  (exists o, gicp_omp p (before ++ [] :: points :: rest) o) /\
  forall o, gicp_omp p (before ++ [] :: points :: rest) o -> o = UB.
Proof.
  intros p before points rest U Fb Fp. unfold small_gicp_omp.
  assert (I0 : scan_inv 0 (None, pose_id)) by exact I. revert I0. generalize (@None (view Ffld N * search Ffld), pose_id (D := Ffld)) as s. generalize 0 as n.
  induction Fb as [|pts before F0 Fb IH]; intros n s Is; cbn [app].
  - destruct (blinded p U n s Is) as (d & s' & T & v & nn & Ed & St & Es & Hn).
    destruct (lost p U s' v nn points rest Es Hn Fp) as [(o1 & O1) O2]. split.
    + eexists. eapply OnlineFrame; [exact Ed|apply St; reflexivity|exact O1].
    + intros o O. inversion O as [|x1 x2 x3 d2 s2 T2 o2 Es2 St2 O3|x1 x2 x3 d2 e2 Es2 St2 N2|x1 x2 x3 e2 Es2 N2]; subst.
      * rewrite Ed in Es2. injection Es2 as <-. apply St in St2. injection St2 as -> ->. rewrite (O2 _ O3). reflexivity.
      * rewrite Ed in Es2. injection Es2 as <-. apply St in St2. exfalso. eapply N2. exact St2.
      * exfalso. eapply N2. exact Ed.
  - pose proof U as [SC NE FS RT Ut Hk M].
    destruct (scan_next p U (tree_target order) (d_num_threads p) Ut tree_target_of (frame_ok m (d_downsampling_resolution p)) (fun _ H => or_intror H)
      (tree_TG p FS NE) (N.of_nat (n + length pts)) n s pts Is F0 (N.le_refl _)) as (d & s' & T & Ed & St1 & St2' & I' & _).
    destruct (IH _ s' I') as [(o1 & O1) O2]. split.
    + eexists. eapply OnlineFrame; [exact Ed|exact St1|exact O1].
    + intros o O. inversion O as [|x1 x2 x3 d2 s2 T2 o2 Es2 St2 O3|x1 x2 x3 d2 e2 Es2 St2 N2|x1 x2 x3 e2 Es2 N2]; subst.
      * rewrite Ed in Es2. injection Es2 as <-. apply St2' in St2. injection St2 as -> ->. rewrite (O2 _ O3). reflexivity.
      * rewrite Ed in Es2. injection Es2 as <-. apply St2' in St2. exfalso. eapply N2. exact St2.
      * exfalso. eapply N2. exact Ed.
Qed.
End Classes.

(** * The hypotheses are met. *)
Definition demo_params : odometry_params := mkParams 4 10 (f64_of 1 2) (f64_of 1 0) (f64_of 1 0).
Example C57_setup : setup isort sort_nth_element eigen_order (one_thread_lin Ffld) (one_thread_err Ffld) demo_params.
Proof.
  split; cbn [demo_params d_num_threads d_num_neighbors d_downsampling_resolution].
  - apply isort_contract.
  - apply sort_nth_element_contract.
  - apply eigen_order_full.
  - apply C43_runtime_exists.
  - lia.
  - lia.
  - apply (C52_raw X86 TypeICP 1).
Qed.
Example C57_frame : forall m, frame_ok m (d_downsampling_resolution demo_params) cloud7.
Proof. intros m. destruct (C52_raw m TypeICP 1) as [_ S H L X _]. split; assumption. Qed.
(** Three frames with points, and an empty one among them. *)
Example C57_frames : Forall (frame_ok X86 (d_downsampling_resolution demo_params)) [cloud7; cloud7; cloud7] /\
  Forall (fun points => points = [] \/ frame_ok X86 (d_downsampling_resolution demo_params) points) [cloud7; []; cloud7] /\
  (N.of_nat (total [cloud7; []; cloud7]) <= 4294967296)%N.
Proof.
  pose proof (C57_frame X86). split; [|split].
  - repeat apply Forall_cons; try assumption. apply Forall_nil.
  - repeat apply Forall_cons; auto.
  - vm_compute. discriminate.
Qed.

Print Assumptions C57_gicp_tracks.
Print Assumptions C57_vgicp_tracks.
Print Assumptions C57_gicp_model_tracks.
Print Assumptions C57_vgicp_model_tracks.
Print Assumptions C57_causal.
Print Assumptions C57_model_distance_refuted.
Print Assumptions C57_vgicp_threads_refuted.
Print Assumptions C57_empty_frame_refuted.
