(** C80: the odometry classes of the Python example, over any sequence of frames. *)
From Coq Require Import Reals ZArith String ZifyBool ZifyNat ZifyN.
From Flocq Require Import Core IEEE754.BinarySingleNaN.
From Verif Require Import Base BaseProofs NthElement Num Vec F64 F64Proofs KnnModel KdModel KdParModel KdSpec KdF64 KdThms
  FloorModel Lin FactorModel ReduceModel EstModel EstProofs VoxModel VoxSpec VoxPar SortSpec VmapModel VmapSpec VmapProofs VmapHist OptModel OptSpec OptProofs
  HelperModel HelperSpec HelperProofs RegSafe Prop_Vox Prop_Vmap Prop_Est Prop_Helper Prop_KdTree
  PipeModel PipeSpec PipeSample PipeProofs PipeRun EstF64Spec PipeEst Prop_Pipe PyModel PySpec PyLoop PyProofs Prop_PyTree Prop_PyReg
  OdomModel OdomSpec OdomProofs PyOdomModel PyOdomSpec.
Open Scope nat_scope.
Open Scope list_scope.

Lemma quarter_moderate : moderate (per_unit (f64_of 1 (-2))).
Proof.
  assert (per_unit (f64_of 1 (-2)) = f64_of 1 2) as -> by (apply B2SF_inj; vm_compute; reflexivity).
  split; [reflexivity|].
  assert (B2R (f64_of 1 2) = bpow radix2 2) as ->; [|apply bpow_le; lia].
  assert (f64_of 1 2 = @B754_finite 53 1024 false 4503599627370496 (-50) eq_refl) as -> by (apply B2SF_inj; vm_compute; reflexivity).
  unfold B2R, F2R. cbn [Defs.Fnum Defs.Fexp cond_Zopp]. change (bpow radix2 2) with (bpow radix2 (52 + -50)). rewrite bpow_plus. reflexivity.
Qed.
Lemma denoted_homogeneous r : homogeneous (denoted r).
Proof. destruct r as [|x [|y [|z r]]]; reflexivity. Qed.

(** ** The map *)
Section Map.
Context (of_nat : nat -> f64).
Notation co := (voxel_of X86 (per_unit (f64_of 1 0))).
(** One insertion of a cloud at a pose. *)
Definition entry (k : pose Ffld * cloud Ffld) : pose Ffld * list (item Fnum) := (fst k, items_of (snd k)).
(** The map after a history of insertions. *)
Definition map_of (h : list (pose Ffld * cloud Ffld)) (st : vmap Fnum (gauss of_nat)) : Prop :=
  inserts co (pose Ffld) moved (new_map Fnum (gauss of_nat) 100 10) (map entry h) = Ok st.

Lemma map_of_ops h st : map_of h st ->
  do_ops Fnum (gauss of_nat) co (pose Ffld) moved (new_map Fnum (gauss of_nat) 100 10) (map (OpInsert _ _) (map entry h)) = Ok st.
Proof.
  unfold map_of, inserts, do_ops. generalize (new_map Fnum (gauss of_nat) 100 10) as s0. generalize (map entry h) as l. clear h.
  induction l as [|k l IH]; intros s0 H; cbn [foldM map] in *; [exact H|]. cbn [do_op].
  apply bind_Ok in H. destruct H as (s1 & H1 & H2). rewrite H1. cbn [bind]. apply IH. exact H2.
Qed.
Lemma map_of_step h st T c : map_of h st -> length (cl_covs c) = length (cl_points c) ->
  exists st', map_insert X86 of_nat st c T = Ok st' /\ map_of (h ++ [(T, c)]) st' /\
    length (flat_voxels st') <= length (flat_voxels st) + length (cl_points c).
Proof.
  intros H LC. unfold map_of in *. rewrite map_app. cbn [map entry fst snd].
  destruct (C18_inserts_complete Fnum (gauss of_nat) co (pose Ffld) moved 100 10 (map entry h ++ [entry (T, c)])) as (st' & Es).
  { discriminate. }
  { apply Forall_forall. intros k _ q _. apply voxel_of_x86. }
  exists st'. pose proof Es as Es'. apply inserts_snoc in Es'. destruct Es' as (st1 & E1 & E2). rewrite H in E1. injection E1 as <-.
  cbn [entry fst snd] in *. split; [|split; [exact Es|]].
  - unfold map_insert. rewrite (items_items_of c LC). cbn [bind]. exact E2.
  - apply (insert_length (mkParams 1 10 (f64_of 1 0) (f64_of 1 0) (f64_of 1 0)) (gauss of_nat) st (T, items_of c) st') in E2.
    cbn [snd] in E2. pose proof (items_of_length c). lia.
Qed.
(** A voxel that was just written to is not cleared. *)
Lemma map_of_alive h st T c : map_of (h ++ [(T, c)]) st -> length (cl_covs c) = length (cl_points c) -> cl_points c <> [] ->
  (N.of_nat (length h) <= 4294967296)%N -> map_size st <> 0.
Proof.
  intros H LC N0 LH.
  assert (Q : exists q qs, items_of c = q :: qs).
  { unfold items_of. destruct (cl_points c) as [|x xs]; [now destruct N0|]. destruct (cl_covs c) as [|y ys]; [discriminate|]. cbn. eauto. }
  destruct Q as (q & qs & Q). destruct (voxel_of_x86 (per_unit (f64_of 1 0)) (it_pt (moved T q))) as (k & Ek).
  destruct (C19_lru_policy Fnum (gauss of_nat) co (pose Ffld) moved 100 10 (map entry (h ++ [(T, c)])) st k H) as [_ X].
  { rewrite map_length, app_length. cbn [length]. lia. }
  destruct X as (v & Hv & _).
  { exists (length h). split.
    - exists (entry (T, c)). split.
      + rewrite map_app, nth_error_app2, map_length, Nat.sub_diag by (rewrite map_length; lia). reflexivity.
      + unfold here. cbn [entry fst snd]. rewrite Q. cbn [map filter]. unfold falls_in at 1. rewrite Ek.
        assert (coord_eqb k k = true) as -> by apply coord_eqb_refl. discriminate.
    - intros n Hn _. rewrite map_length, app_length in Hn. cbn [length] in Hn. lia. }
  unfold map_size. destruct (flat_voxels st); [destruct Hv|discriminate].
Qed.
(** Nothing survives 110 insertions that bring nothing. *)
Lemma map_of_expired h e st : map_of (h ++ e) st -> Forall (fun k => cl_points (snd k) = []) e -> length e = 110 ->
  (N.of_nat (length h) <= 4294967296)%N -> map_size st = 0.
Proof.
  intros H Fe Le LH. unfold map_size. destruct (flat_voxels st) as [|v l] eqn:Ef; [reflexivity|exfalso].
  destruct (C19_lru_policy Fnum (gauss of_nat) co (pose Ffld) moved 100 10 (map entry (h ++ e)) st (v_coord v) H) as [X _].
  { rewrite map_length, app_length. lia. }
  destruct X as (t & (call & Et & Hh) & S); [exists v; rewrite Ef; split; [left; reflexivity|reflexivity]|].
  assert (Lt : t < length h).
  { destruct (Nat.lt_ge_cases t (length h)) as [L|L]; [exact L|]. exfalso. apply Hh.
    rewrite map_app, nth_error_app2, map_length in Et by (rewrite map_length; exact L).
    rewrite nth_error_map in Et. destruct (nth_error e (t - length h)) as [k|] eqn:Ek; [|discriminate]. cbn [option_map] in Et. injection Et as <-.
    apply nth_error_In in Ek. rewrite Forall_forall in Fe. specialize (Fe k Ek). unfold here, entry, items_of. cbn [fst snd]. rewrite Fe. reflexivity. }
  set (n := length h) in *. rewrite map_length, app_length, Le in S. fold n in S. clearbody n.
  set (mm := N.to_nat (10 * ((N.of_nat n + 110) / 10))%N).
  assert (D := N.div_mod (N.of_nat n + 110) 10 ltac:(discriminate)). assert (M := N.mod_lt (N.of_nat n + 110) 10 ltac:(discriminate)).
  assert (B : n + 100 < mm <= n + 110) by (unfold mm; lia).
  specialize (S mm). assert (N.of_nat mm <= N.of_nat t + 100)%N; [|lia].
  apply S; [lia|]. unfold mm. rewrite N2Nat.id. rewrite N.mul_comm. apply N.mod_mul. discriminate.
Qed.
Lemma map_visible (st : vmap Fnum (gauss of_nat)) : map_size st <> 0 -> exists a, py_voxel_points st = Ok a.
Proof.
  intros H. assert (V : voxel_points st <> []).
  { unfold voxel_points, map_size in *. destruct (flat_voxels st) as [|v l]; [now destruct H|]. discriminate. }
  destruct (C56_views vzero (of_rows (M4 (D := Fnum) vzero vzero vzero vzero)) (mkCloud (D := Ffld) [vzero] [] [])) as (_ & _ & X); [discriminate|].
  destruct (X (gauss of_nat) st V) as (a & Ea & _). eauto.
Qed.
Lemma map_invisible (st : vmap Fnum (gauss of_nat)) : map_size st = 0 -> py_voxel_points st = UB.
Proof.
  unfold map_size, py_voxel_points, voxel_points. intros H. destruct (flat_voxels st); [reflexivity|discriminate].
Qed.
End Map.

Section Env.
Context (m : int_mode) (sort sort_omp : forall A : Type, (A -> A -> bool) -> list A -> list A).
Context (ne : (nat -> nat -> bool) -> nat -> list nat -> list nat) (order : sumtree).
Context (eig : m3 Ffld -> m3 Ffld) (of_nat : nat -> f64) (milli : f64) (jp jn : vec4 Ffld) (jc : m4 Ffld).
Context (default_criteria : criteria Ffld) (init_lambda lambda_factor : f64).
Context (solve : m6 Ffld -> v6 Ffld -> v6 Ffld) (exp6 : v6 Ffld -> pose Ffld).
Context (omp_lin : nat -> (nat -> factor Ffld -> outcome (factor Ffld * option (sys Ffld))) ->
                   list (factor Ffld) -> outcome (list (factor Ffld) * sys Ffld)).
Context (omp_err : nat -> (factor Ffld -> outcome f64) -> list (factor Ffld) -> outcome f64).
Context (sample_omp : Z -> f64 -> cloud Ffld -> outcome (cloud Ffld)).
Context (estimate_omp : cloud Ffld -> kdtree Fnum nat -> Z -> Z -> outcome (cloud Ffld)).
Context (matmul : pose Ffld -> pose Ffld -> pose Ffld) (inv : pose Ffld -> pose Ffld).
Context (rotation_epsilon translation_epsilon unused1 unused2 : f64) (num_threads : Z).
Context (E : environment m sort sort_omp ne order eig of_nat milli jp jn jc omp_lin omp_err sample_omp estimate_omp).
Context (Th : (1 <= num_threads)%Z).

Notation prep := (preprocess m sort_omp ne order eig of_nat milli jp jn jc).
Notation scan_step := (scan_estimate m sort_omp ne order eig of_nat milli jp jn jc default_criteria init_lambda lambda_factor solve exp6 omp_lin omp_err
  matmul rotation_epsilon translation_epsilon unused1 unused2 num_threads).
Notation scan_run := (scan_to_scan m sort_omp ne order eig of_nat milli jp jn jc default_criteria init_lambda lambda_factor solve exp6 omp_lin omp_err
  matmul rotation_epsilon translation_epsilon unused1 unused2 num_threads).

(** A cloud that preprocessing can give for a frame. *)
Definition prepared_frame (a : matrix) (c : cloud Ffld) : Prop :=
  summarised (per_unit (f64_of 1 (-2))) (map denoted (m_rows a)) (cl_points c) /\ cl_points c <> [] /\
  length (cl_normals c) = length (cl_points c) /\ length (cl_covs c) = length (cl_points c) /\
  estimated (fsqd order) eig of_nat milli Both 10 c.
(** A registration against the previous cloud, within a distance of 1. *)
Definition cloud_registered (p c : cloud Ffld) (M M' : pose Ffld) : Prop := exists r log nn,
  (forall q, vfinite q -> exists found, nn q = Ok found /\ nearest_in (fsqd order) (cl_points p) q found) /\
  honoured GICP num_threads (cloud_viewN p) nn c (f64_mul (f64_of 1 0) (f64_of 1 0)) rotation_epsilon translation_epsilon 20 M r log /\
  M' = r_T r.
(** A registration against a map, within a distance of 1. *)
Definition map_registered (h : list (pose Ffld * cloud Ffld)) (c : cloud Ffld) (T0 T : pose Ffld) : Prop := exists st r log,
  map_of of_nat h st /\ map_size st <> 0 /\
  honoured GICP num_threads (map_view of_nat st) (map_nn X86 order of_nat (f64_of 1 0) st) c
    (f64_mul (f64_of 1 0) (f64_of 1 0)) rotation_epsilon translation_epsilon 20 T0 r log /\
  T = r_T r.

Lemma prepared_length a c : prepared_frame a c -> length (cl_points c) <= length (m_rows a).
Proof using. clear. intros (S & _). apply summarised_length in S. destruct S as [S _]. rewrite map_length in S. exact S. Qed.
Lemma prepared_searchable a c : frame_fine a -> prepared_frame a c -> searchable c.
Proof using.
  clear. intros (_ & _ & _ & L & _) P. pose proof (prepared_length a c P) as LP. destruct P as (S & N0 & _). split; [exact N0|]. split.
  - apply (summarised_finite _ _ _ S).
  - set (x := length (cl_points c)) in *. set (y := length (m_rows a)) in *. clearbody x y. lia.
Qed.

Lemma prep_fine a : frame_fine a ->
  (exists o, prep a o) /\
  forall o, prep a o -> exists c kd, o = Ok (Some (c, kd)) /\ prepared_frame a c /\ py_kdtree_cloud ne c (Ok kd).
Proof using E.
  intros (W & U & N0 & L & G). unfold preprocess, py_preprocess_array. rewrite (shape_wf a W), (rows_ok a W U).
  set (c0 := bare jn jc (map denoted (m_rows a))).
  destruct (C56_preprocess m sort sort_omp ne order eig of_nat milli jp jn jc omp_lin omp_err sample_omp estimate_omp E c0 (f64_of 1 (-2)) 10) as [X1 X2].
  - cbn [c0 bare cl_points]. destruct (m_rows a); [now destruct N0|discriminate].
  - lia.
  - exact quarter_moderate.
  - intros p Hp. cbn [c0 bare cl_points] in Hp. apply in_map_iff in Hp. destruct Hp as (r & <- & Hr). split; [apply G; exact Hr|apply denoted_homogeneous].
  - cbn [c0 bare cl_points]. change (N.of_nat (length (map denoted (m_rows a))) <= 4294967295)%N. rewrite map_length. exact L.
  - assert (Q : forall o, py_preprocess_cloud m sort_omp ne order eig of_nat milli jp jn jc c0 (f64_of 1 (-2)) 10 o <->
      exists e, py_preprocess m sort_omp ne order eig of_nat milli jp jn jc c0 (f64_of 1 (-2)) 10 e /\ o = (let* r := e in Ok (Some r))).
    { intros o. unfold py_preprocess_cloud. cbn [c0 bare cl_points]. destruct (m_rows a) as [|r rs]; [now destruct N0|]. reflexivity. }
    split.
    + destruct X1 as (o & Ho). apply Q in Ho. destruct Ho as (e & He & ->). eexists. exists e. split; [|reflexivity].
      intros ps Hps. injection Hps as <-. exact He.
    + intros o (e & He & ->). cbn [bind]. destruct (X2 (let* r := e in Ok (Some r))) as (c & kd & Eo & S & Nc & LN & LC & ES & _ & KD & _).
      { apply Q. exists e. split; [apply He; reflexivity|reflexivity]. }
      exists c, kd. split; [exact Eo|]. split; [|exact KD]. split; [exact S|]. split; [exact Nc|]. split; [exact LN|]. split; [exact LC|exact ES].
Qed.
Lemma prep_empty a : (m_cols a = 3 \/ m_cols a = 4) -> m_rows a = [] ->
  (exists o, prep a o) /\
  forall o, prep a o -> exists c kd, o = Ok (Some (c, kd)) /\ cl_points c = [] /\ cl_covs c = [] /\ forall q, tree_nearest order kd q = UB.
Proof using E.
  intros Hc Hr. destruct (C56_empty_preprocess_refuted m sort sort_omp ne order eig of_nat milli jp jn jc omp_lin omp_err sample_omp estimate_omp E
    a (f64_of 1 (-2)) 10 Hc Hr) as (_ & X1 & X2).
  split; [exact X1|]. intros o Ho. destruct (X2 o Ho) as (c & kd & Q & P & C0 & U). exists c, kd. auto.
Qed.

(** ** Scan to scan *)
Definition scan_inv (s : scan_state) (prev : option (cloud Ffld)) : Prop :=
  match c_target s, prev with
  | None, None => True
  | Some (c, kd), Some c' => c = c' /\ searchable c /\ length (cl_covs c) = length (cl_points c) /\ py_kdtree_cloud ne c (Ok kd)
  | _, _ => False
  end.
Notation align0 := (py_align_clouds ne order default_criteria init_lambda lambda_factor solve exp6 omp_lin omp_err).
Notation aopts := (align_options rotation_epsilon translation_epsilon num_threads).

Lemma scan_align p kd c M : searchable p -> length (cl_covs p) = length (cl_points p) -> py_kdtree_cloud ne p (Ok kd) ->
  length (cl_covs c) = length (cl_points c) ->
  exists r log, (exists o, align0 p c (Some kd) M "GICP" unused1 unused2 aopts o) /\
    (forall o, align0 p c (Some kd) M "GICP" unused1 unused2 aopts o -> o = Ok (r, log)) /\ cloud_registered p c M (r_T r).
Proof using E Th.
  intros Sp LP KD LC.
  destruct (C55_clouds m sort sort_omp ne order eig of_nat milli jp jn jc default_criteria init_lambda lambda_factor solve exp6
    omp_lin omp_err sample_omp estimate_omp E p c M "GICP" GICP unused1 unused2 aopts) as (r & log & nn & H1 & H2 & H3).
  - right. right. left. reflexivity.
  - exact Th.
  - exact Sp.
  - split; [discriminate|]. intros _. rewrite LP, LC. split; apply le_n.
  - exists r, log. destruct (H1 (Some kd)) as [X1 X2]; [intros kd' Q; injection Q as <-; exact KD|].
    split; [exact X1|]. split; [exact X2|]. exists r, log, nn. split; [exact H2|]. split; [exact H3|reflexivity].
Qed.

(** One frame that is not empty. *)
Lemma scan_next s prev a : scan_inv s prev -> frame_fine a ->
  (exists o, scan_step s a o) /\
  forall o, scan_step s a o -> exists s' T c, o = Ok (s', T) /\ scan_inv s' (Some c) /\ c_world s' = T /\ prepared_frame a c /\
    match prev with
    | None => T = c_world s /\ c_last s' = c_last s
    | Some p => cloud_registered p c (c_last s) (c_last s') /\ T = matmul (c_world s) (c_last s')
    end.
Proof using E Th.
  intros I F. destruct (prep_fine a F) as [(e0 & He0) HE]. unfold scan_estimate.
  assert (K : forall c kd, prepared_frame a c -> py_kdtree_cloud ne c (Ok kd) -> forall last T, scan_inv (mkScan (Some (c, kd)) last T) (Some c)).
  { intros c kd P KD last T. unfold scan_inv. cbn [c_target]. split; [reflexivity|]. split; [apply (prepared_searchable a); auto|]. split; [apply P|exact KD]. }
  unfold scan_inv in I. destruct (c_target s) as [[p kdp]|], prev as [p'|]; try contradiction.
  - destruct I as (<- & Sp & LP & KP). split.
    + destruct (HE e0 He0) as (c & kd & -> & P & KD).
      destruct (scan_align p kdp c (c_last s) Sp LP KP) as (r & log & (o & Ho) & _); [apply P|].
      eexists. exists (Ok (Some (c, kd))). split; [exact He0|]. exists o. split; [exact Ho|reflexivity].
    + intros o (e & He & Ho). destruct (HE e He) as (c & kd & -> & P & KD). destruct Ho as (a0 & Ha & ->).
      destruct (scan_align p kdp c (c_last s) Sp LP KP) as (r & log & _ & HA & R); [apply P|]. rewrite (HA a0 Ha). cbn [bind].
      eexists _, _, c. split; [reflexivity|]. split; [apply K; auto|]. cbn [c_last c_world]. auto.
  - split.
    + destruct (HE e0 He0) as (c & kd & -> & P & KD). eexists. exists (Ok (Some (c, kd))). split; [exact He0|reflexivity].
    + intros o (e & He & Ho). destruct (HE e He) as (c & kd & -> & P & KD). subst o.
      eexists _, _, c. split; [reflexivity|]. split; [apply K; auto|]. cbn [c_last c_world]. auto.
Qed.

Lemma scan_tracks frames : forall s prev, scan_inv s prev -> Forall frame_fine frames ->
  (exists o, drive scan_step s frames o) /\
  forall o, drive scan_step s frames o -> exists traj, o = Ok traj /\
    pairwise matmul prepared_frame cloud_registered prev (c_last s) (c_world s) frames traj.
Proof using E Th.
  induction frames as [|a frames IH]; intros s prev I F.
  - split; [eexists; constructor|]. intros o D. inversion D. subst. exists []. split; [reflexivity|exact Logic.I].
  - inversion F as [|x l Fa Fs]. subst. destruct (scan_next s prev a I Fa) as [(o1 & H1) HS]. split.
    + destruct (HS o1 H1) as (s' & T & c & -> & I' & _). destruct (IH s' (Some c) I' Fs) as [(o & Ho) _].
      eexists. eapply DriveFrame; [exact H1|exact Ho].
    + intros o D. inversion D as [|s0 f fs s' T o' H D'|s0 f fs e H N]; subst.
      * destruct (HS _ H) as (s2 & T2 & c & Q & I' & W & P & R). injection Q as <- <-.
        destruct (IH s' (Some c) I' Fs) as [_ X]. destruct (X o' D') as (traj & -> & Y). cbn [bind]. exists (T :: traj). split; [reflexivity|].
        cbn [pairwise]. exists c. split; [exact P|]. rewrite W in Y. destruct prev as [p|].
        -- exists (c_last s'). destruct R as [R ET]. split; [exact R|]. split; [exact ET|exact Y].
        -- destruct R as [ET EL]. split; [exact ET|]. rewrite EL in Y. exact Y.
      * destruct (HS _ H) as (s2 & T2 & c & Q & _). destruct (N _ Q).
Qed.

(** Scan to scan: on frames that have points every run returns a pose for each frame, and the
    poses are those of pairwise registrations. *)
Theorem C80_scan_to_scan : forall frames, Forall frame_fine frames ->
  (exists o, scan_run frames o) /\
  forall o, scan_run frames o -> exists traj, o = Ok traj /\
    pairwise matmul prepared_frame cloud_registered None pose_id pose_id frames traj.
Proof using E Th.
  intros frames F. exact (scan_tracks frames scan_start None I F).
Qed.

Lemma prefix_undefined {S : Type} (step : S -> matrix -> outcome (S * pose Ffld) -> Prop) (Inv : S -> Prop) (fine : matrix -> Prop) rest :
  (forall s a, Inv s -> fine a -> (exists o, step s a o) /\ forall o, step s a o -> exists s' T, o = Ok (s', T) /\ Inv s') ->
  (forall s, Inv s -> (exists o, drive step s rest o) /\ forall o, drive step s rest o -> o = UB) ->
  forall before s, Inv s -> Forall fine before -> (exists o, drive step s (before ++ rest) o) /\ forall o, drive step s (before ++ rest) o -> o = UB.
Proof using.
  clear. intros HS HR. induction before as [|a before IH]; intros s I F; [apply HR; exact I|]. cbn [app].
  inversion F as [|x l Fa Fs]. subst. destruct (HS s a I Fa) as [(o1 & H1) HO]. split.
  - destruct (HO o1 H1) as (s' & T & -> & I'). destruct (IH s' I' Fs) as [(o & Ho) _]. eexists. eapply DriveFrame; [exact H1|exact Ho].
  - intros o D. inversion D as [|s0 f fs s' T o' H D'|s0 f fs e H N]; subst.
    + destruct (HO _ H) as (s2 & T2 & Q & I'). injection Q as <- <-. destruct (IH s' I' Fs) as [_ X]. rewrite (X o' D'). reflexivity.
    + destruct (HO _ H) as (s2 & T2 & Q & _). destruct (N _ Q).
Qed.

(** A frame without points is accepted, and then the next frame is registered against a tree
    without nodes. *)
Theorem C80_empty_frame_refuted : forall before empty next rest, Forall frame_fine before ->
  (m_cols empty = 3 \/ m_cols empty = 4) -> m_rows empty = [] -> frame_fine next ->
  (exists o, scan_run (before ++ empty :: next :: rest) o) /\
  forall o, scan_run (before ++ empty :: next :: rest) o -> o = UB.
Proof using E Th.
  intros before empty next rest F Hc Hr Fn.
  apply (prefix_undefined scan_step (fun s => exists prev, scan_inv s prev) frame_fine (empty :: next :: rest)).
  - intros s a (prev & I) Fa. destruct (scan_next s prev a I Fa) as [X1 X2]. split; [exact X1|].
    intros o Ho. destruct (X2 o Ho) as (s' & T & c & -> & I' & _). eauto.
  - intros s (prev & I). destruct (prep_empty empty Hc Hr) as [(e0 & He0) HE]. destruct (prep_fine next Fn) as [(e1 & He1) HN].
    (* the frame without points *)
    assert (S1 : (exists o, scan_step s empty o) /\ forall o, scan_step s empty o -> exists s' T c kd, o = Ok (s', T) /\
      c_target s' = Some (c, kd) /\ forall q, tree_nearest order kd q = UB).
    { unfold scan_estimate. unfold scan_inv in I. destruct (c_target s) as [[p kdp]|], prev as [p'|]; try contradiction.
      - destruct I as (<- & Sp & LP & KP).
        assert (A : forall c : cloud Ffld, cl_points c = [] -> cl_covs c = [] -> length (cl_covs c) = length (cl_points c)) by (intros c -> ->; reflexivity).
        split.
        + destruct (HE e0 He0) as (c & kd & -> & P & C0 & U). destruct (scan_align p kdp c (c_last s) Sp LP KP) as (r & log & (o & Ho) & _); [apply A; auto|].
          eexists. exists (Ok (Some (c, kd))). split; [exact He0|]. exists o. split; [exact Ho|reflexivity].
        + intros o (e & He & Ho). destruct (HE e He) as (c & kd & -> & P & C0 & U). destruct Ho as (a0 & Ha & ->).
          destruct (scan_align p kdp c (c_last s) Sp LP KP) as (r & log & _ & HA & R); [apply A; auto|]. rewrite (HA a0 Ha). cbn [bind].
          eexists _, _, c, kd. split; [reflexivity|]. split; [reflexivity|exact U].
      - split.
        + destruct (HE e0 He0) as (c & kd & -> & P & C0 & U). eexists. exists (Ok (Some (c, kd))). split; [exact He0|reflexivity].
        + intros o (e & He & Ho). destruct (HE e He) as (c & kd & -> & P & C0 & U). subst o.
          eexists _, _, c, kd. split; [reflexivity|]. split; [reflexivity|exact U]. }
    (* the one after it *)
    assert (S2 : forall s' c kd, c_target s' = Some (c, kd) -> (forall q, tree_nearest order kd q = UB) ->
      scan_step s' next UB /\ forall o, scan_step s' next o -> o = UB).
    { intros s' c kd Et U. unfold scan_estimate. rewrite Et.
      assert (A : forall c1, prepared_frame next c1 -> align0 c c1 (Some kd) (c_last s') "GICP" unused1 unused2 aopts UB /\
        forall o, align0 c c1 (Some kd) (c_last s') "GICP" unused1 unused2 aopts o -> o = UB).
      { intros c1 P1. unfold py_align_clouds. change (type_of_cloud "GICP") with (Some TypeGICP). cbn iota.
        match goal with |- context [align_tree _ _ _ _ _ _ _ ?s0 _ _ _ _] => set (set0 := s0) end.
        assert (Z : align_tree (D := Ffld) default_criteria init_lambda lambda_factor solve exp6 omp_lin omp_err set0 c c1 (py_tree_nn order kd) (c_last s') = UB).
        { unfold align_tree. cbn [s_type set0].
          apply (lin_undefined m sort sort_omp ne order eig of_nat milli jp jn jc solve exp6 omp_lin omp_err sample_omp estimate_omp E).
          - exact Th.
          - cbn. lia.
          - apply P1.
          - intros i f Hi. unfold linearize. cbn [cloud_view at_point].
            destruct (get_lt (cl_points c1) i Hi) as [q Eq]. rewrite Eq. cbn [bind].
            assert (py_tree_nn order kd (pose_pt (D := Ffld) (c_last s') q) = UB) as ->; [|reflexivity].
            unfold py_tree_nn, tree_nn. cbn [cl_points]. specialize (U (pose_pt (D := Ffld) (c_last s') q)). unfold tree_nearest in U. rewrite U. reflexivity. }
        split; [exists (Ok kd); split; [reflexivity|symmetry; exact Z]|]. intros o (t & -> & ->). exact Z. }
      split.
      - destruct (HN e1 He1) as (c1 & kd1 & -> & P1 & _). exists (Ok (Some (c1, kd1))). split; [exact He1|]. exists UB. split; [apply A; exact P1|reflexivity].
      - intros o (e & He & Ho). destruct (HN e He) as (c1 & kd1 & -> & P1 & _). destruct Ho as (a0 & Ha & ->). apply A in Ha; [|exact P1]. rewrite Ha. reflexivity. }
    destruct S1 as [(o1 & H1) S1]. split.
    + destruct (S1 o1 H1) as (s' & T & c & kd & -> & Et & U). eexists. eapply DriveFrame; [exact H1|]. eapply DriveFail; [apply (S2 s' c kd Et U)|discriminate].
    + intros o D. inversion D as [|s0 f fs s' T o' H D'|s0 f fs e H N]; subst.
      * destruct (S1 _ H) as (s2 & T2 & c & kd & Q & Et & U). injection Q as <- <-.
        inversion D' as [|s0 f fs s3 T3 o3 H' D3|s0 f fs e H' N]; subst.
        -- apply (S2 s' c kd Et U) in H'. discriminate.
        -- apply (S2 s' c kd Et U) in H'. rewrite H'. reflexivity.
      * destruct (S1 _ H) as (s2 & T2 & c & kd & Q & _). destruct (N _ Q).
  - exists None. exact I.
  - exact F.
Qed.
End Env.

(** ** Scan to model, on the processors where the conversion to int does not fail *)
Section Model.
Context (sort sort_omp : forall A : Type, (A -> A -> bool) -> list A -> list A).
Context (ne : (nat -> nat -> bool) -> nat -> list nat -> list nat) (order : sumtree).
Context (eig : m3 Ffld -> m3 Ffld) (of_nat : nat -> f64) (milli : f64) (jp jn : vec4 Ffld) (jc : m4 Ffld).
Context (default_criteria : criteria Ffld) (init_lambda lambda_factor : f64).
Context (solve : m6 Ffld -> v6 Ffld -> v6 Ffld) (exp6 : v6 Ffld -> pose Ffld).
Context (omp_lin : nat -> (nat -> factor Ffld -> outcome (factor Ffld * option (sys Ffld))) ->
                   list (factor Ffld) -> outcome (list (factor Ffld) * sys Ffld)).
Context (omp_err : nat -> (factor Ffld -> outcome f64) -> list (factor Ffld) -> outcome f64).
Context (sample_omp : Z -> f64 -> cloud Ffld -> outcome (cloud Ffld)).
Context (estimate_omp : cloud Ffld -> kdtree Fnum nat -> Z -> Z -> outcome (cloud Ffld)).
Context (matmul : pose Ffld -> pose Ffld -> pose Ffld) (inv : pose Ffld -> pose Ffld).
Context (rotation_epsilon translation_epsilon : f64) (num_threads : Z).
Context (E : environment X86 sort sort_omp ne order eig of_nat milli jp jn jc omp_lin omp_err sample_omp estimate_omp).
Context (Th : (1 <= num_threads)%Z).

Notation step := (model_estimate X86 sort_omp ne order eig of_nat milli jp jn jc default_criteria init_lambda lambda_factor solve exp6 omp_lin omp_err
  matmul inv rotation_epsilon translation_epsilon num_threads).
Notation model_run := (scan_to_model X86 sort_omp ne order eig of_nat milli jp jn jc default_criteria init_lambda lambda_factor solve exp6 omp_lin omp_err
  matmul inv rotation_epsilon translation_epsilon num_threads).
Notation ready := (prepared_frame order eig of_nat milli).
Notation registered := (map_registered order of_nat rotation_epsilon translation_epsilon num_threads).
Notation aopts := (align_options rotation_epsilon translation_epsilon num_threads).
Notation map_state := (vmap Fnum (gauss of_nat)).

(** The state after a history of insertions, n points in all. *)
Definition model_inv (n : nat) (h : list (pose Ffld * cloud Ffld)) (s : model_state of_nat) : Prop :=
  map_of of_nat h (g_target of_nat s) /\ length h <= n /\ length (flat_voxels (g_target of_nat s)) <= n /\
  (h = [] -> g_world of_nat s = pose_id).

Lemma model_align h (st : map_state) c T0 : map_of of_nat h st -> length (cl_covs c) = length (cl_points c) ->
  (N.of_nat (length (flat_voxels st)) <= 4294967296)%N ->
  exists r log, py_align_voxelmap X86 order of_nat default_criteria init_lambda lambda_factor solve exp6 omp_lin omp_err (f64_of 1 0) st c T0 aopts = Ok (r, log) /\
    honoured GICP num_threads (map_view of_nat st) (map_nn X86 order of_nat (f64_of 1 0) st) c
      (f64_mul (f64_of 1 0) (f64_of 1 0)) rotation_epsilon translation_epsilon 20 T0 r log.
Proof using E Th.
  intros H LC LV. destruct (C55_voxelmap X86 sort sort_omp ne order eig of_nat milli jp jn jc default_criteria init_lambda lambda_factor solve exp6
    omp_lin omp_err sample_omp estimate_omp E (f64_of 1 0) 100%N 10%N (map (OpInsert _ _) (map entry h)) st c T0 aopts eq_refl Th) as (r & log & X & Y).
  - rewrite LC. apply le_n.
  - exact (map_of_ops of_nat h st H).
  - exact LV.
  - exists r, log. split; [exact X|exact Y].
Qed.

(** What a frame does once its cloud is known. *)
Definition effect (s : model_state of_nat) (c : cloud Ffld) : outcome (model_state of_nat * pose Ffld) :=
  if map_size (g_target of_nat s) =? 0 then
    let* st := map_insert X86 of_nat (g_target of_nat s) c pose_id in
    Ok (mkModel of_nat st (g_last of_nat s) (g_world of_nat s), g_world of_nat s)
  else
    let* (r, _) := py_align_voxelmap X86 order of_nat default_criteria init_lambda lambda_factor solve exp6 omp_lin omp_err
                     (f64_of 1 0) (g_target of_nat s) c (matmul (g_world of_nat s) (g_last of_nat s)) aopts in
    let T := r_T r in
    let last := matmul (inv (g_world of_nat s)) T in
    let* st := map_insert X86 of_nat (g_target of_nat s) c T in
    let* _ := py_voxel_points st in
    Ok (mkModel of_nat st last T, T).
Lemma step_effect s a (P : cloud Ffld -> Prop) :
  ((exists o, preprocess X86 sort_omp ne order eig of_nat milli jp jn jc a o) /\
   forall o, preprocess X86 sort_omp ne order eig of_nat milli jp jn jc a o -> exists c kd, o = Ok (Some (c, kd)) /\ P c) ->
  (exists c, P c /\ step s a (effect s c)) /\ forall o, step s a o -> exists c, P c /\ o = effect s c.
Proof using.
  clear. intros [(e0 & He0) HE]. unfold model_estimate. split.
  - destruct (HE e0 He0) as (c & kd & -> & Pc). exists c. split; [exact Pc|]. exists (Ok (Some (c, kd))). split; [exact He0|reflexivity].
  - intros o (e & He & Ho). destruct (HE e He) as (c & kd & -> & Pc). exists c. split; [exact Pc|exact Ho].
Qed.
Lemma effect_tracks n h s c : model_inv n h s -> (N.of_nat (n + length (cl_points c)) <= 4294967296)%N ->
  length (cl_covs c) = length (cl_points c) -> map_size (g_target of_nat s) <> 0 ->
  exists st' M T, registered h c (matmul (g_world of_nat s) (g_last of_nat s)) T /\ M = matmul (inv (g_world of_nat s)) T /\
    map_of of_nat (h ++ [(T, c)]) st' /\ length (flat_voxels st') <= n + length (cl_points c) /\
    effect s c = (let* _ := py_voxel_points st' in Ok (mkModel of_nat st' M T, T)).
Proof using E Th.
  intros (Hm & _ & Lf & _) LN LC NZ.
  destruct (model_align h (g_target of_nat s) c (matmul (g_world of_nat s) (g_last of_nat s)) Hm LC) as (r & log & X & Y); [lia|].
  destruct (map_of_step of_nat h (g_target of_nat s) (r_T r) c Hm LC) as (st' & I1 & I2 & I3).
  exists st', (matmul (inv (g_world of_nat s)) (r_T r)), (r_T r).
  split; [exists (g_target of_nat s), r, log; auto|]. split; [reflexivity|]. split; [exact I2|]. split; [lia|].
  unfold effect. destruct (Nat.eqb_spec (map_size (g_target of_nat s)) 0) as [Z|_]; [contradiction|]. rewrite X. cbn [bind]. rewrite I1. reflexivity.
Qed.
Lemma effect_first s c : model_inv 0 [] s -> length (cl_covs c) = length (cl_points c) ->
  exists st', map_of of_nat [(pose_id, c)] st' /\ length (flat_voxels st') <= length (cl_points c) /\
    effect s c = Ok (mkModel of_nat st' (g_last of_nat s) pose_id, pose_id).
Proof using.
  clear. intros (Hm & _ & Lf & W) LC. destruct (map_of_step of_nat [] (g_target of_nat s) pose_id c Hm LC) as (st' & I1 & I2 & I3).
  exists st'. split; [exact I2|]. split; [lia|]. unfold effect, map_size.
  assert (length (flat_voxels (g_target of_nat s)) = 0) as -> by lia. cbn [Nat.eqb]. rewrite I1, (W eq_refl). reflexivity.
Qed.

(** Frames with points keep the map alive. *)
Definition alive (n : nat) (h : list (pose Ffld * cloud Ffld)) (s : model_state of_nat) : Prop :=
  model_inv n h s /\ match h with [] => n = 0 | _ => map_size (g_target of_nat s) <> 0 end.
Lemma model_next n h s a : alive n h s -> frame_fine a -> (N.of_nat (n + length (m_rows a)) <= 4294967296)%N ->
  (exists o, step s a o) /\
  forall o, step s a o -> exists s' T c, o = Ok (s', T) /\ ready a c /\ alive (n + length (m_rows a)) (h ++ [(T, c)]) s' /\ g_world of_nat s' = T /\
    match h with
    | [] => T = pose_id /\ g_last of_nat s' = g_last of_nat s
    | _ => registered h c (matmul (g_world of_nat s) (g_last of_nat s)) T /\ g_last of_nat s' = matmul (inv (g_world of_nat s)) T
    end.
Proof using E Th.
  intros [I A] F LN.
  destruct (prep_fine X86 sort sort_omp ne order eig of_nat milli jp jn jc omp_lin omp_err sample_omp estimate_omp E a F) as [P1 P2].
  destruct (step_effect s a (ready a)) as [(c0 & Pc0 & S0) S1].
  { split; [exact P1|]. intros o Ho. destruct (P2 o Ho) as (c & kd & Q & R & _). eauto. }
  split; [eauto|]. intros o Ho. destruct (S1 o Ho) as (c & Pc & ->). clear S0 S1 P1 P2.
  pose proof (prepared_length _ _ _ _ a c Pc) as LP. assert (LC : length (cl_covs c) = length (cl_points c)) by apply Pc.
  assert (N0 : cl_points c <> []) by apply Pc.
  assert (R1 : 1 <= length (m_rows a)) by (destruct F as (_ & _ & Nr & _); destruct (m_rows a); [now destruct Nr|cbn; lia]).
  set (x := length (m_rows a)) in *. clearbody x.
  destruct h as [|k h].
  - subst n. destruct (effect_first s c I LC) as (st' & I1 & I2 & ->).
    eexists _, _, c. split; [reflexivity|]. split; [exact Pc|]. cbn [app g_world g_last g_target].
    split; [|auto]. split.
    + split; [exact I1|]. cbn [length g_target]. split; [lia|]. split; [lia|]. discriminate.
    + cbn [g_target]. apply (map_of_alive of_nat [] st' pose_id c I1 LC N0). cbn. lia.
  - destruct (effect_tracks n (k :: h) s c I) as (st' & M & T & R & EM & I1 & I2 & ->); [lia|exact LC|exact A|].
    assert (NZ : map_size st' <> 0).
    { apply (map_of_alive of_nat (k :: h) st' T c I1 LC N0). destruct I as (_ & Lh & _). lia. }
    destruct (map_visible of_nat st' NZ) as (v & ->). cbn [bind].
    eexists _, _, c. split; [reflexivity|]. split; [exact Pc|]. cbn [g_world g_last g_target]. split; [|auto]. split.
    + split; [exact I1|]. rewrite app_length. cbn [length g_target]. destruct I as (_ & Lh & _). cbn [length] in Lh. split; [lia|]. split; [lia|].
      intros Q. cbn [app] in Q. discriminate.
    + cbn [app g_target]. exact NZ.
Qed.
Lemma start_alive : alive 0 [] (model_start of_nat).
Proof using. split; [|reflexivity]. split; [reflexivity|]. split; [apply le_n|]. split; [apply le_n|reflexivity]. Qed.

Definition rows_total (frames : list matrix) : nat := list_sum (map (fun a => length (m_rows a)) frames).
Lemma model_tracks frames : forall n h s, alive n h s -> Forall frame_fine frames -> (N.of_nat (n + rows_total frames) <= 4294967296)%N ->
  (exists o, drive step s frames o) /\
  forall o, drive step s frames o -> exists traj, o = Ok traj /\ mapwise matmul inv ready registered h (g_last of_nat s) (g_world of_nat s) frames traj.
Proof using E Th.
  induction frames as [|a frames IH]; intros n h s A F L.
  - split; [eexists; constructor|]. intros o D. inversion D. subst. exists []. split; [reflexivity|exact I].
  - inversion F as [|x l Fa Fs]. subst. unfold rows_total in L. cbn [map list_sum fold_right] in L. fold (list_sum (map (fun a => length (m_rows a)) frames)) in L.
    fold (rows_total frames) in L.
    assert (L1 : (N.of_nat (n + length (m_rows a)) <= 4294967296)%N) by (revert L; clear; intros; lia).
    assert (L2 : (N.of_nat (n + length (m_rows a) + rows_total frames) <= 4294967296)%N) by (revert L; clear; intros; lia).
    destruct (model_next n h s a A Fa L1) as [(o1 & H1) HS]. split.
    + destruct (HS o1 H1) as (s' & T & c & -> & _ & A' & _). destruct (IH _ _ s' A' Fs L2) as [(o & Ho) _].
      eexists. eapply DriveFrame; [exact H1|exact Ho].
    + intros o D. inversion D as [|s0 f fs s' T o' H D'|s0 f fs e H N]; subst.
      * destruct (HS _ H) as (s2 & T2 & c & Q & P & A' & W & R). injection Q as <- <-.
        destruct (IH _ _ s' A' Fs L2) as [_ X]. destruct (X o' D') as (traj & -> & Y). cbn [bind]. exists (T :: traj). split; [reflexivity|].
        cbn [mapwise]. exists c. split; [exact P|]. rewrite W in Y. destruct h as [|k h]; destruct R as [R EL]; rewrite EL in Y.
        -- split; [|exact Y]. destruct A as [(_ & _ & _ & WI) _]. rewrite (WI eq_refl). exact R.
        -- split; [exact R|exact Y].
      * destruct (HS _ H) as (s2 & T2 & c & Q & _). destruct (N _ Q).
Qed.

(** Scan to model: on frames that have points every run returns a pose for each frame, and each
    pose is that of a registration against the map of the frames before it, which is never empty. *)
Theorem C80_scan_to_model : forall frames, Forall frame_fine frames -> (N.of_nat (rows_total frames) <= 4294967296)%N ->
  (exists o, model_run frames o) /\
  forall o, model_run frames o -> exists traj, o = Ok traj /\ mapwise matmul inv ready registered [] pose_id pose_id frames traj.
Proof using E Th.
  intros frames F L. exact (model_tracks frames 0 [] (model_start of_nat) start_alive F L).
Qed.

(** 110 frames without points in a row clear the map; drawing the empty map reads the first of no
    points. *)
Theorem C80_gap_refuted : forall first before empty rest, Forall frame_fine (first :: before) -> (N.of_nat (rows_total (first :: before)) <= 4294967296)%N ->
  (m_cols empty = 3 \/ m_cols empty = 4) -> m_rows empty = [] ->
  (exists o, model_run (first :: before ++ repeat empty 110 ++ rest) o) /\
  forall o, model_run (first :: before ++ repeat empty 110 ++ rest) o -> o = UB.
Proof using E Th.
  intros first before empty rest F L Hc Hr.
  (* a gap that has lasted for length e frames *)
  assert (Gap : forall k e n h s, length e + k = 110 -> Forall (fun k => cl_points (snd k) = []) e ->
    map_of of_nat (h ++ e) (g_target of_nat s) -> length h <= n -> length (flat_voxels (g_target of_nat s)) <= n -> h <> [] ->
    (N.of_nat n <= 4294967296)%N -> map_size (g_target of_nat s) <> 0 ->
    (exists o, drive step s (repeat empty k ++ rest) o) /\ forall o, drive step s (repeat empty k ++ rest) o -> o = UB).
  { induction k as [|k IH]; intros e n h s Le Fe Hm Lh Lf Nh Ln NZ.
    { exfalso. apply NZ. apply (map_of_expired of_nat h e _ Hm Fe); [lia|lia]. }
    cbn [repeat app].
    destruct (prep_empty X86 sort sort_omp ne order eig of_nat milli jp jn jc omp_lin omp_err sample_omp estimate_omp E empty Hc Hr) as [P1 P2].
    destruct (step_effect s empty (fun c => cl_points c = [] /\ cl_covs c = [])) as [(c0 & Pc0 & S0) S1].
    { split; [exact P1|]. intros o Ho. destruct (P2 o Ho) as (c & kd & Q & A & B & _). eauto. }
    assert (K : forall c, cl_points c = [] /\ cl_covs c = [] ->
      effect s c = UB \/ exists s' T, effect s c = Ok (s', T) /\
        (exists o, drive step s' (repeat empty k ++ rest) o) /\ forall o, drive step s' (repeat empty k ++ rest) o -> o = UB).
    { intros c [A B]. assert (I : model_inv (n + length e) (h ++ e) s).
      { split; [exact Hm|]. rewrite app_length. split; [lia|]. split; [lia|]. intros Q. apply app_eq_nil in Q. destruct Q. contradiction. }
      clear I. destruct (model_align (h ++ e) (g_target of_nat s) c (matmul (g_world of_nat s) (g_last of_nat s)) Hm) as (r & log & X & _); [rewrite A, B; reflexivity|lia|].
      destruct (map_of_step of_nat (h ++ e) (g_target of_nat s) (r_T r) c Hm) as (st' & I1 & I2 & I3); [rewrite A, B; reflexivity|].
      rewrite A in I3. cbn [length] in I3.
      assert (Q : effect s c = (let* _ := py_voxel_points st' in Ok (mkModel of_nat st' (matmul (inv (g_world of_nat s)) (r_T r)) (r_T r), r_T r))).
      { unfold effect. destruct (Nat.eqb_spec (map_size (g_target of_nat s)) 0) as [Z|_]; [contradiction|]. rewrite X. cbn [bind]. rewrite I1. reflexivity. }
      rewrite Q. destruct (Nat.eq_dec (map_size st') 0) as [Z|NZ'].
      - left. rewrite (map_invisible of_nat st' Z). reflexivity.
      - right. destruct (map_visible of_nat st' NZ') as (v & ->). cbn [bind]. eexists _, _. split; [reflexivity|].
        apply (IH (e ++ [(r_T r, c)]) n h); auto.
        + rewrite app_length. cbn [length]. lia.
        + apply Forall_app. split; [exact Fe|]. constructor; [exact A|constructor].
        + rewrite app_assoc. exact I2.
        + cbn [g_target]. lia. }
    split.
    - destruct (K c0 Pc0) as [Q|(s' & T & Q & (o & Ho) & _)]; rewrite Q in S0.
      + eexists. eapply DriveFail; [exact S0|discriminate].
      + eexists. eapply DriveFrame; [exact S0|exact Ho].
    - intros o D. inversion D as [|s0 f fs s' T o' H D'|s0 f fs x H N]; subst.
      + destruct (S1 _ H) as (c & Pc & Q). destruct (K c Pc) as [Q'|(s2 & T2 & Q' & _ & X)]; rewrite Q' in Q; [discriminate|]. injection Q as -> ->.
        rewrite (X o' D'). reflexivity.
      + destruct (S1 _ H) as (c & Pc & Q). destruct (K c Pc) as [Q'|(s2 & T2 & Q' & _ & X)]; rewrite Q' in Q; subst x; [reflexivity|]. destruct (N _ eq_refl). }
  (* the frames before it *)
  assert (Pre : forall frames n h s, alive n h s -> Forall frame_fine frames -> (N.of_nat (n + rows_total frames) <= 4294967296)%N ->
    h <> [] \/ frames <> [] ->
    (exists o, drive step s (frames ++ repeat empty 110 ++ rest) o) /\ forall o, drive step s (frames ++ repeat empty 110 ++ rest) o -> o = UB).
  { clear F L first before. induction frames as [|a frames IH]; intros n h s A F L NE.
    - destruct NE as [NE|NE]; [|now destruct NE]. change (rows_total []) with 0 in L. cbn [app]. destruct A as [(Hm & Lh & Lf & _) A].
      destruct h as [|k h]; [now destruct NE|].
      apply (Gap 110 [] n (k :: h) s); auto; [rewrite app_nil_r; exact Hm|]. rewrite Nat.add_0_r in L. exact L.
    - cbn [app]. inversion F as [|x l Fa Fs]. subst.
      assert (LT : rows_total (a :: frames) = length (m_rows a) + rows_total frames) by reflexivity. rewrite LT in L.
      assert (L1 : (N.of_nat (n + length (m_rows a)) <= 4294967296)%N) by (revert L; clear; intros; lia).
      assert (L2 : (N.of_nat (n + length (m_rows a) + rows_total frames) <= 4294967296)%N) by (revert L; clear; intros; lia).
      destruct (model_next n h s a A Fa L1) as [(o1 & H1) HS]. split.
      + destruct (HS o1 H1) as (s' & T & c & -> & _ & A' & _).
        destruct (IH _ _ s' A' Fs L2) as [(o & Ho) _]; [left; intros Q; apply app_eq_nil in Q; destruct Q; discriminate|].
        eexists. eapply DriveFrame; [exact H1|exact Ho].
      + intros o D. inversion D as [|s0 f fs s' T o' H D'|s0 f fs e H N]; subst.
        * destruct (HS _ H) as (s2 & T2 & c & Q & P & A' & _). injection Q as <- <-.
          destruct (IH _ _ s' A' Fs L2) as [_ X]; [left; intros Q; apply app_eq_nil in Q; destruct Q; discriminate|]. rewrite (X o' D'). reflexivity.
        * destruct (HS _ H) as (s2 & T2 & c & Q & _). destruct (N _ Q). }
  apply (Pre (first :: before) 0 [] (model_start of_nat) start_alive F L). right. discriminate.
Qed.
End Model.

(** * The hypotheses are met. *)
Lemma rows7_fine : frame_fine rows7.
Proof.
  destruct C53_inputs as ((W & N0 & L & _) & U & _). split; [exact W|]. split; [exact U|]. split; [exact N0|]. split; [exact L|].
  intros r Hr. repeat destruct Hr as [<-|Hr]; try destruct Hr; apply in_grid_compute; vm_compute; reflexivity.
Qed.
Example C80_frames : Forall frame_fine [rows7; rows7; rows7] /\ (N.of_nat (rows_total [rows7; rows7; rows7]) <= 4294967296)%N /\
  (m_cols (mkMatrix 3 []) = 3 \/ m_cols (mkMatrix 3 []) = 4) /\ m_rows (mkMatrix 3 []) = [].
Proof. split; [do 3 (apply Forall_cons; [exact rows7_fine|]); apply Forall_nil|]. split; [vm_compute; discriminate|]. split; [left; reflexivity|reflexivity]. Qed.
Lemma pairwise_length mul prepared registered frames : forall traj prev M T, pairwise mul prepared registered prev M T frames traj -> length traj = length frames.
Proof.
  induction frames as [|a frames IH]; intros [|T' traj] prev M T H; cbn [pairwise] in H; try contradiction; [reflexivity|]. cbn [length]. f_equal.
  destruct H as (c & _ & H). destruct prev as [q|]; [destruct H as (M' & _ & _ & H)|destruct H as [_ H]]; apply IH in H; exact H.
Qed.
Lemma mapwise_length mul inv prepared registered frames : forall traj h M T, mapwise mul inv prepared registered h M T frames traj -> length traj = length frames.
Proof.
  induction frames as [|a frames IH]; intros [|T' traj] h M T H; cbn [mapwise] in H; try contradiction; [reflexivity|]. cbn [length]. f_equal.
  destruct H as (c & _ & H). destruct h as [|k h]; destruct H as [_ H]; apply IH in H; exact H.
Qed.
(** Three frames in the environment of C52 give three poses, whatever the solver. *)
Example C80_instance : forall eig of_nat milli jp jn jc criteria init_lambda lambda_factor solve exp6 matmul inv re te u1 u2,
  (exists traj, scan_to_scan X86 isort sort_nth_element eigen_order eig of_nat milli jp jn jc criteria init_lambda lambda_factor solve exp6
     (one_thread_lin Ffld) (one_thread_err Ffld) matmul re te u1 u2 4 [rows7; rows7; rows7] (Ok traj) /\ length traj = 3) /\
  (exists traj, scan_to_model X86 isort sort_nth_element eigen_order eig of_nat milli jp jn jc criteria init_lambda lambda_factor solve exp6
     (one_thread_lin Ffld) (one_thread_err Ffld) matmul inv re te 4 [rows7; rows7; rows7] (Ok traj) /\ length traj = 3).
Proof.
  intros. destruct C80_frames as (F & L & _). pose proof (C52_environment X86 eig of_nat milli jp jn jc) as E. split.
  - destruct (C80_scan_to_scan _ _ _ _ _ _ _ _ _ _ _ criteria init_lambda lambda_factor solve exp6 _ _ _ _ matmul re te u1 u2 4 E ltac:(discriminate) _ F) as [(o & Ho) X].
    destruct (X o Ho) as (traj & -> & P). exists traj. split; [exact Ho|].
    apply pairwise_length in P. exact P.
  - destruct (C80_scan_to_model _ _ _ _ _ _ _ _ _ _ criteria init_lambda lambda_factor solve exp6 _ _ _ _ matmul inv re te 4 E ltac:(discriminate) _ F L) as [(o & Ho) X].
    destruct (X o Ho) as (traj & -> & P). exists traj. split; [exact Ho|].
    apply mapwise_length in P. exact P.
Qed.

Print Assumptions C80_scan_to_scan.
Print Assumptions C80_empty_frame_refuted.
Print Assumptions C80_scan_to_model.
Print Assumptions C80_gap_refuted.
