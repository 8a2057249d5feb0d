(** The odometry classes never fail and track. *)
From Coq Require Import ZArith Reals FunctionalExtensionality ZifyBool ZifyNat ZifyN.
From Flocq Require Import IEEE754.BinarySingleNaN.
From Verif Require Import Base BaseProofs NthElement Num Vec F64 F64Proofs KnnModel KdModel KdParModel KdSpec KdF64 KdThms KdSafe
  FloorModel Lin FactorModel ReduceModel EstModel EstProofs VoxModel VoxSpec SortSpec VmapModel VmapProofs VmapSearch VmapHist VmapBody
  OptModel OptSpec OptProofs HelperModel HelperSpec HelperProofs RegSafe Prop_Vox Prop_Est Prop_Helper
  PipeModel PipeSpec PipeSample PipeProofs PyModel PyProofs EstF64Spec PipeEst OdomModel OdomSpec.
Open Scope nat_scope.
Open Scope list_scope.

(** ** The loop *)
Section Loop.
Context (m : int_mode) (sort : forall A : Type, (A -> A -> bool) -> list A -> list A) (jn : vec4 Ffld) (jc : m4 Ffld).
Context (resolution : f64) {S : Type} (step : S -> cloud Ffld -> outcome (S * pose Ffld) -> Prop).
(** An invariant of the state after n points, a condition on frames, and what a step does. *)
Context (Inv : nat -> S -> Prop) (fine : list (vec4 Fnum) -> Prop) (R : S -> list (vec4 Fnum) -> S -> pose Ffld -> Prop) (bound : N).
Inductive run : S -> list (list (vec4 Fnum)) -> list (pose Ffld) -> Prop :=
| RunEnd : forall s, run s [] []
| RunStep : forall s points frames s' T traj, R s points s' T -> run s' frames traj -> run s (points :: frames) (T :: traj).
Context (H : forall n s points, Inv n s -> fine points -> (N.of_nat (n + length points) <= bound)%N -> exists d s' T,
  sample m sort jn jc resolution (mkCloud (D := Ffld) points [] []) = Ok d /\ step s d (Ok (s', T)) /\
  (forall o, step s d o -> o = Ok (s', T)) /\ Inv (n + length points) s' /\ R s points s' T).

Lemma online_run frames : forall n s, Inv n s -> Forall fine frames -> (N.of_nat (n + total frames) <= bound)%N ->
  exists traj, run s frames traj /\ online m sort jn jc resolution step s frames (Ok traj) /\
    forall o, online m sort jn jc resolution step s frames o -> o = Ok traj.
Proof using H.
  induction frames as [|points frames IH]; intros n s I F B.
  - exists []. split; [constructor|]. split; [constructor|]. intros o O. inversion O. reflexivity.
  - apply Forall_cons_iff in F. destruct F as [F0 F].
    change (total (points :: frames)) with (length points + total frames) in B.
    destruct (H n s points I F0) as (d & s' & T & Es & St & Un & I' & HR).
    { set (a := length points) in *. set (b := total frames) in *. clearbody a b. lia. }
    destruct (IH (n + length points) s' I' F) as (traj & A1 & A2 & A3).
    { rewrite <- Nat.add_assoc. exact B. }
    exists (T :: traj). split; [econstructor; eauto|]. split.
    + exact (OnlineFrame m sort jn jc resolution step s points frames d s' T (Ok traj) Es St A2).
    + intros o O. inversion O as [|x1 x2 x3 d2 s2 T2 o2 Es2 St2 O2|x1 x2 x3 d2 e2 Es2 St2 N2|x1 x2 x3 e2 Es2 N2]; subst.
      * rewrite Es in Es2. injection Es2 as <-. apply Un in St2. injection St2 as -> ->. rewrite (A3 _ O2). reflexivity.
      * rewrite Es in Es2. injection Es2 as <-. apply Un in St2. exfalso. eapply N2. exact St2.
      * exfalso. eapply N2. exact Es.
Qed.
End Loop.

(** ** Frames *)
Section Frames.
Context (m : int_mode) (sort : forall A : Type, (A -> A -> bool) -> list A -> list A) (SC : sort_contract sort).
Context (ne : (nat -> nat -> bool) -> nat -> list nat -> list nat) (NE : nth_element_contract ne).
Context (order : sumtree) (FS : full_sum order) (eig : m3 Ffld -> m3 Ffld) (of_nat : nat -> f64) (milli : f64) (jp jn : vec4 Ffld) (jc : m4 Ffld).
Context (p : odometry_params) (Hk : (0 < d_num_neighbors p < 2 ^ 31)%Z).
Notation covariances_omp := (covariances_omp order eig of_nat milli jp jn jc p).
Notation covariances_own_tree := (covariances_own_tree ne order eig of_nat milli jp jn jc p).
Notation prepared_frame := (prepared_frame ne order eig of_nat milli jp jn jc p).

Lemma covs_ok (c : cloud Ffld) t :
  (forall q, In q (cl_points c) -> exists found, tree_knn order c t q (Z.to_nat (d_num_neighbors p)) = Ok found /\
     Forall (fun j => j < length (cl_points c)) found) ->
  exists c', EstModel.estimate (D := Ffld) (tree_knn order c t) eig of_nat milli Covs jp jn jc (Z.to_nat (d_num_neighbors p)) c = Ok c' /\
    cl_points c' = cl_points c /\ length (cl_covs c') = length (cl_points c) /\ covariances_omp c t (Ok c') /\
    forall o, covariances_omp c t o -> o = Ok c'.
Proof using.
  clear Hk. intros K. destruct (C33_total Ffld (tree_knn order c t) eig of_nat milli Covs jp jn jc (Z.to_nat (d_num_neighbors p)) c K) as (c' & Ee).
  exists c'. split; [exact Ee|].
  destruct (estimate_writes (tree_knn order c t) eig of_nat milli Covs jp jn jc _ c c' Ee) as (P & _ & LC & _).
  split; [exact P|]. split; [exact LC|]. split.
  - destruct (C34_parallel_estimation Ffld (tree_knn order c t) eig of_nat milli Covs jp jn jc _ c c' Ee _ (ParHere _ _ _ _ _ _ _ _))
      as (s0 & Q0 & _ & _ & _ & s1 & R1 & F1 & C1). injection Q0 as <-.
    exists (Ok s1). split; [exact R1|]. split; [intros s Q; injection Q as <-; exact F1|]. cbn [bind]. rewrite C1. reflexivity.
  - intros o (e & R & F & ->).
    destruct (C34_parallel_estimation Ffld (tree_knn order c t) eig of_nat milli Covs jp jn jc _ c c' Ee e R) as (s & -> & Fi & _).
    cbn [bind]. rewrite Fi by (apply F; reflexivity). reflexivity.
Qed.

Lemma sample_ok points : moderate (per_unit (d_downsampling_resolution p)) -> frame_ok m (d_downsampling_resolution p) points ->
  exists out, sample m sort jn jc (d_downsampling_resolution p) (mkCloud (D := Ffld) points [] []) = Ok (bare jn jc out) /\
    summarised_once (per_unit (d_downsampling_resolution p)) points out /\ out <> [] /\ (forall q, In q out -> vfinite q) /\
    length out <= length points /\ (N.of_nat (length out) <= 4294967295)%N.
Proof using SC.
  clear Hk. intros M [HS HH HL HE].
  destruct (serial_summarised sort m _ points SC M HS HH ltac:(lia) HE) as (out & Es & So).
  pose proof (summarised_once_summarised _ _ _ So) as Su.
  destruct (summarised_length _ _ _ Su) as [SL SN]. specialize (SN HE). pose proof (summarised_finite _ _ _ Su) as SF.
  exists out. split; [unfold sample; cbn [cl_points]; change (inv_leaf (d_downsampling_resolution p)) with (per_unit (d_downsampling_resolution p)); rewrite Es; reflexivity|].
  repeat (split; [assumption|]). lia.
Qed.

(** A frame with a point in the grid, for all classes. *)
Lemma frame_ready points : moderate (per_unit (d_downsampling_resolution p)) -> frame_ok m (d_downsampling_resolution p) points ->
  exists (d c : cloud Ffld) t0, sample m sort jn jc (d_downsampling_resolution p) (mkCloud (D := Ffld) points [] []) = Ok d /\
    framed order eig of_nat milli (Z.to_nat (d_num_neighbors p)) (d_downsampling_resolution p) points c /\ length (cl_points c) <= length points /\
    kd_wf_f64 (cl_points c) 20 t0 /\ (forall q, In q (cl_points c) -> vfinite q) /\
    covariances_own_tree d (Ok c) /\ (forall o, covariances_own_tree d o -> o = Ok c) /\
    (exists t, prepared_frame d (Ok (c, t))) /\
    (forall o, prepared_frame d o -> exists t, o = Ok (c, t) /\ tree_nn order c t = tree_nn order c t0).
Proof using SC NE FS Hk.
  intros M F. destruct (sample_ok points M F) as (out & Es & So & ON & OF & OL & OB).
  set (d := bare jn jc out) in *. assert (Pd : cl_points d = out) by reflexivity.
  destruct (built_ok order ne NE out ON OF OB) as (t0 & Et0 & (o0 & Ho0) & HB).
  destruct (build_ok ne NE order d (conj ON (conj OF OB))) as (t0' & Eb & W0).
  pose proof (eq_trans (eq_sym Et0) Eb) as Q. injection Q as <-.
  destruct (covs_ok d t0) as (c & Ee & P & LC & O1 & O2).
  { intros q _. apply (tree_knn_ok order d); [exact W0|lia]. }
  exists d, c, t0. split; [exact Es|].
  assert (Same : forall t, built_omp ne out (Ok t) -> tree_knn order d t = tree_knn order d t0 /\ tree_nn order c t = tree_nn order c t0).
  { intros t Ht. destruct (HB _ Ht) as (t' & Q & _ & S1). injection Q as <-.
    split; apply functional_extensionality; intros q; [apply functional_extensionality; intros k|];
      unfold tree_nn, tree_knn, KdModel.nearest_neighbor_search, knn_search_api; rewrite ?P; rewrite Pd; rewrite S1; reflexivity. }
  split; [split; [rewrite P; exact So|rewrite P; intros _; exact ON|rewrite P; exact LC|apply (estimate_exact order FS eig of_nat milli jp jn jc Covs _ d c t0 OF W0); [lia|exact Ee]]|]. rewrite P, Pd.
  split; [exact OL|]. split; [exact W0|]. split; [exact OF|]. unfold OdomModel.covariances_own_tree. rewrite Eb.
  split; [exact O1|]. split; [exact O2|]. split.
  - destruct (HB _ Ho0) as (t & -> & _). exists t, (Ok t). split; [exact Ho0|]. exists (Ok c).
    split; [|reflexivity]. destruct (Same t Ho0) as [K _]. unfold OdomModel.covariances_omp in *. rewrite K. exact O1.
  - intros o (b & Hb & Ho). destruct (HB _ Hb) as (t & -> & _). destruct (Same t Hb) as [K KN]. destruct Ho as (e & He & ->).
    exists t. split; [|exact KN].
    assert (e = Ok c) as ->; [|reflexivity]. apply O2. unfold OdomModel.covariances_omp in *. rewrite <- K. exact He.
Qed.

(** Or one without points. *)
Lemma frame_any points : moderate (per_unit (d_downsampling_resolution p)) -> points = [] \/ frame_ok m (d_downsampling_resolution p) points ->
  exists (d c : cloud Ffld) t0, sample m sort jn jc (d_downsampling_resolution p) (mkCloud (D := Ffld) points [] []) = Ok d /\
    framed order eig of_nat milli (Z.to_nat (d_num_neighbors p)) (d_downsampling_resolution p) points c /\ length (cl_points c) <= length points /\
    (points <> [] -> kd_wf_f64 (cl_points c) 20 t0) /\ (forall q, In q (cl_points c) -> vfinite q) /\
    (N.of_nat (length points) <= 4294967295)%N /\
    covariances_own_tree d (Ok c) /\ (forall o, covariances_own_tree d o -> o = Ok c) /\
    (exists t, prepared_frame d (Ok (c, t))) /\
    (forall o, prepared_frame d o -> exists t, o = Ok (c, t) /\ tree_nn order c t = tree_nn order c t0) /\
    (points = [] -> forall q, tree_nn order c t0 q = UB).
Proof using SC NE FS Hk.
  intros M [->|F].
  2:{ destruct (frame_ready points M F) as (d & c & t0 & A1 & A2 & A3 & A4 & A5 & A6 & A7 & A8 & A9). exists d, c, t0.
      repeat (split; [first [assumption|intros _; assumption|apply F]|]). intros ->. destruct F as [_ _ _ (q & [] & _)]. }
  clear Hk FS. destruct (covs_ok (bare jn jc []) (mkTree (D := Fnum) (P := nat) [] None [])) as (c & _ & P & LC & O1 & O2); [intros q []|].
  exists (bare jn jc []), c, (mkTree (D := Fnum) (P := nat) [] None []). split; [reflexivity|]. cbn [bare cl_points length] in P, LC. split.
  { split; rewrite ?P; [|congruence|exact LC|intros i x Hi; exfalso; rewrite P in Hi; destruct i; discriminate Hi]. exists []. split; [intros g []|]. split; [intros i j g h x y Hi; destruct i; discriminate|].
    split; [constructor|constructor]. }
  split; [rewrite P; apply le_n|]. split; [congruence|]. split; [rewrite P; intros q []|]. split; [cbn; lia|].
  unfold OdomModel.covariances_own_tree. change (build ne (bare jn jc [])) with (Ok (mkTree (D := Fnum) (P := nat) [] None [])). cbv iota.
  split; [exact O1|]. split; [exact O2|]. split; [|split].
  - eexists. exists (Ok (mkTree (D := Fnum) (P := nat) [] None [])). split; [left; split; reflexivity|]. exists (Ok c). split; [exact O1|reflexivity].
  - intros o (b & [[_ ->]|[N _]] & Ho); [|now destruct N]. destruct Ho as (e & He & ->). rewrite (O2 e He). eexists. split; reflexivity.
  - intros _ q. reflexivity.
Qed.
End Frames.

(** ** Maps *)
Lemma items_items_of (c : cloud Ffld) : length (cl_covs c) = length (cl_points c) -> items c = Ok (items_of c).
Proof.
  intros L. unfold items, items_of. destruct c as [ps ns cs]. cbn [cl_points cl_covs] in *.
  set (jc0 := of_rows (M4 (D := Fnum) vzero vzero vzero vzero)).
  rewrite (mapM_map _ (fun i => mkItem (D := Fnum) (nth i ps vzero) vzero (to_rows (nth i cs jc0)))).
  - f_equal. revert cs L. induction ps as [|q ps IH]; intros [|cv cs] L; try discriminate; [reflexivity|].
    cbn [length seq map combine nth fst snd]. f_equal. rewrite <- seq_shift, map_map. apply IH. injection L as L. exact L.
  - intros i Hi. apply in_seq in Hi. unfold get.
    rewrite (nth_error_nth' ps vzero) by lia. cbn [bind]. rewrite (nth_error_nth' cs jc0) by (rewrite L; lia). reflexivity.
Qed.
Lemma items_of_length (c : cloud Ffld) : length (items_of c) <= length (cl_points c).
Proof. unfold items_of. rewrite map_length, combine_length. apply Nat.le_min_l. Qed.

Section Maps.
Context (order : sumtree) (p : odometry_params).
Context (C : contents Fnum) (cov_of : body C -> nat -> outcome (m4 Ffld)).
Notation coord_of := (voxel_of X86 (inv_leaf (d_voxel_resolution p))).
Context (P : coord -> body C -> Prop) (BI : body_inv Fnum C coord_of P).
Context (PR : forall co b, P co b -> length (stored C b) <= 10 /\ forall j, j < length (stored C b) -> exists cv, cov_of b j = Ok cv).

(** The map after n points were given to it. *)
Definition map_fine (n : nat) (st : vmap Fnum C) : Prop :=
  good Fnum C P st /\ lru_clear_cycle st <> 0%N /\ length (flat_voxels st) <= n.

Lemma new_fine : map_fine 0 (new_map Fnum C 100 10).
Proof using. split; [apply good_new|]. split; [discriminate|cbn; lia]. Qed.

Lemma insert_length (st : vmap Fnum C) k st' : VmapModel.insert coord_of (pose Ffld) moved st k = Ok st' ->
  length (flat_voxels st') <= length (flat_voxels st) + length (snd k).
Proof using.
  destruct k as [T qs]. unfold VmapModel.insert. intros E. apply bind_Ok in E. destruct E as ([f1 i1] & E1 & E).
  apply (insert_points_length (fun _ => f64_of 1 0)) in E1. rewrite map_length in E1. apply bind_Ok in E. destruct E as ([f2 i2] & E2 & E). injection E as <-.
  cbn [flat_voxels snd]. rewrite map_length. destruct (lru_clear_cycle st =? 0)%N; [discriminate|].
  destruct (_ =? 0)%N; injection E2 as <- <-; [|lia].
  match goal with |- length (filter ?f f1) <= _ => assert (length (filter f f1) <= length f1) by (clear; induction f1 as [|v l IH]; cbn; [lia|destruct (f v); cbn; lia]) end.
  lia.
Qed.

Lemma insert_fine n st (c : cloud Ffld) T : map_fine n st -> length (cl_covs c) = length (cl_points c) ->
  exists st', model_insert X86 p C st c T = Ok st' /\ VmapModel.insert coord_of (pose Ffld) moved st (T, items_of c) = Ok st' /\
    map_fine (n + length (cl_points c)) st'.
Proof using BI.
  intros (G & CY & L) LC. unfold model_insert. rewrite (items_items_of c LC). cbn [bind].
  destruct (shows_exists _ _ _ _ (proj1 G)) as [f SH].
  destruct (insert_spec Fnum C coord_of (pose Ffld) moved st (T, items_of c) f (proj1 G) SH CY) as (st' & E & IX & _ & _ & _ & CY' & _).
  { intros q _. apply voxel_of_x86. }
  exists st'. split; [exact E|]. split; [exact E|]. split; [|split].
  - apply (do_op_good Fnum C coord_of (pose Ffld) moved P st (OpInsert _ _ (T, items_of c)) st' BI G E).
  - congruence.
  - apply insert_length in E. cbn [snd] in E. pose proof (items_of_length c). lia.
Qed.

Lemma model_nn_ok n st q : map_fine n st -> (N.of_nat n <= 4294967296)%N ->
  exists found, model_nn X86 order p C st q = Ok found /\
    match found with
    | None => True
    | Some (i, _) => (exists x, at_point (model_view C cov_of st) i = Ok x) /\ exists cv, at_cov (model_view C cov_of st) i = Ok cv
    end.
Proof using PR.
  intros ([IX FP] & _ & L) LN. assert (LV : (N.of_nat (length (flat_voxels st)) <= 4294967296)%N) by lia.
  unfold model_nn, VmapModel.nearest_neighbor_search.
  destruct (knn_init Fnum (Some 1) (-1)) as [r0| | |] eqn:E0; try discriminate.
  assert (K : 0 < buffer_size r0) by (injection E0 as <-; cbn; lia).
  set (ok := fun i => (exists x, at_point (model_view C cov_of st) i = Ok x) /\ exists cv, at_cov (model_view C cov_of st) i = Ok cv).
  pose proof (init_sane Fnum ok (Some 1) (-1)%Z r0 E0 K) as S0. cbn [bind]. clear E0 K.
  unfold search_loop. destruct (voxel_of_x86 (inv_leaf (d_voxel_resolution p)) q) as [ctr ->]. cbn [bind].
  assert (X : forall offs r, sane ok r -> exists r', foldM (fun r off =>
           let* c := shift X86 ctr off in
           match lookup (voxels st) c with
           | None => Ok r
           | Some vi => let* v := get (flat_voxels st) vi in search_voxel (C := C) (fsqd order) q vi v r
           end) offs r = Ok r' /\ sane ok r').
  { induction offs as [|off offs IH]; intros r Hr; cbn [foldM]; [eauto|].
    destruct (shift_x86 ctr off) as [c ->]. cbn [bind].
    destruct (lookup (voxels st) c) as [vi|] eqn:El; cbn [bind]; [|apply IH; exact Hr].
    apply IX in El. destruct El as (v & Ev & _). rewrite (proj2 (get_Ok _ _ _) Ev). cbn [bind].
    assert (Lvi : vi < length (flat_voxels st)) by (apply nth_error_Some; congruence).
    rewrite Forall_forall in FP. destruct (PR _ _ (FP v (nth_error_In _ _ Ev))) as [L10 HC].
    assert (Y : forall js r, sane ok r -> (forall j x, In (j, x) js -> nth_error (stored C (v_body v)) j = Some x) ->
      exists r', foldM (fun r jp => push r (calc_index vi (fst jp)) (fsqd order (snd jp) q)) js r = Ok r' /\ sane ok r').
    { induction js as [|[j x] js IHj]; intros r1 Hr1 Hj; cbn [foldM]; [eauto|]. cbn [fst snd].
      specialize (Hj j x (or_introl eq_refl)) as Ej. assert (Lj : j < length (stored C (v_body v))) by (apply nth_error_Some; congruence).
      destruct (push_safe Fnum ok r1 (calc_index vi j) (fsqd order x q) Hr1) as (r' & -> & Hr' & _).
      { destruct (calc_index_split vi j ltac:(lia) ltac:(lia)) as [A B].
        unfold ok, model_view, map_point. cbn [at_point at_cov]. rewrite A, B. rewrite (proj2 (get_Ok _ _ _) Ev). cbn [bind].
        split; [exists x; apply get_Ok; exact Ej|apply HC; exact Lj]. }
      cbn [bind]. apply IHj; [exact Hr'|]. intros j' x' Hin. apply Hj. right. exact Hin. }
    destruct (Y (combine (seq 0 (length (stored C (v_body v)))) (stored C (v_body v))) r Hr) as (r' & Er & Hr').
    { intros j x Hin. apply combine_seq_In in Hin. replace j with (j - 0) by lia. apply Hin. }
    unfold search_voxel. rewrite Er. cbn [bind]. apply IH. exact Hr'. }
  destruct (X (search_offsets st) r0 S0) as (r & -> & Hr). cbn [bind].
  apply first_entry_ok in Hr. exact Hr.
Qed.
End Maps.

Lemma map_fine_le C P n n' st : map_fine C P n st -> n <= n' -> map_fine C P n' st.
Proof. intros (A & B & L) H. split; [exact A|]. split; [exact B|lia]. Qed.

(** ** Registration *)
Section Registration.
Context (default_criteria : criteria Ffld) (init_lambda lambda_factor : f64).
Context (solve : m6 Ffld -> v6 Ffld -> v6 Ffld) (exp6 : v6 Ffld -> pose Ffld).
Context (omp_lin : nat -> (nat -> factor Ffld -> outcome (factor Ffld * option (sys Ffld))) ->
                   list (factor Ffld) -> outcome (list (factor Ffld) * sys Ffld)).
Context (omp_err : nat -> (factor Ffld -> outcome f64) -> list (factor Ffld) -> outcome f64).
Context (RT : omp_runtime Ffld omp_lin omp_err).

Lemma gicp_ok max_dist_sq threads v (c : cloud Ffld) nn T : (1 <= threads)%Z -> HelperSpec.usable GICP nn v c ->
  exists r log, gicp default_criteria init_lambda lambda_factor solve exp6 omp_lin omp_err max_dist_sq threads v c nn T = Ok (r, log) /\
    honoured GICP threads v nn c max_dist_sq (rotation_eps default_criteria) (translation_eps default_criteria) 20 T r log.
Proof using RT.
  intros Th U. destruct RT as [OL OE]. unfold gicp. match goal with |- context [registration_align _ _ _ _ _ ?r _ _ _ _] => set (reg := r) end.
  destruct (align_total solve exp6 omp_lin omp_err OL OE GICP reg v c nn T Th U) as (r & log & X).
  exists r, log. split; [exact X|]. apply (align_honoured solve exp6 omp_lin omp_err OL OE) in X; [exact X|exact Th|reflexivity].
Qed.
End Registration.
