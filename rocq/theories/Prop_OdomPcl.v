(** C66: odometry on the PCL interface. *)
From Coq Require Import ZArith ZifyBool ZifyNat.
From Verif Require Import Base BaseProofs Num Vec F64 F32 Lin PclModel PclPointModel PclPointSpec OdomPclModel OdomPclSpec Prop_PclPoint.
Open Scope nat_scope.

Section Odom.
Context (tree cov vmap result base : Type).
Context (build : xyz_cloud -> tree).
Context (estimate : xyz_cloud -> tree -> Z -> list cov).
Context (make_map : f64 -> xyz_cloud -> list cov -> vmap).
Context (run_gicp : base -> Z -> xyz_cloud -> list cov -> tree -> xyz_cloud -> list cov -> pose Ffld -> outcome result).
Context (run_vgicp : base -> Z -> vmap -> xyz_cloud -> list cov -> pose Ffld -> outcome result).
Context (accepts : side -> xyz_cloud -> bool).
Context (T_of : result -> pose Ffld).
Notation state := (state xyz_cloud tree cov vmap base).
Context (alloc : state -> ptr).
Notation step := (step xyz_size build estimate make_map run_gicp run_vgicp accepts).
Notation odom_run := (odom_run tree cov vmap result base build estimate make_map run_gicp run_vgicp accepts T_of alloc).
Notation odom_estimate := (odom_estimate tree cov vmap result base build estimate make_map run_gicp run_vgicp accepts T_of alloc).
Notation odom_new := (odom_new tree cov vmap result base build estimate make_map run_gicp run_vgicp accepts).
Notation pcl_odometry := (pcl_odometry tree cov vmap result base build estimate make_map run_gicp run_vgicp accepts T_of alloc).
Notation odometry := (odometry tree cov vmap base).

(** A new cloud lies where no cloud in use lies. *)
Definition fresh : Prop := forall st, c_cloud (st_src st) <> Some (alloc st) /\ c_cloud (st_tgt st) <> Some (alloc st).
Notation register := (register build estimate run_gicp).
Definition holds (p : params base) (st : state) (c : cache tree cov vmap) (f : xyz_cloud) : Prop :=
  exists a, c_cloud c = Some a /\ st_mem st a = f /\ c_tree c = Some (build f) /\
    (c_covs c = [] \/ c_covs c = estimate f (build f) (p_k p)).
Definition ready p (before : option xyz_cloud) (prev : xyz_cloud) (st : state) : Prop :=
  st_par st = p /\ p_kind p = GICP /\ holds p st (st_tgt st) prev /\
  match before with None => c_cloud (st_src st) = None | Some f => holds p st (st_src st) f end.

Section Steps.
Hypothesis FR : fresh.
Hypothesis EL : forall c t k, length (estimate c t k) = xyz_size c.
Lemma fill p (st : state) (c : cache tree cov vmap) f a : st_par st = p -> c_cloud c = Some a -> st_mem st a = f -> (c_covs c = [] \/ c_covs c = estimate f (build f) (p_k p)) ->
  fill_covs xyz_size estimate st c a (build f) = estimate f (build f) (p_k p).
Proof.
  intros P C M V. unfold fill_covs. rewrite M, P. destruct V as [->| ->].
  - cbn [length]. unfold xyz_size. destruct f as [|x f]; [|reflexivity]. cbn. pose proof (EL [] (build []) (p_k p)) as L. destruct (estimate [] (build []) (p_k p)); [reflexivity|discriminate].
  - rewrite EL, Nat.eqb_refl. reflexivity.
Qed.
Lemma ptr_eqb_false p a : p <> Some a -> ptr_eqb p (Some a) = false.
Proof. intros H. destruct p as [b|]; [|reflexivity]. cbn. apply Nat.eqb_neq. congruence. Qed.
Lemma estimate_frame p before prev (o : odometry) f g : ready p before prev (o_gicp _ _ _ _ o) ->
  (accepts Src (to_pcl f) = true /\ g = to_pcl f \/ accepts Src (to_pcl f) = false /\ before = Some g) ->
  match run_gicp (p_base p) (p_threads p) prev (estimate prev (build prev) (p_k p)) (build prev) g (estimate g (build g) (p_k p)) pose_id with
  | Ok r => exists o', odom_estimate o f = Ok (o', pose_mul (o_T _ _ _ _ o) (final_pose (T_of r))) /\
              o_T _ _ _ _ o' = pose_mul (o_T _ _ _ _ o) (final_pose (T_of r)) /\ ready p (Some prev) g (o_gicp _ _ _ _ o')
  | UB => odom_estimate o f = UB | Abort => odom_estimate o f = Abort | OutOfFuel => odom_estimate o f = OutOfFuel
  end.
Proof.
  destruct o as [st fin T]. cbn [o_gicp o_T]. intros (P & KD & (b & TB & TM & TT & TC) & SB) G.
  unfold OdomPclModel.odom_estimate. cbn [o_gicp o_T o_final]. cbn [PclModel.step bind].
  set (a := alloc st) in *. destruct (FR st) as (F1 & F2). fold a in F1, F2.
  cbn [st_tgt]. rewrite TB. unfold set_input. cbn [cache_of st_src st_mem st_tgt st_par]. rewrite (ptr_eqb_false _ _ F1).
  rewrite Nat.eqb_refl.
  set (mem := fun q => if q =? a then to_pcl f else st_mem st q).
  assert (MB : mem b = prev). { unfold mem. destruct (Nat.eqb_spec b a) as [->|]; [congruence|exact TM]. }
  assert (S : exists s, (if accepts Src (to_pcl f) then Some a else c_cloud (st_src st)) = Some s /\ mem s = g).
  { destruct G as [(-> & ->)|(-> & ->)].
    - exists a. split; auto. unfold mem. rewrite Nat.eqb_refl. reflexivity.
    - destruct SB as (s & SB & SM & _). exists s. split; auto. unfold mem. destruct (Nat.eqb_spec s a) as [->|]; [congruence|exact SM]. }
  destruct S as (s & -> & MS). change (if s =? a then to_pcl f else st_mem st s) with (mem s). rewrite MS. cbn [with_cache bind st_mem st_tgt st_par st_src].
  unfold align. cbn [c_cloud st_src st_tgt c_tree st_par st_mem]. rewrite TB, TT, P, KD.
  change (if b =? a then to_pcl f else st_mem st b) with (mem b). change (if s =? a then to_pcl f else st_mem st s) with (mem s). rewrite MB, MS.
  set (st1 := mkState _ _ _ _).
  rewrite (fill p st1 _ g s) by (auto; reflexivity). rewrite (fill p st1 (st_tgt st) prev b) by (auto; exact P).
  destruct (run_gicp _ _ prev _ _ g _ _) as [r| | |]; cbn [bind]; try reflexivity.
  eexists. split; [reflexivity|]. split; [reflexivity|]. cbn [o_gicp]. split; [reflexivity|]. split; [exact KD|]. split.
  - exists s. cbn. auto.
  - exists b. cbn. auto.
Qed.
Lemma run_chain p fs : forall before prev o, ready p (Some before) prev (o_gicp _ _ _ _ o) ->
  odom_run o fs = chain (fun t s => run_gicp (p_base p) (p_threads p) t (estimate t (build t) (p_k p)) (build t) s (estimate s (build s) (p_k p)) pose_id)
    (fun r => final_pose (T_of r)) (o_T _ _ _ _ o) prev (effective (accepts Src) before prev (map to_pcl fs)).
Proof.
  induction fs as [|f fs IH]; intros before prev o R; [reflexivity|]. cbn [OdomPclModel.odom_run map effective chain].
  pose proof (estimate_frame p (Some before) prev o f (if accepts Src (to_pcl f) then to_pcl f else before) R) as H.
  lapply H; [clear H; intros H|destruct (accepts Src (to_pcl f)); auto].
  destruct (run_gicp (p_base p) (p_threads p) prev _ _ _ _ _) as [r| | |]; cbn [bind].
  - destruct H as (o' & -> & TE & R'). cbn [bind]. rewrite (IH _ _ _ R'), TE. reflexivity.
  - rewrite H. reflexivity.
  - rewrite H. reflexivity.
  - rewrite H. reflexivity.
Qed.
Lemma new_ready mem b0 b k n : exists o, odom_new mem b0 b k n = Ok o /\ o_T _ _ _ _ o = pose_id /\ st_src (o_gicp _ _ _ _ o) = no_cache /\ st_tgt (o_gicp _ _ _ _ o) = no_cache /\
  st_par (o_gicp _ _ _ _ o) = mkParams (Z.max 1 n) (Z.max 5 k) (f64_of 1 0) GICP b.
Proof.
  eexists. split; [reflexivity|]. split; [reflexivity|]. split; [reflexivity|]. split; [reflexivity|]. cbn.
  f_equal; [destruct (Z.leb_spec n 0); lia|destruct (Z.ltb_spec k 5); lia].
Qed.
Lemma first_frame o p f : st_tgt (o_gicp _ _ _ _ o) = no_cache -> st_src (o_gicp _ _ _ _ o) = no_cache -> st_par (o_gicp _ _ _ _ o) = p -> p_kind p = GICP ->
  if accepts Tgt (to_pcl f) then exists o', odom_estimate o f = Ok (o', o_T _ _ _ _ o) /\ o_T _ _ _ _ o' = o_T _ _ _ _ o /\ ready p None (to_pcl f) (o_gicp _ _ _ _ o')
  else odom_estimate o f = UB.
Proof.
  destruct o as [st fin T]. cbn [o_gicp o_T]. intros E1 E2 P KD. unfold OdomPclModel.odom_estimate. cbn [o_gicp o_T o_final PclModel.step bind st_tgt].
  rewrite E1. cbn [c_cloud no_cache bind]. unfold set_input. cbn [cache_of st_tgt]. try rewrite E1. cbn [c_cloud no_cache ptr_eqb st_mem]. rewrite Nat.eqb_refl.
  destruct (accepts Tgt (to_pcl f)); [|reflexivity]. cbn [bind]. eexists. split; [reflexivity|]. split; [reflexivity|]. cbn [o_gicp].
  split; [exact P|]. split; [exact KD|]. split.
  - exists (alloc st). cbn. rewrite Nat.eqb_refl. auto.
  - cbn. rewrite E2. reflexivity.
Qed.
End Steps.

Lemma motion_kept r : kept_pose (T_of r) (final_pose (T_of r)).
Proof. repeat split; apply kept_stored. Qed.

(** The trajectory of any frames: the first frame is the origin; every further frame that is
    accepted is registered against the frame before, with covariances of its own; a frame that is
    not accepted is taken for the one before the last. *)
Lemma trajectory_any mem b0 b k n f0 f1 fs : fresh -> (forall c t k, length (estimate c t k) = xyz_size c) ->
  accepts Tgt (to_pcl f0) = true -> accepts Src (to_pcl f1) = true ->
  pcl_odometry mem b0 b k n (f0 :: f1 :: fs) =
    let* l := chain (register b k n) (fun r => final_pose (T_of r)) pose_id (to_pcl f0) (to_pcl f1 :: effective (accepts Src) (to_pcl f0) (to_pcl f1) (map to_pcl fs)) in Ok (pose_id :: l).
Proof.
  intros FR EL A0 A1. unfold OdomPclModel.pcl_odometry. destruct (new_ready mem b0 b k n) as (o & -> & TO & SN & TN & PN). cbn [bind OdomPclModel.odom_run].
  pose proof (first_frame o _ f0 TN SN PN eq_refl) as H. rewrite A0 in H. destruct H as (o1 & -> & T1 & R1). cbn [bind]. rewrite TO in *.
  pose proof (estimate_frame FR EL _ None (to_pcl f0) o1 f1 (to_pcl f1) R1 (or_introl (conj A1 eq_refl))) as H.
  cbn [p_base p_threads p_k] in H. cbn [chain]. unfold OdomPclSpec.register at 1.
  destruct (run_gicp b (Z.max 1 n) (to_pcl f0) _ _ _ _ _) as [r| | |]; cbn [bind]; try (rewrite H; reflexivity).
  destruct H as (o2 & -> & T2 & R2). cbn [bind]. rewrite (run_chain FR EL _ fs _ _ _ R2), T2, T1. reflexivity.
Qed.
Lemma second_refused mem b0 b k n f0 f1 fs : fresh ->
  accepts Tgt (to_pcl f0) = true -> accepts Src (to_pcl f1) = false -> pcl_odometry mem b0 b k n (f0 :: f1 :: fs) = UB.
Proof.
  intros FR A0 A1. unfold OdomPclModel.pcl_odometry. destruct (new_ready mem b0 b k n) as (o & -> & TO & SN & TN & PN). cbn [bind OdomPclModel.odom_run].
  pose proof (first_frame o _ f0 TN SN PN eq_refl) as H. rewrite A0 in H. destruct H as (o1 & -> & T1 & R1). cbn [bind].
  destruct R1 as (_ & _ & (t & TB & _) & SB). unfold OdomPclModel.odom_estimate. cbn [PclModel.step bind st_tgt]. rewrite TB.
  unfold set_input. cbn [cache_of st_src st_mem]. rewrite SB. cbn [ptr_eqb]. rewrite Nat.eqb_refl, A1. reflexivity.
Qed.
Lemma first_refused mem b0 b k n f0 fs : accepts Tgt (to_pcl f0) = false -> pcl_odometry mem b0 b k n (f0 :: fs) = UB.
Proof.
  intros A0. unfold OdomPclModel.pcl_odometry. destruct (new_ready mem b0 b k n) as (o & -> & TO & SN & TN & PN). cbn [bind OdomPclModel.odom_run].
  pose proof (first_frame o _ f0 TN SN PN eq_refl) as H. rewrite A0 in H. rewrite H. reflexivity.
Qed.
Lemma effective_all (acc : xyz_cloud -> bool) fs : Forall (fun f => acc f = true) fs -> forall a b, effective acc a b fs = fs.
Proof. induction 1 as [|f fs A _ IH]; intros a b; cbn [effective]; auto. rewrite A, IH. reflexivity. Qed.
End Odom.

(** Every cloud accepted: the first frame is the origin, every further frame is registered against
    the one before it, and the poses are the products of those motions as floats keep them. *)
Theorem C66_trajectory : forall tree cov vmap result base build estimate make_map run_gicp run_vgicp accepts T_of alloc,
  fresh tree cov vmap base alloc -> (forall c t k, length (estimate c t k) = xyz_size c) ->
  exists motion, (forall r, kept_pose (T_of r) (motion r)) /\
  forall mem b0 b k n f0 fs, accepts Tgt (to_pcl f0) = true -> Forall (fun f => accepts Src (to_pcl f) = true) fs ->
  pcl_odometry tree cov vmap result base build estimate make_map run_gicp run_vgicp accepts T_of alloc mem b0 b k n (f0 :: fs) =
    let* l := chain (register build estimate run_gicp b k n) motion pose_id (to_pcl f0) (map to_pcl fs) in Ok (pose_id :: l).
Proof.
  intros. exists (fun r => final_pose (T_of r)). split; [intros r; apply motion_kept|]. intros mem b0 b k n f0 fs A0 A. destruct fs as [|f1 fs].
  - cbn [chain map bind]. unfold pcl_odometry. destruct (new_ready tree cov vmap result base build estimate make_map run_gicp run_vgicp accepts mem b0 b k n) as (o & -> & TO & SN & TN & PN).
    cbn [bind odom_run]. pose proof (first_frame tree cov vmap result base build estimate make_map run_gicp run_vgicp accepts T_of alloc o _ f0 TN SN PN eq_refl) as F.
    rewrite A0 in F. destruct F as (o1 & -> & _). cbn [bind]. rewrite TO. reflexivity.
  - inversion A as [|x y A1 A2]; subst. rewrite trajectory_any; auto. rewrite effective_all; [reflexivity|]. apply Forall_map. exact A2.
Qed.
(** The points of a frame as the registration sees them. *)
Theorem C66_points : forall f i p, nth_error f i = Some p ->
  length (to_pcl f) = length f /\ exists q, nth_error (to_pcl f) i = Some q /\ kept4 p (cast4 (A := Snum) (B := Fnum) widen q).
Proof.
  intros f i p E. split; [apply map_length|]. exists (cast4 (A := Fnum) (B := Snum) narrow p). split; [unfold to_pcl; rewrite nth_error_map, E; reflexivity|apply kept4_stored].
Qed.
(** A frame that PCL does not accept (an empty one) is not passed over: from the third frame on the
    frame before the last one is registered once more in its place, which moves the pose back, ... *)
Theorem C66_refused_frames : forall tree cov vmap result base build estimate make_map run_gicp run_vgicp accepts T_of alloc,
  fresh tree cov vmap base alloc -> (forall c t k, length (estimate c t k) = xyz_size c) ->
  exists motion, (forall r, kept_pose (T_of r) (motion r)) /\
  forall mem b0 b k n f0 f1 fs, accepts Tgt (to_pcl f0) = true -> accepts Src (to_pcl f1) = true ->
  pcl_odometry tree cov vmap result base build estimate make_map run_gicp run_vgicp accepts T_of alloc mem b0 b k n (f0 :: f1 :: fs) =
    let* l := chain (register build estimate run_gicp b k n) motion pose_id (to_pcl f0)
                (to_pcl f1 :: effective (accepts Src) (to_pcl f0) (to_pcl f1) (map to_pcl fs)) in Ok (pose_id :: l).
Proof. intros. exists (fun r => final_pose (T_of r)). split; [intros r; apply motion_kept|]. intros. apply trajectory_any; auto. Qed.
Theorem C66_refused_refuted : forall tree cov vmap result base build estimate make_map run_gicp run_vgicp accepts T_of alloc,
  fresh tree cov vmap base alloc -> (forall c t k, length (estimate c t k) = xyz_size c) ->
  forall mem b0 b k n f0 f1 e fs, accepts Tgt (to_pcl f0) = true -> accepts Src (to_pcl f0) = true -> accepts Src (to_pcl f1) = true -> accepts Src (to_pcl e) = false ->
  let odometry := pcl_odometry tree cov vmap result base build estimate make_map run_gicp run_vgicp accepts T_of alloc mem b0 b k n in
  odometry (f0 :: f1 :: e :: fs) = odometry (f0 :: f1 :: f0 :: fs).
Proof. intros. unfold odometry. rewrite !trajectory_any by auto. cbn [map effective]. rewrite H2, H4. reflexivity. Qed.
(** ... and as the first or second frame it is undefined behaviour. *)
Theorem C66_refused_start_refuted : forall tree cov vmap result base build estimate make_map run_gicp run_vgicp accepts T_of alloc,
  fresh tree cov vmap base alloc -> forall mem b0 b k n f0 f1 fs,
  let odometry := pcl_odometry tree cov vmap result base build estimate make_map run_gicp run_vgicp accepts T_of alloc mem b0 b k n in
  (accepts Tgt (to_pcl f0) = false -> odometry (f0 :: fs) = UB) /\
  (accepts Tgt (to_pcl f0) = true -> accepts Src (to_pcl f1) = false -> odometry (f0 :: f1 :: fs) = UB).
Proof. intros. split; [apply first_refused|]. intros. apply second_refused; auto. Qed.

(** An instance: a registration that reports the difference of the sizes as a shift. *)
Definition demo_alloc (st : state (xyz_cloud) unit Z unit unit) : ptr :=
  match c_cloud (st_src st), c_cloud (st_tgt st) with
  | Some a, Some b => 1 + a + b | Some a, None => 1 + a | None, Some b => 1 + b | None, None => 0
  end.
Example C66_example_fresh : fresh unit Z unit unit demo_alloc.
Proof. intros st. unfold demo_alloc. destruct (c_cloud (st_src st)), (c_cloud (st_tgt st)); split; intros E; try discriminate; injection E; lia. Qed.
Definition demo_estimate (c : xyz_cloud) (_ : unit) (_ : Z) : list Z := repeat 0%Z (xyz_size c).
Example C66_example_estimate : forall c t k, length (demo_estimate c t k) = xyz_size c.
Proof. intros. apply repeat_length. Qed.
Definition demo_register (_ : unit) (_ : Z) (t : xyz_cloud) (_ : list Z) (_ : unit) (s : xyz_cloud) (_ : list Z) (_ : pose Ffld) : outcome Z :=
  Ok (Z.of_nat (length s) - Z.of_nat (length t))%Z.
Definition demo_T (r : Z) : pose Ffld := mkPose id3 (P3 (D := Ffld) (f64_of r 0) (f64_of 0 0) (f64_of 0 0)).
Definition demo_accepts (_ : side) (c : xyz_cloud) : bool := negb (length c =? 0).
Definition demo_odometry := pcl_odometry unit Z unit Z unit (fun _ => tt) demo_estimate (fun _ _ _ => tt) demo_register
  (fun _ _ _ _ _ _ => UB) demo_accepts demo_T demo_alloc (fun _ => []) tt tt 20 4.
Definition demo_frame (n : nat) : list (vec4 Fnum) := repeat (V4 (D := Fnum) (f64_of 1 0) (f64_of 2 0) (f64_of 3 0) (f64_of 1 0)) n.
Definition at_x (o : outcome (list (pose Ffld))) (xs : list Z) : bool :=
  match o with Ok l => (length l =? length xs) && forallb (fun c : pose Ffld * Z => f64_le (p0 (tra (fst c))) (f64_of (snd c) 0) && f64_le (f64_of (snd c) 0) (p0 (tra (fst c)))) (combine l xs) | _ => false end%bool.
Example C66_example : at_x (demo_odometry (map demo_frame [1; 3; 4; 2])) [0; 2; 3; 1]%Z = true.
Proof. vm_compute. reflexivity. Qed.
(** The empty third frame takes the pose back to the start. *)
Example C66_example_refused : at_x (demo_odometry (map demo_frame [1; 3; 0; 3])) [0; 2; 0; 2]%Z = true.
Proof. vm_compute. reflexivity. Qed.
Definition undefined (o : outcome (list (pose Ffld))) : bool := match o with UB => true | _ => false end.
Example C66_example_start : undefined (demo_odometry (map demo_frame [0; 3])) && undefined (demo_odometry (map demo_frame [3; 0])) = true.
Proof. vm_compute. reflexivity. Qed.

Print Assumptions C66_trajectory.
Print Assumptions C66_points.
Print Assumptions C66_refused_frames.
Print Assumptions C66_refused_refuted.
Print Assumptions C66_refused_start_refuted.
