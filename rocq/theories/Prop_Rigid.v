(** C74: the returned pose is a rigid motion up to rounding, however many increments it is made
    of. *)
From Coq Require Import Reals ZArith Lra Lia List.
From Flocq Require Import Core IEEE754.BinarySingleNaN.
From Verif Require Import Base Num Vec F64 RNum Lin LinSpec F64Proofs F64Err FlatRun FactorModel OptModel HelperModel LieF64Model
  RigidSpec RigidLen RigidF64 RigidQuat RigidStep RigidRun KeepF64Spec.
Import ListNotations.
Open Scope R_scope.

Section Rigid.
(** std::sin and std::cos: any functions within 2^-52 of the true values. *)
Context (fsin fcos : f64 -> f64) (AS : accurate fsin sin) (AC : accurate fcos cos).

(** One increment, of any size up to 2^100 radians per axis, on either side of the small-angle
    threshold. *)
Theorem C74_increment : forall d, tame (rv d) -> rigid_within (87 * bpow radix2 (-53)) (rot (fse3_exp fsin fcos d)).
Proof using AS AC. exact (increment_rigid fsin fcos AS AC). Qed.

(** Gauss-Newton and Levenberg-Marquardt: whatever is linearised, whatever the solver answers and
    whatever ends the run. *)
Section Optimizers.
Context (F : Type) (lin : pose Ffld -> list F -> outcome (list F * sys Ffld)) (err : pose Ffld -> list F -> outcome f64).
Context (g : general Ffld) (solve : m6 Ffld -> v6 Ffld -> v6 Ffld) (inl : F -> bool) (crit : criteria Ffld).
Theorem C74_gauss_newton : forall e lambda max_iterations T fs r log,
  0 <= e -> rigid_within e (rot T) -> drift e (Z.to_nat max_iterations) <= 1 / 100 ->
  gauss_newton lin g solve (fse3_exp fsin fcos) inl crit lambda max_iterations T fs = Ok (r, log) -> tame_run log ->
  rigid_within (drift e (Z.to_nat max_iterations)) (rot (r_T r)).
Proof using AS AC.
  intros e lambda n T fs r log E R L H W. unfold gauss_newton in H.
  destruct (gn_loop _ _ _ _ _ _ _ _ _ _) as [[[rf fsf] l]| | |] eqn:G; cbn [bind] in H; try discriminate. injection H as <- <-. cbn [set_inliers r_T fst].
  exact (gn_rigid fsin fcos AS AC F lin g solve crit lambda _ e _ (result_init T) _ _ _ _ E L R G W).
Qed.
Theorem C74_levenberg_marquardt : forall e cfg T fs r log,
  0 <= e -> rigid_within e (rot T) -> drift e (Z.to_nat (lm_max_iterations cfg)) <= 1 / 100 ->
  levenberg_marquardt lin err g solve (fse3_exp fsin fcos) inl crit cfg T fs = Ok (r, log) -> tame_run log ->
  rigid_within (drift e (Z.to_nat (lm_max_iterations cfg))) (rot (r_T r)).
Proof using AS AC.
  intros e cfg T fs r log E R L H W. unfold levenberg_marquardt in H.
  destruct (lm_loop _ _ _ _ _ _ _ _ _ _ _ _) as [[[rf fsf] l]| | |] eqn:G; cbn [bind] in H; try discriminate. injection H as <- <-. cbn [set_inliers r_T fst].
  exact (lm_rigid fsin fcos AS AC F lin err g solve crit cfg _ e _ (result_init T) _ _ _ _ _ E L R G W).
Qed.
End Optimizers.

(** align() on two point clouds, any registration type, any number of threads. *)
Theorem C74_align : forall criteria init_lambda lambda_factor solve omp_lin omp_err sample sample_omp (tree : Type) build nn_of estimate estimate_omp voxelmap
    e (s : setting Ffld) target source T r log,
  0 <= e -> rigid_within e (rot T) -> drift e (Z.to_nat (s_max_iterations s)) <= 1 / 100 ->
  align_points (D := Ffld) criteria init_lambda lambda_factor solve (fse3_exp fsin fcos) omp_lin omp_err sample sample_omp (tree := tree) build nn_of estimate estimate_omp voxelmap
    s target source T = Ok (r, log) -> tame_run log ->
  rigid_within (drift e (Z.to_nat (s_max_iterations s))) (rot (r_T r)).
Proof using AS AC.
  intros criteria init_lambda lambda_factor solve omp_lin omp_err sample sample_omp tree build nn_of estimate estimate_omp voxelmap e s target source T r log E R L H W.
  unfold align_points in H. destruct (preprocess_points _ _ _ _ _ target _ _ _) as [[c1 t1]| | |]; cbn [bind] in H; try discriminate.
  destruct (preprocess_points _ _ _ _ _ source _ _ _) as [[c2 t2]| | |]; cbn [bind] in H; try discriminate.
  assert (K : forall k reg v c nn, lm_max_iterations (reg_optimizer reg) = s_max_iterations s ->
    registration_align (D := Ffld) solve (fse3_exp fsin fcos) omp_lin omp_err k reg v c nn T = Ok (r, log) -> rigid_within (drift e (Z.to_nat (s_max_iterations s))) (rot (r_T r))).
  { intros k reg v c nn M A. unfold registration_align in A. rewrite <- M in *. exact (C74_levenberg_marquardt _ _ _ _ _ _ _ e _ _ _ _ _ E R L A W). }
  destruct (s_type s) eqn:Ty; unfold align_tree, align_voxelmap in H; rewrite ?Ty in H; try discriminate.
  - apply K in H; [exact H|reflexivity].
  - apply K in H; [exact H|reflexivity].
  - apply K in H; [exact H|reflexivity].
  - destruct (voxelmap c1 (s_voxel_resolution s)) as [[v nn]| | |]; cbn [bind] in H; try discriminate. apply K in H; [exact H|reflexivity].
Qed.
End Rigid.

(** The allowed error grows linearly: at most 129 units of rounding per increment. *)
Theorem C74_growth : forall e k, 0 <= e -> (Z.of_nat k <= 10 ^ 9)%Z -> drift e k <= e + (1 + e) * (129 * INR k * bpow radix2 (-53)).
Proof. exact drift_linear. Qed.

(** A trajectory: motions composed one after the other. *)
Definition composed (T : pose Ffld) (l : list (pose Ffld)) : pose Ffld := fold_left pose_mul l T.
Theorem C74_trajectory : forall e l T, 0 <= e -> rigid_within e (rot T) -> (forall M, In M l -> rigid_within e (rot M)) ->
  (1 + e) * ((1 + e) * (1 + 40 * bpow radix2 (-53))) ^ length l <= 101 / 100 ->
  rigid_within ((1 + e) * ((1 + e) * (1 + 40 * bpow radix2 (-53))) ^ length l - 1) (rot (composed T l)).
Proof.
  change (bpow radix2 (-53)) with u64. intros e l T E. pose proof u64_pos as U. assert (E0 : 0 <= e) by exact E.
  assert (Q : 1 <= (1 + e) * (1 + 40 * u64)) by (assert (0 <= e * u64) by (apply Rmult_le_pos; lra); lra).
  assert (G : forall d, 0 <= d -> forall T, rigid_within d (rot T) -> (forall M, In M l -> rigid_within e (rot M)) ->
    (1 + d) * ((1 + e) * (1 + 40 * u64)) ^ length l <= 101 / 100 -> rigid_within ((1 + d) * ((1 + e) * (1 + 40 * u64)) ^ length l - 1) (rot (composed T l))).
  { induction l as [|M l IH]; intros d D T0 R A L; cbn [length] in *.
    - rewrite pow_O in *. cbn [composed fold_left]. replace ((1 + d) * 1 - 1) with d by ring. exact R.
    - cbn [pow] in *. set (q := (1 + e) * (1 + 40 * u64)) in *. pose proof (pow_R1_Rle q (length l) Q) as P.
      assert (S : (1 + d) * q * 1 <= (1 + d) * q * q ^ length l) by (apply Rmult_le_compat_l; [apply Rmult_le_pos; lra|exact P]).
      assert (B : (1 + d) * (1 + e) <= 1.01).
      { apply Rle_trans with ((1 + d) * q); [|lra]. apply Rmult_le_compat_l; [lra|]. unfold q. assert (0 <= e * u64) by (apply Rmult_le_pos; lra). lra. }
      pose proof (compose_rigid d e (rot T0) (rot M) D E B R (A M (or_introl eq_refl))) as C.
      replace ((1 + d) * (1 + e) * (1 + 40 * u64)) with ((1 + d) * q) in C by (unfold q; ring).
      assert (D2 : 0 <= (1 + d) * q - 1) by (assert (1 * 1 <= (1 + d) * q) by (apply Rmult_le_compat; lra); lra).
      specialize (IH ((1 + d) * q - 1) D2 (pose_mul T0 M) C (fun N I => A N (or_intror I))).
      replace (1 + ((1 + d) * q - 1)) with ((1 + d) * q) in IH by ring. rewrite Rmult_assoc in IH. specialize (IH L). exact IH. }
  intros R A L. exact (G e E T R A L).
Qed.

(** C60's condition on the exponential map holds of this one: a zero increment is the identity. *)
Theorem C60_exponential : forall fsin fcos, zero_to_identity (fse3_exp fsin fcos).
Proof. exact exponential_of_zero. Qed.

(** ** The hypotheses can be met *)
Example C74_trigonometry : exists fsin fcos, accurate fsin sin /\ accurate fcos cos.
Proof. exists (fun x => nearest (sin (B2R x))), (fun x => nearest (cos (B2R x))). split; [exact nearest_sin|exact nearest_cos]. Qed.

Lemma identity_rigid : rigid_within 0 (rot (pose_id (D := Ffld))).
Proof.
  assert (E : real33 (rot (pose_id (D := Ffld))) = id3).
  { assert (O : B2R (f64_of 1 0) = 1) by (apply (FloorProofs.f64_of_int 1); lia).
    unfold real33, FlatSpec.real3. cbn [rot pose_id id3 diag3 r0 r1 r2 p0 p1 p2 zero3 nzero fone fbase Ffld Fnum].
    change (B2R (B754_zero false)) with 0. unfold id3, diag3. cbn [nzero fone fbase Rfld Rnum p0 p1 p2]. repeat f_equal; exact O. }
  split; [repeat split; reflexivity|]. rewrite E. split.
  - intros x. replace (mv3 id3 x) with x by (symmetry; apply LinProofs.mv3_id). rewrite Rminus_eq_0, Rabs_R0. lra.
  - assert (D : det3 (id3 (D := Rfld)) = 1) by LinProofs.lring. rewrite D. lra.
Qed.

(** The default twenty iterations from the identity: lengths are kept to one part in 10^12. *)
Example C74_default : drift 0 20 <= 1e-12 /\ drift 0 20 <= 1 / 100 /\ rigid_within 0 (rot (pose_id (D := Ffld))).
Proof.
  pose proof (C74_growth 0 20 ltac:(lra) ltac:(lia)) as G. change (bpow radix2 (-53)) with (/ IZR 9007199254740992) in G. cbn [INR] in G.
  split; [lra|]. split; [lra|exact identity_rigid].
Qed.

(** A run of two iterations that turns by half a radian or so and, once, by 2^60 radians. *)
Definition big_turn : v6 Ffld := P6 (D := Ffld) (P3 (D := Ffld) (f64_of 1 (-1)) (f64_of (-3) (-2)) (f64_of 1 60)) (P3 (D := Ffld) (f64_of 1 0) (f64_of 2 0) (f64_of (-5) 0)).
Lemma big_turn_tame : tame (rv big_turn).
Proof.
  assert (K : forall m e, (-100 <= e <= 60)%Z -> (Z.abs m <= 3)%Z -> finite (f64_of m e) -> B2R (f64_of m e) = IZR m * bpow radix2 e -> Rabs (B2R (f64_of m e)) <= bpow radix2 100).
  { intros m e He Hm _ V. rewrite V, Rabs_mult, (Rabs_pos_eq (bpow radix2 e)) by apply bpow_ge_0. rewrite <- abs_IZR.
    apply Rle_trans with (4 * bpow radix2 60); [apply Rmult_le_compat; [apply IZR_le; lia|apply bpow_ge_0|apply IZR_le; lia|apply bpow_le; lia]|].
    change 4 with (bpow radix2 2). rewrite <- bpow_plus. apply bpow_le. lia. }
  split; [repeat split; vm_compute; reflexivity|]. cbn [big_turn rv p0 p1 p2].
  split; [|split]; apply K; try lia; try (vm_compute; reflexivity); apply (f64_of_dyadic _ _); lia.
Qed.
Lemma tame_nil {F : Type} : tame_run (F := F) []. Proof. intros ev d []. Qed.
Lemma tame_stepped {F : Type} T fs s d T' (log : list (event Ffld F)) : tame (rv d) -> tame_run log -> tame_run (Linearized T fs s :: Stepped d T' :: log).
Proof. intros W L ev x [<- | [<- | I]] H; [discriminate H|injection H as <-; exact W|exact (L ev x I H)]. Qed.
Definition never : criteria Ffld := mkCriteria (D := Ffld) (f64_of (-1) 0) (f64_of (-1) 0).
Example C74_run : forall fsin fcos, accurate fsin sin -> accurate fcos cos -> exists r log,
  gauss_newton (F := nat) (fun _ fs => Ok (fs, sys_zero)) null_factor (fun _ _ => big_turn) (fse3_exp fsin fcos) (fun _ => true) never (f64_of 0 0) 2 pose_id [1; 2; 3]%nat = Ok (r, log) /\
  r_T r = pose_mul (pose_mul pose_id (fse3_exp fsin fcos big_turn)) (fse3_exp fsin fcos big_turn) /\ tame_run log /\ rigid_within (drift 0 2) (rot (r_T r)).
Proof.
  intros fsin fcos AS AC. assert (N : converged never big_turn = false) by (vm_compute; reflexivity).
  eexists. eexists. split; [|split; [|split]].
  - unfold gauss_newton. change (Z.to_nat 2) with 2%nat. cbn [gn_loop result_init r_converged bind]. rewrite N. cbn [gn_loop r_converged bind]. rewrite ?N. reflexivity.
  - reflexivity.
  - do 2 (apply tame_stepped; [exact big_turn_tame|]). apply tame_nil.
  - eapply (C74_gauss_newton fsin fcos AS AC nat (fun _ fs => Ok (fs, sys_zero)) null_factor (fun _ _ => big_turn) (fun _ => true) never 0 (f64_of 0 0) 2 pose_id [1; 2; 3]%nat);
      [lra|exact identity_rigid| | |].
    + pose proof (C74_growth 0 2 ltac:(lra) ltac:(lia)) as G. change (bpow radix2 (-53)) with (/ IZR 9007199254740992) in G. cbn [INR] in G. change (Z.to_nat 2) with 2%nat. lra.
    + unfold gauss_newton. change (Z.to_nat 2) with 2%nat. cbn [gn_loop result_init r_converged bind]. rewrite N. cbn [gn_loop r_converged bind]. rewrite ?N. reflexivity.
    + do 2 (apply tame_stepped; [exact big_turn_tame|]). apply tame_nil.
Qed.

Print Assumptions C74_increment.
Print Assumptions C74_gauss_newton.
Print Assumptions C74_levenberg_marquardt.
Print Assumptions C74_align.
Print Assumptions C74_growth.
Print Assumptions C74_trajectory.
Print Assumptions C60_exponential.
Print Assumptions C74_run.
