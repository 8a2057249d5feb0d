(** An exact alignment has a zero system; a zero system gives a zero step. *)
From Coq Require Import Reals Lra List.
From Verif Require Import Base BaseProofs Num Vec RNum Lin LinSpec LinProofs FactorModel FactorSpec FactorProofs FactorGrad FactorReal ReduceModel ReduceSpec ReduceProofs
  OptModel OptSpec LieModel StepProofs MoveSpec MoveFactor FitSpec AlignSpec Prop_Lie Prop_Factor Prop_Reduce.
Open Scope R_scope.

Lemma jtr_zero (J : jac Rfld) : jtr J zero3 = zero6.
Proof. unfold jtr. rewrite !mv3_zero. reflexivity. Qed.
Lemma gap_zero (p q : vec4 Rfld) : sq_gap p q <= 0 -> p = q.
Proof.
  destruct p as [a b c d], q as [a' b' c' d']. unfold sq_gap. cbn [vx vy vz vw]. intros H. rcar.
  pose proof (pow2_ge_0 (a - a')). pose proof (pow2_ge_0 (b - b')). pose proof (pow2_ge_0 (c - c')). pose proof (pow2_ge_0 (d - d')).
  assert (S : forall x : R, x ^ 2 = 0 -> x = 0) by (intros x E; apply Rsqr_0_uniq; unfold Rsqr; lra).
  assert (a - a' = 0) by (apply S; lra). assert (b - b' = 0) by (apply S; lra).
  assert (c - c' = 0) by (apply S; lra). assert (d - d' = 0) by (apply S; lra).
  f_equal; lra.
Qed.
Lemma gap_self (p : vec4 Rfld) : sq_gap p p = 0.
Proof. unfold sq_gap. ring. Qed.
Lemma vsub_self (p : vec4 Rfld) : vsub p p = V4 (D := Rfld) 0 0 0 0.
Proof. destruct p as [a b c d]. unfold vsub. cbn. apply V4_eq; req; ring. Qed.

(** * One factor *)
Section One.
Context (target source : cloud Rfld) (nn : vec4 Rfld -> outcome (option (N * car Rfld))) (X : exact_search (cloud_viewN target) nn).
Context (limit : R) (reject : pose Rfld -> N -> nat -> car Rfld -> bool) (RJ : rejects_beyond limit reject) (L0 : 0 <= limit).
Context (k : kind) (A : has_attributes k target source) (T : pose Rfld) (LO : lands_on target source T).
Notation lin1 := (linearize nn reject (cloud_viewN target) (cloud_view source) k).

Lemma aligned_factor si f : (si < length (cl_points source))%nat ->
  exists f' s, lin1 T si f = Ok (f', Some s) /\ sb s = zero6 /\ se s = 0.
Proof using X RJ L0 A LO.
  intros Hi. destruct (nth_error (cl_points source) si) as [p|] eqn:Ep; [|apply nth_error_None in Ep; lia].
  pose proof (LO p (nth_error_In _ _ Ep)) as Iq. apply In_nth_error in Iq. destruct Iq as (j & Ej).
  assert (Ej' : at_point (cloud_viewN target) (N.of_nat j) = Ok (pose_pt T p)).
  { cbn [cloud_viewN at_point]. rewrite Nnat.Nat2N.id. apply get_Ok. exact Ej. }
  assert (Ep' : at_point (cloud_view source) si = Ok p) by (cbn [cloud_view at_point]; apply get_Ok; exact Ep).
  assert (MX : 0 < nmaxv (n := Rnum)) by (cbn [nmaxv Rnum]; apply Flocq.Core.Raux.bpow_gt_0).
  destruct (X (pose_pt T p)) as (o & En & S). destruct o as [[ti d]|].
  2: { exfalso. specialize (S _ _ Ej'). rewrite gap_self in S. lra. }
  destruct S as ((q & Eq & MN) & Ld & q' & Eq' & ->). rewrite Eq in Eq'. injection Eq' as <-.
  specialize (MN _ _ Ej'). rewrite gap_self in MN. apply gap_zero in MN. subst q.
  assert (NR : reject T ti si (sq_gap (pose_pt T p) (pose_pt T p) : car Rfld) = false).
  { destruct (reject T ti si (sq_gap (pose_pt T p) (pose_pt T p) : car Rfld)) eqn:E; [|reflexivity].
    apply RJ in E; [|exact Ld]. rewrite gap_self in E. exfalso. lra. }
  assert (Li : (N.to_nat ti < length (cl_points target))%nat).
  { cbn [cloud_viewN at_point] in Eq. apply get_Ok in Eq. apply nth_error_Some. congruence. }
  unfold linearize. rewrite Ep'. cbn [bind]. rewrite En. cbn [bind]. rewrite NR. unfold linearize_at, residual. rewrite Eq, Ep'. cbn [bind].
  rewrite vsub_self.
  assert (Z4 : nmul (n := Rfld) fhalf (sqnorm4 (V4 (D := Rfld) 0 0 0 0)) = 0) by (rewrite <- (vsub_self (pose_pt T p)), sqnorm_gap, gap_self; apply Rmult_0_r).
  assert (ZH : head (V4 (D := Rfld) 0 0 0 0) = zero3) by reflexivity.
  destruct k; cbn [has_attributes] in A.
  - cbn [bind]. do 2 eexists. split; [reflexivity|]. cbn [sb se]. rewrite ZH, jtr_zero. split; [reflexivity|exact Z4].
  - cbn [cloud_viewN at_normal]. destruct (nth_error (cl_normals target) (N.to_nat ti)) as [n|] eqn:E.
    2: { exfalso. apply nth_error_None in E. rewrite A in E. exact (Nat.lt_irrefl _ (Nat.lt_le_trans _ _ _ Li E)). }
    apply get_Ok in E. rewrite E. cbn [bind]. do 2 eexists. split; [reflexivity|]. cbn [sb se].
    assert (V : vmul n (V4 (D := Rfld) 0 0 0 0) = V4 (D := Rfld) 0 0 0 0) by (destruct n; unfold vmul; apply V4_eq; apply Rmult_0_r).
    rewrite V, ZH, jtr_zero. split; [reflexivity|exact Z4].
  - destruct A as (A1 & A2 & _). cbn [cloud_viewN cloud_view at_cov].
    destruct (nth_error (cl_covs target) (N.to_nat ti)) as [ct|] eqn:E.
    2: { exfalso. apply nth_error_None in E. rewrite A1 in E. exact (Nat.lt_irrefl _ (Nat.lt_le_trans _ _ _ Li E)). }
    destruct (nth_error (cl_covs source) si) as [cs|] eqn:E'.
    2: { exfalso. apply nth_error_None in E'. rewrite A2 in E'. exact (Nat.lt_irrefl _ (Nat.lt_le_trans _ _ _ Hi E')). }
    apply get_Ok in E, E'. rewrite E. cbn [bind]. rewrite E'. cbn [bind]. do 2 eexists. split; [reflexivity|]. cbn [sb se].
    rewrite ZH, mv3_zero, jtr_zero. split; [reflexivity|]. unfold quad. rewrite dot3_zero_l. apply Rmult_0_r.
Qed.
End One.

(** * A reduction whose parts are all zero *)
Definition still (s : sys Rfld) : Prop := sb s = zero6 /\ se s = 0.
Lemma still_add s t : still s -> still t -> still (sys_add s t).
Proof.
  intros [A1 A2] [B1 B2]. unfold still. cbn [sys_add sb se]. rewrite A1, A2, B1, B2. split; [|cbn; req; ring].
  unfold add6, zero6. cbn [rv tv]. rewrite !add3_zero_l. reflexivity.
Qed.
Lemma still_fold l : Forall still l -> forall a, still a -> still (fold_left sys_add l a).
Proof. induction 1 as [|s l S _ IH]; intros a Ha; cbn [fold_left]; [exact Ha|]. apply IH. apply still_add; assumption. Qed.

Lemma still_system (lin1 : nat -> factor Rfld -> outcome (factor Rfld * option (sys Rfld))) fs :
  (forall i f, (i < length fs)%nat -> exists f' s, lin1 i f = Ok (f', Some s) /\ still s /\ inlier f' = true /\ sym6 (sH s) /\ psd6 (sH s)) ->
  exists fs' s, serial sys_zero sys_add lin1 fs = Ok (fs', s) /\ still s /\ length fs' = length fs /\ Forall (fun f => inlier f = true) fs' /\
    sym6 (sH s) /\ psd6 (sH s).
Proof.
  intros H. assert (AD : all_defined lin1 fs).
  { intros i f E. destruct (H i f) as (f' & s & El & _); [apply nth_error_Some; congruence|]. eauto. }
  destruct (serial_spec _ _ _ _ _ C25_sys_monoid _ AD) as (fs' & E & _). exists fs'. eexists. split; [exact E|].
  destruct (serial_fold _ _ _ _ _ _ _ _ E) as (rs & (L1 & L2 & L3) & ->). clear E.
  assert (P : forall i f', nth_error fs' i = Some f' -> inlier f' = true).
  { intros i f' E. assert (Hi : (i < length fs)%nat) by (rewrite <- L1; apply nth_error_Some; congruence).
    destruct (nth_error fs i) as [f|] eqn:Ef; [|apply nth_error_None in Ef; lia].
    destruct (L3 _ _ Ef) as (f1 & r & El & Ef1 & _). destruct (H i f Hi) as (f2 & s & El' & _ & I & _).
    rewrite El in El'. injection El' as -> ->. rewrite E in Ef1. injection Ef1 as ->. exact I. }
  assert (Q : forall i r, nth_error rs i = Some r -> exists s, r = Some s /\ still s /\ sym6 (sH s) /\ psd6 (sH s)).
  { intros i r E. assert (Hi : (i < length fs)%nat) by (rewrite <- L2; apply nth_error_Some; congruence).
    destruct (nth_error fs i) as [f|] eqn:Ef; [|apply nth_error_None in Ef; lia].
    destruct (L3 _ _ Ef) as (f1 & r' & El & _ & Er). destruct (H i f Hi) as (f2 & s & El' & St & _ & Y & Pd).
    rewrite El in El'. injection El' as -> ->. rewrite E in Er. injection Er as ->. eauto. }
  assert (AC : Forall (fun s => still s /\ sym6 (sH s) /\ psd6 (sH s)) (accepted rs)).
  { apply Forall_forall. intros s I. unfold accepted in I. apply in_flat_map in I. destruct I as (r & Ir & Is).
    apply In_nth_error in Ir. destruct Ir as (i & Er). destruct (Q _ _ Er) as (s' & -> & Y). destruct Is as [<-|[]]. exact Y. }
  split; [|split; [exact L1|split; [|]]].
  - apply still_fold; [eapply Forall_impl; [|exact AC]; intros s Y; apply Y|]. split; reflexivity.
  - apply Forall_forall. intros f' I. apply In_nth_error in I. destruct I as (i & E). eauto.
  - apply fold_sH.
    + eapply Forall_impl; [|exact AC]. intros s Y. apply Y.
    + unfold sym6, sys_zero, mzero6, tr6. cbn [sH brr brt btr btt]. assert (E : tr3 (mzero3 (D := Rfld)) = mzero3) by (clear; lring). rewrite E. reflexivity.
    + intros d. cbn [sys_zero sH]. unfold mv6, mzero6. cbn [brr brt btr btt]. rewrite !mv3_mzero, !add3_zero_l. unfold dot6. cbn [rv tv]. rewrite !dot3_zero_r. cbn. lra.
Qed.
Lemma still_errors (err1 : factor Rfld -> outcome R) fs : Forall (fun f => err1 f = Ok 0) fs ->
  serial_error (nzero (n := Rfld)) nadd err1 fs = Ok (0 : car Rfld).
Proof.
  intros H. unfold serial_error. change (nzero (n := fbase Rfld)) with (0 : car Rfld).
  induction H as [|f fs E _ IH]; cbn [foldM]; [reflexivity|]. rewrite E. cbn [bind].
  replace (nadd (n := Rfld) (0 : car Rfld) 0) with (0 : car Rfld) by (cbn; req; ring). exact IH.
Qed.
Lemma all_inliers fs : Forall (fun f : factor Rfld => inlier f = true) fs -> count_inliers inlier fs = length fs.
Proof. unfold count_inliers. induction 1 as [|f fs E _ IH]; cbn [filter length]; [reflexivity|]. rewrite E. cbn [length]. rewrite IH. reflexivity. Qed.

(** * Zero systems give zero steps *)
Section Step.
Context (solve : m6 Rfld -> v6 Rfld -> v6 Rfld) (SV : solves6 solve) (g : general Rfld) (G : library_factor g).
Context (crit : criteria Rfld) (C1 : 0 <= translation_eps crit) (C2 : 0 <= rotation_eps crit).

Lemma zero_solution T (s : sys Rfld) (lambda : R) : 0 < lambda -> still s -> sym6 (sH s) -> psd6 (sH s) ->
  solve (damped (sH (upd_sys g T s)) (lambda : car Rfld)) (opp6 (sb (upd_sys g T s))) = zero6.
Proof using SV G.
  intros L [B _] Sy P. destruct (library_system g T s G Sy P) as (-> & _ & Sy' & P'). rewrite B.
  assert (O : opp6 (zero6 (D := Rfld)) = zero6) by (unfold opp6, zero6, opp3, zero3; cbn; repeat (apply P6_eq || apply P3_eq); req; ring).
  rewrite O. apply (spd6_inj (damped (sH (upd_sys g T s)) (lambda : car Rfld))); [apply damped_spd; assumption|].
  rewrite SV; [|apply damped_sym; exact Sy'|apply damped_spd; assumption].
  unfold mv6, zero6. cbn [rv tv]. rewrite !mv3_zero, !add3_zero_l. reflexivity.
Qed.
Lemma zero_move (T : pose Rfld) : pose_mul T (se3_exp zero6) = T.
Proof using.
  clear. unfold zero6. rewrite se3_zero. apply FactorGrad.pose_mul_id.
Qed.
Lemma zero_converged : converged crit zero6 = true.
Proof using C1 C2.
  assert (Z : norm3 (zero3 (D := Rfld)) = 0) by (unfold norm3; rewrite dot3_zero_l; apply sqrt_0).
  unfold converged, zero6. cbn [rv tv]. rewrite Z.
  change (nle (n := Rfld)) with Flocq.Core.Raux.Rle_bool. rewrite !Flocq.Core.Raux.Rle_bool_true by assumption. reflexivity.
Qed.

Context (lin : pose Rfld -> list (factor Rfld) -> outcome (list (factor Rfld) * sys Rfld)) (err : pose Rfld -> list (factor Rfld) -> outcome R).
Context (T : pose Rfld) (fs fs' : list (factor Rfld)) (s : sys Rfld).
Context (EL : lin T fs = Ok (fs', s)) (St : still s) (Sy : sym6 (sH s)) (P : psd6 (sH s)) (EE : err T fs' = Ok 0).
Context (IN : Forall (fun f => inlier f = true) fs').

Lemma gn_kept (lambda : R) n : 0 < lambda -> (0 < n)%Z ->
  exists r log, gauss_newton lin g solve se3_exp inlier crit (lambda : car Rfld) n T fs = Ok (r, log) /\ kept T (length fs') r.
Proof using SV G C1 C2 EL St Sy P IN.
  clear EE err. intros L N. unfold gauss_newton. destruct (Z.to_nat n) as [|m] eqn:Em; [exfalso; lia|].
  cbn [gn_loop result_init r_converged r_T]. rewrite EL. cbn [bind]. cbv zeta.
  rewrite (zero_solution T s lambda L St Sy P), zero_move, zero_converged.
  destruct m; cbn [gn_loop r_converged bind]; do 2 eexists; (split; [reflexivity|]); cbn [fst snd set_inliers kept r_T r_converged r_iterations r_inliers r_b r_error];
    destruct (library_system g T s G Sy P) as (B1 & B2 & _); destruct St as [S1 S2]; unfold kept; cbn [r_T r_converged r_iterations r_inliers r_b r_error];
    rewrite B1, B2, (all_inliers _ IN); auto 10.
Qed.
Lemma lm_kept (c : lm_settings Rfld) : 0 < lm_init_lambda c -> (0 < lm_max_iterations c)%Z -> (0 < lm_max_inner c)%Z ->
  exists r log, levenberg_marquardt lin err g solve se3_exp inlier crit c T fs = Ok (r, log) /\ kept T (length fs') r.
Proof using SV G C1 C2 EL St Sy P EE IN.
  intros L N1 N2. unfold levenberg_marquardt. destruct (Z.to_nat (lm_max_iterations c)) as [|m] eqn:Em; [exfalso; lia|].
  cbn [lm_loop result_init r_converged r_T]. rewrite EL. cbn [bind]. cbv zeta.
  destruct (Z.to_nat (lm_max_inner c)) as [|m'] eqn:Em'; [exfalso; lia|]. cbn [lm_inner]. cbv zeta.
  rewrite (zero_solution T s _ L St Sy P), zero_move, zero_converged, EE. cbn [bind].
  destruct (library_system g T s G Sy P) as (B1 & B2 & _). destruct St as [S1 S2].
  assert (U : upd_err g T (se (upd_sys g T s)) = 0).
  { rewrite B2, S2. destruct G as [->|(lr & mask & _ & _ & ->)]; reflexivity. }
  rewrite U. change (nle (n := Rfld) (0 : car Rfld) 0) with (Flocq.Core.Raux.Rle_bool 0 0). rewrite Flocq.Core.Raux.Rle_bool_true by lra.
  cbn [bind i_step i_e i_lambda].
  destruct m; cbn [lm_loop r_converged bind]; do 2 eexists; (split; [reflexivity|]); unfold kept;
    cbn [fst snd set_inliers r_T r_converged r_iterations r_inliers r_b r_error]; rewrite B1, (all_inliers _ IN); auto 10.
Qed.
End Step.
