(** Registration does not depend on how the source is turned about its own origin. *)
From Coq Require Import Reals Lra Lia ZArith.
From Verif Require Import Base BaseProofs Num Vec RNum Lin LinSpec LinProofs FactorModel FactorSpec FactorProofs FactorReal ReduceModel ReduceSpec ReduceProofs
  OptModel OptSpec LieModel LieProofs StepProofs MoveSpec MoveProofs MoveFactor SpinSpec Prop_Factor.
Open Scope R_scope.
Implicit Types (Q A B M : m3 Rfld) (u v omega : v3 Rfld) (T : pose Rfld) (p q : vec4 Rfld) (c : m4 Rfld).

(** * Algebra *)
Lemma skew_congr Q omega : mm3 (mm3 (tr3 Q) (skew (mv3 Q omega))) Q = mscale3 (det3 Q) (skew omega).
Proof. lring. Qed.
Lemma skew_spin Q omega : rotation Q -> skew (mv3 Q omega) = conj3 Q (skew omega).
Proof.
  intros O. pose proof (skew_congr Q omega) as E. rewrite (proj2 O), mscale3_one in E. unfold conj3. rewrite <- E.
  rewrite <- !mm3_assoc, (rotation_inv _ O), mm3_id_r, mm3_assoc, (rotation_inv _ O), mm3_id_l. reflexivity.
Qed.
Lemma conj3_mm Q A B : rotation Q -> mm3 (conj3 Q A) (conj3 Q B) = conj3 Q (mm3 A B).
Proof.
  intros (O & _). unfold conj3. rewrite <- (mm3_assoc (mm3 Q A)), (mm3_assoc (tr3 Q)), (mm3_assoc (tr3 Q) Q), O, mm3_id_l.
  rewrite !mm3_assoc. reflexivity.
Qed.
Lemma conj3_madd Q A B : conj3 Q (madd3 A B) = madd3 (conj3 Q A) (conj3 Q B). Proof. unfold conj3. rewrite mm3_madd, madd_mm3. reflexivity. Qed.
Lemma conj3_mscale Q (s : car Rfld) A : conj3 Q (mscale3 s A) = mscale3 s (conj3 Q A). Proof. unfold conj3. rewrite mm3_mscale_r, mm3_mscale_l. reflexivity. Qed.
Lemma conj3_id Q : rotation Q -> conj3 Q id3 = id3. Proof. intros O. unfold conj3. rewrite mm3_id_r. apply rotation_inv. exact O. Qed.
Lemma conj3_zero Q : conj3 Q mzero3 = mzero3. Proof. unfold conj3. lring. Qed.
Lemma conj3_tr Q A : tr3 (conj3 Q A) = conj3 Q (tr3 A). Proof. unfold conj3. rewrite !tr3_mm3, tr3_tr3, mm3_assoc. reflexivity. Qed.
Lemma conj3_mv Q A v : rotation Q -> mv3 (conj3 Q A) (mv3 Q v) = mv3 Q (mv3 A v). Proof. apply mv3_conj. Qed.

Lemma mopp_mm3 A B : mopp3 (mm3 A B) = mm3 (mopp3 A) B. Proof. lring. Qed.

(** The exponential. *)
Lemma rodrigues_spin Q omega (a b : R) : rotation Q -> rodrigues (mv3 Q omega) a b = conj3 Q (rodrigues omega a b).
Proof. intros O. unfold rodrigues. rewrite skew_spin, conj3_mm, !conj3_madd, !conj3_mscale, conj3_id by exact O. reflexivity. Qed.
Lemma so3_spin Q omega : rotation Q -> to_rotation (so3_exp (mv3 Q omega)) = conj3 Q (to_rotation (so3_exp omega)).
Proof.
  intros O. unfold so3_exp. rewrite dot3_turn by exact O. destruct (Rlt_dec (dot3 omega omega) 1e-10);
    rewrite !to_rotation_rodrigues; apply rodrigues_spin; exact O.
Qed.
Lemma V_spin Q (s t : R) omega : rotation Q -> V_matrix s t (mv3 Q omega) = conj3 Q (V_matrix s t omega).
Proof.
  intros O. unfold V_matrix. rewrite skew_spin by exact O. rewrite <- conj3_mscale, <- conj3_mscale, conj3_mm, !conj3_madd, conj3_id by exact O. reflexivity.
Qed.
Lemma se3_spin Q (a : v6 Rfld) : rotation Q -> rot (se3_exp (spin6 Q a)) = conj3 Q (rot (se3_exp a)) /\ tra (se3_exp (spin6 Q a)) = mv3 Q (tra (se3_exp a)).
Proof.
  intros O. unfold se3_exp, spin6. cbn [rv tv rot tra]. split; [apply so3_spin; exact O|]. rewrite dot3_turn by exact O.
  destruct (Rlt_dec (sqrt (dot3 (rv a) (rv a))) 1e-10); [rewrite so3_spin|rewrite V_spin]; try exact O; apply conj3_mv; exact O.
Qed.
Lemma step_spin Q T (a : v6 Rfld) : rotation Q -> pose_mul (unspin Q T) (se3_exp (spin6 Q a)) = unspin Q (pose_mul T (se3_exp a)).
Proof.
  intros O. destruct (se3_spin Q a O) as (E1 & E2). unfold pose_mul, unspin. cbn [rot tra]. rewrite E1, E2. destruct O as (O & D). f_equal.
  - unfold conj3. rewrite <- !mm3_assoc, (mm3_assoc (tr3 Q) Q), O, mm3_id_l, !mm3_assoc. reflexivity.
  - rewrite mv3_mm3, <- (mv3_mm3 (tr3 Q)), O, mv3_id. reflexivity.
Qed.

(** * Linear systems *)
Lemma mv6_conj Q (H : m6 Rfld) (x : v6 Rfld) : rotation Q -> mv6 (conj6 Q H) (spin6 Q x) = spin6 Q (mv6 H x).
Proof.
  intros O. unfold mv6, conj6, spin6. cbn [brr brt btr btt rv tv]. rewrite !conj3_mv, !mv3_add by exact O. reflexivity.
Qed.
Lemma spin6_opp Q (x : v6 Rfld) : spin6 Q (opp6 x) = opp6 (spin6 Q x). Proof. unfold spin6, opp6. cbn [rv tv]. rewrite !mv3_opp. reflexivity. Qed.
Lemma damped_conj Q (H : m6 Rfld) (l : car Rfld) : rotation Q -> damped (conj6 Q H) l = conj6 Q (damped H l).
Proof.
  intros O. unfold damped, madd6, mscale6, id6, conj6. cbn [brr brt btr btt]. rewrite !conj3_madd, !conj3_mscale, conj3_id, conj3_zero by exact O. reflexivity.
Qed.
Lemma sym6_conj Q (H : m6 Rfld) : sym6 H -> sym6 (conj6 Q H).
Proof.
  intros S. unfold sym6, tr6, conj6 in *. cbn [brr brt btr btt]. rewrite !conj3_tr.
  pose proof (f_equal (@brr Rfld) S) as E1. pose proof (f_equal (@brt Rfld) S) as E2. pose proof (f_equal (@btr Rfld) S) as E3. pose proof (f_equal (@btt Rfld) S) as E4.
  cbn [brr brt btr btt] in E1, E2, E3, E4. rewrite E1, E2, E3, E4. reflexivity.
Qed.
Lemma spin6_back Q (x : v6 Rfld) : rotation Q -> exists y, x = spin6 Q y.
Proof.
  intros O. exists (spin6 (tr3 Q) x). unfold spin6. cbn [rv tv]. rewrite <- !mv3_mm3, (rotation_inv _ O), !mv3_id. destruct x; reflexivity.
Qed.
Lemma dot6_spin Q (x y : v6 Rfld) : rotation Q -> dot6 (spin6 Q x) (spin6 Q y) = dot6 x y.
Proof. intros O. unfold dot6, spin6. cbn [rv tv]. rewrite !dot3_turn by exact O. reflexivity. Qed.
Lemma spin6_zero Q : spin6 Q zero6 = zero6. Proof. unfold spin6, zero6. cbn [rv tv]. rewrite mv3_zero. reflexivity. Qed.
Lemma spd6_conj Q (H : m6 Rfld) : rotation Q -> spd6 H -> spd6 (conj6 Q H).
Proof.
  intros O P x N. destruct (spin6_back Q x O) as (y & ->). rewrite mv6_conj, dot6_spin by exact O. apply P. intros ->. apply N, spin6_zero.
Qed.
Lemma solve_spin Q solve (s : sys Rfld) (l : R) : rotation Q -> solves6 solve -> sym6 (sH s) -> psd6 (sH s) -> 0 < l ->
  solve (damped (conj6 Q (sH s)) (l : car Rfld)) (opp6 (spin6 Q (sb s))) = spin6 Q (solve (damped (sH s) (l : car Rfld)) (opp6 (sb s))).
Proof.
  intros O SV S P L. pose proof (damped_sym _ l S) as S1. pose proof (damped_spd _ l P L) as P1. rewrite damped_conj by exact O.
  apply (spd6_inj (conj6 Q (damped (sH s) (l : car Rfld)))); [apply spd6_conj; assumption|].
  rewrite SV by (try apply sym6_conj; try apply spd6_conj; assumption). rewrite mv6_conj, SV, spin6_opp by assumption. reflexivity.
Qed.
Lemma converged_spin Q crit (x : v6 Rfld) : rotation Q -> converged crit (spin6 Q x) = converged crit x.
Proof. intros O. unfold converged, norm3, spin6. cbn [rv tv]. rewrite !dot3_turn by exact O. reflexivity. Qed.
Lemma spun_add Q (a b : sys Rfld) : spun_sys Q (sys_add a b) = sys_add (spun_sys Q a) (spun_sys Q b).
Proof.
  unfold spun_sys, sys_add, conj6, madd6, spin6, add6. cbn [sH sb se brr brt btr btt rv tv]. rewrite !conj3_madd, !mv3_add. reflexivity.
Qed.
Lemma spun_zero Q : spun_sys Q sys_zero = sys_zero.
Proof. unfold spun_sys, sys_zero, conj6, mzero6. cbn [sH sb se brr brt btr btt]. rewrite conj3_zero, spin6_zero. reflexivity. Qed.
Lemma spun_scale Q (w : car Rfld) (s : sys Rfld) : spun_sys Q (scale_sys (D := Rfld) w s) = scale_sys (D := Rfld) w (spun_sys Q s).
Proof.
  unfold spun_sys, scale_sys, conj6, mscale6, spin6, scale6. cbn [sH sb se brr brt btr btt rv tv]. rewrite !conj3_mscale, !mv3_scale. reflexivity.
Qed.

(** * Optimizers *)
Section Opt.
Context (F : Type) (Q : m3 Rfld) (O : rotation Q).
Context (lin lin' : pose Rfld -> list F -> outcome (list F * sys Rfld)) (err err' : pose Rfld -> list F -> outcome (car Rfld)).
Context (g : general Rfld) (solve : m6 Rfld -> v6 Rfld -> v6 Rfld) (SV : solves6 solve) (inl : F -> bool) (crit : criteria Rfld).
Context (LIN : forall T fs fs1 s, lin T fs = Ok (fs1, s) -> lin' (unspin Q T) fs = Ok (fs1, spun_sys Q s)).
Context (PSD : forall T fs fs1 s, lin T fs = Ok (fs1, s) -> sym6 (sH (upd_sys g T s)) /\ psd6 (sH (upd_sys g T s))).
Context (ERR : forall T fs e, err T fs = Ok e -> err' (unspin Q T) fs = Ok e).
Context (GF : frame_free Q g).

Lemma gn_spin (lambda : R) n : 0 < lambda -> forall i r fs rf fsf log,
  gn_loop lin g solve se3_exp crit (lambda : car Rfld) n i r fs = Ok (rf, fsf, log) ->
  exists log', gn_loop lin' g solve se3_exp crit (lambda : car Rfld) n i (spun_result Q r) fs = Ok (spun_result Q rf, fsf, log').
Proof using O SV LIN PSD GF.
  intros L. induction n as [|n IH]; intros i r fs rf fsf log H; cbn [gn_loop] in *.
  - injection H as <- <- <-. eauto.
  - change (r_converged (spun_result Q r)) with (r_converged r). destruct (r_converged r); [injection H as <- <- <-; eauto|].
    destruct (lin (r_T r) fs) as [[fs1 s]| | |] eqn:E; cbn [bind] in H; try discriminate. cbv zeta in H.
    match type of H with context [gn_loop _ _ _ _ _ _ n (i + 1) ?rr fs1] =>
      destruct (gn_loop lin g solve se3_exp crit (lambda : car Rfld) n (i + 1) rr fs1) as [[[rf1 fsf1] lg]| | |] eqn:E1; cbn [bind] in H; try discriminate end.
    injection H as <- <- <-. destruct (PSD _ _ _ _ E) as (S & P).
    change (r_T (spun_result Q r)) with (unspin Q (r_T r)). rewrite (LIN _ _ _ _ E). cbn [bind]. cbv zeta. rewrite (proj1 GF). cbn [spun_sys sH sb se].
    rewrite solve_spin, step_spin, converged_spin by assumption.
    destruct (IH _ _ _ _ _ _ E1) as (log' & E2).
    unfold spun_result in E2 at 1. cbn [r_T r_converged r_iterations r_inliers r_H r_b r_error] in E2.
    change (r_inliers (spun_result Q r)) with (r_inliers r). rewrite E2. cbn [bind]. eauto.
Qed.
Lemma lm_inner_spin (factor : R) n : 0 < factor -> forall T fs s e (lambda : R) r log, sym6 (sH s) -> psd6 (sH s) -> 0 < lambda ->
  lm_inner err g solve se3_exp crit (factor : car Rfld) n T fs s e (lambda : car Rfld) = Ok (r, log) ->
  (0 < (i_lambda r : R)) /\
  exists log', lm_inner err' g solve se3_exp crit (factor : car Rfld) n (unspin Q T) fs (spun_sys Q s) e (lambda : car Rfld) =
    Ok (mkInner (match i_step r with Some (T', c) => Some (unspin Q T', c) | None => None end) (i_e r) (i_lambda r), log').
Proof using O SV ERR GF.
  intros FP. induction n as [|n IH]; intros T fs s e lambda r log S P L H; cbn [lm_inner] in *.
  - injection H as <- <-. cbn [i_step i_e i_lambda]. eauto.
  - cbv zeta in *. cbn [spun_sys sH sb]. rewrite solve_spin, step_spin, converged_spin by assumption.
    destruct (err (pose_mul T (se3_exp (solve (damped (sH s) (lambda : car Rfld)) (opp6 (sb s))))) fs) as [ne| | |] eqn:E; cbn [bind] in H; try discriminate.
    rewrite (ERR _ _ _ E). cbn [bind]. rewrite (proj2 GF).
    match type of H with context [if nle ?a ?b then _ else _] => destruct (nle a b) end.
    + injection H as <- <-. cbn [i_step i_e i_lambda]. split; [|eauto]. change (0 < lambda / factor). apply Rdiv_lt_0_compat; assumption.
    + match type of H with context [lm_inner err g solve se3_exp crit _ n T fs s ?e2 ?l2] =>
        destruct (lm_inner err g solve se3_exp crit (factor : car Rfld) n T fs s e2 l2) as [[r1 lg]| | |] eqn:E1; cbn [bind] in H; try discriminate end.
      injection H as <- <-. destruct (IH T fs s _ (lambda * factor) _ _ S P ltac:(apply Rmult_lt_0_compat; assumption) E1) as (L1 & log' & E2).
      split; [exact L1|]. change (nmul (n := fbase Rfld) (lambda : car Rfld) factor) with (lambda * factor : car Rfld). rewrite E2. cbn [bind]. eauto.
Qed.
Lemma lm_spin (c : lm_settings Rfld) n : 0 < lm_factor c -> forall i r (lambda : R) fs rf fsf log, 0 < lambda ->
  lm_loop lin err g solve se3_exp crit c n i r (lambda : car Rfld) fs = Ok (rf, fsf, log) ->
  exists log', lm_loop lin' err' g solve se3_exp crit c n i (spun_result Q r) (lambda : car Rfld) fs = Ok (spun_result Q rf, fsf, log').
Proof using O SV LIN PSD ERR GF.
  intros FP. induction n as [|n IH]; intros i r lambda fs rf fsf log L H; cbn [lm_loop] in *.
  - injection H as <- <- <-. eauto.
  - change (r_converged (spun_result Q r)) with (r_converged r). destruct (r_converged r); [injection H as <- <- <-; eauto|].
    destruct (lin (r_T r) fs) as [[fs1 s]| | |] eqn:E; cbn [bind] in H; try discriminate. cbv zeta in H.
    match type of H with context [lm_inner err g solve se3_exp crit ?a ?b ?c2 fs1 ?d ?e2 _] =>
      destruct (lm_inner err g solve se3_exp crit a b c2 fs1 d e2 (lambda : car Rfld)) as [[tr lg1]| | |] eqn:E1; cbn [bind] in H; try discriminate end.
    destruct (PSD _ _ _ _ E) as (S & P).
    change (r_T (spun_result Q r)) with (unspin Q (r_T r)). rewrite (LIN _ _ _ _ E). cbn [bind]. cbv zeta. rewrite (proj1 GF).
    destruct (lm_inner_spin _ _ FP _ _ _ _ _ _ _ S P L E1) as (L1 & lg1' & E1').
    change (se (spun_sys Q (upd_sys g (r_T r) s))) with (se (upd_sys g (r_T r) s)). rewrite E1'. cbn [bind i_step i_e i_lambda].
    destruct (i_step tr) as [[T1 cv]|].
    + match type of H with context [lm_loop _ _ _ _ _ _ c n ?a ?b ?d fs1] =>
          destruct (lm_loop lin err g solve se3_exp crit c n a b d fs1) as [[[x y] z]| | |] eqn:E2; cbn [bind] in H; try discriminate end.
      injection H as <- <- <-. destruct (IH _ _ _ _ _ _ _ L1 E2) as (log' & E3).
      unfold spun_result in E3 at 1. cbn [r_T r_converged r_iterations r_inliers r_H r_b r_error] in E3.
      change (r_inliers (spun_result Q r)) with (r_inliers r). cbn [spun_sys sH sb]. rewrite E3. cbn [bind]. eauto.
    + injection H as <- <- <-. eauto.
Qed.
Lemma spun_init T : spun_result Q (result_init T) = result_init (unspin Q T).
Proof using.
  unfold spun_result, result_init, conj6, mzero6. cbn [r_T r_converged r_iterations r_inliers r_H r_b r_error brr brt btr btt]. rewrite conj3_zero, spin6_zero. reflexivity.
Qed.
Lemma gauss_newton_spin (lambda : R) n T fs r log : 0 < lambda ->
  gauss_newton lin g solve se3_exp inl crit (lambda : car Rfld) n T fs = Ok (r, log) ->
  exists log', gauss_newton lin' g solve se3_exp inl crit (lambda : car Rfld) n (unspin Q T) fs = Ok (spun_result Q r, log').
Proof using O SV LIN PSD GF.
  unfold gauss_newton. intros L H.
  destruct (gn_loop lin g solve se3_exp crit (lambda : car Rfld) (Z.to_nat n) 0 (result_init T) fs) as [[[rf fsf] lg]| | |] eqn:E; cbn [bind] in H; try discriminate.
  injection H as <- <-. destruct (gn_spin _ _ L _ _ _ _ _ _ E) as (log' & E'). rewrite spun_init in E'. rewrite E'. cbn [bind fst snd]. eauto.
Qed.
Lemma levenberg_spin (c : lm_settings Rfld) T fs r log : 0 < lm_init_lambda c -> 0 < lm_factor c ->
  levenberg_marquardt lin err g solve se3_exp inl crit c T fs = Ok (r, log) ->
  exists log', levenberg_marquardt lin' err' g solve se3_exp inl crit c (unspin Q T) fs = Ok (spun_result Q r, log').
Proof using O SV LIN PSD ERR GF.
  unfold levenberg_marquardt. intros L FP H.
  match type of H with context [lm_loop lin err g solve se3_exp crit ?a ?b ?c2 ?d ?e ?f] =>
    destruct (lm_loop lin err g solve se3_exp crit a b c2 d e f) as [[[rf fsf] lg]| | |] eqn:E; cbn [bind] in H; try discriminate end.
  injection H as <- <-. destruct (lm_spin _ _ FP _ _ _ _ _ _ _ L E) as (log' & E'). rewrite spun_init in E'. rewrite E'. cbn [bind fst snd]. eauto.
Qed.
End Opt.

(** * Reductions *)
Section Reduce.
Context (F : Type) (Q : m3 Rfld) (lin lin' : nat -> F -> outcome (F * option (sys Rfld))).
Context (LIN : forall i f f1 r, lin i f = Ok (f1, r) -> lin' i f = Ok (f1, match r with Some s => Some (spun_sys Q s) | None => None end)).
Lemma visits_spin l : forall fs acc fs1 acc1, foldM (fun st i => visit sys_add lin i st) l (fs, acc) = Ok (fs1, acc1) ->
  foldM (fun st i => visit sys_add lin' i st) l (fs, spun_sys Q acc) = Ok (fs1, spun_sys Q acc1).
Proof using LIN.
  induction l as [|i l IH]; intros fs acc fs1 acc1 H; cbn [foldM] in *; [injection H as <- <-; eauto|].
  unfold visit at 1 in H. unfold visit at 1.
  destruct (get fs i) as [f| | |] eqn:Eg; cbn [bind] in H; try discriminate. cbn [bind].
  destruct (lin i f) as [[f1 r]| | |] eqn:El; cbn [bind] in H; try discriminate. rewrite (LIN _ _ _ _ El). cbn [bind].
  destruct (set fs i f1) as [fs2| | |] eqn:Es; cbn [bind] in H; try discriminate. cbn [bind].
  destruct r as [s|]; [rewrite <- spun_add|]; exact (IH _ _ _ _ H).
Qed.
Lemma serial_spin fs fs1 acc : serial sys_zero sys_add lin fs = Ok (fs1, acc) -> serial sys_zero sys_add lin' fs = Ok (fs1, spun_sys Q acc).
Proof using LIN. unfold serial. intros H. rewrite <- (spun_zero Q). exact (visits_spin _ _ _ _ _ H). Qed.
End Reduce.

(** * Factors *)
Section Factors.
Context (Q : m3 Rfld) (O : rotation Q).
Context (target : view Rfld N) (source source' : view Rfld nat) (MV : moved_view (spin Q) source source').
Context (nn : vec4 Rfld -> outcome (option (N * car Rfld))).
Context (reject : pose Rfld -> N -> nat -> car Rfld -> bool) (RJ : forall T ti si d, reject (unspin Q T) ti si d = reject T ti si d).
Context (k : kind).

Lemma unspin_spin T : pose_mul (unspin Q T) (spin Q) = T.
Proof using O.
  destruct O as (E & _), T as [A t]. unfold pose_mul, unspin, spin. cbn [rot tra]. rewrite <- mm3_assoc, E, mm3_id_r, mv3_zero, add3_zero_l. reflexivity.
Qed.
Lemma point_spin T p : pose_pt (unspin Q T) (pose_pt (spin Q) p) = pose_pt T p.
Proof using O. rewrite <- pose_pt_mul, unspin_spin. reflexivity. Qed.
Lemma head_spin p : head (pose_pt (spin Q) p) = mv3 Q (head p).
Proof using.
  rewrite head_pose_pt. cbn [spin rot tra]. generalize (mv3 Q (head p)) (vw p). clear. lring.
Qed.
Lemma point_jac_spin T p : point_jac (unspin Q T) (pose_pt (spin Q) p) = Jac (mm3 (jr (point_jac T p)) (tr3 Q)) (mm3 (jt (point_jac T p)) (tr3 Q)).
Proof using O.
  unfold point_jac. rewrite head_spin, skew_spin by exact O. cbn [unspin rot jr jt]. apply Jac_eq.
  - unfold conj3. rewrite <- !mm3_assoc, (mm3_assoc (tr3 Q) Q), (proj1 O), mm3_id_l. reflexivity.
  - apply mopp_mm3.
Qed.
Lemma plane_jac_spin T (n p : vec4 Rfld) : plane_jac (unspin Q T) n (pose_pt (spin Q) p) = Jac (mm3 (jr (plane_jac T n p)) (tr3 Q)) (mm3 (jt (plane_jac T n p)) (tr3 Q)).
Proof using O.
  unfold plane_jac. rewrite head_spin, skew_spin by exact O. cbn [unspin rot jr jt]. apply Jac_eq.
  - unfold conj3. rewrite <- !mm3_assoc, (mm3_assoc (tr3 Q) Q), (proj1 O), mm3_id_l. reflexivity.
  - rewrite mopp_mm3, mm3_assoc. reflexivity.
Qed.
Lemma congr_aux A M B : mm3 (mm3 (tr3 (mm3 A (tr3 Q))) M) (mm3 B (tr3 Q)) = conj3 Q (mm3 (mm3 (tr3 A) M) B).
Proof using. clear. unfold conj3. rewrite tr3_mm3, tr3_tr3, <- !mm3_assoc. reflexivity. Qed.
Lemma jwj_spin (J : jac Rfld) M : jwj (Jac (mm3 (jr J) (tr3 Q)) (mm3 (jt J) (tr3 Q))) M = conj6 Q (jwj J M).
Proof using. clear. unfold jwj, conj6. cbn [jr jt brr brt btr btt]. rewrite !congr_aux. reflexivity. Qed.
Lemma jtj_spin (J : jac Rfld) : jtj (Jac (mm3 (jr J) (tr3 Q)) (mm3 (jt J) (tr3 Q))) = conj6 Q (jtj J).
Proof using. clear. rewrite !jtj_jwj. apply jwj_spin. Qed.
Lemma jtr_spin (J : jac Rfld) v : jtr (Jac (mm3 (jr J) (tr3 Q)) (mm3 (jt J) (tr3 Q))) v = spin6 Q (jtr J v).
Proof using. clear. unfold jtr, spin6. cbn [jr jt rv tv]. rewrite !tr3_mm3, !tr3_tr3, !mv3_mm3. reflexivity. Qed.
Lemma mm4_assoc (a b c : m4 Rfld) : mm4 a (mm4 b c) = mm4 (mm4 a b) c. Proof using. clear. lring. Qed.
Lemma tr4_mm4 (a b : m4 Rfld) : tr4 (mm4 a b) = mm4 (tr4 b) (tr4 a). Proof using. clear. lring. Qed.
Lemma pose_mat_mul (a b : pose Rfld) : pose_mat (pose_mul a b) = mm4 (pose_mat a) (pose_mat b). Proof using. clear. unfold pose_mat. lring. Qed.
Lemma maha_spin T ct cs : maha_of (unspin Q T) ct (moved_cov (spin Q) cs) = maha_of T ct cs.
Proof using O.
  unfold maha_of, fused_cov, moved_cov. f_equal. f_equal. f_equal.
  pattern T at 3 4. rewrite <- (unspin_spin T). rewrite pose_mat_mul, tr4_mm4, !mm4_assoc. reflexivity.
Qed.
Lemma residual_spin T ti si : residual target source' (unspin Q T) ti si = residual target source T ti si.
Proof using O MV.
  unfold residual. destruct (at_point target ti); cbn [bind]; auto. destruct (MV si) as (-> & _). destruct (at_point source si); cbn [bind]; auto.
  rewrite point_spin. reflexivity.
Qed.
Lemma linearize_at_spin T ti si f f1 s : linearize_at target source k T ti si f = Ok (f1, s) ->
  linearize_at target source' k (unspin Q T) ti si f = Ok (f1, spun_sys Q s).
Proof using O MV.
  intros H. unfold linearize_at in *. rewrite residual_spin. destruct (residual target source T ti si) as [r| | |]; cbn [bind] in *; try discriminate.
  destruct (MV si) as (-> & _ & MC). destruct (at_point source si) as [p| | |]; cbn [bind] in *; try discriminate.
  destruct k.
  - injection H as <- <-. rewrite point_jac_spin, jtj_spin, jtr_spin. reflexivity.
  - destruct (at_normal target ti) as [n| | |]; cbn [bind] in *; try discriminate. cbv zeta in *. injection H as <- <-.
    rewrite plane_jac_spin, jtj_spin, jtr_spin. reflexivity.
  - destruct (at_cov target ti) as [ct| | |]; cbn [bind] in *; try discriminate. rewrite MC.
    destruct (at_cov source si) as [cs| | |]; cbn [bind] in *; try discriminate. cbv zeta in *. injection H as <- <-.
    rewrite maha_spin, point_jac_spin, jwj_spin, jtr_spin. reflexivity.
Qed.
Lemma linearize_spin T si f f1 r : linearize nn reject target source k T si f = Ok (f1, r) ->
  linearize nn reject target source' k (unspin Q T) si f = Ok (f1, match r with Some s => Some (spun_sys Q s) | None => None end).
Proof using O MV RJ.
  intros H. unfold linearize in *. destruct (MV si) as (-> & _). destruct (at_point source si) as [p| | |]; cbn [bind] in *; try discriminate.
  rewrite point_spin. destruct (nn (pose_pt T p)) as [[[ti d]|]| | |]; cbn [bind] in *; try discriminate.
  - rewrite RJ. destruct (reject T ti si d); [injection H as <- <-; reflexivity|].
    destruct (linearize_at target source k T ti si f) as [[f2 s]| | |] eqn:E; cbn [bind] in H; try discriminate. injection H as <- <-.
    rewrite (linearize_at_spin _ _ _ _ _ _ E). reflexivity.
  - injection H as <- <-. reflexivity.
Qed.
Lemma error_spin T f : error target source' k (unspin Q T) f = error target source k T f.
Proof using O MV. unfold error. destruct (f_target f); auto. rewrite residual_spin. reflexivity. Qed.
Lemma linearize_robust_spin weight T si f f1 r : linearize_robust nn reject target source weight k T si f = Ok (f1, r) ->
  linearize_robust nn reject target source' weight k (unspin Q T) si f = Ok (f1, match r with Some s => Some (spun_sys Q s) | None => None end).
Proof using O MV RJ.
  intros H. unfold linearize_robust in *. destruct (linearize nn reject target source k T si f) as [[f2 s]| | |] eqn:E; cbn [bind] in H; try discriminate.
  rewrite (linearize_spin _ _ _ _ _ E). cbn [bind]. destruct s as [s|]; injection H as <- <-; [|reflexivity]. cbn [bind]. rewrite spun_scale. reflexivity.
Qed.
Lemma error_robust_spin weight T f : error_robust target source' weight k (unspin Q T) f = error_robust target source weight k T f.
Proof using O MV. unfold error_robust. rewrite error_spin. reflexivity. Qed.
End Factors.
