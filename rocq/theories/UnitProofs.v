(** Registration in another unit of length. *)
From Coq Require Import Reals Lra Psatz Lia ZArith.
From Verif Require Import Base BaseProofs Num Vec RNum Lin LinSpec LinProofs FactorModel FactorSpec FactorProofs FactorReal ReduceModel ReduceSpec ReduceProofs
  OptModel OptSpec LieModel LieProofs StepProofs MoveSpec MoveFactor UnitSpec.
Open Scope R_scope.
Implicit Types (s : R) (A B M : m3 Rfld) (u v : v3 Rfld) (T U : pose Rfld) (p q : vec4 Rfld).

(** * Algebra *)
Lemma scale3_scale (a b : car Rfld) v : scale3 a (scale3 b v) = scale3 (a * b : car Rfld) v. Proof. lring. Qed.
Lemma scale3_add (a : car Rfld) u v : scale3 a (add3 u v) = add3 (scale3 a u) (scale3 a v). Proof. lring. Qed.
Lemma scale3_opp (a : car Rfld) u : scale3 a (opp3 u) = opp3 (scale3 a u). Proof. lring. Qed.
Lemma mscale_madd (a : car Rfld) A B : mscale3 a (madd3 A B) = madd3 (mscale3 a A) (mscale3 a B). Proof. lring. Qed.
Lemma mscale_zero (a : car Rfld) : mscale3 a (mzero3 (D := Rfld)) = mzero3. Proof. lring. Qed.
Lemma scale3_zero (a : car Rfld) : scale3 a (zero3 (D := Rfld)) = zero3. Proof. lring. Qed.
Lemma grow_mul s T U : pose_mul (grow s T) (grow s U) = grow s (pose_mul T U).
Proof. unfold pose_mul, grow. cbn [rot tra]. rewrite mv3_scale, scale3_add. reflexivity. Qed.
Lemma se3_grow s (a : v6 Rfld) : se3_exp (grow6 s a) = grow s (se3_exp a).
Proof. unfold se3_exp, grow6, grow. cbn [rv tv rot tra]. destruct (Rlt_dec _ _); rewrite mv3_scale; reflexivity. Qed.
Lemma step_grow s T (a : v6 Rfld) : pose_mul (grow s T) (se3_exp (grow6 s a)) = grow s (pose_mul T (se3_exp a)).
Proof. rewrite se3_grow, grow_mul. reflexivity. Qed.
Lemma point_aux (s w : car Rfld) A (h t : v3 Rfld) : add3 (mv3 A (scale3 s h)) (scale3 w (scale3 s t)) = scale3 s (add3 (mv3 A h) (scale3 w t)).
Proof. lring. Qed.
Lemma head_grow s p : head (grow_pt s p) = scale3 (s : car Rfld) (head p). Proof. reflexivity. Qed.
Lemma vec4_heads p q : head p = head q -> vw p = vw q -> p = q.
Proof. destruct p as [a b c d], q as [a2 b2 c2 d2]. unfold head. cbn [vx vy vz vw]. intros H ->. injection H as -> -> ->. reflexivity. Qed.
Lemma point_grow s T p : pose_pt (grow s T) (grow_pt s p) = grow_pt s (pose_pt T p).
Proof.
  apply vec4_heads; [|reflexivity]. rewrite head_pose_pt, !head_grow, head_pose_pt. cbn [grow rot tra grow_pt vw]. apply point_aux.
Qed.
Lemma gap_grow s p q : vw p = vw q -> sq_gap (grow_pt s p) (grow_pt s q) = s * s * sq_gap p q.
Proof. intros E. unfold sq_gap, grow_pt. cbn [vx vy vz vw]. rewrite E. ring. Qed.

(** * Linear systems *)
Lemma mv6_grow s (H : m6 Rfld) (x : v6 Rfld) : mv6 (grown_H s H) (grow6 s x) = grown_b s (mv6 H x).
Proof.
  unfold mv6, grown_H, grow6, grown_b. cbn [brr brt btr btt rv tv]. rewrite !mv3_mscale, !mv3_scale, !scale3_scale, !scale3_add. reflexivity.
Qed.
Lemma grown_b_opp s (x : v6 Rfld) : grown_b s (opp6 x) = opp6 (grown_b s x).
Proof. unfold grown_b, opp6. cbn [rv tv]. rewrite !scale3_opp. reflexivity. Qed.
Lemma sym6_grow s (H : m6 Rfld) : sym6 H -> sym6 (grown_H s H).
Proof.
  intros S. unfold sym6, tr6, grown_H in *. cbn [brr brt btr btt].
  pose proof (f_equal (@brr Rfld) S) as E1. pose proof (f_equal (@brt Rfld) S) as E2. pose proof (f_equal (@btr Rfld) S) as E3. pose proof (f_equal (@btt Rfld) S) as E4.
  cbn [brr brt btr btt] in E1, E2, E3, E4. rewrite !tr3_mscale, E1, E2, E3, E4. reflexivity.
Qed.
Lemma quad_aux s (x y : v3 Rfld) (a b : v3 Rfld) :
  dot3 (scale3 (/ s : car Rfld) x) (scale3 (s * s : car Rfld) a) + dot3 y (scale3 (s : car Rfld) b) =
  (/ s * (s * s)) * dot3 x a + s * dot3 y b.
Proof. revert s x y a b. lcbn. cbn. ring. Qed.
Lemma spd6_grow s (H : m6 Rfld) : 0 < s -> spd6 H -> spd6 (grown_H s H).
Proof.
  intros P D x N.
  set (y := P6 (rv x) (scale3 (/ s : car Rfld) (tv x))).
  assert (E : x = grow6 s y).
  { unfold y, grow6. cbn [rv tv]. rewrite scale3_scale. change (car (fbase Rfld)) with R. rewrite Rinv_r by lra. destruct x as [a b]. cbn [rv tv]. f_equal. clear. lring. }
  assert (Ny : y <> zero6).
  { intros Z. apply N. rewrite E, Z. unfold grow6, zero6. cbn [rv tv]. rewrite scale3_zero. reflexivity. }
  specialize (D y Ny). rewrite E, mv6_grow. clearbody y. clear E N Ny x.
  assert (Q : dot6 (grow6 s y) (grown_b s (mv6 H y)) = s * s * dot6 y (mv6 H y)).
  { generalize (mv6 H y). intros z. unfold dot6, grow6, grown_b. cbn [rv tv]. rewrite !dot3_scale_l, !dot3_scale_r. cbn. change (car (fbase Rfld)) with R. ring. }
  rewrite Q. apply Rmult_lt_0_compat; [nra|exact D].
Qed.
Lemma damped_none (H : m6 Rfld) : damped H (0 : car Rfld) = H.
Proof. unfold damped, madd6, mscale6, id6. destruct H as [a b c d]. cbn [brr brt btr btt]. f_equal; clear; lring. Qed.
Lemma solve_grow s solve (x : sys Rfld) : 0 < s -> solves6 solve -> sym6 (sH x) -> spd6 (sH x) ->
  solve (damped (grown_H s (sH x)) (0 : car Rfld)) (opp6 (grown_b s (sb x))) = grow6 s (solve (damped (sH x) (0 : car Rfld)) (opp6 (sb x))).
Proof.
  intros P SV S D. rewrite !damped_none. apply (spd6_inj (grown_H s (sH x))); [apply spd6_grow; assumption|].
  rewrite SV by (try apply sym6_grow; try apply spd6_grow; assumption). rewrite mv6_grow, SV, grown_b_opp by assumption. reflexivity.
Qed.
Lemma norm_grow s v : 0 < s -> norm3 (scale3 (s : car Rfld) v) = s * norm3 v.
Proof.
  intros P. unfold norm3. rewrite dot3_scale_l, dot3_scale_r. change (sqrt (s * (s * dot3 v v)) = s * sqrt (dot3 v v)).
  rewrite <- Rmult_assoc, sqrt_mult_alt, sqrt_square by nra. reflexivity.
Qed.
Lemma nle_grow s (a b : R) : 0 < s -> nle (n := Rnum) (s * a) (s * b) = nle (n := Rnum) a b.
Proof.
  intros P. cbn [nle Rnum]. destruct (Raux.Rle_bool_spec a b) as [L|L]; [apply Raux.Rle_bool_true|apply Raux.Rle_bool_false]; nra.
Qed.
Lemma converged_grow s crit (x : v6 Rfld) : 0 < s -> converged (grown_criteria s crit) (grow6 s x) = converged crit x.
Proof.
  intros P. unfold converged, grown_criteria, grow6. cbn [rv tv translation_eps rotation_eps]. rewrite norm_grow by exact P. f_equal.
  exact (nle_grow s (norm3 (tv x)) (translation_eps crit) P).
Qed.
Lemma grown_add s (a b : sys Rfld) : grown_sys s (sys_add a b) = sys_add (grown_sys s a) (grown_sys s b).
Proof.
  unfold grown_sys, sys_add, grown_H, grown_b, madd6, add6. cbn [sH sb se brr brt btr btt rv tv]. rewrite !mscale_madd, !scale3_add. f_equal. cbn. change (car (fbase Rfld)) with R. ring.
Qed.
Lemma grown_zero s : grown_sys s sys_zero = sys_zero.
Proof. unfold grown_sys, sys_zero, grown_H, grown_b, mzero6, zero6. cbn [sH sb se brr brt btr btt rv tv]. rewrite !mscale_zero, !scale3_zero. f_equal. cbn. change (car (fbase Rfld)) with R. ring. Qed.
Lemma mscale_comm (a b : car Rfld) A : mscale3 a (mscale3 b A) = mscale3 b (mscale3 a A). Proof. lring. Qed.
Lemma scale_comm (a b : car Rfld) u : scale3 a (scale3 b u) = scale3 b (scale3 a u). Proof. lring. Qed.
Lemma grown_scale s (w : car Rfld) (x : sys Rfld) : grown_sys s (scale_sys (D := Rfld) w x) = scale_sys (D := Rfld) w (grown_sys s x).
Proof.
  unfold grown_sys, scale_sys, grown_H, grown_b, mscale6, scale6. cbn [sH sb se brr brt btr btt rv tv].
  rewrite !(mscale_comm w), !(scale_comm w). f_equal. cbn. change (car (fbase Rfld)) with R in *. ring.
Qed.

(** * Optimizers *)
Section Opt.
Context (F : Type) (s : R) (P : 0 < s).
Context (lin lin' : pose Rfld -> list F -> outcome (list F * sys Rfld)) (err err' : pose Rfld -> list F -> outcome (car Rfld)).
Context (g g' : general Rfld) (solve : m6 Rfld -> v6 Rfld -> v6 Rfld) (SV : solves6 solve) (inl : F -> bool) (crit : criteria Rfld).
Context (sees : pose Rfld -> Prop).
Context (LIN : forall T fs fs1 x, sees T -> lin T fs = Ok (fs1, x) -> lin' (grow s T) fs = Ok (fs1, grown_sys s x)).
Context (SYM : forall T fs fs1 x, lin T fs = Ok (fs1, x) -> sym6 (sH (upd_sys g T x))).
Context (ERR : forall T fs (e : R), err T fs = Ok (e : car Rfld) -> err' (grow s T) fs = Ok (s * s * e : car Rfld)).
Context (GF : same_general s g g').
Definition seen (log : list (event Rfld F)) : Prop := forall T fs x, In (Linearized T fs x) log -> sees T.

Lemma gn_grow n : forall i r fs rf fsf log,
  gn_loop lin g solve se3_exp crit (0 : car Rfld) n i r fs = Ok (rf, fsf, log) -> well_posed log -> seen log ->
  exists log', gn_loop lin' g' solve se3_exp (grown_criteria s crit) (0 : car Rfld) n i (grown_result s r) fs = Ok (grown_result s rf, fsf, log').
Proof using P SV LIN SYM GF.
  induction n as [|n IH]; intros i r fs rf fsf log H WP SE; cbn [gn_loop] in *.
  - injection H as <- <- <-. eauto.
  - change (r_converged (grown_result s r)) with (r_converged r). destruct (r_converged r); [injection H as <- <- <-; eauto|].
    destruct (lin (r_T r) fs) as [[fs1 x]| | |] eqn:E; cbn [bind] in H; try discriminate. cbv zeta in H.
    match type of H with context [gn_loop _ _ _ _ _ _ n (i + 1) ?rr fs1] =>
      destruct (gn_loop lin g solve se3_exp crit (0 : car Rfld) n (i + 1) rr fs1) as [[[rf1 fsf1] lg]| | |] eqn:E1; cbn [bind] in H; try discriminate end.
    injection H as <- <- <-. pose proof (SYM _ _ _ _ E) as S. pose proof (WP _ _ _ (or_introl eq_refl)) as D. pose proof (SE _ _ _ (or_introl eq_refl)) as V.
    change (r_T (grown_result s r)) with (grow s (r_T r)). rewrite (LIN _ _ _ _ V E). cbn [bind]. cbv zeta. rewrite (proj1 GF). cbn [grown_sys sH sb se].
    rewrite solve_grow, step_grow, converged_grow by assumption.
    destruct (IH _ _ _ _ _ _ E1) as (log' & E2).
    { intros T0 fs0 x0 I. eapply WP. right. right. exact I. }
    { intros T0 fs0 x0 I. eapply SE. right. right. exact I. }
    unfold grown_result in E2 at 1. cbn [r_T r_converged r_iterations r_inliers r_H r_b r_error] in E2.
    change (r_inliers (grown_result s r)) with (r_inliers r). rewrite E2. cbn [bind]. eauto.
Qed.
Lemma lm_inner_grow (factor : R) n : forall T fs x (e : R) r log, sym6 (sH x) -> spd6 (sH x) ->
  lm_inner err g solve se3_exp crit (factor : car Rfld) n T fs x (e : car Rfld) (0 : car Rfld) = Ok (r, log) ->
  i_lambda r = (0 : car Rfld) /\
  exists log', lm_inner err' g' solve se3_exp (grown_criteria s crit) (factor : car Rfld) n (grow s T) fs (grown_sys s x) (s * s * e : car Rfld) (0 : car Rfld) =
    Ok (mkInner (match i_step r with Some (T', c) => Some (grow s T', c) | None => None end) (s * s * i_e r : car Rfld) (i_lambda r), log').
Proof using P SV ERR GF.
  induction n as [|n IH]; intros T fs x e r log S D H; cbn [lm_inner] in *.
  - injection H as <- <-. cbn [i_step i_e i_lambda]. eauto.
  - cbv zeta in *. cbn [grown_sys sH sb]. rewrite solve_grow, step_grow, converged_grow by assumption.
    destruct (err (pose_mul T (se3_exp (solve (damped (sH x) (0 : car Rfld)) (opp6 (sb x))))) fs) as [ne| | |] eqn:E; cbn [bind] in H; try discriminate.
    rewrite (ERR _ _ _ E). cbn [bind]. rewrite (proj2 GF).
    match type of H with context [if nle ?a ?b then _ else _] => 
      pose proof (nle_grow (s * s) a b ltac:(apply Rmult_lt_0_compat; assumption) : nle (n := fbase Rfld) (s * s * a : car Rfld) (s * s * b : car Rfld) = nle (n := fbase Rfld) a b) as EN;
      rewrite EN;
      destruct (nle a b) end.
    + injection H as <- <-. cbn [i_step i_e i_lambda]. split; [|eauto]. cbn. change (car (fbase Rfld)) with R. unfold Rdiv. apply Rmult_0_l.
    + match type of H with context [lm_inner err g solve se3_exp crit _ n T fs x ?e2 ?l2] =>
        assert (EL : l2 = (0 : car Rfld)) by (cbn; change (car (fbase Rfld)) with R; apply Rmult_0_l); rewrite EL in *;
        destruct (lm_inner err g solve se3_exp crit (factor : car Rfld) n T fs x e2 (0 : car Rfld)) as [[r1 lg]| | |] eqn:E1; cbn [bind] in H; try discriminate end.
      injection H as <- <-. destruct (IH T fs x _ _ _ S D E1) as (L1 & log' & E2).
      split; [exact L1|]. rewrite E2. cbn [bind]. eauto.
Qed.
Lemma lm_grow (c : lm_settings Rfld) n : forall i r fs rf fsf log,
  lm_loop lin err g solve se3_exp crit c n i r (0 : car Rfld) fs = Ok (rf, fsf, log) -> well_posed log -> seen log ->
  exists log', lm_loop lin' err' g' solve se3_exp (grown_criteria s crit) c n i (grown_result s r) (0 : car Rfld) fs = Ok (grown_result s rf, fsf, log').
Proof using P SV LIN SYM ERR GF.
  induction n as [|n IH]; intros i r fs rf fsf log H WP SE; cbn [lm_loop] in *.
  - injection H as <- <- <-. eauto.
  - change (r_converged (grown_result s r)) with (r_converged r). destruct (r_converged r); [injection H as <- <- <-; eauto|].
    destruct (lin (r_T r) fs) as [[fs1 x]| | |] eqn:E; cbn [bind] in H; try discriminate. cbv zeta in H.
    match type of H with context [lm_inner err g solve se3_exp crit ?a ?b ?c2 fs1 ?d ?e2 _] =>
      destruct (lm_inner err g solve se3_exp crit a b c2 fs1 d e2 (0 : car Rfld)) as [[tr lg1]| | |] eqn:E1; cbn [bind] in H; try discriminate end.
    assert (I0 : In (Linearized (r_T r) fs1 (upd_sys g (r_T r) x)) log).
    { destruct (i_step tr) as [[T1 cv]|].
      - match type of H with context [lm_loop _ _ _ _ _ _ c n ?a ?b ?d fs1] =>
          destruct (lm_loop lin err g solve se3_exp crit c n a b d fs1) as [[[x1 y] z]| | |]; cbn [bind] in H; try discriminate end.
        injection H as _ _ <-. left. reflexivity.
      - injection H as _ _ <-. left. reflexivity. }
    pose proof (SYM _ _ _ _ E) as S. pose proof (WP _ _ _ I0) as D. pose proof (SE _ _ _ I0) as V.
    change (r_T (grown_result s r)) with (grow s (r_T r)). rewrite (LIN _ _ _ _ V E). cbn [bind]. cbv zeta. rewrite (proj1 GF).
    destruct (lm_inner_grow _ _ _ _ _ _ _ _ S D E1) as (L1 & lg1' & E1').
    change (se (grown_sys s (upd_sys g (r_T r) x))) with (s * s * se (upd_sys g (r_T r) x) : car Rfld). rewrite E1'. cbn [bind i_step i_e i_lambda].
    destruct (i_step tr) as [[T1 cv]|].
    + rewrite L1 in *.
      match type of H with context [lm_loop _ _ _ _ _ _ c n ?a ?b ?d fs1] =>
          destruct (lm_loop lin err g solve se3_exp crit c n a b d fs1) as [[[x1 y] z]| | |] eqn:E2; cbn [bind] in H; try discriminate end.
      injection H as <- <- <-. destruct (IH _ _ _ _ _ _ E2) as (log' & E3).
      { intros T0 fs0 x0 I. eapply WP. right. apply in_or_app. right. exact I. }
      { intros T0 fs0 x0 I. eapply SE. right. apply in_or_app. right. exact I. }
      unfold grown_result in E3 at 1. cbn [r_T r_converged r_iterations r_inliers r_H r_b r_error] in E3.
      change (r_inliers (grown_result s r)) with (r_inliers r). cbn [grown_sys sH sb]. rewrite E3. cbn [bind]. eauto.
    + injection H as <- <- <-. eauto.
Qed.
Lemma grown_init T : grown_result s (result_init T) = result_init (grow s T).
Proof using.
  unfold grown_result, result_init, grown_H, grown_b, mzero6, zero6. cbn [r_T r_converged r_iterations r_inliers r_H r_b r_error brr brt btr btt rv tv].
  rewrite !mscale_zero, !scale3_zero. f_equal. cbn. change (car (fbase Rfld)) with R. ring.
Qed.
Lemma gauss_newton_grow n T fs r log :
  gauss_newton lin g solve se3_exp inl crit (0 : car Rfld) n T fs = Ok (r, log) -> well_posed log -> seen log ->
  exists log', gauss_newton lin' g' solve se3_exp inl (grown_criteria s crit) (0 : car Rfld) n (grow s T) fs = Ok (grown_result s r, log').
Proof using P SV LIN SYM GF.
  unfold gauss_newton. intros H WP SE.
  destruct (gn_loop lin g solve se3_exp crit (0 : car Rfld) (Z.to_nat n) 0 (result_init T) fs) as [[[rf fsf] lg]| | |] eqn:E; cbn [bind] in H; try discriminate.
  injection H as <- <-. destruct (gn_grow _ _ _ _ _ _ _ E WP SE) as (log' & E'). rewrite grown_init in E'. rewrite E'. cbn [bind fst snd]. eauto.
Qed.
Lemma levenberg_grow (c : lm_settings Rfld) T fs r log : lm_init_lambda c = (0 : car Rfld) ->
  levenberg_marquardt lin err g solve se3_exp inl crit c T fs = Ok (r, log) -> well_posed log -> seen log ->
  exists log', levenberg_marquardt lin' err' g' solve se3_exp inl (grown_criteria s crit) c (grow s T) fs = Ok (grown_result s r, log').
Proof using P SV LIN SYM ERR GF.
  unfold levenberg_marquardt. intros -> H WP SE.
  match type of H with context [lm_loop lin err g solve se3_exp crit ?a ?b ?c2 ?d ?e ?f] =>
    destruct (lm_loop lin err g solve se3_exp crit a b c2 d e f) as [[[rf fsf] lg]| | |] eqn:E; cbn [bind] in H; try discriminate end.
  injection H as <- <-. destruct (lm_grow _ _ _ _ _ _ _ _ E WP SE) as (log' & E'). rewrite grown_init in E'. rewrite E'. cbn [bind fst snd]. eauto.
Qed.
End Opt.

(** * Reductions *)
Section Reduce.
Context (F : Type) (s : R) (lin lin' : nat -> F -> outcome (F * option (sys Rfld))).
Context (LIN : forall i f f1 r, lin i f = Ok (f1, r) -> lin' i f = Ok (f1, match r with Some x => Some (grown_sys s x) | None => None end)).
Lemma visits_grow l : forall fs acc fs1 acc1, foldM (fun st i => visit sys_add lin i st) l (fs, acc) = Ok (fs1, acc1) ->
  foldM (fun st i => visit sys_add lin' i st) l (fs, grown_sys s acc) = Ok (fs1, grown_sys s acc1).
Proof using LIN.
  induction l as [|i l IH]; intros fs acc fs1 acc1 H; cbn [foldM] in *; [injection H as <- <-; eauto|].
  unfold visit at 1 in H. unfold visit at 1.
  destruct (get fs i) as [f| | |] eqn:Eg; cbn [bind] in H; try discriminate. cbn [bind].
  destruct (lin i f) as [[f1 r]| | |] eqn:El; cbn [bind] in H; try discriminate. rewrite (LIN _ _ _ _ El). cbn [bind].
  destruct (set fs i f1) as [fs2| | |] eqn:Es; cbn [bind] in H; try discriminate. cbn [bind].
  destruct r as [x|]; [rewrite <- grown_add|]; exact (IH _ _ _ _ H).
Qed.
Lemma serial_grow fs fs1 acc : serial sys_zero sys_add lin fs = Ok (fs1, acc) -> serial sys_zero sys_add lin' fs = Ok (fs1, grown_sys s acc).
Proof using LIN. unfold serial. intros H. rewrite <- (grown_zero s). exact (visits_grow _ _ _ _ _ H). Qed.
End Reduce.
Lemma errors_grow {F : Type} s (e1 e2 : F -> outcome (car Rfld)) : (forall f (e : R), e1 f = Ok (e : car Rfld) -> e2 f = Ok (s * s * e : car Rfld)) -> forall fs (e : R),
  serial_error (nzero (n := fbase Rfld)) (nadd (n := fbase Rfld)) e1 fs = Ok (e : car Rfld) ->
  serial_error (nzero (n := fbase Rfld)) (nadd (n := fbase Rfld)) e2 fs = Ok (s * s * e : car Rfld).
Proof.
  intros E fs e. unfold serial_error. assert (Z : nzero (n := fbase Rfld) = (s * s * 0 : car Rfld)) by (cbn; req; ring). rewrite Z at 2. clear Z.
  change (nzero (n := fbase Rfld)) with (0 : car Rfld). generalize 0. induction fs as [|f fs IH]; intros z; cbn [foldM].
  - intros H. injection H as <-. reflexivity.
  - destruct (e1 f) as [ef| | |] eqn:Ef; cbn [bind]; try discriminate. rewrite (E _ _ Ef). cbn [bind]. intros H. specialize (IH _ H).
    replace (nadd (n := fbase Rfld) (s * s * z) (s * s * ef)) with (s * s * (nadd (n := fbase Rfld) z ef) : car Rfld); [exact IH|]. cbn. change (car (fbase Rfld)) with R in *. ring.
Qed.

(** * Factors *)
Section Factors.
Context (s : R) (P : 0 < s).
Context (target target' : view Rfld N) (source source' : view Rfld nat) (GT : grown_view s target target') (GS : grown_view s source source').
Context (HT : homogeneous_view target) (HS : homogeneous_view source).
Context (nn nn' : vec4 Rfld -> outcome (option (N * car Rfld))).
Context (reject reject' : pose Rfld -> N -> nat -> car Rfld -> bool) (RJ : same_verdict s reject reject').
Context (k : kind) (PL : k = GICP -> plain_covs source).

Lemma skew_grow (a : car Rfld) u : skew (scale3 a u) = mscale3 a (skew u). Proof using. clear. lring. Qed.
Definition grown_jac (J : jac Rfld) : jac Rfld := Jac (mscale3 (s : car Rfld) (jr J)) (jt J).
Lemma point_jac_grow T p : point_jac (grow s T) (grow_pt s p) = grown_jac (point_jac T p).
Proof using. unfold point_jac, grown_jac. rewrite head_grow, skew_grow. cbn [grow rot jr jt]. rewrite mm3_mscale_r. reflexivity. Qed.
Lemma plane_jac_grow T (n p : vec4 Rfld) : plane_jac (grow s T) n (grow_pt s p) = grown_jac (plane_jac T n p).
Proof using. unfold plane_jac, grown_jac. rewrite head_grow, skew_grow. cbn [grow rot jr jt]. rewrite mm3_mscale_r. reflexivity. Qed.
Lemma jwj_grow (J : jac Rfld) M : jwj (grown_jac J) M = grown_H s (jwj J M).
Proof using.
  unfold jwj, grown_jac, grown_H. cbn [jr jt brr brt btr btt]. rewrite !tr3_mscale, !mm3_mscale_l, !mm3_mscale_r, mscale3_mscale. reflexivity.
Qed.
Lemma jtj_grow (J : jac Rfld) : jtj (grown_jac J) = grown_H s (jtj J).
Proof using. rewrite !jtj_jwj. apply jwj_grow. Qed.
Lemma jtr_grow (J : jac Rfld) v : jtr (grown_jac J) (scale3 (s : car Rfld) v) = grown_b s (jtr J v).
Proof using. unfold jtr, grown_jac, grown_b. cbn [jr jt rv tv]. rewrite tr3_mscale, mv3_mscale, !mv3_scale, scale3_scale. reflexivity. Qed.
Lemma maha_grow T ct cs : plain_cov cs -> maha_of (grow s T) ct cs = maha_of T ct cs.
Proof using.
  intros PC. unfold maha_of, fused_cov. cbn [madd4 b33].
  change (mm4 (mm4 (pose_mat (grow s T)) cs) (tr4 (pose_mat (grow s T)))) with (moved_cov (grow s T) cs).
  change (mm4 (mm4 (pose_mat T) cs) (tr4 (pose_mat T))) with (moved_cov T cs). rewrite !b33_moved by exact PC. reflexivity.
Qed.
Lemma residual_grow T ti si r : residual target source T ti si = Ok r ->
  exists r', residual target' source' (grow s T) ti si = Ok r' /\ head r' = scale3 (s : car Rfld) (head r) /\ vw r = 0 /\ vw r' = 0.
Proof using GT GS HT HS.
  unfold residual. intros H. destruct (GT ti) as (-> & _). destruct (GS si) as (-> & _).
  destruct (at_point target ti) as [q| | |] eqn:Eq; cbn [bind] in *; try discriminate.
  destruct (at_point source si) as [p| | |] eqn:Ep; cbn [bind] in *; try discriminate. injection H as <-.
  pose proof (HT _ _ Eq) as Wq. pose proof (HS _ _ Ep) as Wp.
  eexists. split; [reflexivity|]. rewrite point_grow, !head_vsub, !head_grow. split; [|split].
  - generalize (head q) (head (pose_pt T p)). clear. lring.
  - change ((vw q : R) - (vw p : R) = 0). rewrite Wq, Wp. apply Rminus_diag_eq. reflexivity.
  - change ((vw q : R) - (vw p : R) = 0). rewrite Wq, Wp. apply Rminus_diag_eq. reflexivity.
Qed.
Lemma sqnorm_grow (r r' : vec4 Rfld) : head r' = scale3 (s : car Rfld) (head r) -> vw r = 0 -> vw r' = 0 ->
  nmul (fhalf (f := Rfld)) (sqnorm4 r') = (s * s * nmul (fhalf (f := Rfld)) (sqnorm4 r) : car Rfld).
Proof using.
  intros E W W'. rewrite !sqnorm4_head, E, W, W', dot3_scale_l, dot3_scale_r. generalize (dot3 (head r) (head r)). clear. intros d. cbn. change (car (fbase Rfld)) with R in *. ring.
Qed.
Lemma quad_grow M v : quad M (scale3 (s : car Rfld) v) = (s * s * quad M v : car Rfld).
Proof using. unfold quad. rewrite mv3_scale, dot3_scale_l, dot3_scale_r. generalize (dot3 v (mv3 M v)). clear. intros d. cbn. change (car (fbase Rfld)) with R in *. ring. Qed.
Lemma head_vmul (n r : vec4 Rfld) : head (vmul n r) = mul3 (head n) (head r). Proof using. reflexivity. Qed.
Lemma mul3_scale (n v : v3 Rfld) : mul3 n (scale3 (s : car Rfld) v) = scale3 (s : car Rfld) (mul3 n v). Proof using. clear. lring. Qed.
Lemma vw_vmul (n r : vec4 Rfld) : vw r = 0 -> vw (vmul n r) = 0.
Proof using. clear. intros E. change ((vw n : R) * (vw r : R) = 0). rewrite E. apply Rmult_0_r. Qed.
Lemma linearize_at_grow T ti si f f1 x : linearize_at target source k T ti si f = Ok (f1, x) ->
  linearize_at target' source' k (grow s T) ti si f = Ok (f1, grown_sys s x).
Proof using GT GS HT HS PL.
  intros H. unfold linearize_at in *. destruct (residual target source T ti si) as [r| | |] eqn:Er; cbn [bind] in *; try discriminate.
  destruct (residual_grow _ _ _ _ Er) as (r' & -> & Eh & W & W'). cbn [bind].
  destruct (GS si) as (-> & _ & EC). destruct (at_point source si) as [p| | |]; cbn [bind] in *; try discriminate. destruct (GT ti) as (_ & EN & ET).
  destruct k.
  - injection H as <- <-. unfold grown_sys. cbn [sH sb se]. rewrite point_jac_grow, jtj_grow, Eh, jtr_grow, (sqnorm_grow _ _ Eh W W'). reflexivity.
  - rewrite EN. destruct (at_normal target ti) as [n| | |]; cbn [bind] in *; try discriminate. cbv zeta in *. injection H as <- <-.
    assert (Eh2 : head (vmul n r') = scale3 (s : car Rfld) (head (vmul n r))) by (rewrite !head_vmul, Eh; apply mul3_scale).
    unfold grown_sys. cbn [sH sb se]. rewrite plane_jac_grow, jtj_grow, Eh2, jtr_grow, (sqnorm_grow _ _ Eh2 (vw_vmul n r W) (vw_vmul n r' W')). reflexivity.
  - rewrite ET. destruct (at_cov target ti) as [ct| | |]; cbn [bind] in *; try discriminate. rewrite EC.
    destruct (at_cov source si) as [cs| | |] eqn:Ec; cbn [bind] in *; try discriminate. cbv zeta in *. injection H as <- <-.
    unfold grown_sys. cbn [sH sb se]. rewrite maha_grow by exact (PL eq_refl _ _ Ec). rewrite point_jac_grow, jwj_grow, Eh, mv3_scale, jtr_grow, quad_grow. reflexivity.
Qed.
Definition answers_agree (T : pose Rfld) : Prop := forall i p, at_point source i = Ok p -> same_answer s nn nn' (pose_pt T p).
Lemma linearize_grow T si f f1 r : answers_agree T -> linearize nn reject target source k T si f = Ok (f1, r) ->
  linearize nn' reject' target' source' k (grow s T) si f = Ok (f1, match r with Some x => Some (grown_sys s x) | None => None end).
Proof using GT GS HT HS RJ PL.
  intros A H. unfold linearize in *. destruct (GS si) as (-> & _). destruct (at_point source si) as [p| | |] eqn:Ep; cbn [bind] in *; try discriminate.
  rewrite point_grow, (A _ _ Ep). destruct (nn (pose_pt T p)) as [[[ti d]|]| | |]; cbn [bind] in *; try discriminate.
  - rewrite RJ. destruct (reject T ti si d); [injection H as <- <-; reflexivity|].
    destruct (linearize_at target source k T ti si f) as [[f2 x]| | |] eqn:E; cbn [bind] in H; try discriminate. injection H as <- <-.
    rewrite (linearize_at_grow _ _ _ _ _ _ E). reflexivity.
  - injection H as <- <-. reflexivity.
Qed.
Lemma error_grow T f (e : R) : error target source k T f = Ok (e : car Rfld) -> error target' source' k (grow s T) f = Ok (s * s * e : car Rfld).
Proof using GT GS HT HS.
  clear PL. unfold error. destruct (f_target f) as [ti|]; [|intros H; injection H as <-; f_equal; cbn; req; ring].
  intros H. destruct (residual target source T ti (f_source f)) as [r| | |] eqn:Er; cbn [bind] in *; try discriminate.
  destruct (residual_grow _ _ _ _ Er) as (r' & -> & Eh & W & W'). cbn [bind]. destruct k.
  - injection H as <-. rewrite (sqnorm_grow _ _ Eh W W'). reflexivity.
  - destruct (GT ti) as (_ & -> & _). destruct (at_normal target ti) as [n| | |]; cbn [bind] in *; try discriminate. injection H as <-.
    assert (Eh2 : head (vmul n r') = scale3 (s : car Rfld) (head (vmul n r))) by (rewrite !head_vmul, Eh; apply mul3_scale).
    rewrite (sqnorm_grow _ _ Eh2 (vw_vmul n r W) (vw_vmul n r' W')). reflexivity.
  - injection H as <-. rewrite Eh, quad_grow. reflexivity.
Qed.
Context (weight weight' : R -> R) (WG : same_weight s weight weight').
Lemma weight_grow (e : R) : weight' (sqrt (s * s * e)) = weight (sqrt e).
Proof using P WG. rewrite sqrt_mult_alt, sqrt_square by nra. apply WG. Qed.
Lemma linearize_robust_grow T si f f1 r : answers_agree T -> linearize_robust nn reject target source weight k T si f = Ok (f1, r) ->
  linearize_robust nn' reject' target' source' weight' k (grow s T) si f = Ok (f1, match r with Some x => Some (grown_sys s x) | None => None end).
Proof using P GT GS HT HS RJ PL WG.
  intros A H. unfold linearize_robust in *. destruct (linearize nn reject target source k T si f) as [[f2 x]| | |] eqn:E; cbn [bind] in H; try discriminate.
  rewrite (linearize_grow _ _ _ _ _ A E). cbn [bind]. destruct x as [x|]; injection H as <- <-; [|reflexivity]. cbn [bind].
  rewrite grown_scale. cbn [grown_sys se]. do 3 f_equal. f_equal. apply weight_grow.
Qed.
Lemma error_robust_grow T f (e : R) : error_robust target source weight k T f = Ok (e : car Rfld) ->
  error_robust target' source' weight' k (grow s T) f = Ok (s * s * e : car Rfld).
Proof using P GT GS HT HS WG.
  unfold error_robust. intros H. destruct (error target source k T f) as [e0| | |] eqn:E; cbn [bind] in *; try discriminate. rewrite (error_grow _ _ _ E). cbn [bind].
  injection H as <-. f_equal. change (weight' (sqrt (s * s * e0)) * (s * s * e0) = s * s * (weight (sqrt e0) * e0)). rewrite weight_grow. ring.
Qed.
End Factors.
