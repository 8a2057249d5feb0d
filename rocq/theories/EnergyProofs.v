(** The quadratic model of a registration problem is never negative; what this says about the
    length of the steps. *)
From Coq Require Import Reals Lra Psatz.
From Verif Require Import Base BaseProofs Num Vec RNum Lin LinSpec LinProofs LieModel FactorModel ReduceModel ReduceProofs OptModel OptSpec FactorProofs
  FactorGrad EstSpec EstReal FactorSpec FactorReal StepProofs Prop_Factor EnergySpec.
Open Scope R_scope.

Definition solid (s : sys Rfld) : Prop := sym6 (sH s) /\ psd6 (sH s) /\ model_nonneg s.

Lemma half_square W (r d : v3 Rfld) (c : R) : sym3 W -> psd3 W -> 0 <= c ->
  0 <= (/ 2 * dot3 r (mv3 W r) + c) + dot3 d (mv3 W r) + / 2 * dot3 d (mv3 W d).
Proof.
  intros S P C. specialize (P (add3 r d)).
  rewrite mv3_add, !dot3_add_l, !dot3_add_r in P.
  assert (E : dot3 r (mv3 W d) = dot3 d (mv3 W r)). { rewrite (dot3_comm r), dot3_mv3, S. reflexivity. }
  rewrite E in P. cbn [nadd Rfld fbase Rnum] in P. change (car (fbase Rfld)) with R in *. lra.
Qed.

Lemma id_sym_psd : sym3 (id3 (D := Rfld)) /\ psd3 (id3 (D := Rfld)).
Proof.
  split; [unfold sym3; lring|]. intros x. rewrite mv3_id. destruct x as [a b c]. cbn. change (car (fbase Rfld)) with R in *.
  pose proof (Rle_0_sqr a). pose proof (Rle_0_sqr b). pose proof (Rle_0_sqr c). unfold Rsqr in *. lra.
Qed.

Section Factor.
Context (nn : vec4 Rfld -> outcome (option (N * R))) (reject : pose Rfld -> N -> nat -> R -> bool).
Context (target : view Rfld N) (source : view Rfld nat) (k : kind).
Context (HC : k = GICP -> usable_covs target source).

Lemma factor_solid T si f f' s : linearize nn reject target source k T si f = Ok (f', Some s) -> solid s.
Proof using HC.
  intros H.
  assert (G : k = GICP -> sym3 (f_maha f') /\ psd3 (f_maha f')).
  { intros K. destruct (linearized_maha nn reject target source k HC _ _ _ _ _ H K) as (F & S & P & ->).
    split; [apply sym3_inv, S|apply spd3_psd3, spd3_inv; assumption]. }
  destruct (hessian_sym_psd nn reject target source k T si f f' s H G) as [A B]. split; [exact A|]. split; [exact B|].
  destruct (linearize_cases _ _ _ _ _ _ _ _ _ _ _ H) as (p & found & Ep & _ & ti & d & _ & _ & EL & _).
  destruct id_sym_psd as [SI PI].
  unfold linearize_at in EL. destruct (residual target source T ti si) as [r| | |] eqn:Er; cbn [bind] in EL; try discriminate.
  rewrite Ep in EL. cbn [bind] in EL. intros delta. destruct k.
  - injection EL as <- <-. cbn [sb sH se].
    rewrite dot6_comm, dot6_jtr, jtj_jwj, quad_jwj.
    pose proof (half_square id3 (head r) (jmul (point_jac T p) delta) (/ 2 * (vw r * vw r)) SI PI) as Q.
    pose proof (Rle_0_sqr (vw r)) as V. unfold Rsqr in V. change (car (fbase Rfld)) with R in *. specialize (Q ltac:(lra)).
    rewrite sqnorm4_head. rewrite !mv3_id in *. cbn [nmul nadd fhalf Rfld fbase Rnum] in *. change (car (fbase Rfld)) with R in *. lra.
  - destruct (at_normal target ti) as [n| | |]; cbn [bind] in EL; try discriminate. injection EL as <- <-. cbn [sb sH se].
    rewrite dot6_comm, dot6_jtr, jtj_jwj, quad_jwj. match goal with |- context [sqnorm4 ?x] => generalize x; intros q0; rename q0 into q end.
    pose proof (half_square id3 (head (D := Rfld) q) (jmul (plane_jac T n p) delta) (/ 2 * (vw q * vw q)) SI PI) as Q.
    pose proof (Rle_0_sqr (vw q)) as V. unfold Rsqr in V. change (car (fbase Rfld)) with R in *. specialize (Q ltac:(lra)).
    rewrite sqnorm4_head. rewrite !mv3_id in *. cbn [nmul nadd fhalf Rfld fbase Rnum] in *. change (car (fbase Rfld)) with R in *. lra.
  - destruct (at_cov target ti) as [ct| | |]; cbn [bind] in EL; try discriminate.
    destruct (at_cov source si) as [cs| | |]; cbn [bind] in EL; try discriminate. injection EL as <- <-. cbn [sb sH se f_maha] in *.
    destruct (G eq_refl) as [S P]. rewrite dot6_comm, dot6_jtr, quad_jwj.
    pose proof (half_square _ (head r) (jmul (point_jac T p) delta) 0 S P ltac:(lra)) as Q.
    unfold quad. cbn [nmul nadd fhalf Rfld fbase Rnum] in *. change (car (fbase Rfld)) with R in *. lra.
Qed.
End Factor.

Lemma scale_solid (w : R) s : 0 <= w -> solid s -> solid (scale_sys (w : car Rfld) s).
Proof.
  intros W (A & B & C). unfold solid, scale_sys. cbn [sH sb se]. split; [|split].
  - unfold sym6 in *. destruct (sH s) as [A1 A2 A3 A4]. unfold tr6, mscale6 in *. cbn [brr brt btr btt] in *.
    rewrite !tr3_mscale. injection A as -> E2 E3 ->. rewrite E2, E3. reflexivity.
  - intros d. rewrite mscale6_quad. apply Rmult_le_pos; [exact W|apply B].
  - intros d. cbn [sH sb se]. rewrite mscale6_quad, dot6_comm, dot6_scale_r, (dot6_comm d). specialize (C d).
    cbn [nmul Rfld fbase Rnum]. change (car (fbase Rfld)) with R in *. nra.
Qed.

Lemma add_solid s t : solid s -> solid t -> solid (sys_add s t).
Proof.
  intros (A & B & C) (A' & B' & C'). unfold solid. cbn [sys_add sH sb se].
  split; [apply sym6_add; auto|]. split; [apply psd6_add; auto|]. intros d. cbn [sys_add sH sb se].
  rewrite mv6_madd, dot6_add_r, (dot6_comm _ d), dot6_add_r, (dot6_comm d (sb s)), (dot6_comm d (sb t)).
  specialize (C d). specialize (C' d). cbn [nadd Rfld fbase Rnum]. change (car (fbase Rfld)) with R in *. lra.
Qed.

Lemma zero_solid : solid (sys_zero (D := Rfld)).
Proof.
  unfold solid. cbn [sys_zero sH].
  assert (Q : forall d, dot6 d (mv6 (mzero6 (D := Rfld)) d) = 0).
  { intros d. unfold mv6, mzero6. cbn [brr brt btr btt]. rewrite !mv3_mzero, !add3_zero_l. unfold dot6. cbn [rv tv]. rewrite !dot3_zero_r. cbn. lra. }
  split; [|split].
  - unfold sym6, mzero6, tr6; cbn [brr brt btr btt]; assert (E : tr3 (mzero3 (D := Rfld)) = mzero3) by (clear; lring); rewrite E; reflexivity.
  - intros d. rewrite Q. lra.
  - intros d. cbn [sys_zero sH sb se]. rewrite Q, dot6_zero_l. cbn. lra.
Qed.

Lemma serial_solid (lin : nat -> factor Rfld -> outcome (factor Rfld * option (sys Rfld))) fs fs' s :
  (forall i f f' s, lin i f = Ok (f', Some s) -> solid s) ->
  serial (sys_zero (D := Rfld)) sys_add lin fs = Ok (fs', s) -> solid s.
Proof.
  intros HL H. destruct (serial_fold _ _ _ _ _ _ _ _ H) as (rs & LO & ->).
  apply linearized_pairs in LO. rewrite accepted_contributions.
  assert (FS : Forall solid (map contribution rs)).
  { clear H. induction LO as [|f' r fs' rs (i & f & E) _ IH]; cbn [map]; constructor; [|exact IH].
    destruct r as [s|]; cbn [contribution]; [eapply HL; exact E|apply zero_solid]. }
  pose proof zero_solid as Z. revert FS Z. generalize (map contribution rs) (sys_zero (D := Rfld)). clear.
  induction l as [|t l IH]; intros a F A; [exact A|]. inversion F; subst. cbn [fold_left]. apply IH; auto. apply add_solid; auto.
Qed.

Lemma problem_solid lin T fs fs' s : least_squares lin -> lin T fs = Ok (fs', s) -> solid s.
Proof.
  intros (nn & reject & target & source & k & HC & [->|(weight & W & ->)]) H.
  - unfold reg_lin in H. eapply serial_solid; [|exact H]. intros. eapply factor_solid; eauto.
  - unfold reg_lin_robust in H. eapply serial_solid; [|exact H]. intros i f f' t E. unfold linearize_robust in E.
    destruct (linearize nn reject target source k T i f) as [[f1 [t1|]]| | |] eqn:EL; cbn [bind] in E; try discriminate.
    injection E as <- <-. apply scale_solid; [apply W|]. eapply factor_solid; eauto.
Qed.

(** The step of a damped, possibly restricted system. *)
Lemma add3_scaled (t : R) (x y : v3 Rfld) : add3 (scale3 (t : car Rfld) x) (scale3 (t : car Rfld) y) = scale3 (t : car Rfld) (add3 x y). Proof. lring. Qed.
Lemma mv6_scale A (t : R) (x : v6 Rfld) : mv6 A (scale6 (t : car Rfld) x) = scale6 (t : car Rfld) (mv6 A x).
Proof. unfold mv6, scale6. cbn [rv tv]. rewrite !mv3_scale, !add3_scaled. reflexivity. Qed.
Lemma predict_double s delta : model_nonneg s -> - dot6 (sb s) delta - dot6 delta (mv6 (sH s) delta) <= se s / 2.
Proof.
  intros C. specialize (C (scale6 ((1 + 1 : R) : car Rfld) delta)). rewrite dot6_scale_r, mv6_scale, dot6_scale_r, dot6_comm in C.
  rewrite (dot6_comm (scale6 _ _)), dot6_scale_r in C. rewrite (dot6_comm (mv6 _ _) delta), (dot6_comm delta (sb s)) in C.
  cbn [nmul Rfld fbase Rnum] in C. change (car (fbase Rfld)) with R in *. lra.
Qed.
Lemma step_energy s (lr mu : R) mask delta : solid s -> 0 <= lr -> 0 < mu -> mask01 mask ->
  mv6 (damped (madd6 (sH s) (mscale6 (lr : car Rfld) (diag6 (mask_penalty mask)))) (mu : car Rfld)) delta = opp6 (sb s) ->
  mu * dot6 delta delta + lr * dot6 (off_axes mask delta) (off_axes mask delta) <= se s / 2.
Proof.
  intros (_ & _ & C) L M K E. pose proof (damped_quad (madd6 (sH s) (mscale6 (lr : car Rfld) (diag6 (mask_penalty mask)))) mu delta) as Q.
  rewrite E, dot6_opp_r, mv6_madd, dot6_add_r, mscale6_quad, (penalty_quad mask delta K), (dot6_comm delta (sb s)) in Q.
  apply (predict_double s delta) in C. change (car (fbase Rfld)) with R in *. lra.
Qed.
Lemma step_energy_free s (mu : R) delta : solid s -> 0 < mu ->
  mv6 (damped (sH s) (mu : car Rfld)) delta = opp6 (sb s) ->
  mu * dot6 delta delta <= se s / 2.
Proof.
  intros (_ & _ & C) M E. pose proof (damped_quad (sH s) mu delta) as Q.
  rewrite E, dot6_opp_r, (dot6_comm delta (sb s)) in Q. apply (predict_double s delta) in C. change (car (fbase Rfld)) with R in *. lra.
Qed.

Lemma solved g solve T s (mu : R) : library_factor g -> solves6 solve -> solid s -> 0 < mu ->
  let s' := upd_sys g T s in
  mv6 (damped (sH s') (mu : car Rfld)) (solve (damped (sH s') (mu : car Rfld)) (opp6 (sb s'))) = opp6 (sb s') /\ sb s' = sb s /\ se s' = se s.
Proof.
  intros G So (A & B & _) M. destruct (library_system g T s G A B) as (Eb & Ee & A' & B'). cbv zeta.
  split; [|auto]. apply So; [apply damped_sym, A'|apply damped_spd; assumption].
Qed.

Lemma solved_length g solve T s (mu : R) : library_factor g -> solves6 solve -> solid s -> 0 < mu ->
  let s' := upd_sys g T s in let delta := solve (damped (sH s') (mu : car Rfld)) (opp6 (sb s')) in
  mu * dot6 delta delta <= se s' / 2.
Proof.
  intros G So S M. destruct (solved g solve T s mu G So S M) as (E & Eb & Ee). cbv zeta. rewrite Ee.
  set (delta := solve _ _) in *. clearbody delta. pose proof S as (_ & B & _). specialize (B delta).
  destruct G as [->|(lr & mask & L & K & ->)].
  - cbn [null_factor upd_sys] in E. pose proof (step_energy_free s mu delta S M E). change (car (fbase Rfld)) with R in *. lra.
  - cbn [restrict_dof upd_sys sH sb] in E. pose proof (step_energy s lr mu mask delta S L M K E) as Q.
    pose proof (dot6_self_nonneg (off_axes mask delta)) as O. change (car (fbase Rfld)) with R in *. nra.
Qed.
Lemma solved_restricted (lr : R) mask solve T s (mu : R) : 0 <= lr -> mask01 mask -> solves6 solve -> solid s -> 0 < mu ->
  let s' := upd_sys (restrict_dof (lr : car Rfld) mask) T s in let delta := solve (damped (sH s') (mu : car Rfld)) (opp6 (sb s')) in
  lr * dot6 (off_axes mask delta) (off_axes mask delta) <= se s' / 2.
Proof.
  intros L K So S M.
  assert (G : library_factor (restrict_dof (lr : car Rfld) mask)). { right. exists lr, mask. repeat split; auto. }
  destruct (solved _ solve T s mu G So S M) as (E & Eb & Ee). cbv zeta. rewrite Ee.
  set (delta := solve _ _) in *. clearbody delta. pose proof S as (_ & B & _). specialize (B delta).
  cbn [restrict_dof upd_sys sH sb] in E. pose proof (step_energy s lr mu mask delta S L M K E) as Q.
  pose proof (dot6_self_nonneg delta) as O. change (car (fbase Rfld)) with R in *. nra.
Qed.
