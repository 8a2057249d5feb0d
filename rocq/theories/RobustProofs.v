(** Robust kernels over the reals. *)
From Coq Require Import Reals Lra Psatz.
From Flocq Require Import Core.
From Coquelicot Require Import Coquelicot.
From Verif Require Import Base BaseProofs Num Vec RNum Lin LinSpec LieSpec LinProofs LieModel LieProofs LieFlow
  FactorModel ReduceModel ReduceSpec ReduceProofs OptModel OptSpec FactorProofs FactorGrad EstReal FactorSpec FactorReal.
Open Scope R_scope.

Definition hub (c e : R) : R := huber (D := Rfld) c e.
Definition cau (c e : R) : R := cauchy (D := Rfld) c e.
(** The robustified value of a raw error. *)
Definition rho (weight : R -> R) (e : R) : R := weight (sqrt e) * e.

Lemma hub_in c e : Rabs e < c -> hub c e = 1.
Proof. intros H. unfold hub, huber. cbn [fabs Rfld nlt fbase Rnum]. apply Rlt_bool_iff in H. rewrite H. reflexivity. Qed.
Lemma hub_out c e : c <= Rabs e -> hub c e = c / Rabs e.
Proof. intros H. unfold hub, huber. cbn [fabs Rfld nlt fbase Rnum]. apply Rlt_bool_false_iff in H. rewrite H. reflexivity. Qed.
Lemma cau_eq c e : cau c e = c / (c + e * e).
Proof. reflexivity. Qed.

Lemma hub_range c e : 0 < c -> 0 < hub c e <= 1.
Proof.
  intros C. destruct (Rlt_le_dec (Rabs e) c) as [L|L]; [rewrite hub_in by exact L; lra|]. rewrite hub_out by exact L.
  split; [apply Rdiv_lt_0_compat; lra|]. apply (Rmult_le_reg_r (Rabs e)); [lra|]. unfold Rdiv. rewrite Rmult_assoc, Rinv_l by lra. lra.
Qed.
Lemma hub_antitone c a b : 0 < c -> Rabs a <= Rabs b -> hub c b <= hub c a.
Proof.
  intros C L. destruct (Rlt_le_dec (Rabs a) c) as [La|La].
  - rewrite (hub_in c a La). apply hub_range, C.
  - rewrite (hub_out c a La), (hub_out c b ltac:(lra)). apply Rmult_le_compat_l; [lra|]. apply Rinv_le_contravar; lra.
Qed.
Lemma cau_range c e : 0 < c -> 0 < cau c e <= 1.
Proof.
  intros C. rewrite cau_eq. pose proof (Rle_0_sqr e) as Q. unfold Rsqr in Q. split; [apply Rdiv_lt_0_compat; lra|].
  apply (Rmult_le_reg_r (c + e * e)); [lra|]. unfold Rdiv. rewrite Rmult_assoc, Rinv_l by lra. lra.
Qed.
Lemma sqr_abs e : e * e = Rabs e * Rabs e.
Proof. pose proof (Rsqr_abs e) as H. unfold Rsqr in H. exact H. Qed.
Lemma cau_antitone c a b : 0 < c -> Rabs a <= Rabs b -> cau c b <= cau c a.
Proof.
  intros C L. rewrite !cau_eq, (sqr_abs a), (sqr_abs b). pose proof (Rabs_pos a). apply Rmult_le_compat_l; [lra|].
  apply Rinv_le_contravar; nra.
Qed.
Lemma rho_hub_in c e : 0 < c -> e < c * c -> rho (hub c) e = e.
Proof.
  intros C L. unfold rho. rewrite hub_in; [ring|]. rewrite Rabs_pos_eq by apply sqrt_pos.
  destruct (Rle_lt_dec e 0) as [N|P]; [rewrite (sqrt_neg_0 e N); exact C|]. rewrite <- (sqrt_square c) by lra. apply sqrt_lt_1; lra.
Qed.
Lemma rho_hub_out c e : 0 < c -> c * c <= e -> rho (hub c) e = c * sqrt e.
Proof.
  intros C L. assert (P : 0 < e) by nra. assert (S : 0 < sqrt e) by (apply sqrt_lt_R0; exact P).
  assert (Q : c <= sqrt e) by (rewrite <- (sqrt_square c) by lra; apply sqrt_le_1; nra).
  unfold rho. rewrite hub_out by (rewrite Rabs_pos_eq; lra). rewrite Rabs_pos_eq by lra.
  rewrite <- (sqrt_def e) at 2 by lra. field. lra.
Qed.
Lemma rho_cau c e : 0 < c -> 0 <= e -> rho (cau c) e = c * e / (c + e).
Proof. intros C P. unfold rho. rewrite cau_eq, sqrt_def by exact P. field. lra. Qed.
Lemma rho_hub_mono c a b : 0 < c -> 0 <= a <= b -> rho (hub c) a <= rho (hub c) b.
Proof.
  intros C [A L]. destruct (Rlt_le_dec b (c * c)) as [B|B].
  - rewrite !rho_hub_in by lra. exact L.
  - rewrite (rho_hub_out c b C B). assert (Q : c <= sqrt b) by (rewrite <- (sqrt_square c) by lra; apply sqrt_le_1; nra).
    destruct (Rlt_le_dec a (c * c)) as [A'|A'].
    + rewrite rho_hub_in by lra. nra.
    + rewrite rho_hub_out by lra. apply Rmult_le_compat_l; [lra|]. apply sqrt_le_1; lra.
Qed.
Lemma rho_cau_mono c a b : 0 < c -> 0 <= a <= b -> rho (cau c) a <= rho (cau c) b.
Proof.
  intros C [A L]. rewrite !rho_cau by lra. apply (Rmult_le_reg_r ((c + a) * (c + b))); [nra|].
  replace (c * a / (c + a) * ((c + a) * (c + b))) with (c * a * (c + b)) by (field; lra).
  replace (c * b / (c + b) * ((c + a) * (c + b))) with (c * b * (c + a)) by (field; lra). nra.
Qed.
Lemma rho_le weight e : (forall x, weight x <= 1) -> 0 <= e -> rho weight e <= e.
Proof. intros W P. unfold rho. specialize (W (sqrt e)). nra. Qed.
Lemma rho_cau_bounded c e : 0 < c -> 0 <= e -> rho (cau c) e < c.
Proof.
  intros C P. rewrite rho_cau by assumption. apply (Rmult_lt_reg_r (c + e)); [lra|].
  replace (c * e / (c + e) * (c + e)) with (c * e) by (field; lra). nra.
Qed.

(** * Derivatives *)
Lemma d_comp (f g : R -> R) x a b : is_derive g x a -> is_derive f (g x) b -> is_derive (fun t => f (g t)) x (b * a).
Proof.
  intros G F. pose proof (is_derive_comp f g x b a F G) as Q. change (scal a b) with (a * b) in Q.
  rewrite Rmult_comm. exact Q.
Qed.
Lemma locally_lt (e0 k : R) : e0 < k -> locally e0 (fun e => e < k).
Proof. intros L. apply (locally_interval _ e0 m_infty k); simpl; auto. Qed.
Lemma locally_gt (e0 k : R) : k < e0 -> locally e0 (fun e => k < e).
Proof. intros L. apply (locally_interval _ e0 k p_infty); simpl; auto. Qed.

(** rho composed with a non-negative error. *)
Lemma rho_slope weight (psi : R -> R) (e : R -> R) slope psi' : (forall t, 0 <= e t) -> is_derive e 0 slope ->
  locally (e 0) (fun x => 0 <= x -> rho weight x = psi x) -> is_derive psi (e 0) psi' ->
  is_derive (fun t => rho weight (e t)) 0 (psi' * slope).
Proof.
  intros N De Lo Dp. eapply is_derive_ext_loc with (f := fun t => psi (e t)); [|apply d_comp; assumption].
  pose proof (ex_derive_continuous (K := R_AbsRing) (V := R_NormedModule) e 0 (ex_intro _ slope De)) as Ce.
  assert (Q : filtermap e (locally 0) (fun x => 0 <= x -> rho weight x = psi x)) by (apply Ce; exact Lo).
  unfold filtermap in Q. revert Q. apply filter_imp. intros t H. symmetry. apply H, N.
Qed.
Lemma hub_slope_in c (e : R -> R) slope : 0 < c -> (forall t, 0 <= e t) -> is_derive e 0 slope -> e 0 < c * c ->
  is_derive (fun t => rho (hub c) (e t)) 0 slope.
Proof.
  intros C N De L. replace slope with (1 * slope) by ring.
  apply (rho_slope (hub c) (fun x => x)); auto.
  - generalize (locally_lt _ _ L). apply filter_imp. intros x Hx _. apply rho_hub_in; assumption.
  - auto_derive; [exact I|ring].
Qed.
Lemma hub_slope_out c (e : R -> R) slope : 0 < c -> (forall t, 0 <= e t) -> is_derive e 0 slope -> c * c < e 0 ->
  is_derive (fun t => rho (hub c) (e t)) 0 (/ 2 * hub c (sqrt (e 0)) * slope).
Proof.
  intros C N De L. assert (P : 0 < e 0) by nra. assert (S : 0 < sqrt (e 0)) by (apply sqrt_lt_R0; exact P).
  assert (Q : c <= sqrt (e 0)) by (rewrite <- (sqrt_square c) by lra; apply sqrt_le_1; nra).
  apply (rho_slope (hub c) (fun x => c * sqrt x)); auto.
  - generalize (locally_gt _ _ L). apply filter_imp. intros x Hx _. apply rho_hub_out; [assumption|lra].
  - rewrite hub_out by (rewrite Rabs_pos_eq; lra). rewrite Rabs_pos_eq by lra. auto_derive; [exact P|field; lra].
Qed.
Lemma cau_slope c (e : R -> R) slope : 0 < c -> (forall t, 0 <= e t) -> is_derive e 0 slope ->
  is_derive (fun t => rho (cau c) (e t)) 0 (cau c (sqrt (e 0)) * cau c (sqrt (e 0)) * slope).
Proof.
  intros C N De. specialize (N 0) as N0. apply (rho_slope (cau c) (fun x => c * x / (c + x))); auto.
  - apply filter_forall. intros x Hx. apply rho_cau; assumption.
  - rewrite cau_eq, sqrt_def by exact N0. auto_derive; [lra|field; lra].
Qed.

(** * Robust factors *)
Section Rob.
Context (nn : vec4 Rfld -> outcome (option (N * R))) (reject : pose Rfld -> N -> nat -> R -> bool).
Context (target : view Rfld N) (source : view Rfld nat) (k : kind).

Lemma sqnorm4_pos (r : vec4 Rfld) : 0 <= (sqnorm4 r : R).
Proof using.
  rewrite sqnorm4_head. pose proof (spd3_psd3 _ spd3_id (head r)) as A. pose proof (Rle_0_sqr (vw r)) as B. unfold Rsqr in B.
  change (car (fbase Rfld)) with R in *. lra.
Qed.
Lemma error_nonneg T f e : (k = GICP -> psd3 (f_maha f)) -> error target source k T f = Ok e -> 0 <= (e : R).
Proof using.
  intros G H. unfold error in H. destruct (f_target f) as [ti|]; [|injection H as <-; cbn; lra].
  destruct (residual target source T ti (f_source f)) as [r| | |]; cbn [bind] in H; try discriminate.
  assert (Q : forall x : R, 0 <= x -> 0 <= nmul (fhalf (f := Rfld)) x) by (intros x Hx; cbn; lra).
  destruct k.
  - injection H as <-. apply Q, sqnorm4_pos.
  - destruct (at_normal target ti) as [n| | |]; cbn [bind] in H; try discriminate. injection H as <-. apply Q, sqnorm4_pos.
  - injection H as <-. apply Q. apply G. reflexivity.
Qed.
Lemma robust_inv weight T si f f' s : linearize_robust nn reject target source weight k T si f = Ok (f', Some s) ->
  exists s0, linearize nn reject target source k T si f = Ok (f', Some s0) /\ s = scale_sys (weight (sqrt (se s0))) s0 /\
    error target source k T f' = Ok (se s0).
Proof using.
  unfold linearize_robust. intros H. destruct (linearize nn reject target source k T si f) as [[f1 r1]| | |] eqn:EL; cbn [bind] in H; try discriminate.
  destruct (error_after_linearize _ _ _ _ _ _ _ _ _ _ _ EL) as (E & _). destruct r1 as [s0|]; inversion H; subst.
  exists s0. auto.
Qed.
Context (HS : homogeneous source) (HC : k = GICP -> usable_covs target source).
(** The gradient of a robustified factor from that of its inner factor. *)
Lemma robust_slope weight T si f f' s0 delta (g : R -> R) : linearize nn reject target source k T si f = Ok (f', Some s0) ->
  (forall (e : R -> R) slope, (forall t, 0 <= e t) -> is_derive e 0 slope -> e 0 = se s0 -> is_derive (fun t => rho weight (e t)) 0 (g slope)) ->
  slope_along (fun T' => error_robust target source weight k T' f') T delta (g (dot6 (sb s0) delta)).
Proof using HS HC.
  intros H G. destruct (factor_system nn reject target source k HS HC T si f f' s0 H) as (_ & _ & Sl).
  destruct (Sl delta) as (e & E & De).
  assert (PM : k = GICP -> psd3 (f_maha f')).
  { intros K. destruct (linearized_maha nn reject target source k HC _ _ _ _ _ H K) as (F & S & P & ->). apply spd3_psd3, spd3_inv; assumption. }
  exists (fun t => rho weight (e t)). split.
  - intros t. unfold error_robust. rewrite E. reflexivity.
  - apply G; [|exact De|].
    + intros t. eapply error_nonneg; [exact PM|apply E].
    + destruct (error_after_linearize _ _ _ _ _ _ _ _ _ _ _ H) as (E0 & _). specialize (E 0).
      destruct delta as [om v]. rewrite curve_0, pose_mul_id, E0 in E. injection E as E. symmetry. exact E.
Qed.
Lemma scale_b w (s : sys Rfld) delta : dot6 (sb (scale_sys w s)) delta = w * dot6 (sb s) delta.
Proof using. cbn [scale_sys sb]. destruct s as [A [a b] e], delta as [x y]. cbn [sb]. unfold dot6, scale6. cbn [rv tv].
  destruct a, b, x, y. cbn. req. ring. Qed.
End Rob.
