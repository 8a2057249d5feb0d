(** Derivatives of the factor errors along a right perturbation of the pose. *)
From Coq Require Import Reals Lra Psatz.
From Coquelicot Require Import Coquelicot.
From Verif Require Import Base BaseProofs Num Vec RNum Lin LinSpec LieSpec LinProofs LieModel LieProofs LieFlow LieSmall
  FactorModel ReduceModel ReduceSpec ReduceProofs OptModel OptSpec FactorProofs.
Open Scope R_scope.

Implicit Types (omega v x : v3 Rfld).

(** The increment near zero. *)
Lemma se3_near omega v (t s : R) : dot3 omega omega = s -> t * t * s < 1e-20 ->
  let R' := rodrigues omega (2 * real_taylor (t * t * s) * imag_taylor (t * t * s) * t)
                            (2 * imag_taylor (t * t * s) * imag_taylor (t * t * s) * (t * t)) in
  se3_exp (scale6 (t : car Rfld) (P6 omega v)) = mkPose R' (mv3 R' (scale3 (t : car Rfld) v)).
Proof.
  intros Es L R'. unfold scale6. cbn [rv tv].
  assert (E : dot3 (scale3 (t : car Rfld) omega) (scale3 (t : car Rfld) omega) = t * t * s).
  { rewrite dot3_scale_l, dot3_scale_r, Es. cbn. ring. }
  assert (ER : to_rotation (so3_exp (scale3 (t : car Rfld) omega)) = R').
  { rewrite (small_q _ _ E) by lra. rewrite to_rotation_rodrigues. unfold R', rodrigues. rewrite skew_scale.
    rewrite mm3_mscale_l, mm3_mscale_r, !mscale3_mscale.
    apply f_equal2; [apply f_equal2; [reflexivity|]|]; apply f_equal2; try reflexivity; cbn; req; ring. }
  unfold se3_exp. cbn [rv tv]. rewrite E, ER.
  destruct (Rlt_dec (sqrt (t * t * s)) 1e-10) as [_|N]; [reflexivity|]. exfalso. apply N.
  replace 1e-10 with (sqrt 1e-20).
  - apply sqrt_lt_1_alt. split; [|exact L]. rewrite <- E. apply dot3_self_nonneg.
  - replace 1e-20 with (1e-10 * 1e-10) by lra. apply sqrt_square. lra.
Qed.
Lemma near_zero_aux (s e t : R) : 0 <= s -> 0 < e -> e * (1 + s) = 1e-11 -> t < e -> - e < t -> t * t * s < 1e-20.
Proof.
  intros N P E B1 B2.
  assert (T2 : t * t <= e * e) by nra. assert (e <= 1e-11) by nra. assert (e * s <= 1e-11) by nra.
  assert (t * t * s <= e * e * s) by (apply Rmult_le_compat_r; assumption).
  assert (0 <= e * s) by nra. assert (e * (e * s) <= 1e-11 * 1e-11) by (apply Rmult_le_compat; lra). lra.
Qed.
Lemma near_zero (s : R) : 0 <= s -> locally 0 (fun t : R => t * t * s < 1e-20).
Proof.
  intros N. assert (P : 0 < 1e-11 / (1 + s)) by (apply Rdiv_lt_0_compat; lra).
  exists (mkposreal _ P). intros t B. unfold ball in B. cbn -[IZR Rdiv] in B. unfold AbsRing_ball, abs, minus, plus, opp in B. cbn -[IZR Rdiv] in B.
  rewrite Ropp_0, Rplus_0_r in B. apply Rabs_def2 in B. destruct B as [B1 B2].
  apply (near_zero_aux s (1e-11 / (1 + s)) t); auto. field. lra.
Qed.

Lemma scale3_0 x : scale3 (0 : car Rfld) x = zero3.
Proof. lring. Qed.
Lemma curve_rot_aux (A B : m3 Rfld) :
  madd3 (madd3 mzero3 (mscale3 (1 : car Rfld) A)) (mscale3 (0 : car Rfld) B) = A.
Proof. lring. Qed.
Lemma curve_tra_aux (A : m3 Rfld) (u : v3 Rfld) :
  add3 (mv3 A (scale3 (0 : car Rfld) u)) (mv3 id3 (add3 (scale3 (1 : car Rfld) u) (scale3 (0 : car Rfld) zero3))) = u.
Proof. lring. Qed.
Lemma curve_point_aux (A B : m3 Rfld) (h u z : v3 Rfld) (w : R) :
  add3 (add3 (mv3 mzero3 (mv3 id3 h)) (mv3 A (add3 (mv3 B h) (mv3 id3 zero3))))
    (add3 (scale3 (0 : car Rfld) (add3 (mv3 A zero3) z)) (scale3 (w : car Rfld) (add3 (add3 (mv3 mzero3 zero3) (mv3 A u)) zero3)))
  = mv3 A (add3 (mv3 B h) (scale3 (w : car Rfld) u)).
Proof. lring. Qed.

Section Curve.
Context (omega v : v3 Rfld).
Notation X t := (se3_exp (scale6 (t : car Rfld) (P6 omega v))).

Lemma curve_0 : X 0 = pose_id.
Proof using.
  rewrite (se3_near omega v 0 _ eq_refl) by lra. unfold rodrigues, pose_id. rewrite !Rmult_0_l, !Rmult_0_r.
  assert (E0 : madd3 (madd3 id3 (mscale3 (0 : car Rfld) (skew omega))) (mscale3 (0 : car Rfld) (mm3 (skew omega) (skew omega))) = id3)
    by (apply lie_zero1).
  rewrite E0, mv3_id, scale3_0. reflexivity.
Qed.
Lemma d_coef1 (s : R) : is_derive (fun t : R => 2 * real_taylor (t * t * s) * imag_taylor (t * t * s) * t) 0 1.
Proof. unfold real_taylor, imag_taylor. auto_derive; auto. field_simplify; lra. Qed.
Lemma d_coef2 (s : R) : is_derive (fun t : R => 2 * imag_taylor (t * t * s) * imag_taylor (t * t * s) * (t * t)) 0 0.
Proof. unfold imag_taylor. auto_derive; auto. field_simplify; lra. Qed.
Lemma curve_rot : dm3 (fun t => rot (X t)) 0 (skew omega).
Proof using.
  pose proof (near_zero _ (dot3_self_nonneg omega)) as L.
  eapply dm3_ext_loc.
  - eapply filter_imp; [|exact L]. cbn beta. intros t Ht. rewrite (se3_near omega v t _ eq_refl Ht). cbn [rot]. reflexivity.
  - unfold rodrigues. eapply dm3_eq.
    + apply d_madd3; [apply d_madd3; [apply d_const_m3|apply d_mscale3; apply d_coef1]|apply d_mscale3; apply d_coef2].
    + apply curve_rot_aux.
Qed.
Lemma curve_tra : dv3 (fun t => tra (X t)) 0 v.
Proof using.
  pose proof (near_zero _ (dot3_self_nonneg omega)) as L.
  eapply dv3_ext_loc.
  - eapply filter_imp with (P := fun t : R => t * t * dot3 omega omega < 1e-20); [|exact L]. intros t Ht.
    transitivity (mv3 (rot (X t)) (scale3 (t : car Rfld) v)); [reflexivity|].
    rewrite (se3_near omega v t _ eq_refl Ht). reflexivity.
  - eapply dv3_eq.
    + apply (d_mv3 (fun t => rot (X t)) (fun t => scale3 (t : car Rfld) v)); [apply curve_rot|].
      apply (d_scale3 (fun t => t) (fun _ => v)); [apply (is_derive_id (K := R_AbsRing))|apply d_const3].
    + cbv beta. rewrite curve_0. cbn [rot pose_id]. apply curve_tra_aux.
Qed.

(** A point of the source cloud along the perturbed pose. *)
Context (T : pose Rfld) (p : vec4 Rfld).
Lemma head_curve M : head (pose_pt (pose_mul T M) p)
  = add3 (mv3 (rot T) (mv3 (rot M) (head p))) (scale3 (vw p) (add3 (mv3 (rot T) (tra M)) (tra T))).
Proof using.
  destruct M as [M m]. unfold pose_pt, head at 1. cbn [vx vy vz pose_mul rot tra]. rewrite mv3_mm3.
  destruct (add3 _ _). reflexivity.
Qed.
Lemma curve_point : dv3 (fun t => head (pose_pt (pose_mul T (X t)) p)) 0
  (mv3 (rot T) (add3 (mv3 (skew omega) (head p)) (scale3 (vw p) v))).
Proof using.
  eapply dv3_ext_loc; [apply filter_forall; intros t; symmetry; apply head_curve|].
  eapply dv3_eq.
  - apply (d_add3 (fun t => mv3 (rot T) (mv3 (rot (X t)) (head p)))).
    + apply (d_mv3 (fun _ => rot T) (fun t => mv3 (rot (X t)) (head p))); [apply d_const_m3|].
      apply (d_mv3 (fun t => rot (X t)) (fun _ => head p)); [apply curve_rot|apply d_const3].
    + apply (d_scale3 (fun _ => vw p) (fun t => add3 (mv3 (rot T) (tra (X t))) (tra T))); [apply d_const|].
      apply (d_add3 (fun t => mv3 (rot T) (tra (X t)))); [|apply d_const3].
      apply (d_mv3 (fun _ => rot T) (fun t => tra (X t))); [apply d_const_m3|apply curve_tra].
  - cbv beta. rewrite curve_0. cbn [rot tra pose_id].
    apply curve_point_aux.
Qed.
End Curve.

Lemma skew_swap omega x : mv3 (skew omega) x = opp3 (mv3 (skew x) omega).
Proof. lring. Qed.
Lemma jac_point (T : pose Rfld) (p : vec4 Rfld) omega v : vw p = 1 ->
  opp3 (mv3 (rot T) (add3 (mv3 (skew omega) (head p)) (scale3 (vw p) v))) = jmul (point_jac T p) (P6 omega v).
Proof.
  intros W. rewrite W. unfold jmul, point_jac. cbn [jr jt rv tv]. rewrite mv3_mm3. generalize (rot T) (head p). clear. lring.
Qed.

(** * Gauss-Newton form of every factor *)
Lemma head_vsub (q p : vec4 Rfld) : head (vsub q p) = sub3 (head q) (head p).
Proof. reflexivity. Qed.
Lemma d_opp3 f t a : dv3 f t a -> dv3 (fun s => opp3 (f s)) t (opp3 a).
Proof.
  intros H. eapply dv3_ext_loc; [|eapply dv3_eq; [apply (d_scale3 (fun _ => -1) f); [apply d_const|exact H]|]].
  - apply filter_forall. intros s. cbv beta. generalize (f s). clear. lring.
  - generalize (f t) a. clear. lring.
Qed.
Lemma curve_residual T (q p : vec4 Rfld) omega v : vw p = 1 ->
  dv3 (fun t => head (vsub q (pose_pt (pose_mul T (se3_exp (scale6 (t : car Rfld) (P6 omega v)))) p))) 0
      (jmul (point_jac T p) (P6 omega v)).
Proof.
  intros W.
  apply dv3_ext_loc with (f := fun t => add3 (head q) (opp3 (head (pose_pt (pose_mul T (se3_exp (scale6 (t : car Rfld) (P6 omega v)))) p)))).
  - apply filter_forall. intros t. rewrite head_vsub, sub3_add. reflexivity.
  - eapply dv3_eq.
    + apply (d_add3 (fun _ => head q) (fun t => opp3 (head (pose_pt (pose_mul T (se3_exp (scale6 (t : car Rfld) (P6 omega v)))) p))));
        [apply d_const3|].
      apply (d_opp3 (fun t => head (pose_pt (pose_mul T (se3_exp (scale6 (t : car Rfld) (P6 omega v)))) p))). apply curve_point.
    + rewrite add3_zero_l. apply jac_point. exact W.
Qed.
Lemma d_mul3 f t a n : dv3 f t a -> dv3 (fun s => mul3 n (f s)) t (mul3 n a).
Proof.
  intros (A & B & C).
  assert (H : forall (c : R) (g : R -> R) l, is_derive g t l -> is_derive (fun s => c * g s) t (c * l)).
  { intros c g l Hg. pose proof (d_mult _ _ _ _ _ (d_const c t) Hg) as Q. cbv beta in Q.
    replace (c * l) with (0 * g t + c * l) by ring. exact Q. }
  split; [|split]; cbn [mul3 p0 p1 p2]; apply H; assumption.
Qed.
Lemma plane_jac_mul T (n p : vec4 Rfld) d : jmul (plane_jac T n p) d = mul3 (head n) (jmul (point_jac T p) d).
Proof.
  destruct T as [A b]. unfold jmul, plane_jac, point_jac. cbn [rot jr jt]. rewrite !mv3_mm3, !mv3_mopp.
  destruct d as [x y]. cbn [rv tv]. generalize (mv3 A (mv3 (skew (head p)) x)) (mv3 A y) (head n).
  clear. intros u w k. assert (E : forall z : v3 Rfld, mv3 (diag3 k) z = mul3 k z) by (clear; lring).
  rewrite !E. clear E. lring.
Qed.
Lemma sqnorm4_head (r : vec4 Rfld) : sqnorm4 r = dot3 (head r) (mv3 id3 (head r)) + vw r * vw r.
Proof. destruct r. cbn. req. ring. Qed.
Lemma d_half_quad W r a : sym3 W -> dv3 r 0 a -> forall c : R,
  is_derive (fun t => / 2 * (dot3 (r t) (mv3 W (r t)) : R) + c) 0 (dot3 a (mv3 W (r 0))).
Proof.
  intros S D c.
  pose proof (d_dot3 r (fun t => mv3 W (r t)) 0 a (mv3 W a) D) as Q.
  assert (D2 : dv3 (fun t => mv3 W (r t)) 0 (mv3 W a)).
  { eapply dv3_eq; [apply (d_mv3 (fun _ => W) r); [apply d_const_m3|exact D]|]. cbv beta. rewrite mv3_mzero, add3_zero_l. reflexivity. }
  specialize (Q D2).
  pose proof (d_plus _ _ _ _ _ (d_mult _ _ _ _ _ (d_const (/ 2) 0) Q) (d_const c 0)) as F. cbv beta in F.
  match type of F with is_derive _ _ ?l => replace (dot3 a (mv3 W (r 0)) : R) with l; [exact F|] end.
  assert (E : dot3 (r 0) (mv3 W a) = dot3 a (mv3 W (r 0))).
  { rewrite (dot3_comm (r 0)), dot3_mv3, S. reflexivity. }
  rewrite E. change (car (fbase Rfld)) with R. field.
Qed.

Section Form.
Context (nn : vec4 Rfld -> outcome (option (N * R))) (reject : pose Rfld -> N -> nat -> R -> bool).
Context (target : view Rfld N) (source : view Rfld nat).

(** Along T * exp(t delta) the error is half a squared weighted length of a vector r(t), up to
    a constant; H and b are built from the derivative of r. *)
Definition gn_form (k : kind) (T : pose Rfld) (f' : factor Rfld) (s : sys Rfld) (delta : v6 Rfld) : Prop :=
  exists (r : R -> v3 Rfld) (r' : v3 Rfld) (c : R),
    let W := match k with GICP => f_maha f' | _ => id3 end in
    (forall t : R, error target source k (pose_mul T (se3_exp (scale6 (t : car Rfld) delta))) f'
       = Ok (/ 2 * dot3 (r t) (mv3 W (r t)) + c)) /\
    dv3 r 0 r' /\
    dot6 (sb s) delta = dot3 r' (mv3 W (r 0)) /\
    dot6 delta (mv6 (sH s) delta) = dot3 r' (mv3 W r') /\
    (k = GICP -> c = 0).

Lemma pose_mul_id (T : pose Rfld) : pose_mul T pose_id = T.
Proof.
  destruct T as [A b]. unfold pose_mul, pose_id. cbn [rot tra]. rewrite mm3_id_r, mv3_zero, add3_zero_l. reflexivity.
Qed.

Lemma gn_form_holds k T si f f' s delta :
  linearize nn reject target source k T si f = Ok (f', Some s) ->
  (forall p, at_point source si = Ok p -> vw p = 1) ->
  gn_form k T f' s delta.
Proof.
  intros H W. destruct (linearize_cases _ _ _ _ _ _ _ _ _ _ _ H) as (p & found & Ep & _ & ti & d & _ & _ & EL & Et & Es).
  specialize (W p Ep). destruct delta as [omega v].
  pose proof (fun q => curve_residual T q p omega v W) as CR.
  unfold linearize_at, residual in EL. destruct (at_point target ti) as [q| | |] eqn:Eq; cbn [bind] in EL; try discriminate.
  rewrite Ep in EL. cbn [bind] in EL. specialize (CR q).
  assert (V0 : forall M, vw (vsub q (pose_pt M p)) = vw q - vw p) by reflexivity.
  assert (R0 : vsub q (pose_pt (pose_mul T (se3_exp (scale6 (0 : car Rfld) (P6 omega v)))) p) = vsub q (pose_pt T p)).
  { rewrite curve_0, pose_mul_id. reflexivity. }
  unfold gn_form, error. rewrite Et, Es. unfold residual. rewrite Eq, Ep. cbn [bind].
  destruct k.
  - inversion EL; subst f' s; clear EL. cbn [sb sH].
    exists (fun t => head (vsub q (pose_pt (pose_mul T (se3_exp (scale6 (t : car Rfld) (P6 omega v)))) p))).
    exists (jmul (point_jac T p) (P6 omega v)), (/ 2 * ((vw q - vw p) * (vw q - vw p))). cbv zeta.
    split; [|split; [exact CR|split; [|split; [|discriminate]]]].
    + intros t. rewrite sqnorm4_head, V0. f_equal. cbn [nmul fhalf Rfld fbase]. apply Rmult_plus_distr_l.
    + rewrite R0, mv3_id, dot6_comm, dot6_jtr. reflexivity.
    + rewrite jtj_jwj, quad_jwj. reflexivity.
  - destruct (at_normal target ti) as [n| | |] eqn:En; cbn [bind] in EL; try discriminate.
    inversion EL; subst f' s; clear EL. cbn [sb sH].
    exists (fun t => mul3 (head n) (head (vsub q (pose_pt (pose_mul T (se3_exp (scale6 (t : car Rfld) (P6 omega v)))) p)))).
    exists (jmul (plane_jac T n p) (P6 omega v)), (/ 2 * (vw n * (vw q - vw p) * (vw n * (vw q - vw p)))). cbv zeta.
    split; [|split; [|split; [|split; [|discriminate]]]].
    + intros t. cbn [bind]. rewrite sqnorm4_head. f_equal.
      change (vw (vmul n (vsub q (pose_pt (pose_mul T (se3_exp (scale6 (t : car Rfld) (P6 omega v)))) p)))) with (vw n * (vw q - vw p)).
      cbn [nmul fhalf Rfld fbase]. apply Rmult_plus_distr_l.
    + rewrite plane_jac_mul. apply d_mul3. exact CR.
    + rewrite R0, mv3_id, dot6_comm, dot6_jtr. reflexivity.
    + rewrite jtj_jwj, quad_jwj. reflexivity.
  - destruct (at_cov target ti) as [ct| | |] eqn:Ect; cbn [bind] in EL; try discriminate.
    destruct (at_cov source si) as [cs| | |] eqn:Ecs; cbn [bind] in EL; try discriminate.
    inversion EL; subst f' s; clear EL. cbn [sb sH f_maha].
    exists (fun t => head (vsub q (pose_pt (pose_mul T (se3_exp (scale6 (t : car Rfld) (P6 omega v)))) p))).
    exists (jmul (point_jac T p) (P6 omega v)), 0. cbv zeta.
    split; [|split; [exact CR|split; [|split; [|reflexivity]]]].
    + intros t. f_equal. unfold quad. rewrite Rplus_0_r. reflexivity.
    + rewrite R0, dot6_comm, dot6_jtr. reflexivity.
    + rewrite quad_jwj. reflexivity.
Qed.

Lemma gn_form_gradient k T f' s delta : (k = GICP -> sym3 (f_maha f')) -> gn_form k T f' s delta ->
  exists e : R -> R, (forall t : R, error target source k (pose_mul T (se3_exp (scale6 (t : car Rfld) delta))) f' = Ok (e t)) /\
    is_derive e 0 (dot6 (sb s) delta).
Proof.
  intros Sy (r & r' & c & E & D & B & _). cbv zeta in *.
  set (W := match k with GICP => f_maha f' | _ => id3 end) in *.
  exists (fun t => / 2 * dot3 (r t) (mv3 W (r t)) + c). split; [exact E|]. rewrite B. apply d_half_quad; [|exact D].
  unfold W. destruct k; [apply sym3_id|apply sym3_id|apply Sy; reflexivity].
Qed.

Lemma hessian_sym_psd k T si f f' s : linearize nn reject target source k T si f = Ok (f', Some s) ->
  (k = GICP -> sym3 (f_maha f') /\ psd3 (f_maha f')) -> sym6 (sH s) /\ psd6 (sH s).
Proof.
  intros H G. destruct (linearize_cases _ _ _ _ _ _ _ _ _ _ _ H) as (p & found & Ep & _ & ti & d & _ & _ & EL & Et & Es).
  unfold linearize_at in EL. destruct (residual target source T ti si) as [q| | |]; cbn [bind] in EL; try discriminate.
  rewrite Ep in EL. cbn [bind] in EL.
  assert (I : forall J : jac Rfld, sym6 (jtj J) /\ psd6 (jtj J)).
  { intros J. rewrite jtj_jwj. split; [apply sym6_jwj; apply sym3_id|apply psd6_jwj; apply spd3_psd3; apply spd3_id]. }
  destruct k.
  - inversion EL; subst. apply I.
  - destruct (at_normal target ti) as [n| | |]; cbn [bind] in EL; try discriminate. inversion EL; subst. apply I.
  - destruct (at_cov target ti) as [ct| | |]; cbn [bind] in EL; try discriminate.
    destruct (at_cov source si) as [cs| | |]; cbn [bind] in EL; try discriminate.
    injection EL as <- <-. cbn [f_maha sH] in *. destruct (G eq_refl) as [G1 G2].
    split; [apply sym6_jwj; exact G1|apply psd6_jwj; exact G2].
Qed.
End Form.
