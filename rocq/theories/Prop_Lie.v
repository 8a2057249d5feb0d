(** C31: pose increments are rigid and are the exponential of their twist. *)
From Coq Require Import Reals Lra Psatz.
From Coquelicot Require Import Coquelicot.
From Verif Require Import Base Num Vec RNum Lin LinSpec LieSpec LinProofs LieModel LieProofs LieFlow LieSmall.
Open Scope R_scope.

(** The constant-twist motion exists and is unique, so "the exponential of a" is X(1). *)
Theorem C31_motion_well_defined : forall a, exists X, flow a X /\ forall Y, flow a Y -> forall t, Y t = X t.
Proof.
  intros a. destruct (flow_exists a) as [X F]. exists X. split; [exact F|]. intros Y G t. exact (flow_unique a Y X t G F).
Qed.

(** Outside the small-angle branch: exactly the exponential, and a rotation. *)
Theorem C31_exponential : forall a X, flow a X -> 1e-10 <= dot3 (rv a) (rv a) ->
  se3_exp a = X 1 /\ rotation (rot (se3_exp a)).
Proof.
  intros a X F H. split.
  - assert (E : scale6 (1 : car Rfld) a = a) by (destruct a; lring). rewrite <- E.
    apply se3_exp_flow; [exact F|lra|]. rewrite !Rmult_1_l. exact H.
  - apply rotation_large. exact H.
Qed.

Lemma se3_zero v : se3_exp (P6 zero3 v) = mkPose id3 v.
Proof.
  assert (Z : dot3 (zero3 (D := Rfld)) zero3 = 0) by (apply dot3_zero_l).
  unfold se3_exp. cbn [rv tv]. rewrite Z, sqrt_0. destruct (Rlt_dec 0 1e-10) as [_|N]; [|lra].
  assert (E : to_rotation (so3_exp zero3) = id3).
  { rewrite (small_q zero3 0 Z) by lra. rewrite to_rotation_rodrigues. unfold rodrigues.
    generalize (2 * real_taylor 0 * imag_taylor 0) (2 * imag_taylor 0 * imag_taylor 0). intros a b. lring. }
  rewrite E, mv3_id. reflexivity.
Qed.
(** Pure translations are exact as well. *)
Theorem C31_pure_translation : forall a X, flow a X -> rv a = zero3 -> se3_exp a = X 1.
Proof.
  intros [omega v] X F H. cbn [rv] in H. subst omega. rewrite se3_zero.
  rewrite (flow_unique _ _ _ 1 F (flow_straight v)). f_equal. destruct v. lring.
Qed.

(** Every twist: the rotation moves no point x farther than 1e-34 |x| from where the
    exponential moves it, the translation is within 2e-10 |t| of the exponential's, and equal to
    it unless the rotation angle is below 1e-10. *)
Theorem C31_close_to_exponential : forall a X, flow a X ->
  (forall x, let y := sub3 (mv3 (rot (se3_exp a)) x) (mv3 (rot (X 1)) x) in dot3 y y <= 1e-69 * dot3 x x) /\
  (let z := sub3 (tra (se3_exp a)) (tra (X 1)) in dot3 z z <= 3e-20 * dot3 (tv a) (tv a)) /\
  (1e-20 <= dot3 (rv a) (rv a) -> tra (se3_exp a) = tra (X 1)).
Proof.
  intros [omega v] X F. destruct (theta_pos_or_zero omega) as [P|Z].
  - rewrite (flow_unique _ _ _ 1 F (flow_closed omega v P)). cbn [rot tra rv tv].
    apply exp_close; [reflexivity|]. apply sqrt_lt_0_alt. rewrite sqrt_0. exact P.
  - rewrite (C31_pure_translation _ _ F Z).
    assert (S0 : forall x : v3 Rfld, dot3 (sub3 x x) (sub3 x x) = 0) by (clear; lring).
    split; [|split]; cbv zeta.
    + intros x. rewrite S0. pose proof (dot3_self_nonneg x). change (car (fbase Rfld)) with R in *. lra.
    + rewrite S0. pose proof (dot3_self_nonneg v). cbn [tv]. change (car (fbase Rfld)) with R in *. lra.
    + reflexivity.
Qed.

(** Every twist: lengths are kept up to a relative error of 1e-44, and so is the volume. *)
Lemma small_factor (s : R) : 0 <= s < 1e-10 -> s * s * s * s / 23040 <= 1e-44.
Proof. intros [A B]. assert (0 <= s * s <= 1e-20) by nra. assert (s * s * (s * s) <= 1e-40) by nra. nra. Qed.
Theorem C31_nearly_rigid : forall (a : v6 Rfld) (x : v3 Rfld),
  dot3 x x <= dot3 (mv3 (rot (se3_exp a)) x) (mv3 (rot (se3_exp a)) x) <= (1 + 1e-44) * dot3 x x /\
  1 <= det3 (rot (se3_exp a)) <= 1 + 1e-44.
Proof.
  intros [omega v] x. unfold se3_exp. cbn [rot rv].
  destruct (Rle_lt_dec 1e-10 (dot3 omega omega)) as [L|L].
  - pose proof (rotation_large omega L) as R1. rewrite (rotation_norm _ x R1). destruct R1 as [_ Dt].
    pose proof (dot3_self_nonneg x). change (car (fbase Rfld)) with R in *. rewrite Dt. lra.
  - pose proof (small_norm omega _ eq_refl L x) as [A B]. pose proof (small_det omega _ eq_refl L) as [C E].
    pose proof (small_factor (dot3 omega omega) (conj (dot3_self_nonneg omega) L)) as S.
    pose proof (dot3_self_nonneg x) as X. change (car (fbase Rfld)) with R in *.
    set (k := dot3 omega omega * _ * _ * _ / 23040) in *. clearbody k.
    split; [split; [exact A|apply Rle_trans with (1 := B); apply Rmult_le_compat_r; lra]|lra].
Qed.

(** Any number of increments applied to a rigid pose, as the optimizers do. *)
Definition apply_increments (T : pose Rfld) (l : list (v6 Rfld)) : pose Rfld :=
  fold_left (fun T a => pose_mul T (se3_exp a)) l T.
Lemma apply_snoc T l a : apply_increments T (l ++ [a]) = pose_mul (apply_increments T l) (se3_exp a).
Proof. unfold apply_increments. rewrite fold_left_app. reflexivity. Qed.
Theorem C31_composed_rotation : forall l T, rotation (rot T) ->
  Forall (fun a : v6 Rfld => 1e-10 <= dot3 (rv a) (rv a) \/ rv a = zero3) l -> rotation (rot (apply_increments T l)).
Proof.
  intros l T HT. induction l as [|a l IH] using rev_ind; intros Hl; [exact HT|].
  rewrite apply_snoc. apply Forall_app in Hl. destruct Hl as [H1 H2]. inversion H2 as [|? ? Ha _]; subst.
  cbn [rot pose_mul]. apply rotation_mm; [auto|]. destruct Ha as [L|Z].
  - apply rotation_large. exact L.
  - destruct a as [omega v]. cbn [rv] in Z. subst omega. rewrite se3_zero. cbn [rot].
    split; [rewrite tr3_id; apply mm3_id_l|apply det3_id].
Qed.
Theorem C31_composed : forall l T, rotation (rot T) -> forall x : v3 Rfld,
  let R' := rot (apply_increments T l) in
  dot3 x x <= dot3 (mv3 R' x) (mv3 R' x) <= (1 + 1e-44) ^ length l * dot3 x x.
Proof.
  intros l T HT. induction l as [|a l IH] using rev_ind; intros x; cbv zeta.
  - cbn [apply_increments fold_left length pow]. rewrite (rotation_norm _ x HT). lra.
  - rewrite apply_snoc. cbn [rot pose_mul]. rewrite mv3_mm3. specialize (IH (mv3 (rot (se3_exp a)) x)). cbv zeta in IH.
    destruct (C31_nearly_rigid a x) as [[A B] _]. rewrite app_length, Nat.add_comm. cbn [length Nat.add pow].
    destruct IH as [I1 I2]. split; [lra|].
    assert (P : 0 <= (1 + 1e-44) ^ length l) by (apply pow_le; lra).
    apply Rle_trans with (1 := I2). rewrite (Rmult_comm (1 + 1e-44)), Rmult_assoc. apply Rmult_le_compat_l; assumption.
Qed.

(** The "accurate expansion" of the translation is not the exponential's translation: for
    rotation angles below 1e-10 and a perpendicular translation it is off in first order. *)
Lemma V_rodrigues (th2 th : R) omega : V_matrix th2 th omega = rodrigues omega ((1 - cos th) / th2) ((th - sin th) / (th2 * th)).
Proof. unfold V_matrix, rodrigues. rewrite mm3_mscale_l. reflexivity. Qed.
Theorem C31_small_translation_refuted : forall a X, flow a X ->
  0 < dot3 (rv a) (rv a) < 1e-20 -> dot3 (rv a) (tv a) = 0 ->
  let z := sub3 (tra (se3_exp a)) (tra (X 1)) in
  0.2 * dot3 (rv a) (rv a) * dot3 (tv a) (tv a) <= dot3 z z.
Proof.
  intros [omega v] X F [P L] O. cbn [rv tv] in *. cbv zeta.
  set (s := dot3 omega omega) in *. pose proof (sqrt_lt_R0 s P) as N. pose proof (sqrt_sqrt s (Rlt_le _ _ P)) as SS.
  rewrite (flow_unique _ _ _ 1 F (flow_closed omega v N)). cbn [tra].
  assert (ET : exp_tra omega v 1 = mv3 (V_matrix s (sqrt s) omega) v).
  { unfold exp_tra, exp_V, V_matrix. fold s. rewrite mscale3_one, mm3_mscale_l, !Rmult_1_l, SS. reflexivity. }
  unfold se3_exp. cbn [rv tv tra]. fold s. destruct (Rlt_dec (sqrt s) 1e-10) as [_|Q]; [|exfalso; nra].
  assert (L10 : s < 1e-10) by lra.
  rewrite ET, V_rodrigues, (small_q omega s eq_refl L10), to_rotation_rodrigues, rodrigues_diff.
  rewrite cross_lagrange, O. fold s.
  destruct (V_coef s ltac:(lra)) as [[_ a2] _]. set (aV := (1 - cos (sqrt s)) / s) in *.
  assert (K : 0.99 <= 2 * real_taylor s * imag_taylor s).
  { unfold real_taylor, imag_taylor. assert (0 <= s * s <= 1e-40) by nra.
    assert (0.999 <= 1 - 1 / 8 * s + 1 / 384 * (s * s)) by lra.
    assert (0.499 <= 0.5 - 1 / 48 * s + 1 / 3840 * (s * s)) by lra. nra. }
  set (aR := 2 * real_taylor s * imag_taylor s) in *.
  set (bd := 2 * imag_taylor s * imag_taylor s - _). clearbody aR aV bd.
  pose proof (dot3_self_nonneg v) as V0. pose proof (dot3_self_nonneg (mv3 (skew omega) (mv3 (skew omega) v))) as C0.
  set (y := dot3 v v) in *. set (c2 := dot3 (mv3 _ _) _) in *. clearbody y c2. clear ET O F. clearbody s.
  change (car (fbase Rfld)) with R in *.
  assert (0.24 <= (aR - aV) * (aR - aV)) by nra. assert (0 <= bd * bd) by (apply Rle_0_sqr).
  assert (0 <= bd * bd * c2) by (apply Rmult_le_pos; assumption). assert (0 <= s * y) by nra. nra.
Qed.

(** Concrete cases. *)
Lemma dot3_r3 (a b c a' b' c' : R) : dot3 (r3 a b c) (r3 a' b' c') = a * a' + b * b' + c * c'.
Proof. reflexivity. Qed.
Example C31_large_twist : 1e-10 <= dot3 (rv (P6 (r3 1 0 0) (r3 0 1 0))) (rv (P6 (r3 1 0 0) (r3 0 1 0))).
Proof. cbn [rv]. rewrite dot3_r3. lra. Qed.
Example C31_small_twist :
  let a := P6 (r3 0 0 1e-11) (r3 1 0 0) in
  0 < dot3 (rv a) (rv a) < 1e-20 /\ dot3 (rv a) (tv a) = 0 /\ 0 < dot3 (tv a) (tv a).
Proof. cbn [rv tv]. rewrite !dot3_r3. split; [|split]; lra. Qed.
Example C31_rigid_start : rotation (rot (pose_id (D := Rfld))).
Proof. split; [cbn [rot pose_id]; rewrite tr3_id; apply mm3_id_l|apply det3_id]. Qed.
(** A quarter turn about z while moving along x. *)
Example C31_quarter_turn : rot (se3_exp (P6 (r3 0 0 (PI / 2)) (r3 1 0 0))) =
  M3 (r3 0 (-1) 0) (r3 1 0 0) (r3 0 0 1).
Proof.
  assert (D2 : dot3 (r3 0 0 (PI / 2)) (r3 0 0 (PI / 2)) = (PI / 2) * (PI / 2)) by (rewrite dot3_r3; req; ring).
  pose proof PI2_1 as P. pose proof PI_RGT_0 as P0.
  unfold se3_exp. cbn [rot rv]. rewrite rodrigues_large by (rewrite D2; nra). rewrite D2, sqrt_square by lra.
  rewrite sin_PI2, cos_PI2. assert (H : PI / 2 <> 0) by lra. revert H. generalize (PI / 2). clear. intros h H.
  unfold rodrigues, r3. lsplit; cbn; req; field; exact H.
Qed.

Print Assumptions C31_motion_well_defined.
Print Assumptions C31_exponential.
Print Assumptions C31_pure_translation.
Print Assumptions C31_close_to_exponential.
Print Assumptions C31_nearly_rigid.
Print Assumptions C31_composed_rotation.
Print Assumptions C31_composed.
Print Assumptions C31_small_translation_refuted.
