From Coq Require Import Reals Lra Psatz.
From Coquelicot Require Import Coquelicot.
From Verif Require Import Base Num Vec RNum Lin LieSpec LinSpec LinProofs LieModel.
Open Scope R_scope.

Implicit Types (omega v : v3 Rfld).

Definition qnorm2 (q : quat) : R := qw q * qw q + dot3 (qv q) (qv q).

Lemma to_rotation_orth q : mm3 (tr3 (to_rotation q)) (to_rotation q)
  = madd3 id3 (mscale3 (4 * (1 - qnorm2 q) : car Rfld) (mm3 (skew (qv q)) (skew (qv q)))).
Proof. destruct q as [w v]. unfold qnorm2. lring. Qed.
Lemma to_rotation_det q : det3 (to_rotation q) = 1 - 4 * dot3 (qv q) (qv q) * (1 - qnorm2 q).
Proof. destruct q as [w v]. unfold qnorm2. lring. Qed.

Lemma to_rotation_unit q : qnorm2 q = 1 -> rotation (to_rotation q).
Proof.
  intros H. split.
  - rewrite to_rotation_orth, H. generalize (mm3 (skew (qv q)) (skew (qv q))). lring.
  - rewrite to_rotation_det, H. lra.
Qed.

(** Large-angle branch *)
Lemma so3_large omega : 1e-10 <= dot3 omega omega ->
  let theta := sqrt (dot3 omega omega) in
  so3_exp omega = mkQuat (cos (0.5 * theta)) (scale3 (sin (0.5 * theta) / theta : car Rfld) omega).
Proof. intros H theta. unfold so3_exp. destruct (Rlt_dec _ _) as [L|L]; [change (dot3 omega omega < 1e-10) in L; lra|]. reflexivity. Qed.

Lemma theta_pos s : 1e-10 <= s -> 0 < sqrt s.
Proof. intros H. apply sqrt_lt_R0. lra. Qed.

Lemma unit_large s omega : 0 < s -> dot3 omega omega = s ->
  qnorm2 (mkQuat (cos (0.5 * sqrt s)) (scale3 (sin (0.5 * sqrt s) / sqrt s : car Rfld) omega)) = 1.
Proof.
  intros Ps E. unfold qnorm2. cbn [qw qv]. rewrite dot3_scale_l, dot3_scale_r, E.
  pose proof (sqrt_lt_R0 s Ps) as T. pose proof (sqrt_sqrt s (Rlt_le _ _ Ps)) as SS.
  set (th := sqrt s) in *. rewrite <- SS. cbn.
  pose proof (sin2_cos2 (0.5 * th)) as SC. unfold Rsqr in SC.
  transitivity (sin (0.5 * th) * sin (0.5 * th) + cos (0.5 * th) * cos (0.5 * th)); [field; lra|exact SC].
Qed.

Lemma rotation_large omega : 1e-10 <= dot3 omega omega -> rotation (to_rotation (so3_exp omega)).
Proof.
  intros H. rewrite so3_large by exact H. apply to_rotation_unit. apply unit_large; [lra|reflexivity].
Qed.

(** Rodrigues *)
Definition rodrigues (omega : v3 Rfld) (a b : R) : m3 Rfld :=
  madd3 (madd3 id3 (mscale3 (a : car Rfld) (skew omega))) (mscale3 (b : car Rfld) (mm3 (skew omega) (skew omega))).
Lemma to_rotation_rodrigues w k omega :
  to_rotation (mkQuat w (scale3 (k : car Rfld) omega)) = rodrigues omega (2 * w * k) (2 * k * k).
Proof. unfold rodrigues. lring. Qed.
Lemma rodrigues_large omega : 1e-10 <= dot3 omega omega ->
  let theta := sqrt (dot3 omega omega) in
  to_rotation (so3_exp omega) = rodrigues omega (sin theta / theta) ((1 - cos theta) / (theta * theta)).
Proof.
  intros H theta. rewrite so3_large by exact H. fold theta. rewrite to_rotation_rodrigues.
  assert (T : 0 < theta) by (apply theta_pos; exact H).
  pose proof (sin_2a (0.5 * theta)) as S2. pose proof (cos_2a_sin (0.5 * theta)) as C2.
  replace (2 * (0.5 * theta)) with theta in S2, C2 by lra. rewrite S2, C2. unfold rodrigues.
  f_equal; [f_equal|]; f_equal; cbn; field; lra.
Qed.

Lemma skew_cube omega : mm3 (mm3 (skew omega) (skew omega)) (skew omega) = mscale3 (- dot3 omega omega : car Rfld) (skew omega).
Proof. lring. Qed.

(** * Derivatives of vector and matrix functions *)
Lemma d_mult (f g : R -> R) t a b : is_derive f t a -> is_derive g t b ->
  is_derive (fun s => f s * g s) t (a * g t + f t * b).
Proof.
  intros H1 H2. apply is_derive_Reals. apply (derivable_pt_lim_mult f g); apply is_derive_Reals; assumption.
Qed.
Lemma d_plus (f g : R -> R) t a b : is_derive f t a -> is_derive g t b ->
  is_derive (fun s => f s + g s) t (a + b).
Proof.
  intros H1 H2. apply is_derive_Reals. apply (derivable_pt_lim_plus f g); apply is_derive_Reals; assumption.
Qed.
Lemma d_const (c t : R) : is_derive (fun _ => c) t 0.
Proof. apply is_derive_Reals. apply derivable_pt_lim_const. Qed.

Lemma d_dot3 f g t a b : dv3 f t a -> dv3 g t b ->
  is_derive (fun s => dot3 (f s) (g s) : R) t (dot3 a (g t) + dot3 (f t) b).
Proof.
  intros (A0 & A1 & A2) (B0 & B1 & B2).
  pose proof (d_plus _ _ _ _ _ (d_plus _ _ _ _ _ (d_mult _ _ _ _ _ A0 B0) (d_mult _ _ _ _ _ A1 B1)) (d_mult _ _ _ _ _ A2 B2)) as H.
  match type of H with is_derive _ _ ?l =>
    replace (dot3 a (g t) + dot3 (f t) b) with l; [exact H|] end.
  cbn. ring.
Qed.
Lemma d_scale3 (f : R -> R) (g : R -> v3 Rfld) t a b : is_derive f t a -> dv3 g t b ->
  dv3 (fun s => scale3 (f s : car Rfld) (g s)) t (add3 (scale3 (a : car Rfld) (g t)) (scale3 (f t : car Rfld) b)).
Proof.
  intros A (B0 & B1 & B2). split; [|split]; [exact (d_mult _ _ _ _ _ A B0)|exact (d_mult _ _ _ _ _ A B1)|exact (d_mult _ _ _ _ _ A B2)].
Qed.
Lemma d_add3 f g t a b : dv3 f t a -> dv3 g t b -> dv3 (fun s => add3 (f s) (g s)) t (add3 a b).
Proof.
  intros (A0 & A1 & A2) (B0 & B1 & B2).
  split; [|split]; [exact (d_plus _ _ _ _ _ A0 B0)|exact (d_plus _ _ _ _ _ A1 B1)|exact (d_plus _ _ _ _ _ A2 B2)].
Qed.
Lemma d_const3 c t : dv3 (fun _ => c) t zero3.
Proof. split; [|split]; apply d_const. Qed.
Lemma dv3_eq f t a b : dv3 f t a -> a = b -> dv3 f t b.
Proof. intros H <-. exact H. Qed.
Lemma d_mv3 F f t A b : dm3 F t A -> dv3 f t b ->
  dv3 (fun s => mv3 (F s) (f s)) t (add3 (mv3 A (f t)) (mv3 (F t) b)).
Proof.
  intros (A0 & A1 & A2) B.
  split; [|split]; [exact (d_dot3 _ _ _ _ _ A0 B)|exact (d_dot3 _ _ _ _ _ A1 B)|exact (d_dot3 _ _ _ _ _ A2 B)].
Qed.
Lemma d_const_m3 c t : dm3 (fun _ => c) t mzero3.
Proof. split; [|split]; apply d_const3. Qed.
Lemma d_madd3 F G t A B : dm3 F t A -> dm3 G t B -> dm3 (fun s => madd3 (F s) (G s)) t (madd3 A B).
Proof.
  intros (A0 & A1 & A2) (B0 & B1 & B2).
  split; [|split]; [exact (d_add3 _ _ _ _ _ A0 B0)|exact (d_add3 _ _ _ _ _ A1 B1)|exact (d_add3 _ _ _ _ _ A2 B2)].
Qed.
Lemma d_mscale3 (f : R -> R) t a M : is_derive f t a -> dm3 (fun s => mscale3 (f s : car Rfld) M) t (mscale3 (a : car Rfld) M).
Proof.
  intros A.
  assert (H : forall c : R, is_derive (fun s => f s * c) t (a * c)).
  { intros c. pose proof (d_mult _ _ _ _ _ A (d_const c t)) as Q. simpl in Q. replace (a * c) with (a * c + f t * 0) by ring. exact Q. }
  split; [|split]; (split; [|split]); apply H.
Qed.
Lemma dm3_eq F t A B : dm3 F t A -> A = B -> dm3 F t B.
Proof. intros H <-. exact H. Qed.
Lemma dv3_ext_loc f g t a : locally t (fun s => f s = g s) -> dv3 f t a -> dv3 g t a.
Proof.
  intros L (A & B & C).
  split; [|split]; (eapply is_derive_ext_loc; [|eassumption]); eapply filter_imp; [|exact L| |exact L| |exact L];
    intros s E; rewrite E; reflexivity.
Qed.
Lemma dm3_ext_loc f g t a : locally t (fun s => f s = g s) -> dm3 f t a -> dm3 g t a.
Proof.
  intros L (A & B & C).
  split; [|split]; (eapply dv3_ext_loc; [|eassumption]); eapply filter_imp; [|exact L| |exact L| |exact L];
    intros s E; rewrite E; reflexivity.
Qed.

Lemma lie_zero1 (A B : m3 Rfld) : madd3 (madd3 id3 (mscale3 (0 : car Rfld) A)) (mscale3 (0 : car Rfld) B) = id3.
Proof. lring. Qed.
Lemma lie_zero2 (A B : m3 Rfld) v :
  mv3 (madd3 (madd3 (mscale3 (0 : car Rfld) id3) (mscale3 (0 : car Rfld) A)) (mscale3 (0 : car Rfld) B)) v = zero3.
Proof. lring. Qed.
Lemma lie_ode1 (A B : m3 Rfld) (c k : R) :
  madd3 (madd3 mzero3 (mscale3 (c : car Rfld) A)) (mscale3 (k : car Rfld) B)
  = madd3 (madd3 A (mscale3 (k : car Rfld) B)) (mscale3 (c - 1 : car Rfld) A).
Proof. lring. Qed.
Lemma mm3_madd_l (x y z : m3 Rfld) : mm3 (madd3 x y) z = madd3 (mm3 x z) (mm3 y z).
Proof. lring. Qed.
Lemma mscale3_madd (k : R) (x y z : m3 Rfld) : mscale3 (k : car Rfld) (madd3 (madd3 x y) z)
  = madd3 (madd3 (mscale3 (k : car Rfld) x) (mscale3 (k : car Rfld) y)) (mscale3 (k : car Rfld) z).
Proof. lring. Qed.

(** * The closed form is the exponential: it solves X' = X a^ with X(0) = 1. *)
Section Exponential.
Context (omega v : v3 Rfld).
Let th := sqrt (dot3 omega omega).
Context (Pos : 0 < th).

Definition exp_rot (t : R) : m3 Rfld := rodrigues omega (sin (t * th) / th) ((1 - cos (t * th)) / (th * th)).
Definition exp_V (t : R) : m3 Rfld :=
  madd3 (madd3 (mscale3 (t : car Rfld) id3) (mscale3 ((1 - cos (t * th)) / (th * th) : car Rfld) (skew omega)))
        (mscale3 ((t * th - sin (t * th)) / (th * th * th) : car Rfld) (mm3 (skew omega) (skew omega))).
Definition exp_tra (t : R) : v3 Rfld := mv3 (exp_V t) v.

Lemma th_sq : th * th = dot3 omega omega.
Proof. apply sqrt_sqrt. apply dot3_self_nonneg. Qed.

Lemma exp_rot_0 : exp_rot 0 = id3.
Proof.
  unfold exp_rot. rewrite Rmult_0_l, sin_0, cos_0. replace (0 / th) with 0 by (field; lra).
  replace ((1 - 1) / (th * th)) with 0 by (field; lra). unfold rodrigues. apply lie_zero1.
Qed.
Lemma exp_tra_0 : exp_tra 0 = zero3.
Proof.
  unfold exp_tra, exp_V. rewrite Rmult_0_l, sin_0, cos_0.
  replace ((1 - 1) / (th * th)) with 0 by (field; lra). replace ((0 - 0) / (th * th * th)) with 0 by (field; lra).
  apply lie_zero2.
Qed.

Lemma d_sin t : is_derive (fun s => sin (s * th) / th) t (cos (t * th)).
Proof. auto_derive; auto. field. lra. Qed.
Lemma d_cos t : is_derive (fun s => (1 - cos (s * th)) / (th * th)) t (sin (t * th) / th).
Proof. auto_derive; auto. field. lra. Qed.
Lemma d_lin_sin t : is_derive (fun s => (s * th - sin (s * th)) / (th * th * th)) t ((1 - cos (t * th)) / (th * th)).
Proof. auto_derive; auto. field. lra. Qed.

Lemma exp_rot_ode t : dm3 exp_rot t (mm3 (exp_rot t) (skew omega)).
Proof.
  unfold exp_rot, rodrigues.
  eapply dm3_eq; [apply d_madd3; [apply d_madd3; [apply d_const_m3|apply d_mscale3; apply d_sin]|apply d_mscale3; apply d_cos]|].
  pose proof skew_cube omega as C. pose proof th_sq as T.
  set (A := skew omega) in *. set (B := mm3 A A) in *.
  transitivity (madd3 (madd3 A (mscale3 (sin (t * th) / th : car Rfld) B)) (mscale3 ((1 - cos (t * th)) / (th * th) : car Rfld) (mm3 B A))).
  - rewrite C. rewrite <- T. generalize (sin (t * th) / th). intros sn.
    assert (E : mscale3 ((1 - cos (t * th)) / (th * th) : car Rfld) (mscale3 (- (th * th) : car Rfld) A)
                = mscale3 (cos (t * th) - 1 : car Rfld) A).
    { rewrite mscale3_mscale. f_equal. cbn. field. lra. }
    rewrite E. apply lie_ode1.
  - rewrite !mm3_madd_l, !mm3_mscale_l, mm3_id_l. reflexivity.
Qed.
Lemma exp_tra_ode t : dv3 exp_tra t (mv3 (exp_rot t) v).
Proof.
  unfold exp_tra.
  assert (H : dm3 exp_V t (exp_rot t)).
  { unfold exp_V, exp_rot, rodrigues. eapply dm3_eq.
    - apply d_madd3; [apply d_madd3|]; apply d_mscale3.
      + apply (is_derive_id (K := R_AbsRing)).
      + apply d_cos.
      + apply d_lin_sin.
    - cbn. rewrite mscale3_one. reflexivity. }
  eapply dv3_eq; [apply (d_mv3 exp_V (fun _ => v)); [exact H|apply d_const3]|].
  rewrite mv3_zero. apply add3_zero_r.
Qed.
End Exponential.

(** The code computes this closed form (outside the small-angle branches). *)
Lemma sqrt_scaled t s : 0 <= t -> 0 <= s -> sqrt (t * t * s) = t * sqrt s.
Proof. intros Ht Hs. rewrite sqrt_mult_alt by nra. rewrite sqrt_square by exact Ht. reflexivity. Qed.
Lemma skew_scale (t : R) omega : skew (scale3 (t : car Rfld) omega) = mscale3 (t : car Rfld) (skew omega).
Proof. lring. Qed.
Lemma se3_large omega v t : 0 < t -> 1e-10 <= t * t * dot3 omega omega ->
  se3_exp (P6 (scale3 (t : car Rfld) omega) (scale3 (t : car Rfld) v)) = mkPose (exp_rot omega t) (exp_tra omega v t).
Proof.
  intros Ht H.
  assert (E : dot3 (scale3 (t : car Rfld) omega) (scale3 (t : car Rfld) omega) = t * t * dot3 omega omega).
  { rewrite dot3_scale_l, dot3_scale_r. cbn. ring. }
  pose proof (dot3_self_nonneg omega) as N. change (0 <= dot3 omega omega) in N.
  set (s := dot3 omega omega) in *. assert (Ps : 0 < s).
  { destruct (Rle_lt_or_eq_dec _ _ N) as [L|Z]; auto. exfalso. rewrite <- Z in H. change (car (fbase Rfld)) with R in *. lra. }
  assert (Th : 0 < sqrt s) by (apply sqrt_lt_R0; exact Ps).
  assert (Sq : sqrt (t * t * s) = t * sqrt s) by (apply sqrt_scaled; lra).
  unfold se3_exp. cbn [rv tv]. rewrite rodrigues_large by (rewrite E; exact H).
  rewrite E, Sq.
  apply mkPose_eq.
  - unfold exp_rot. fold s. unfold rodrigues. rewrite skew_scale.
    rewrite mm3_mscale_l, mm3_mscale_r, !mscale3_mscale.
    set (q := sqrt s) in *. clearbody q. clear - Th Ht. f_equal; [f_equal|].
    + f_equal. cbn. field. repeat split; lra.
    + f_equal. cbn. field. repeat split; lra.
  - destruct (Rlt_dec (t * sqrt s) 1e-10) as [L|L].
    { exfalso. assert (t * sqrt s * (t * sqrt s) < 1e-10).
      { assert (0 < t * sqrt s) by (apply Rmult_lt_0_compat; assumption). nra. }
      assert (t * sqrt s * (t * sqrt s) = t * t * s). { rewrite <- (sqrt_sqrt s N) at 3. ring. }
      lra. }
    unfold exp_tra, V_matrix. rewrite mv3_scale, <- mv3_mscale. f_equal. unfold exp_V. fold s.
    pose proof (sqrt_sqrt s N) as SS. set (q := sqrt s) in *. clearbody q. rewrite <- SS. clear SS Sq.
    rewrite skew_scale, !mm3_mscale_l, !mm3_mscale_r, !mscale3_mscale.
    rewrite mscale3_madd, !mscale3_mscale. f_equal; [f_equal|].
    + f_equal. cbn. field. repeat split; lra.
    + f_equal. cbn. field. repeat split; lra.
Qed.
