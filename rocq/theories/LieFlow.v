(** Uniqueness of the constant-twist motion, and error bounds for the small-angle branches. *)
From Coq Require Import Reals Lra Psatz.
From Coquelicot Require Import Coquelicot.
From Verif Require Import Base Num Vec RNum Lin LieSpec LinSpec LinProofs LieModel LieProofs.
Open Scope R_scope.

Implicit Types (omega v x : v3 Rfld).

(** * Uniqueness *)
Lemma d_tr3 F t A : dm3 F t A -> dm3 (fun s => tr3 (F s)) t (tr3 A).
Proof. intros ((A0 & A1 & A2) & (B0 & B1 & B2) & (C0 & C1 & C2)). split; [|split]; (split; [|split]); assumption. Qed.
Lemma d_mm3 F G t A B : dm3 F t A -> dm3 G t B ->
  dm3 (fun s => mm3 (F s) (G s)) t (madd3 (mm3 A (G t)) (mm3 (F t) B)).
Proof.
  intros (A0 & A1 & A2) H. apply d_tr3 in H. destruct H as (B0 & B1 & B2).
  split; [|split]; (split; [|split]).
  - exact (d_dot3 _ _ _ _ _ A0 B0).
  - exact (d_dot3 _ _ _ _ _ A0 B1).
  - exact (d_dot3 _ _ _ _ _ A0 B2).
  - exact (d_dot3 _ _ _ _ _ A1 B0).
  - exact (d_dot3 _ _ _ _ _ A1 B1).
  - exact (d_dot3 _ _ _ _ _ A1 B2).
  - exact (d_dot3 _ _ _ _ _ A2 B0).
  - exact (d_dot3 _ _ _ _ _ A2 B1).
  - exact (d_dot3 _ _ _ _ _ A2 B2).
Qed.
Lemma d0_const (f : R -> R) t : (forall s, is_derive f s 0) -> f t = f 0.
Proof.
  intros H. destruct (Rtotal_order t 0) as [L|[E|L]].
  - apply (eq_is_derive f t 0); [intros s _; apply H|exact L].
  - rewrite E. reflexivity.
  - symmetry. apply (eq_is_derive f 0 t); [intros s _; apply H|exact L].
Qed.
Lemma v3_ext (a b : v3 Rfld) : p0 a = p0 b -> p1 a = p1 b -> p2 a = p2 b -> a = b.
Proof. destruct a, b. cbn. intros -> -> ->. reflexivity. Qed.
Lemma m3_ext (a b : m3 Rfld) : r0 a = r0 b -> r1 a = r1 b -> r2 a = r2 b -> a = b.
Proof. destruct a, b. cbn. intros -> -> ->. reflexivity. Qed.
Lemma dv3_const f t : (forall s, dv3 f s zero3) -> f t = f 0.
Proof.
  intros H. apply v3_ext.
  - apply (d0_const (fun s => p0 (f s) : R)). intros s. destruct (H s) as (A & _ & _). exact A.
  - apply (d0_const (fun s => p1 (f s) : R)). intros s. destruct (H s) as (_ & A & _). exact A.
  - apply (d0_const (fun s => p2 (f s) : R)). intros s. destruct (H s) as (_ & _ & A). exact A.
Qed.
Lemma dm3_const F t : (forall s, dm3 F s mzero3) -> F t = F 0.
Proof.
  intros H. apply m3_ext.
  - apply (dv3_const (fun s => r0 (F s))). intros s. apply (H s).
  - apply (dv3_const (fun s => r1 (F s))). intros s. apply (H s).
  - apply (dv3_const (fun s => r2 (F s))). intros s. apply (H s).
Qed.

Lemma skew_cancel (A B : m3 Rfld) omega :
  madd3 (mm3 (mm3 A (skew omega)) (tr3 B)) (mm3 A (tr3 (mm3 B (skew omega)))) = mzero3.
Proof. lring. Qed.
Lemma orth_flip (A : m3 Rfld) : mm3 A (tr3 A) = id3 -> mm3 (tr3 A) A = id3.
Proof.
  intros H. assert (Dn : det3 A <> 0).
  { intros Z. assert (E : det3 (mm3 A (tr3 A)) = det3 (id3 (D := Rfld))) by (rewrite H; reflexivity).
    rewrite det3_mm, det3_tr, Z, det3_id in E. cbn in E. lra. }
  assert (E : tr3 A = inv3 A).
  { rewrite <- (mm3_id_l (tr3 A)), <- (inv3_l A Dn), <- mm3_assoc, H. apply mm3_id_r. }
  rewrite E. apply inv3_l. exact Dn.
Qed.
Lemma flow_product a X Y t : flow a X -> flow a Y -> mm3 (rot (X t)) (tr3 (rot (Y t))) = id3.
Proof.
  intros [X0 HX] [Y0 HY].
  rewrite (dm3_const (fun s => mm3 (rot (X s)) (tr3 (rot (Y s))))).
  - rewrite X0, Y0. cbn [rot pose_id]. rewrite tr3_id. apply mm3_id_l.
  - intros s. eapply dm3_eq.
    + apply (d_mm3 (fun s => rot (X s)) (fun s => tr3 (rot (Y s)))); [apply HX|apply d_tr3; apply HY].
    + cbn beta. apply skew_cancel.
Qed.
Lemma sub_self_zero x : add3 x (scale3 (-1 : car Rfld) x) = zero3.
Proof. lring. Qed.
Lemma sub_zero_eq (x y : v3 Rfld) : add3 x (scale3 (-1 : car Rfld) y) = zero3 -> x = y.
Proof.
  destruct x as [x0 x1 x2], y as [y0 y1 y2]. intros H. unfold add3, scale3, zero3 in H. cbn in H. injection H as H0 H1 H2.
  f_equal; rcar; apply Rminus_diag_uniq; unfold Rminus; nra.
Qed.
Lemma flow_unique a X Y t : flow a X -> flow a Y -> X t = Y t.
Proof.
  intros FX FY.
  assert (E : forall s, rot (X s) = rot (Y s)).
  { intros s. pose proof (flow_product a X Y s FX FY) as P. pose proof (orth_flip _ (flow_product a Y Y s FY FY)) as Q.
    rewrite <- (mm3_id_r (rot (X s))), <- Q, mm3_assoc, P. apply mm3_id_l. }
  assert (G : tra (X t) = tra (Y t)).
  { apply sub_zero_eq. rewrite (dv3_const (fun s => add3 (tra (X s)) (scale3 (-1 : car Rfld) (tra (Y s))))).
    - destruct FX as [X0 _], FY as [Y0 _]. rewrite X0, Y0. apply sub_self_zero.
    - intros s. destruct FX as [_ HX], FY as [_ HY]. eapply dv3_eq.
      + apply (d_add3 (fun s => tra (X s)) (fun s => scale3 (-1 : car Rfld) (tra (Y s)))); [apply HX|].
        apply (d_scale3 (fun _ => -1) (fun s => tra (Y s))); [apply d_const|apply HY].
      + cbn beta. rewrite E. generalize (mv3 (rot (Y s)) (tv a)) (tra (Y s)). lring. }
  specialize (E t). destruct (X t), (Y t). cbn in *. congruence.
Qed.

(** The closed form, for every twist. *)
Lemma theta_pos_or_zero omega : 0 < sqrt (dot3 omega omega) \/ omega = zero3.
Proof.
  destruct (Rle_lt_or_eq_dec 0 (dot3 omega omega) (dot3_self_nonneg omega)) as [L|E].
  - left. apply sqrt_lt_R0. exact L.
  - right. apply dot3_self_zero. symmetry. exact E.
Qed.
Lemma flow_closed omega v : 0 < sqrt (dot3 omega omega) ->
  flow (P6 omega v) (fun t => mkPose (exp_rot omega t) (exp_tra omega v t)).
Proof.
  intros Pos. split.
  - rewrite exp_rot_0, exp_tra_0 by exact Pos. reflexivity.
  - intros t. cbn [rot tra rv tv]. split; [apply exp_rot_ode|apply exp_tra_ode]; exact Pos.
Qed.
Lemma mm3_skew0 (A : m3 Rfld) : mm3 A (skew zero3) = mzero3.
Proof. lring. Qed.
Lemma flow_straight v : flow (P6 zero3 v) (fun t => mkPose id3 (scale3 (t : car Rfld) v)).
Proof.
  split.
  - cbn beta. unfold pose_id. f_equal. clear. lring.
  - intros t. cbn [rot tra rv tv]. rewrite mm3_skew0, mv3_id. split; [apply d_const_m3|].
    eapply dv3_eq.
    + apply (d_scale3 (fun s => s) (fun _ => v)); [apply (is_derive_id (K := R_AbsRing))|apply d_const3].
    + generalize v. clear. lring.
Qed.
Lemma flow_exists a : exists X, flow a X.
Proof.
  destruct a as [omega v]. destruct (theta_pos_or_zero omega) as [P|Z]; [|rewrite Z].
  - eexists. apply flow_closed. exact P.
  - eexists. apply flow_straight.
Qed.

(** The code's increment is the exponential outside the small-angle branch, and for pure
    translations. *)
Lemma se3_exp_flow a X t : flow a X -> 0 < t -> 1e-10 <= t * t * dot3 (rv a) (rv a) -> se3_exp (scale6 (t : car Rfld) a) = X t.
Proof.
  intros F Ht H. destruct a as [omega v]. cbn [rv] in H. unfold scale6. cbn [rv tv].
  rewrite se3_large by assumption.
  assert (Pos : 0 < sqrt (dot3 omega omega)).
  { destruct (theta_pos_or_zero omega) as [P|Z]; [exact P|exfalso]. rewrite Z in H.
    rewrite (dot3_zero_l zero3) in H. lra. }
  apply (flow_unique (P6 omega v) (fun t => mkPose (exp_rot omega t) (exp_tra omega v t)) X t); [|exact F].
  apply flow_closed. exact Pos.
Qed.
