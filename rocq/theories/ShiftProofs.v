(** Registration from a start that is off by a shift. *)
From Coq Require Import Reals Lra List.
From Verif Require Import Base BaseProofs Num Vec RNum Lin LinSpec LinProofs FactorModel FactorSpec FactorProofs FactorGrad FactorReal ReduceModel ReduceSpec ReduceProofs
  OptModel OptSpec LieModel StepProofs EstReal MoveSpec MoveProofs MoveFactor FitSpec AlignSpec AlignProofs ShiftSpec Prop_Lie Prop_Factor Prop_Reduce.
Open Scope R_scope.
Implicit Types (d x y omega v : v3 Rfld) (T : pose Rfld) (p q : vec4 Rfld).

(** * Shifts *)
Lemma shifted_zero T : shifted T zero3 = T.
Proof. destruct T as [R t]. unfold shifted. cbn [rot tra]. rewrite add3_zero_r. reflexivity. Qed.
Lemma shifted_shifted T d x : shifted (shifted T d) x = shifted T (add3 d x).
Proof. unfold shifted. cbn [rot tra]. rewrite add3_assoc. reflexivity. Qed.
Lemma shift_residual_aux (R : m3 Rfld) (t d h : v3 Rfld) : sub3 (add3 (mv3 R h) (scale3 (1 : car Rfld) t)) (add3 (mv3 R h) (scale3 (1 : car Rfld) (add3 t (opp3 d)))) = d.
Proof. lring. Qed.
Lemma head_pose_pt T p : head (pose_pt T p) = add3 (mv3 (rot T) (head p)) (scale3 (vw p) (tra T)).
Proof. unfold pose_pt, head. cbn [vx vy vz]. destruct (add3 _ _). reflexivity. Qed.
Lemma shift_residual T d p : vw p = 1 -> vsub (pose_pt T p) (pose_pt (shifted T (opp3 d)) p) = V4 (D := Rfld) (p0 d) (p1 d) (p2 d) (0 : car Rfld).
Proof.
  intros W. destruct T as [R t], p as [a b c w]. cbn [vw] in W. subst w.
  pose proof (shift_residual_aux R t d (P3 a b c)) as E. unfold vsub, pose_pt, shifted. cbn [vx vy vz vw rot tra].
  change (head (V4 a b c (1 : car Rfld))) with (P3 a b c) in *.
  destruct (add3 (mv3 R (P3 a b c)) (scale3 (1 : car Rfld) t)) as [u1 u2 u3], (add3 (mv3 R (P3 a b c)) (scale3 (1 : car Rfld) (add3 t (opp3 d)))) as [w1 w2 w3].
  cbn [p0 p1 p2 sub3] in *. rewrite <- E. cbn [p0 p1 p2]. apply V4_eq; try reflexivity. cbn. req. ring.
Qed.
Lemma shift_gap T d p : vw p = 1 -> sq_gap (pose_pt T p) (pose_pt (shifted T (opp3 d)) p) = dot3 d d.
Proof.
  intros W. assert (E : forall a b : vec4 Rfld, sq_gap a b = vx (vsub a b) ^ 2 + vy (vsub a b) ^ 2 + vz (vsub a b) ^ 2 + vw (vsub a b) ^ 2) by reflexivity.
  rewrite E, shift_residual by exact W. cbn [vx vy vz vw]. destruct d as [d0 d1 d2]. cbn. req. ring.
Qed.
Lemma gap_sum (p q r : vec4 Rfld) : sq_gap p r <= 2 * sq_gap p q + 2 * sq_gap q r.
Proof.
  destruct p as [a b c w], q as [a' b' c' w'], r as [a'' b'' c'' w'']. unfold sq_gap. cbn [vx vy vz vw]. rcar.
  pose proof (pow2_ge_0 (a - a' - (a' - a''))). pose proof (pow2_ge_0 (b - b' - (b' - b''))).
  pose proof (pow2_ge_0 (c - c' - (c' - c''))). pose proof (pow2_ge_0 (w - w' - (w' - w''))). nra.
Qed.
Lemma gap_sym (p q : vec4 Rfld) : sq_gap p q = sq_gap q p. Proof. unfold sq_gap. ring. Qed.

(** The step that is missing. *)
Definition missing (T : pose Rfld) (d : v3 Rfld) : v6 Rfld := P6 zero3 (mv3 (tr3 (rot T)) d).
Lemma rotation_tr R : rotation R -> mm3 R (tr3 R) = id3.
Proof. intros [O _]. apply orth_flip3. exact O. Qed.
Lemma point_jac_missing T d p : rotation (rot T) -> jmul (point_jac T p) (missing T d) = opp3 d.
Proof.
  intros O. unfold jmul, point_jac, missing. cbn [jr jt rv tv]. rewrite mv3_zero, add3_zero_l, mv3_mopp, <- mv3_mm3, rotation_tr, mv3_id by exact O. reflexivity.
Qed.
Lemma point_jac_velocity T p omega v : jmul (point_jac T p) (P6 omega v) = opp3 (mv3 (rot T) (velocity omega v (head p))).
Proof.
  unfold jmul, point_jac, velocity. cbn [jr jt rv tv]. generalize (head p). generalize (rot T). clear. revert omega v. unfold cross. lring.
Qed.
Lemma cross_identity (a b w : v3 Rfld) : scale3 (dot3 w w) (cross a b) =
  add3 (scale3 (dot3 (cross w a) b) w) (add3 (scale3 (dot3 w a) (cross w b)) (opp3 (scale3 (dot3 w b) (cross w a)))).
Proof. unfold cross. lring. Qed.
Lemma cross_sub (w x y : v3 Rfld) : cross w (sub3 y x) = sub3 (cross w y) (cross w x). Proof. unfold cross. lring. Qed.
Lemma cross_zero_l (x : v3 Rfld) : cross zero3 x = zero3. Proof. unfold cross. lring. Qed.
Lemma velocity_equal omega v (x y : v3 Rfld) : velocity omega v x = zero3 -> velocity omega v y = zero3 -> cross omega (sub3 y x) = zero3.
Proof.
  unfold velocity. intros A B. rewrite cross_sub. revert A B. generalize (cross omega x) (cross omega y). clear.
  intros [a b c] [a' b' c']. destruct v as [v0 v1 v2]. unfold zero3, sub3. cbn. intros A B. injection A as A1 A2 A3. injection B as B1 B2 B3.
  change (car (fbase Rfld)) with R in *. apply P3_eq; req; lra.
Qed.
Lemma scale3_nonzero (s : R) (x : v3 Rfld) : s <> 0 -> scale3 (s : car Rfld) x = zero3 -> x = zero3.
Proof.
  intros N. destruct x as [a b c]. unfold zero3. cbn. intros E. injection E as E1 E2 E3. change (car (fbase Rfld)) with R in *.
  apply P3_eq; req; match goal with E : s * ?z = 0 |- ?z = 0 => destruct (Rmult_integral _ _ E); [contradiction|assumption] end.
Qed.
Lemma off_line_moves (c : cloud Rfld) omega v : off_line c -> omega <> zero3 \/ v <> zero3 ->
  exists p, In p (cl_points c) /\ velocity omega v (head p) <> zero3.
Proof.
  intros (p & q & r & Ip & Iq & Ir & C) NZ.
  destruct (v3_eq_dec (velocity omega v (head p)) zero3) as [Ep|]; [|eauto].
  destruct (v3_eq_dec (velocity omega v (head q)) zero3) as [Eq|]; [|eauto].
  destruct (v3_eq_dec (velocity omega v (head r)) zero3) as [Er|]; [|eauto]. exfalso.
  pose proof (velocity_equal _ _ _ _ Ep Eq) as A. pose proof (velocity_equal _ _ _ _ Ep Er) as B.
  pose proof (cross_identity (sub3 (head q) (head p)) (sub3 (head r) (head p)) omega) as Id. rewrite A, B, dot3_zero_l in Id.
  destruct (v3_eq_dec omega zero3) as [->|No].
  - unfold velocity in Ep. rewrite cross_zero_l, add3_zero_l in Ep. subst v. destruct NZ as [N|N]; apply N; reflexivity.
  - apply C. apply (scale3_nonzero (dot3 omega omega)); [pose proof (dot3_self_pos _ No); lra|]. rewrite Id.
    generalize (dot3 omega (sub3 (head q) (head p))) (dot3 omega (sub3 (head r) (head p))). clear. revert omega. lring.
Qed.

(** * One factor *)
Definition senses (k : kind) (target : cloud Rfld) (T : pose Rfld) (p : vec4 Rfld) (x : v6 Rfld) : Prop :=
  match k with
  | PlaneICP => forall j n, nth_error (cl_points target) j = Some (pose_pt T p) -> nth_error (cl_normals target) j = Some n ->
      mul3 (head n) (mv3 (rot T) (velocity (rv x) (tv x) (head p))) <> zero3
  | _ => velocity (rv x) (tv x) (head p) <> zero3
  end.
Lemma pinned_senses k target source T (x : v6 Rfld) : pinned k target source T -> x <> zero6 -> exists p, In p (cl_points source) /\ senses k target T p x.
Proof.
  intros P N. assert (NZ : rv x <> zero3 \/ tv x <> zero3).
  { destruct (v3_eq_dec (rv x) zero3) as [E1|]; [|auto]. destruct (v3_eq_dec (tv x) zero3) as [E2|]; [|auto].
    exfalso. apply N. destruct x as [a b]. cbn [rv tv] in *. subst. reflexivity. }
  destruct k; cbn [pinned senses] in *; [apply off_line_moves; assumption|apply P; exact NZ|apply off_line_moves; assumption].
Qed.
Lemma opp3_zero x : opp3 x = zero3 -> x = zero3.
Proof. destruct x as [a b c]. unfold zero3, opp3. cbn. intros E. injection E as E1 E2 E3. change (car (fbase Rfld)) with R in *. apply P3_eq; req; lra. Qed.
Lemma rot_nonzero R x : rotation R -> mv3 R x = zero3 -> x = zero3.
Proof. intros [O _] E. rewrite <- (mv3_id x), <- O, mv3_mm3, E. apply mv3_zero. Qed.
Lemma jtr_opp (J : jac Rfld) x : jtr J (opp3 x) = opp6 (jtr J x).
Proof. unfold jtr, opp6. cbn [rv tv]. rewrite !mv3_opp. reflexivity. Qed.
Lemma mul3_opp (n x : v3 Rfld) : mul3 n (opp3 x) = opp3 (mul3 n x). Proof. lring. Qed.

Section One.
Context (target source : cloud Rfld) (nn : vec4 Rfld -> outcome (option (N * car Rfld))) (X : exact_search (cloud_viewN target) nn).
Context (limit : R) (reject : pose Rfld -> N -> nat -> car Rfld -> bool) (RJ : rejects_beyond limit reject).
Context (k : kind) (A : has_attributes k target source) (HS : homogeneous (cloud_view source)).
Context (T : pose Rfld) (RT : rotation (rot T)) (LO : lands_on target source T).
Context (d : v3 Rfld) (SP : spaced (4 * dot3 d d) target) (DM : dot3 d d < nmaxv (n := Rnum)) (DL : dot3 d d <= limit).
Notation start := (shifted T (opp3 d)).
Notation lin1 := (linearize nn reject (cloud_viewN target) (cloud_view source) k).

(** The nearest target point is the one the source point belongs to. *)
Lemma shifted_nearest p : In p (cl_points source) -> vw p = 1 ->
  exists ti, nn (pose_pt start p) = Ok (Some (ti, dot3 d d)) /\ at_point (cloud_viewN target) ti = Ok (pose_pt T p).
Proof using X LO SP DM.
  intros I W. pose proof (LO p I) as Iq. apply In_nth_error in Iq. destruct Iq as (j & Ej).
  assert (Ej' : at_point (cloud_viewN target) (N.of_nat j) = Ok (pose_pt T p)).
  { cbn [cloud_viewN at_point]. rewrite Nnat.Nat2N.id. apply get_Ok. exact Ej. }
  pose proof (shift_gap T d p W) as G.
  destruct (X (pose_pt start p)) as (o & En & S). destruct o as [[ti e]|].
  2: { exfalso. specialize (S _ _ Ej'). rewrite G in S. lra. }
  destruct S as ((q & Eq & MN) & Ld & q' & Eq' & ->). rewrite Eq in Eq'. injection Eq' as <-.
  specialize (MN _ _ Ej'). rewrite G in MN.
  assert (Q : q = pose_pt T p).
  { destruct (Rle_lt_dec (sq_gap q (pose_pt T p)) 0) as [Z|Z]; [apply gap_zero; exact Z|]. exfalso.
    assert (Iq : In q (cl_points target)). { cbn [cloud_viewN at_point] in Eq. apply get_Ok in Eq. exact (nth_error_In _ _ Eq). }
    assert (NE : q <> pose_pt T p) by (intros ->; rewrite gap_self in Z; lra).
    pose proof (SP _ _ Iq (LO p I) NE) as L. pose proof (gap_sum q (pose_pt start p) (pose_pt T p)) as U.
    rewrite (gap_sym (pose_pt start p)), G in U. lra. }
  subst q. exists ti. rewrite En, G. auto.
Qed.

Lemma shifted_factor si f : (si < length (cl_points source))%nat ->
  exists p f' s, nth_error (cl_points source) si = Some p /\ lin1 start si f = Ok (f', Some s) /\ inlier f' = true /\ sym6 (sH s) /\ psd6 (sH s) /\
    mv6 (sH s) (missing T d) = opp6 (sb s) /\ (forall x : v6 Rfld, senses k target T p x -> 0 < dot6 x (mv6 (sH s) x)) /\
    (k = ICP -> sH s = jtj (point_jac T p) /\ se s = / 2 * dot3 d d /\
      forall y, error (cloud_viewN target) (cloud_view source) ICP (shifted T (opp3 y)) f' = Ok (/ 2 * dot3 y y)).
Proof using X RJ A HS RT LO SP DM DL.
  intros Hi. destruct (nth_error (cl_points source) si) as [p|] eqn:Ep; [|apply nth_error_None in Ep; lia].
  assert (Ep' : at_point (cloud_view source) si = Ok p) by (cbn [cloud_view at_point]; apply get_Ok; exact Ep).
  pose proof (HS _ _ Ep') as W. destruct (shifted_nearest p (nth_error_In _ _ Ep) W) as (ti & En & Eq).
  assert (NR : reject start ti si (dot3 d d) = false).
  { destruct (reject start ti si (dot3 d d)) eqn:E; [|reflexivity]. apply RJ in E; [|exact DM]. exfalso. lra. }
  assert (Ti : nth_error (cl_points target) (N.to_nat ti) = Some (pose_pt T p)) by (cbn [cloud_viewN at_point] in Eq; apply get_Ok in Eq; exact Eq).
  assert (Li : (N.to_nat ti < length (cl_points target))%nat) by (apply nth_error_Some; congruence).
  assert (HD : head (V4 (D := Rfld) (p0 d) (p1 d) (p2 d) (0 : car Rfld)) = d) by (destruct d; reflexivity).
  assert (JE : point_jac start p = point_jac T p) by reflexivity.
  assert (PJ : forall n, plane_jac start n p = plane_jac T n p) by reflexivity.
  assert (HV : forall x : v6 Rfld, jmul (point_jac T p) x = opp3 (mv3 (rot T) (velocity (rv x) (tv x) (head p)))).
  { intros [om ve]. apply point_jac_velocity. }
  assert (E : exists f' s, lin1 start si f = Ok (f', Some s) /\ mv6 (sH s) (missing T d) = opp6 (sb s) /\
    (forall x : v6 Rfld, senses k target T p x -> 0 < dot6 x (mv6 (sH s) x)) /\
    (k = ICP -> sH s = jtj (point_jac T p) /\ se s = / 2 * dot3 d d /\ f_target f' = Some ti /\ f_source f' = si)).
  { unfold linearize. rewrite Ep'. cbn [bind]. rewrite En. cbn [bind]. rewrite NR. unfold linearize_at, residual. rewrite Eq, Ep'. cbn [bind].
    rewrite shift_residual by exact W.
    destruct k; cbn [has_attributes senses] in *.
    - cbn [bind]. do 2 eexists. split; [reflexivity|]. cbn [sH sb se f_target f_source]. rewrite HD, JE.
      split; [|split].
      + rewrite jtj_jwj, mv6_jwj, mv3_id, point_jac_missing, jtr_opp by exact RT. reflexivity.
      + intros x N. rewrite jtj_jwj, quad_jwj, mv3_id. apply dot3_self_pos. rewrite HV. intros Z. apply N. apply (rot_nonzero (rot T)); [exact RT|]. apply opp3_zero. exact Z.
      + intros _. split; [reflexivity|]. split; [|auto]. destruct d as [d0 d1 d2]. cbn. change (car (fbase Rfld)) with R in *. req. field.
    - cbn [cloud_viewN at_normal]. destruct (nth_error (cl_normals target) (N.to_nat ti)) as [n|] eqn:E.
      2: { exfalso. apply nth_error_None in E. rewrite A in E. exact (Nat.lt_irrefl _ (Nat.lt_le_trans _ _ _ Li E)). }
      pose proof E as E'. apply get_Ok in E'. rewrite E'. cbn [bind]. do 2 eexists. split; [reflexivity|]. cbn [sH sb se f_target f_source]. rewrite PJ.
      assert (HM : head (vmul n (V4 (D := Rfld) (p0 d) (p1 d) (p2 d) (0 : car Rfld))) = mul3 (head n) d) by (destruct n, d; reflexivity).
      split; [|split; [|discriminate]].
      + rewrite jtj_jwj, mv6_jwj, mv3_id, plane_jac_mul, point_jac_missing, mul3_opp, jtr_opp, HM by exact RT. reflexivity.
      + intros x N. rewrite jtj_jwj, quad_jwj, mv3_id. apply dot3_self_pos. rewrite plane_jac_mul, HV, mul3_opp. intros Z. apply opp3_zero in Z.
        exact (N _ _ Ti E Z).
    - destruct A as (A1 & A2 & U1 & U2). cbn [cloud_viewN cloud_view at_cov].
      destruct (nth_error (cl_covs target) (N.to_nat ti)) as [ct|] eqn:E.
      2: { exfalso. apply nth_error_None in E. rewrite A1 in E. exact (Nat.lt_irrefl _ (Nat.lt_le_trans _ _ _ Li E)). }
      destruct (nth_error (cl_covs source) si) as [cs|] eqn:E'.
      2: { exfalso. apply nth_error_None in E'. rewrite A2 in E'. exact (Nat.lt_irrefl _ (Nat.lt_le_trans _ _ _ Hi E')). }
      apply get_Ok in E, E'. rewrite E. cbn [bind]. rewrite E'. cbn [bind]. do 2 eexists. split; [reflexivity|]. cbn [sH sb se f_target f_source].
      rewrite HD, JE. destruct (U1 ti ct E) as [B1 B2]. specialize (U2 si cs E').
      destruct (maha_sym_spd start ct cs B1 B2 U2) as (S & P & EM). rewrite EM.
      split; [|split; [|discriminate]].
      + rewrite mv6_jwj, point_jac_missing, mv3_opp, jtr_opp by exact RT. reflexivity.
      + intros x N. rewrite quad_jwj. apply spd3_inv; [exact S|exact P|]. rewrite HV. intros Z. apply N. apply (rot_nonzero (rot T)); [exact RT|]. apply opp3_zero. exact Z. }
  destruct E as (f' & s & E & Q1 & Q2 & Q3). exists p, f', s. split; [reflexivity|]. split; [exact E|].
  destruct (error_after_linearize _ _ _ _ _ _ _ _ _ _ _ E) as (_ & I). split; [exact I|].
  destruct (C29_factor nn reject (cloud_viewN target) (cloud_view source) k HS ltac:(intros ->; apply A) start si f f' s E) as (Sy & Pd & _).
  split; [exact Sy|]. split; [exact Pd|]. split; [exact Q1|]. split; [exact Q2|]. intros K. destruct (Q3 K) as (H1 & H2 & H3 & H4).
  split; [exact H1|]. split; [exact H2|]. intros y. unfold error. rewrite H3, H4. unfold residual. rewrite Eq, Ep'. cbn [bind].
  rewrite shift_residual by exact W. destruct y as [y0 y1 y2]. cbn. change (car (fbase Rfld)) with R in *. f_equal. req. field.
Qed.
End One.

(** * The whole system *)
Lemma forall2_nth {A B : Type} (P : A -> B -> Prop) l l' : length l = length l' ->
  (forall i a b, nth_error l i = Some a -> nth_error l' i = Some b -> P a b) -> Forall2 P l l'.
Proof.
  revert l'. induction l as [|a l IH]; intros [|b l'] L H; try discriminate L; constructor.
  - apply (H 0%nat); reflexivity.
  - apply IH; [injection L as L; exact L|]. intros i x y E1 E2. apply (H (S i)); assumption.
Qed.
Lemma combine_nth_error {A B : Type} (l : list A) (l' : list B) i (x : A * B) : nth_error (combine l l') i = Some x ->
  nth_error l i = Some (fst x) /\ nth_error l' i = Some (snd x).
Proof.
  revert l' i. induction l as [|a l IH]; intros [|b l'] [|i] E; try discriminate E; cbn in *; [injection E as <-; auto|].
  apply IH. exact E.
Qed.
Lemma serial_all {P : Type} (points : list P) (lin1 : nat -> factor Rfld -> outcome (factor Rfld * option (sys Rfld))) (Q : P -> factor Rfld * sys Rfld -> Prop) fs :
  length fs = length points ->
  (forall i f, (i < length points)%nat -> exists (p : P) f' s, nth_error points i = Some p /\ lin1 i f = Ok (f', Some s) /\ Q p (f', s)) ->
  exists l, serial sys_zero sys_add lin1 fs = Ok (map fst l, fold_left sys_add (map snd l) sys_zero) /\ Forall2 Q points l.
Proof.
  intros L H. assert (AD : all_defined lin1 fs).
  { intros i f E. destruct (H i f) as (p & f' & s & _ & El & _); [rewrite <- L; apply nth_error_Some; congruence|]. eauto. }
  destruct (serial_spec _ _ _ _ _ C25_sys_monoid _ AD) as (fs' & E & _).
  destruct (serial_fold _ _ _ _ _ _ _ _ E) as (rs & (L1 & L2 & L3) & ET).
  exists (combine fs' (map contribution rs)).
  assert (LC : length fs' = length (map contribution rs)) by (rewrite map_length; lia).
  assert (F1 : map fst (combine fs' (map contribution rs)) = fs').
  { clear - LC. revert fs' LC. induction (map contribution rs) as [|b m IH]; intros [|a fs'] LC; try discriminate LC; [reflexivity|]. cbn. rewrite IH; [reflexivity|]. injection LC as LC. exact LC. }
  assert (F2 : map snd (combine fs' (map contribution rs)) = map contribution rs).
  { clear - LC. revert fs' LC. induction (map contribution rs) as [|b m IH]; intros [|a fs'] LC; try discriminate LC; [reflexivity|]. cbn. rewrite IH; [reflexivity|]. injection LC as LC. exact LC. }
  rewrite F1, F2, <- accepted_contributions, <- ET. split; [exact E|].
  apply forall2_nth; [rewrite combine_length, map_length; lia|]. intros i p x Ep Ex. apply combine_nth_error in Ex. destruct Ex as [E1 E2].
  assert (Hi : (i < length points)%nat) by (apply nth_error_Some; congruence).
  destruct (nth_error fs i) as [f|] eqn:Ef; [|apply nth_error_None in Ef; lia].
  destruct (L3 _ _ Ef) as (f1 & r & El & Ef1 & Er). destruct (H i f Hi) as (p' & f2 & s & Ep' & El' & K).
  rewrite El in El'. injection El' as -> ->. rewrite Ep in Ep'. injection Ep' as ->.
  rewrite nth_error_map, Er in E2. injection E2 as E2. rewrite E1 in Ef1. injection Ef1 as E3. destruct x as [x1 x2]. cbn [fst snd contribution] in *. subst. exact K.
Qed.

Lemma madd6_mv (A B : m6 Rfld) (x : v6 Rfld) : mv6 (madd6 A B) x = add6 (mv6 A x) (mv6 B x).
Proof. apply mv6_madd. Qed.
Lemma add6_opp (a b : v6 Rfld) : add6 (opp6 a) (opp6 b) = opp6 (add6 a b).
Proof. unfold add6, opp6. cbn [rv tv]. f_equal; generalize (rv a) (rv b) (tv a) (tv b); clear; lring. Qed.
Lemma fold_missing (m : v6 Rfld) l : Forall (fun s : sys Rfld => mv6 (sH s) m = opp6 (sb s)) l -> forall a, mv6 (sH a) m = opp6 (sb a) ->
  mv6 (sH (fold_left sys_add l a)) m = opp6 (sb (fold_left sys_add l a)).
Proof.
  induction 1 as [|s l S _ IH]; intros a Ha; cbn [fold_left]; [exact Ha|]. apply IH. cbn [sys_add sH sb]. rewrite madd6_mv, Ha, S. apply add6_opp.
Qed.
Lemma fold_quad (x : v6 Rfld) l : forall a : sys Rfld, dot6 x (mv6 (sH (fold_left sys_add l a)) x) =
  fold_left Rplus (map (fun s => dot6 x (mv6 (sH s) x)) l) (dot6 x (mv6 (sH a) x)).
Proof. induction l as [|s l IH]; intros a; cbn [fold_left map]; [reflexivity|]. rewrite IH. f_equal. cbn [sys_add sH]. rewrite madd6_mv, dot6_add_r. reflexivity. Qed.
Lemma fold_plus_pos l : Forall (fun x : R => 0 <= x) l -> forall a : R, 0 <= a -> a <= fold_left Rplus l a /\ (forall x : R, In x l -> x <= fold_left Rplus l a).
Proof.
  induction 1 as [|y l Y _ IH]; intros a Ha; cbn [fold_left]; [split; [lra|intros x []]|]. destruct (IH (a + y)) as [B C]; [lra|].
  split; [lra|]. intros x [->|I]; [lra|auto].
Qed.
Lemma fold_se l : forall a : sys Rfld, se (fold_left sys_add l a) = fold_left Rplus (map (fun s => se s) l) (se a).
Proof. induction l as [|s l IH]; intros a; cbn [fold_left map]; [reflexivity|]. rewrite IH. reflexivity. Qed.
Lemma fold_plus_const (c : R) {A : Type} (f : A -> R) l : Forall (fun s => f s = c) l -> forall a, fold_left Rplus (map f l) a = a + INR (length l) * c.
Proof.
  induction 1 as [|s l E _ IH]; intros a; cbn [fold_left map length]; [cbn [INR]; ring|]. rewrite IH, E, S_INR. ring.
Qed.
Lemma zero_system_quad (x : v6 Rfld) : mv6 (mzero6 (D := Rfld)) x = zero6.
Proof. unfold mv6, mzero6, zero6. cbn [brr brt btr btt]. rewrite !mv3_mzero, !add3_zero_l. reflexivity. Qed.

(** The Hessian of centred points on pure translations. *)
Lemma jtj_shift T p t : rotation (rot T) -> mv6 (jtj (point_jac T p)) (P6 zero3 t) = P6 (opp3 (mv3 (tr3 (skew (head p))) t)) t.
Proof.
  intros [O _]. rewrite jtj_jwj, mv6_jwj, mv3_id. unfold jmul, point_jac, jtr. cbn [jr jt rv tv].
  rewrite mv3_zero, add3_zero_l, tr3_mm3, mv3_mm3. apply P6_eq.
  - rewrite mv3_mopp, !mv3_opp, <- (mv3_mm3 (tr3 (rot T))), O, mv3_id. reflexivity.
  - assert (E : tr3 (mopp3 (rot T)) = mopp3 (tr3 (rot T))) by (generalize (rot T); clear; lring).
    rewrite E, !mv3_mopp, mv3_opp, <- mv3_mm3, O, mv3_id. destruct t as [a b c]. apply P3_eq; cbn; req; ring.
Qed.
Lemma skew_sum (x y t : v3 Rfld) : add3 (opp3 (mv3 (tr3 (skew x)) t)) (opp3 (mv3 (tr3 (skew y)) t)) = opp3 (mv3 (tr3 (skew (add3 x y))) t).
Proof. lring. Qed.
Lemma fold_centred T t points l : rotation (rot T) -> Forall2 (fun p (s : sys Rfld) => sH s = jtj (point_jac T p)) points l -> forall (a : sys Rfld) x (c : R),
  mv6 (sH a) (P6 zero3 t) = P6 (opp3 (mv3 (tr3 (skew x)) t)) (scale3 (c : car Rfld) t) ->
  mv6 (sH (fold_left sys_add l a)) (P6 zero3 t) =
    P6 (opp3 (mv3 (tr3 (skew (add3 x (fold_right (fun p s => add3 (head p) s) zero3 points)))) t)) (scale3 (c + INR (length points) : car Rfld) t).
Proof.
  intros O F. induction F as [|p s points l E _ IH]; intros a x c H; cbn [fold_left fold_right length].
  - rewrite add3_zero_r, H. cbn [INR]. rewrite Rplus_0_r. reflexivity.
  - rewrite (IH _ (add3 x (head p)) (c + 1)).
    + rewrite add3_assoc, S_INR. f_equal. f_equal. req. ring.
    + cbn [sys_add sH]. rewrite madd6_mv, H, E, jtj_shift by exact O. unfold add6. cbn [rv tv]. rewrite skew_sum. f_equal.
      destruct t as [t0 t1 t2]. apply P3_eq; cbn; req; ring.
Qed.

Lemma dot_scale (c : R) d : dot3 (scale3 (c : car Rfld) d) (scale3 (c : car Rfld) d) = c * c * dot3 d d.
Proof. destruct d as [a b e]. cbn. req. ring. Qed.
Lemma small_scaled target limit (c : R) d : 0 <= c <= 1 -> small_shift target limit d -> small_shift target limit (scale3 (c : car Rfld) d).
Proof.
  intros C (S & M & L). unfold small_shift. rewrite dot_scale. pose proof (dot3_self_nonneg d) as P. change (car (fbase Rfld)) with R in *.
  assert (B : c * c <= 1) by nra. assert (c * c * dot3 d d <= dot3 d d) by (rewrite <- (Rmult_1_l (dot3 d d)) at 2; apply Rmult_le_compat_r; assumption).
  split; [|split; lra]. intros p q Ip Iq N. specialize (S p q Ip Iq N). lra.
Qed.
Lemma scale_zero d : scale3 (0 : car Rfld) d = zero3. Proof. lring. Qed.
Lemma small_zero target limit d : small_shift target limit d -> small_shift target limit zero3.
Proof. intros S. rewrite <- (scale_zero d). apply small_scaled; [lra|exact S]. Qed.

Lemma step_aux (m l : R) (w : v3 Rfld) : 0 < m -> 0 < l ->
  add6 (P6 zero3 (scale3 (m : car Rfld) (scale3 (m / (m + l) : car Rfld) w))) (scale6 (l : car Rfld) (P6 zero3 (scale3 (m / (m + l) : car Rfld) w))) =
  P6 zero3 (scale3 (m : car Rfld) w).
Proof. intros M L. destruct w as [a b c]. apply P6_eq; apply P3_eq; cbn; change (car (fbase Rfld)) with R in *; req; field; lra. Qed.
Lemma left_aux (m l : R) (w : v3 Rfld) : 0 < m -> 0 < l ->
  add3 (opp3 w) (scale3 (m / (m + l) : car Rfld) w) = opp3 (scale3 (l / (m + l) : car Rfld) w).
Proof. intros M L. destruct w as [a b c]. apply P3_eq; cbn; change (car (fbase Rfld)) with R in *; req; field; lra. Qed.
Lemma norm_scale (c : R) d : 0 <= c -> norm3 (scale3 (c : car Rfld) d) = c * norm3 d.
Proof.
  intros C. unfold norm3. rewrite dot_scale. change (sqrt (c * c * dot3 d d) = c * sqrt (dot3 d d)). rewrite sqrt_mult; [|nra|apply dot3_self_nonneg].
  rewrite sqrt_square by exact C. reflexivity.
Qed.
Lemma norm_turn R d : rotation R -> norm3 (mv3 (tr3 R) d) = norm3 d.
Proof.
  intros O. unfold norm3. f_equal. rewrite dot3_mv3, tr3_tr3, <- mv3_mm3, rotation_tr, mv3_id by exact O. reflexivity.
Qed.
Lemma norm_nonneg d : 0 <= norm3 d. Proof. apply sqrt_pos. Qed.

Section Runs.
Context (target source : cloud Rfld) (nn : vec4 Rfld -> outcome (option (N * car Rfld))) (X : exact_search (cloud_viewN target) nn).
Context (limit : R) (reject : pose Rfld -> N -> nat -> car Rfld -> bool) (RJ : rejects_beyond limit reject).
Context (k : kind) (A : has_attributes k target source) (HS : homogeneous (cloud_view source)).
Context (T : pose Rfld) (RT : rotation (rot T)) (LO : lands_on target source T).
Notation size := (length (cl_points source)).
Notation lin := (reg_lin Rfld nn reject (cloud_viewN target) (cloud_view source) k).
Notation err := (reg_err Rfld (cloud_viewN target) (cloud_view source) k).

Lemma shifted_system d fs : small_shift target limit d -> length fs = size ->
  exists fs' s, lin (shifted T (opp3 d)) fs = Ok (fs', s) /\ length fs' = size /\ Forall (fun f => inlier f = true) fs' /\
    sym6 (sH s) /\ psd6 (sH s) /\ mv6 (sH s) (missing T d) = opp6 (sb s) /\ (pinned k target source T -> spd6 (sH s)) /\
    (k = ICP -> se s = INR size * (/ 2 * dot3 d d) /\ (forall y, err (shifted T (opp3 y)) fs' = Ok (INR size * (/ 2 * dot3 y y))) /\
      (centred source -> forall t, mv6 (sH s) (P6 zero3 t) = P6 zero3 (scale3 (INR size : car Rfld) t))).
Proof using X RJ A HS RT LO.
  intros (SP & DM & DL) L.
  destruct (serial_all (cl_points source) (linearize nn reject (cloud_viewN target) (cloud_view source) k (shifted T (opp3 d)))
    (fun p (x : factor Rfld * sys Rfld) => inlier (fst x) = true /\ sym6 (sH (snd x)) /\ psd6 (sH (snd x)) /\ mv6 (sH (snd x)) (missing T d) = opp6 (sb (snd x)) /\
      (forall y : v6 Rfld, senses k target T p y -> 0 < dot6 y (mv6 (sH (snd x)) y)) /\
      (k = ICP -> sH (snd x) = jtj (point_jac T p) /\ se (snd x) = / 2 * dot3 d d /\
        forall y, error (cloud_viewN target) (cloud_view source) ICP (shifted T (opp3 y)) (fst x) = Ok (/ 2 * dot3 y y))) fs L) as (l & E & F).
  { intros i f Hi. destruct (shifted_factor target source nn X limit reject RJ k A HS T RT LO d SP DM DL i f Hi) as (p & f' & s & H1 & H2 & H3). exists p, f', s. auto. }
  exists (map fst l), (fold_left sys_add (map snd l) sys_zero). split; [exact E|].
  assert (LL : length l = size) by (clear - F; induction F; cbn [length]; auto).
  split; [rewrite map_length; exact LL|].
  assert (Z6 : sym6 mzero6 /\ psd6 mzero6).
  { split; [unfold sym6, mzero6, tr6; cbn [brr brt btr btt]; assert (Z : tr3 (mzero3 (D := Rfld)) = mzero3) by (clear; lring); rewrite Z; reflexivity|].
    intros x. rewrite zero_system_quad, dot6_zero_r. lra. }
  assert (SPsd : sym6 (sH (fold_left sys_add (map snd l) sys_zero)) /\ psd6 (sH (fold_left sys_add (map snd l) sys_zero))).
  { apply fold_sH; [|apply Z6|apply Z6]. clear - F. induction F as [|p x ps l (H1 & H2 & H3 & _) _ IH]; cbn [map]; constructor; auto. }
  split; [clear - F; induction F as [|p x ps l (H1 & _) _ IH]; cbn [map]; constructor; auto|].
  split; [apply SPsd|]. split; [apply SPsd|]. split; [|split].
  - apply fold_missing.
    + clear - F. induction F as [|p x ps l (_ & _ & _ & H & _) _ IH]; cbn [map]; constructor; auto.
    + cbn [sys_zero sH sb]. rewrite zero_system_quad. unfold opp6, zero6. cbn [rv tv]. assert (O : opp3 (zero3 (D := Rfld)) = zero3) by (clear; lring). rewrite O. reflexivity.
  - intros PN x NX. destruct (pinned_senses k target source T x PN NX) as (p & Ip & SE).
    assert (IX : exists y : factor Rfld * sys Rfld, In y l /\ 0 < dot6 x (mv6 (sH (snd y)) x)).
    { clear - F Ip SE. induction F as [|q y ps l (_ & _ & _ & _ & H & _) _ IH]; [destruct Ip|]. destruct Ip as [->|Ip]; [exists y; split; [left; reflexivity|auto]|].
      destruct (IH Ip) as (z & Iz & Pz). exists z. split; [right; exact Iz|exact Pz]. }
    destruct IX as (y & Iy & Py). rewrite fold_quad. cbn [sys_zero sH]. rewrite zero_system_quad, dot6_zero_r.
    destruct (fold_plus_pos (map (fun s : sys Rfld => dot6 x (mv6 (sH s) x)) (map snd l))) with (a := 0) as [_ B]; [|lra|].
    + clear - F. induction F as [|q z ps l (_ & _ & H & _) _ IH]; cbn [map]; constructor; [apply H|exact IH].
    + specialize (B (dot6 x (mv6 (sH (snd y)) x))). eapply Rlt_le_trans; [exact Py|]. apply B. rewrite map_map. apply (in_map (fun z : factor Rfld * sys Rfld => dot6 x (mv6 (sH (snd z)) x)) l y Iy).
  - intros K. split; [|split].
    + rewrite fold_se. cbn [sys_zero se]. rewrite (fold_plus_const (/ 2 * dot3 d d)).
      * rewrite map_length, LL. cbn. req. ring.
      * clear - F K. induction F as [|q z ps l (_ & _ & _ & _ & _ & H) _ IH]; cbn [map]; constructor; auto. apply (H K).
    + intros y. rewrite K. unfold reg_err, serial_error.
      rewrite error_defined_sum with (e := map (fun _ => / 2 * dot3 y y) l).
      * change (@Ok R (fold_left Rplus (map (fun _ : factor Rfld * sys Rfld => / 2 * dot3 y y) l) 0) = Ok (INR size * (/ 2 * dot3 y y))).
        rewrite (fold_plus_const (/ 2 * dot3 y y)); [rewrite LL; f_equal; ring|]. apply Forall_forall. reflexivity.
      * clear - F K. induction F as [|q z ps l (_ & _ & _ & _ & _ & H) _ IH]; cbn [map]; constructor; auto. apply (H K).
    + intros C t. rewrite (fold_centred T t (cl_points source) (map snd l) RT) with (x := zero3) (c := 0).
      * unfold centred in C. rewrite C, add3_zero_l, Rplus_0_l. f_equal. clear. revert t. lring.
      * clear - F K. induction F as [|q z ps l (_ & _ & _ & _ & _ & H) _ IH]; cbn [map]; constructor; auto. apply (H K).
      * cbn [sys_zero sH]. rewrite zero_system_quad. unfold zero6. f_equal; clear; revert t; lring.
Qed.

Context (solve : m6 Rfld -> v6 Rfld -> v6 Rfld) (SV : solves6 solve).
Context (crit : criteria Rfld) (C1 : 0 <= translation_eps crit) (C2 : 0 <= rotation_eps crit).

Lemma shift_move (d t : v3 Rfld) : pose_mul (shifted T d) (se3_exp (P6 zero3 t)) = shifted T (add3 d (mv3 (rot T) t)).
Proof using.
  clear. rewrite se3_zero. unfold pose_mul, shifted. cbn [rot tra]. rewrite mm3_id_r. f_equal.
  generalize (mv3 (rot T) t) (tra T). revert d. clear. lring.
Qed.
Lemma missing_moves d : pose_mul (shifted T (opp3 d)) (se3_exp (missing T d)) = T.
Proof using RT.
  unfold missing. rewrite shift_move, <- mv3_mm3, rotation_tr, mv3_id by exact RT.
  assert (Z : add3 (opp3 d) d = zero3) by (clear; revert d; lring). rewrite Z. apply shifted_zero.
Qed.
Lemma missing_zero : missing T zero3 = zero6.
Proof using. clear. unfold missing. rewrite mv3_zero. reflexivity. Qed.
Lemma damped_zero (H : m6 Rfld) : damped H (0 : car Rfld) = H.
Proof using.
  clear. destruct H as [A1 A2 A3 A4]. unfold damped, mscale6, madd6. cbn [brr brt btr btt].
  assert (Z : forall M B : m3 Rfld, madd3 M (mscale3 (0 : car Rfld) B) = M) by (clear; lring). rewrite !Z. reflexivity.
Qed.

(** Undamped Gauss-Newton. *)
Lemma gn_exact_step d fs i r : pinned k target source T -> small_shift target limit d -> length fs = size -> r_T r = shifted T (opp3 d) ->
  exists fs' s, lin (r_T r) fs = Ok (fs', s) /\ length fs' = size /\ Forall (fun f => inlier f = true) fs' /\
    solve (damped (sH s) (0 : car Rfld)) (opp6 (sb s)) = missing T d /\ (i : nat) = i.
Proof using X RJ A HS RT LO SV.
  intros PN SM L E. destruct (shifted_system d fs SM L) as (fs' & s & EL & L' & IN & Sy & Pd & MI & SPD & _). specialize (SPD PN).
  exists fs', s. rewrite E. split; [exact EL|]. split; [exact L'|]. split; [exact IN|]. split; [|reflexivity]. rewrite damped_zero.
  apply (spd6_inj (sH s)); [exact SPD|]. rewrite SV, MI by assumption. reflexivity.
Qed.
Lemma gn_exact m T0 d : pinned k target source T -> small_shift target limit d -> T0 = shifted T (opp3 d) -> (0 < m)%Z ->
  exists r log, gauss_newton lin null_factor solve se3_exp inlier crit (0 : car Rfld) m T0 (initial_factors size) = Ok (r, log) /\
    r_T r = T /\ (r_iterations r <= 1)%nat /\ r_inliers r = size /\ ((1 < m)%Z -> r_converged r = true).
Proof using X RJ A HS RT LO SV C1 C2.
  intros PN SM -> M. unfold gauss_newton. destruct (Z.to_nat m) as [|m1] eqn:Em; [exfalso; lia|].
  destruct (gn_exact_step d (initial_factors size) 0 (result_init (shifted T (opp3 d))) PN SM) as (fs' & s & EL & L' & IN & ES & _);
    [unfold initial_factors; apply repeat_length|reflexivity|]. cbn [result_init r_T] in EL.
  cbn [gn_loop result_init r_converged r_T]. rewrite EL. cbn [bind null_factor upd_sys]. cbv zeta. rewrite ES, missing_moves. cbn [r_inliers].
  destruct m1 as [|m2].
  - cbn [gn_loop bind fst snd set_inliers r_T r_iterations r_inliers r_converged]. do 2 eexists. split; [reflexivity|].
    cbn [set_inliers r_T r_iterations r_inliers r_converged]. split; [reflexivity|]. split; [lia|]. split; [rewrite all_inliers by exact IN; exact L'|lia].
  - cbn [gn_loop r_converged]. destruct (converged crit (missing T d)) eqn:EC.
    + cbn [bind fst snd set_inliers r_T r_iterations r_inliers r_converged]. do 2 eexists. split; [reflexivity|].
      cbn [set_inliers r_T r_iterations r_inliers r_converged]. split; [reflexivity|]. split; [lia|]. split; [rewrite all_inliers by exact IN; exact L'|auto].
    + destruct (gn_exact_step zero3 fs' 1 (mkResult T false 0 0 (sH s) (sb s) (se s)) PN (small_zero _ _ _ SM) L') as (fs2 & s2 & EL2 & L2 & IN2 & ES2 & _).
      { cbn [r_T]. assert (O : opp3 (zero3 (D := Rfld)) = zero3) by (clear; lring). rewrite O, shifted_zero. reflexivity. }
      cbn [r_T] in EL2 |- *. rewrite EL2. cbn [bind null_factor upd_sys]. rewrite ES2, missing_zero, zero_move, (zero_converged crit C1 C2).
      assert (G : forall r, r_converged r = true -> gn_loop lin null_factor solve se3_exp crit (0 : car Rfld) m2 (0 + 1 + 1) r fs2 = Ok (r, fs2, [])).
      { intros r Er. destruct m2; cbn [gn_loop]; [reflexivity|]. rewrite Er. reflexivity. }
      rewrite G by reflexivity. cbn [bind fst snd set_inliers]. do 2 eexists. split; [reflexivity|].
      cbn [set_inliers r_T r_iterations r_inliers r_converged]. split; [reflexivity|]. split; [lia|]. split; [rewrite all_inliers by exact IN2; exact L2|auto].
Qed.

(** Centred points: every damped step goes straight towards the target. *)
Context (K : k = ICP) (CE : centred source) (NE : cl_points source <> []).
Notation n := (INR size).
Lemma n_pos : 0 < n.
Proof using NE. clear - NE. apply lt_0_INR. destruct (cl_points source); [contradiction|cbn [length]; lia]. Qed.
Lemma centred_step d fs (lambda : R) : 0 < lambda -> small_shift target limit d -> length fs = size ->
  exists fs' s delta, lin (shifted T (opp3 d)) fs = Ok (fs', s) /\ length fs' = size /\ Forall (fun f => inlier f = true) fs' /\
    solve (damped (sH s) (lambda : car Rfld)) (opp6 (sb s)) = delta /\
    pose_mul (shifted T (opp3 d)) (se3_exp delta) = shifted T (opp3 (scale3 (lambda / (n + lambda) : car Rfld) d)) /\
    norm3 (rv delta) = 0 /\ norm3 (tv delta) = n / (n + lambda) * norm3 d /\
    se s = n * (/ 2 * dot3 d d) /\ (forall y, err (shifted T (opp3 y)) fs' = Ok (n * (/ 2 * dot3 y y))).
Proof using X RJ A HS RT LO SV K CE NE.
  intros L0 SM L. destruct (shifted_system d fs SM L) as (fs' & s & EL & L' & IN & Sy & Pd & MI & _ & IC). destruct (IC K) as (ES & EE & CC). specialize (CC CE).
  pose proof n_pos as NP.
  set (delta := P6 zero3 (scale3 (n / (n + lambda) : car Rfld) (mv3 (tr3 (rot T)) d)) : v6 Rfld).
  exists fs', s, delta. split; [exact EL|]. split; [exact L'|]. split; [exact IN|]. split; [|split; [|split; [|split; [|split; [exact ES|exact EE]]]]].
  - apply (spd6_inj (damped (sH s) (lambda : car Rfld))); [apply damped_spd; assumption|].
    rewrite SV; [|apply damped_sym; exact Sy|apply damped_spd; assumption]. rewrite <- MI. unfold missing. rewrite CC.
    unfold damped. rewrite mv6_madd, mv6_scale_id. unfold delta. rewrite CC, step_aux by assumption. reflexivity.
  - unfold delta. rewrite shift_move, mv3_scale, <- mv3_mm3, rotation_tr, mv3_id, left_aux by assumption. reflexivity.
  - unfold delta, norm3. cbn [rv]. rewrite dot3_zero_l. apply sqrt_0.
  - unfold delta. cbn [tv]. rewrite norm_scale, norm_turn; [reflexivity|exact RT|]. apply Rlt_le, Rdiv_lt_0_compat; lra.
Qed.

Lemma rate_bounds (lambda lambda0 : R) : 0 < lambda <= lambda0 -> 0 < lambda / (n + lambda) <= lambda0 / (n + lambda0) /\ lambda0 / (n + lambda0) < 1 /\
  n / (n + lambda) <= 1 /\ n * (lambda / (n + lambda)) = lambda * (n / (n + lambda)).
Proof using NE.
  intros L. pose proof n_pos as NP. revert NP. generalize n. clear - L. intros m NP.
  assert (P : 0 < m + lambda) by lra. assert (P0 : 0 < m + lambda0) by lra.
  split; [split|split; [|split]].
  - apply Rdiv_lt_0_compat; lra.
  - apply Rmult_le_reg_r with ((m + lambda) * (m + lambda0)); [nra|].
    replace (lambda / (m + lambda) * ((m + lambda) * (m + lambda0))) with (lambda * (m + lambda0)) by (field; lra).
    replace (lambda0 / (m + lambda0) * ((m + lambda) * (m + lambda0))) with (lambda0 * (m + lambda)) by (field; lra). nra.
  - apply Rmult_lt_reg_r with (m + lambda0); [lra|]. replace (lambda0 / (m + lambda0) * (m + lambda0)) with lambda0 by (field; lra). lra.
  - apply Rmult_le_reg_r with (m + lambda); [lra|]. replace (m / (m + lambda) * (m + lambda)) with m by (field; lra). lra.
  - field. lra.
Qed.
(** Where a run that starts at shift [d] ends. *)
Definition ends (lambda0 : R) (i m : nat) (d : v3 Rfld) (r : result Rfld) : Prop :=
  exists (c : R) (j : nat), r_T r = shifted T (opp3 (scale3 (c : car Rfld) d)) /\ r_iterations r = (i + j)%nat /\ (j < m)%nat /\
    0 < c <= (lambda0 / (n + lambda0)) ^ S j /\ (r_converged r = true -> n * (c * norm3 d) <= lambda0 * translation_eps crit) /\
    ((lambda0 / (n + lambda0)) ^ (m - 1) * norm3 d <= translation_eps crit -> r_converged r = true).
Lemma conv_iff (delta : v6 Rfld) (e : R) : norm3 (rv delta) = 0 -> norm3 (tv delta) = e -> converged crit delta = true <-> e <= translation_eps crit.
Proof using C2.
  intros E1 E2. unfold converged. rewrite E1, E2. change (nle (n := fbase Rfld)) with Flocq.Core.Raux.Rle_bool.
  rewrite Flocq.Core.Raux.Rle_bool_true by exact C2. cbn [andb]. destruct (Flocq.Core.Raux.Rle_bool_spec e (translation_eps crit)); split; intros; try reflexivity; try discriminate; lra.
Qed.
(** The last step. *)
Lemma ends_here (lambda lambda0 : R) i (m : nat) d r (delta : v6 Rfld) : 0 < lambda <= lambda0 -> r_T r = shifted T (opp3 (scale3 (lambda / (n + lambda) : car Rfld) d)) ->
  r_iterations r = i -> norm3 (rv delta) = 0 -> norm3 (tv delta) = n / (n + lambda) * norm3 d -> r_converged r = converged crit delta ->
  (r_converged r = true \/ m = O) -> ends lambda0 i (S m) d r.
Proof using C1 C2 NE.
  intros L ET EI N1 N2 EC ST. destruct (rate_bounds _ _ L) as (B1 & B2 & B3 & B4). pose proof (norm_nonneg d) as ND.
  exists (lambda / (n + lambda)), 0%nat. rewrite EC. pose proof (conv_iff delta _ N1 N2) as CI.
  split; [exact ET|]. split; [lia|]. split; [lia|]. split; [rewrite pow_1; exact B1|]. split.
  - intros C. apply CI in C. rewrite <- Rmult_assoc, B4, Rmult_assoc. apply Rmult_le_compat; [lra| |lra|exact C].
    apply Rmult_le_pos; [|exact ND]. pose proof n_pos. apply Rlt_le, Rdiv_lt_0_compat; lra.
  - intros Q. destruct ST as [ST|ST]; [rewrite EC in ST; exact ST|]. subst m. apply CI. cbn in Q. rewrite Rmult_1_l in Q.
    eapply Rle_trans; [|exact Q]. pose proof (Rmult_le_compat_r (norm3 d) _ _ ND B3) as B5. rewrite Rmult_1_l in B5. exact B5.
Qed.
(** One more step before the rest of the run. *)
Lemma ends_step (lambda lambda0 : R) i m d r : 0 < lambda <= lambda0 ->
  ends lambda0 (i + 1) (S m) (scale3 (lambda / (n + lambda) : car Rfld) d) r -> ends lambda0 i (S (S m)) d r.
Proof using NE.
  intros L (c & j & ET & EI & J & B & C & Q). destruct (rate_bounds _ _ L) as (B1 & B2 & B3 & B4). pose proof (norm_nonneg d) as ND.
  assert (B0 : 0 <= lambda / (n + lambda)) by lra.
  exists (c * (lambda / (n + lambda))), (S j). rewrite norm_scale in C, Q by exact B0.
  split; [|split; [lia|split; [lia|split; [|split]]]].
  - rewrite ET. f_equal. f_equal. clear. generalize (lambda / (n + lambda)). intros x. destruct d as [a b e]. apply P3_eq; cbn; change (car (fbase Rfld)) with R in *; req; ring.
  - split; [apply Rmult_lt_0_compat; lra|]. rewrite (tech_pow_Rmult (lambda0 / (n + lambda0)) (S j)) || idtac.
    change ((lambda0 / (n + lambda0)) ^ S (S j)) with (lambda0 / (n + lambda0) * (lambda0 / (n + lambda0)) ^ S j).
    rewrite (Rmult_comm c). apply Rmult_le_compat; lra.
  - intros E. rewrite (Rmult_assoc c). apply C. exact E.
  - intros H. apply Q. replace (S m - 1)%nat with m by lia. replace (S (S m) - 1)%nat with (S m) in H by lia.
    eapply Rle_trans; [|exact H]. cbn [pow]. rewrite <- Rmult_assoc. apply Rmult_le_compat_r; [exact ND|]. rewrite Rmult_comm.
    apply Rmult_le_compat_r; [apply pow_le; lra|apply B1].
Qed.

Lemma gn_centred (lambda : R) m : 0 < lambda -> forall i d r fs, small_shift target limit d -> length fs = size -> r_T r = shifted T (opp3 d) -> r_converged r = false ->
  exists rf fsf log, gn_loop lin null_factor solve se3_exp crit (lambda : car Rfld) (S m) i r fs = Ok (rf, fsf, log) /\
    length fsf = size /\ Forall (fun f => inlier f = true) fsf /\ ends lambda i (S m) d rf.
Proof using X RJ A HS RT LO SV C1 C2 K CE NE.
  intros L0. assert (LL : 0 < lambda <= lambda) by lra. destruct (rate_bounds _ _ LL) as (B1 & B2 & _).
  induction m as [|m IH]; intros i d r fs SM L ET NC.
  - destruct (centred_step d fs lambda L0 SM L) as (fs' & s & delta & EL & L' & IN & ES & EP & N1 & N2 & _).
    cbn [gn_loop]. rewrite NC, ET, EL. cbn [bind null_factor upd_sys]. cbv zeta. rewrite ES, EP. do 3 eexists. split; [reflexivity|].
    split; [exact L'|]. split; [exact IN|]. eapply ends_here; try eassumption; try reflexivity. right. reflexivity.
  - destruct (centred_step d fs lambda L0 SM L) as (fs' & s & delta & EL & L' & IN & ES & EP & N1 & N2 & _).
    remember (S m) as m1. cbn [gn_loop]. rewrite NC, ET, EL. cbn [bind null_factor upd_sys]. cbv zeta. rewrite ES, EP.
    destruct (converged crit delta) eqn:EC.
    + assert (G : forall r0, r_converged r0 = true -> gn_loop lin null_factor solve se3_exp crit (lambda : car Rfld) m1 (i + 1) r0 fs' = Ok (r0, fs', [])).
      { intros r0 E0. destruct m1; cbn [gn_loop]; [reflexivity|]. rewrite E0. reflexivity. }
      rewrite G by reflexivity. cbn [bind]. do 3 eexists. split; [reflexivity|]. split; [exact L'|]. split; [exact IN|].
      eapply ends_here; try eassumption; try reflexivity; [symmetry; exact EC|left; reflexivity].
    + match goal with |- context [gn_loop _ _ _ _ _ _ m1 (i + 1) ?r1 fs'] =>
        destruct (IH (i + 1)%nat (scale3 (lambda / (n + lambda) : car Rfld) d) r1 fs') as (rf & fsf & log & E2 & L2 & IN2 & EN) end;
        [apply small_scaled; [lra|exact SM]|exact L'|reflexivity|reflexivity|].
      rewrite E2. cbn [bind]. do 3 eexists. split; [reflexivity|]. split; [exact L2|]. split; [exact IN2|]. subst m1. eapply ends_step; eassumption.
Qed.
Lemma lm_centred (c : lm_settings Rfld) m (lambda0 : R) : (0 < lm_max_inner c)%Z -> 1 <= lm_factor c -> forall i d r fs (lambda : R), 0 < lambda <= lambda0 ->
  small_shift target limit d -> length fs = size -> r_T r = shifted T (opp3 d) -> r_converged r = false ->
  exists rf fsf log, lm_loop lin err null_factor solve se3_exp crit c (S m) i r (lambda : car Rfld) fs = Ok (rf, fsf, log) /\
    length fsf = size /\ Forall (fun f => inlier f = true) fsf /\ ends lambda0 i (S m) d rf.
Proof using X RJ A HS RT LO SV C1 C2 K CE NE.
  intros MI FA. destruct (Z.to_nat (lm_max_inner c)) as [|mi] eqn:Emi; [exfalso; lia|].
  assert (FD : forall lambda, 0 < lambda <= lambda0 -> 0 < lambda / lm_factor c <= lambda0).
  { intros l Hl. change (car (fbase Rfld)) with R in *. split; [apply Rdiv_lt_0_compat; lra|].
    eapply Rle_trans; [|apply Hl]. apply Rmult_le_reg_r with (lm_factor c); [lra|]. unfold Rdiv. rewrite Rmult_assoc, Rinv_l by lra. nra. }
  induction m as [|m IH]; intros i d r fs lambda LL SM L ET NC; destruct (rate_bounds _ _ LL) as (B1 & B2 & B3 & _);
    destruct (centred_step d fs lambda (proj1 LL) SM L) as (fs' & s & delta & EL & L' & IN & ES & EP & N1 & N2 & SE & EE).
  all: assert (AC : nle (n := fbase Rfld) (n * (/ 2 * dot3 (scale3 (lambda / (n + lambda) : car Rfld) d) (scale3 (lambda / (n + lambda) : car Rfld) d)) : car Rfld) (se s) = true).
  1, 3: rewrite SE, dot_scale; change (nle (n := fbase Rfld)) with Flocq.Core.Raux.Rle_bool; apply Flocq.Core.Raux.Rle_bool_true;
    apply Rmult_le_compat_l; [apply pos_INR|]; apply Rmult_le_compat_l; [lra|];
    rewrite <- (Rmult_1_l (dot3 d d)) at 2; apply Rmult_le_compat_r; [apply dot3_self_nonneg|]; revert B1 B2; generalize (lambda / (n + lambda)); clear; intros; nra.
  - cbn [lm_loop]. rewrite NC, ET, EL. cbn [bind null_factor upd_sys]. cbv zeta. rewrite Emi. cbn [lm_inner]. cbv zeta. rewrite ES, EP, EE. cbn [bind null_factor upd_err].
    rewrite AC. cbn [bind i_step i_e i_lambda]. do 3 eexists. split; [reflexivity|].
    split; [exact L'|]. split; [exact IN|]. eapply ends_here; try eassumption; try reflexivity. right. reflexivity.
  - remember (S m) as m1. cbn [lm_loop]. rewrite NC, ET, EL. cbn [bind null_factor upd_sys]. cbv zeta. rewrite Emi. cbn [lm_inner]. cbv zeta. rewrite ES, EP, EE. cbn [bind null_factor upd_err].
    rewrite AC. cbn [bind i_step i_e i_lambda]. destruct (converged crit delta) eqn:EC.
    + assert (G : forall r0 l0, r_converged r0 = true -> lm_loop lin err null_factor solve se3_exp crit c m1 (i + 1) r0 l0 fs' = Ok (r0, fs', [])).
      { intros r0 l0 E0. destruct m1; cbn [lm_loop]; [reflexivity|]. rewrite E0. reflexivity. }
      rewrite G by reflexivity. cbn [bind]. do 3 eexists. split; [reflexivity|]. split; [exact L'|]. split; [exact IN|].
      eapply ends_here; try eassumption; try reflexivity; [symmetry; exact EC|left; reflexivity].
    + match goal with |- context [lm_loop _ _ _ _ _ _ _ m1 (i + 1) ?r1 ?l1 fs'] =>
        destruct (IH (i + 1)%nat (scale3 (lambda / (n + lambda) : car Rfld) d) r1 fs' l1) as (rf & fsf & log & E2 & L2 & IN2 & EN) end;
        [apply FD; exact LL|apply small_scaled; [lra|exact SM]|exact L'|reflexivity|reflexivity|].
      rewrite E2. cbn [bind]. do 3 eexists. split; [reflexivity|]. split; [exact L2|]. split; [exact IN2|]. subst m1. eapply ends_step; eassumption.
Qed.
End Runs.
