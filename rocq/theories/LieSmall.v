(** Bounds for the small-angle branches of so3_exp and se3_exp. *)
From Coq Require Import Reals Lra Psatz.
From Coquelicot Require Import Coquelicot.
From Verif Require Import Base Num Vec RNum Lin LieSpec LinSpec LinProofs LieModel LieProofs LieFlow.
Open Scope R_scope.

Implicit Types (omega v x : v3 Rfld).

Lemma so3_small omega : dot3 omega omega < 1e-10 ->
  let s := dot3 omega omega in
  so3_exp omega = mkQuat (real_taylor s) (scale3 (imag_taylor s : car Rfld) omega).
Proof. intros H s. unfold so3_exp. destruct (Rlt_dec _ _) as [L|L]; [reflexivity|]. change (~ dot3 omega omega < 1e-10) in L. lra. Qed.

(** |q|^2 of the truncated series. *)
Lemma taylor_norm s : real_taylor s * real_taylor s + imag_taylor s * imag_taylor s * s
  = 1 + s * s * s * (1 / 23040 - s / 245760 + s * s / 14745600).
Proof. unfold real_taylor, imag_taylor. replace 0.5 with (1 / 2) by lra. field. Qed.
Lemma taylor_norm_bound s : 0 <= s -> s <= 1 ->
  0 <= real_taylor s * real_taylor s + imag_taylor s * imag_taylor s * s - 1 <= s * s * s / 23040.
Proof.
  intros H0 H1. rewrite taylor_norm. assert (C : 0 <= s * s * s) by (apply Rmult_le_pos; [apply Rmult_le_pos|]; assumption).
  assert (A : 0 <= 1 / 23040 - s / 245760 + s * s / 14745600 <= 1 / 23040) by nra. split; nra.
Qed.
Lemma imag_bound s : 0 <= s -> s <= 1 -> 0 <= imag_taylor s <= 1 / 2.
Proof. intros H0 H1. unfold imag_taylor. nra. Qed.
Lemma real_bound s : 0 <= s -> s <= 1 -> 0 <= real_taylor s <= 1.
Proof. intros H0 H1. unfold real_taylor. nra. Qed.

(** Cross products *)
Lemma cross_orth v x : dot3 x (mv3 (skew v) x) = 0.
Proof. lring. Qed.
Lemma cross_lagrange v x : dot3 (mv3 (skew v) x) (mv3 (skew v) x) = dot3 v v * dot3 x x - dot3 v x * dot3 v x.
Proof. lring. Qed.
Lemma cross_bound v x : 0 <= dot3 (mv3 (skew v) x) (mv3 (skew v) x) <= dot3 v v * dot3 x x.
Proof.
  split; [apply dot3_self_nonneg|]. rewrite cross_lagrange. pose proof (Rle_0_sqr (dot3 v x)) as N. unfold Rsqr in N. lra.
Qed.

(** How far R^T R is from the identity, for any quaternion. *)
Lemma to_rotation_norm q x : dot3 (mv3 (to_rotation q) x) (mv3 (to_rotation q) x)
  = dot3 x x + 4 * (qnorm2 q - 1) * dot3 (mv3 (skew (qv q)) x) (mv3 (skew (qv q)) x).
Proof. destruct q as [w v]. unfold qnorm2. lring. Qed.
Lemma to_rotation_move q x : dot3 (sub3 (mv3 (to_rotation q) x) x) (sub3 (mv3 (to_rotation q) x) x)
  = 4 * (qw q * qw q * dot3 (mv3 (skew (qv q)) x) (mv3 (skew (qv q)) x)
         + dot3 (mv3 (skew (qv q)) (mv3 (skew (qv q)) x)) (mv3 (skew (qv q)) (mv3 (skew (qv q)) x))).
Proof. destruct q as [w v]. lring. Qed.


Lemma scalar_small (n c u y s : R) : 0 <= s -> 0 <= n <= s * s * s / 23040 -> 0 <= u <= s / 4 ->
  0 <= c <= u * y -> 0 <= y -> 0 <= 4 * n * c <= s * s * s * s / 23040 * y.
Proof.
  intros N [A B] [C E] [G K] Y.
  assert (L1 : c <= s / 4 * y) by (apply Rle_trans with (u * y); [exact K|apply Rmult_le_compat_r; assumption]).
  assert (L2 : 0 <= n * c) by (apply Rmult_le_pos; assumption).
  assert (L3 : n * c <= s * s * s / 23040 * (s / 4 * y)) by (apply Rmult_le_compat; assumption).
  split; [lra|]. replace (s * s * s * s / 23040 * y) with (4 * (s * s * s / 23040 * (s / 4 * y))) by field. lra.
Qed.

Section Small.
Context (omega : v3 Rfld) (s : R) (Es : dot3 omega omega = s) (Small : s < 1e-10).

Lemma s_nonneg : 0 <= s.
Proof using Es. rewrite <- Es. apply dot3_self_nonneg. Qed.
Lemma small_q : so3_exp omega = mkQuat (real_taylor s) (scale3 (imag_taylor s : car Rfld) omega).
Proof using Es Small. rewrite so3_small by (rewrite Es; exact Small). rewrite Es. reflexivity. Qed.
Lemma small_qv : dot3 (qv (so3_exp omega)) (qv (so3_exp omega)) = imag_taylor s * imag_taylor s * s.
Proof using Es Small. rewrite small_q. cbn [qv]. rewrite dot3_scale_l, dot3_scale_r, Es. cbn. ring. Qed.
Lemma small_qv2 : 0 <= dot3 (qv (so3_exp omega)) (qv (so3_exp omega)) <= s / 4.
Proof using Es Small.
  rewrite small_qv. pose proof s_nonneg as N. destruct (imag_bound s N ltac:(lra)) as [A B].
  generalize dependent (imag_taylor s). intros g A B.
  assert (g * g <= 1 / 4) by nra. assert (0 <= g * g) by nra. split; nra.
Qed.
Lemma small_qnorm : 0 <= qnorm2 (so3_exp omega) - 1 <= s * s * s / 23040.
Proof using Es Small.
  unfold qnorm2. rewrite small_qv, small_q. cbn [qw]. apply taylor_norm_bound; [apply s_nonneg|lra].
Qed.

Lemma small_norm x : dot3 x x <= dot3 (mv3 (to_rotation (so3_exp omega)) x) (mv3 (to_rotation (so3_exp omega)) x)
  <= (1 + s * s * s * s / 23040) * dot3 x x.
Proof using Es Small.
  rewrite to_rotation_norm.
  pose proof (scalar_small _ _ _ _ s s_nonneg small_qnorm small_qv2 (cross_bound (qv (so3_exp omega)) x) (dot3_self_nonneg x)) as B.
  split; lra.
Qed.
Lemma small_det : 1 <= det3 (to_rotation (so3_exp omega)) <= 1 + s * s * s * s / 23040.
Proof using Es Small.
  rewrite to_rotation_det. pose proof small_qnorm as N. pose proof small_qv2 as V.
  pose proof (scalar_small _ (dot3 (qv (so3_exp omega)) (qv (so3_exp omega))) _ 1 s s_nonneg N V) as B.
  assert (B' := B ltac:(rewrite Rmult_1_r; split; [apply V|apply Rle_refl]) ltac:(lra)). clear B. lra.
Qed.

(** Movement of a point by the small rotation. *)
Lemma small_move x :
  dot3 (sub3 (mv3 (to_rotation (so3_exp omega)) x) x) (sub3 (mv3 (to_rotation (so3_exp omega)) x) x)
  <= 1.01 * s * dot3 x x.
Proof using Es Small.
  rewrite to_rotation_move. pose proof (cross_bound (qv (so3_exp omega)) x) as [C1 C2].
  pose proof (cross_bound (qv (so3_exp omega)) (mv3 (skew (qv (so3_exp omega))) x)) as [C3 C4].
  pose proof small_qv2 as [V1 V2]. pose proof small_qnorm as [Q1 Q2]. unfold qnorm2 in Q1, Q2.
  pose proof (dot3_self_nonneg x) as X. pose proof s_nonneg as N.
  set (w := qw (so3_exp omega)) in *. set (u := dot3 (qv (so3_exp omega)) (qv (so3_exp omega))) in *.
  set (c := dot3 (mv3 (skew (qv (so3_exp omega))) x) (mv3 (skew (qv (so3_exp omega))) x)) in *.
  set (c2 := dot3 (mv3 (skew (qv (so3_exp omega))) (mv3 (skew (qv (so3_exp omega))) x)) _) in *.
  set (y := dot3 x x) in *. clearbody w u c c2 y. clear Es. change (car (fbase Rfld)) with R in *.
  assert (S3 : s * s * s / 23040 <= 1e-3).
  { assert (s * s <= 1) by nra. assert (s * s * s <= 1) by nra. lra. }
  assert (W : 0 <= w * w) by (apply Rle_0_sqr).
  assert (L1 : c <= s / 4 * y) by (apply Rle_trans with (u * y); [exact C2|apply Rmult_le_compat_r; assumption]).
  assert (L2 : w * w * c + c2 <= (w * w + u) * c) by lra.
  assert (L3 : (w * w + u) * c <= 1.001 * (s / 4 * y)) by (apply Rmult_le_compat; lra).
  assert (0 <= s / 4 * y) by lra. lra.
Qed.
End Small.

(** The series against the functions they truncate. *)
Lemma fact_INR n z : Z.of_nat (fact n) = z -> INR (fact n) = IZR z.
Proof. intros H. rewrite INR_IZR_INZ, H. reflexivity. Qed.
Lemma cos_series (x : R) : 0 <= x <= 1 -> 1 - x * x / 2 + x * x * x * x / 24 - x * x * x * x * x * x / 720 <= cos x <= 1 - x * x / 2 + x * x * x * x / 24.
Proof.
  intros [A B]. assert (P := PI2_1).
  pose proof (cos_bound x 0) as C0. pose proof (cos_bound x 1) as C1.
  assert (H0 : - PI / 2 <= x) by lra. assert (H1 : x <= PI / 2) by lra.
  specialize (C0 H0 H1). specialize (C1 H0 H1). apply proj2 in C0. apply proj1 in C1.
  unfold cos_approx, cos_term in C0, C1. cbn [Nat.mul Nat.add sum_f_R0] in C0, C1.
  rewrite (fact_INR 0 1), (fact_INR 2 2), (fact_INR 4 24) in C0 by reflexivity.
  rewrite (fact_INR 0 1), (fact_INR 2 2), (fact_INR 4 24), (fact_INR 6 720) in C1 by reflexivity.
  cbn [pow] in C0, C1. split; [apply Rle_trans with (2 := C1)|apply Rle_trans with (1 := C0)]; right; field.
Qed.
Lemma sin_series (x : R) : 0 <= x <= 1 -> x - x * x * x / 6 + x * x * x * x * x / 120 - x * x * x * x * x * x * x / 5040 <= sin x <= x - x * x * x / 6 + x * x * x * x * x / 120.
Proof.
  intros [A B]. assert (P := PI2_1).
  pose proof (sin_bound x 0) as C0. pose proof (sin_bound x 1) as C1.
  assert (H1 : x <= PI) by lra.
  specialize (C0 A H1). specialize (C1 A H1). apply proj2 in C0. apply proj1 in C1.
  unfold sin_approx, sin_term in C0, C1. cbn [Nat.mul Nat.add sum_f_R0] in C0, C1.
  rewrite (fact_INR 1 1), (fact_INR 3 6), (fact_INR 5 120) in C0 by reflexivity.
  rewrite (fact_INR 1 1), (fact_INR 3 6), (fact_INR 5 120), (fact_INR 7 5040) in C1 by reflexivity.
  cbn [pow] in C0, C1. split; [apply Rle_trans with (2 := C1)|apply Rle_trans with (1 := C0)]; right; field.
Qed.

(** The truncated quaternion coefficients against cos(theta/2) and sin(theta/2)/theta. *)
Lemma real_taylor_error (s : R) : 0 <= s <= 1 -> 0 <= real_taylor s - cos (sqrt s / 2) <= s * s * s / 46080.
Proof.
  intros [A B]. pose proof (sqrt_sqrt s A) as E. pose proof (sqrt_pos s) as N.
  assert (U : sqrt s <= 1) by (rewrite <- sqrt_1; apply sqrt_le_1_alt; exact B).
  set (h := sqrt s) in *. clearbody h. pose proof (cos_series (h / 2) ltac:(lra)) as C. subst s. unfold real_taylor.
  split.
  - replace (1 - h / 2 * (h / 2) / 2 + h / 2 * (h / 2) * (h / 2) * (h / 2) / 24)
      with (1 - 1 / 8 * (h * h) + 1 / 384 * (h * h * (h * h))) in C by field. lra.
  - replace (1 - h / 2 * (h / 2) / 2 + h / 2 * (h / 2) * (h / 2) * (h / 2) / 24 - h / 2 * (h / 2) * (h / 2) * (h / 2) * (h / 2) * (h / 2) / 720)
      with (1 - 1 / 8 * (h * h) + 1 / 384 * (h * h * (h * h)) - h * h * (h * h) * (h * h) / 46080) in C by field. lra.
Qed.
Lemma imag_taylor_error (s : R) : 0 < s <= 1 -> 0 <= imag_taylor s - sin (sqrt s / 2) / sqrt s <= s * s * s / 645120.
Proof.
  intros [A B]. pose proof (sqrt_sqrt s (Rlt_le _ _ A)) as E. pose proof (sqrt_lt_R0 s A) as N.
  assert (U : sqrt s <= 1) by (rewrite <- sqrt_1; apply sqrt_le_1_alt; exact B).
  set (h := sqrt s) in *. clearbody h. pose proof (sin_series (h / 2) ltac:(lra)) as C. subst s. unfold imag_taylor.
  assert (Q : sin (h / 2) / h * h = sin (h / 2)) by (field; lra).
  set (g := sin (h / 2) / h) in *. clearbody g. rewrite <- Q in C. destruct C as [C1 C2]. replace 0.5 with (1 / 2) by lra.
  split.
  - apply Rmult_le_reg_r with h; [exact N|].
    replace (h / 2 - h / 2 * (h / 2) * (h / 2) / 6 + h / 2 * (h / 2) * (h / 2) * (h / 2) * (h / 2) / 120)
      with ((1 / 2 - 1 / 48 * (h * h) + 1 / 3840 * (h * h * (h * h))) * h) in C2 by field. lra.
  - apply Rmult_le_reg_r with h; [exact N|].
    replace (h / 2 - h / 2 * (h / 2) * (h / 2) / 6 + h / 2 * (h / 2) * (h / 2) * (h / 2) * (h / 2) / 120 - h / 2 * (h / 2) * (h / 2) * (h / 2) * (h / 2) * (h / 2) * (h / 2) / 5040)
      with ((1 / 2 - 1 / 48 * (h * h) + 1 / 3840 * (h * h * (h * h))) * h - h * h * (h * h) * (h * h) / 645120 * h) in C1 by field. lra.
Qed.

(** Translation: the exact matrix V against the identity. *)
Lemma V_move (th2 th : R) omega x :
  let a := (1 - cos th) / th2 in let b := (th - sin th) / (th2 * th) in
  dot3 (sub3 (mv3 (V_matrix th2 th omega) x) x) (sub3 (mv3 (V_matrix th2 th omega) x) x)
  = a * a * dot3 (mv3 (skew omega) x) (mv3 (skew omega) x)
    + b * b * dot3 (mv3 (skew omega) (mv3 (skew omega) x)) (mv3 (skew omega) (mv3 (skew omega) x)).
Proof.
  cbv zeta. unfold V_matrix. generalize ((1 - cos th) / th2) ((th - sin th) / (th2 * th)). intros a b. lring.
Qed.
Lemma V_coef (s : R) : 0 < s <= 1 ->
  0 <= (1 - cos (sqrt s)) / s <= 1 / 2 /\ 0 <= (sqrt s - sin (sqrt s)) / (s * sqrt s) <= 1 / 6.
Proof.
  intros [A B]. pose proof (sqrt_sqrt s (Rlt_le _ _ A)) as E. pose proof (sqrt_lt_R0 s A) as N.
  assert (U : sqrt s <= 1) by (rewrite <- sqrt_1; apply sqrt_le_1_alt; exact B).
  set (h := sqrt s) in *. clearbody h. pose proof (sin_series h ltac:(lra)) as S. pose proof (cos_series h ltac:(lra)) as C.
  subst s. assert (P2 : 0 < h * h) by nra. assert (P3 : 0 < h * h * h) by nra.
  assert (h * h * h <= h * h) by nra. assert (0 <= h * h * h * h <= h * h) by nra.
  assert (0 <= h * h * h * h * h <= h * h * h) by nra. assert (0 <= h * h * h * h * h * h <= h * h * h * h) by nra.
  assert (0 <= h * h * h * h * h * h * h <= h * h * h * h * h) by nra.
  repeat split.
  - apply Rmult_le_pos; [lra|]. apply Rlt_le, Rinv_0_lt_compat. exact P2.
  - apply Rmult_le_reg_r with (h * h); [exact P2|]. replace ((1 - cos h) / (h * h) * (h * h)) with (1 - cos h) by (field; lra). lra.
  - apply Rmult_le_pos; [lra|]. apply Rlt_le, Rinv_0_lt_compat. exact P3.
  - apply Rmult_le_reg_r with (h * h * h); [exact P3|]. replace ((h - sin h) / (h * h * h) * (h * h * h)) with (h - sin h) by (field; lra). lra.
Qed.
Lemma V_move_bound omega x (s : R) : dot3 omega omega = s -> 0 < s <= 1 ->
  dot3 (sub3 (mv3 (V_matrix s (sqrt s) omega) x) x) (sub3 (mv3 (V_matrix s (sqrt s) omega) x) x) <= 0.3 * s * dot3 x x.
Proof.
  intros Es [A B]. rewrite V_move. destruct (V_coef s (conj A B)) as [[a1 a2] [b1 b2]].
  set (a := (1 - cos (sqrt s)) / s) in *. set (b := (sqrt s - sin (sqrt s)) / (s * sqrt s)) in *. clearbody a b.
  pose proof (cross_bound omega x) as [C1 C2]. pose proof (cross_bound omega (mv3 (skew omega) x)) as [C3 C4].
  rewrite Es in C2, C4. pose proof (dot3_self_nonneg x) as X.
  set (c := dot3 (mv3 (skew omega) x) (mv3 (skew omega) x)) in *.
  set (c2 := dot3 (mv3 (skew omega) (mv3 (skew omega) x)) _) in *. set (y := dot3 x x) in *.
  clearbody c c2 y. clear Es. change (car (fbase Rfld)) with R in *.
  assert (a * a <= 1 / 4) by nra. assert (0 <= a * a) by nra. assert (b * b <= 1 / 36) by nra. assert (0 <= b * b) by nra.
  assert (c2 <= s * y) by nra. assert (0 <= s * y) by nra.
  assert (a * a * c <= 1 / 4 * (s * y)) by (apply Rmult_le_compat; assumption).
  assert (b * b * c2 <= 1 / 36 * (s * y)) by (apply Rmult_le_compat; assumption).
  lra.
Qed.
Lemma sub_norm (u w z : v3 Rfld) : dot3 (sub3 u w) (sub3 u w) <= 2 * (dot3 (sub3 u z) (sub3 u z) + dot3 (sub3 w z) (sub3 w z)).
Proof.
  assert (E : 2 * (dot3 (sub3 u z) (sub3 u z) + dot3 (sub3 w z) (sub3 w z)) - dot3 (sub3 u w) (sub3 u w)
    = dot3 (add3 (sub3 u z) (sub3 w z)) (add3 (sub3 u z) (sub3 w z))) by lring.
  pose proof (dot3_self_nonneg (add3 (sub3 u z) (sub3 w z))) as N. rewrite <- E in N. lra.
Qed.

(** The code's increment against the exponential of the same twist, for every twist. *)
Lemma rodrigues_diff omega (a b a' b' : R) x :
  let y := sub3 (mv3 (rodrigues omega a b) x) (mv3 (rodrigues omega a' b') x) in
  dot3 y y = (a - a') * (a - a') * dot3 (mv3 (skew omega) x) (mv3 (skew omega) x)
    + (b - b') * (b - b') * dot3 (mv3 (skew omega) (mv3 (skew omega) x)) (mv3 (skew omega) (mv3 (skew omega) x)).
Proof. cbv zeta. unfold rodrigues. lring. Qed.
Lemma rodrigues_coef (s : R) : 0 < s < 1e-10 ->
  let w := real_taylor s in let k := imag_taylor s in
  Rabs (2 * w * k - sin (sqrt s) / sqrt s) <= 1e-30 /\ Rabs (2 * k * k - (1 - cos (sqrt s)) / (sqrt s * sqrt s)) <= 1e-30.
Proof.
  intros [A B] w k. pose proof (real_taylor_error s ltac:(lra)) as [E1 E2]. pose proof (imag_taylor_error s ltac:(lra)) as [E3 E4].
  destruct (imag_bound s ltac:(lra) ltac:(lra)) as [K1 K2]. destruct (real_bound s ltac:(lra) ltac:(lra)) as [W1 W2].
  fold w in E1, E2, W1, W2. fold k in E3, E4, K1, K2.
  assert (S3 : 0 <= s * s * s <= 1e-30).
  { assert (0 <= s * s <= 1e-20) by nra. nra. }
  pose proof (sqrt_lt_R0 s A) as N. set (h := sqrt s) in *.
  pose proof (sin_2a (h / 2)) as S2. pose proof (cos_2a_sin (h / 2)) as C2.
  replace (2 * (h / 2)) with h in S2, C2 by lra. pose proof (COS_bound (h / 2)) as [CB1 CB2].
  set (w0 := cos (h / 2)) in *.
  assert (Q : sin (h / 2) = sin (h / 2) / h * h) by (field; lra).
  set (k0 := sin (h / 2) / h) in *. rewrite Q in S2, C2. clearbody k0 w0. clear Q.
  split.
  - rewrite S2. replace (2 * (k0 * h) * w0 / h) with (2 * k0 * w0) by (field; lra).
    replace (2 * w * k - 2 * k0 * w0) with (2 * ((w - w0) * k + w0 * (k - k0))) by ring.
    assert (0 <= (w - w0) * k <= s * s * s / 46080) by nra.
    assert (Rabs (w0 * (k - k0)) <= s * s * s / 645120).
    { rewrite Rabs_mult. rewrite (Rabs_pos_eq (k - k0)) by lra.
      assert (Rabs w0 <= 1) by (apply Rabs_le; lra). pose proof (Rabs_pos w0). nra. }
    pose proof (Rabs_triang ((w - w0) * k) (w0 * (k - k0))) as T. rewrite (Rabs_pos_eq ((w - w0) * k)) in T by lra.
    rewrite Rabs_mult, (Rabs_pos_eq 2) by lra. lra.
  - rewrite C2. replace ((1 - (1 - 2 * (k0 * h) * (k0 * h))) / (h * h)) with (2 * k0 * k0) by (field; lra).
    replace (2 * k * k - 2 * k0 * k0) with (2 * (k - k0) * (k + k0)) by ring.
    assert (- 1 <= k + k0 <= 1) by lra. apply Rabs_le. nra.
Qed.
Lemma exp_close omega v (s : R) : dot3 omega omega = s -> 0 < s ->
  let T := se3_exp (P6 omega v) in
  (forall x, let y := sub3 (mv3 (rot T) x) (mv3 (exp_rot omega 1) x) in dot3 y y <= 1e-69 * dot3 x x) /\
  (let z := sub3 (tra T) (exp_tra omega v 1) in dot3 z z <= 3e-20 * dot3 v v) /\
  (1e-20 <= s -> tra T = exp_tra omega v 1).
Proof.
  intros Es Ps T. subst T. unfold se3_exp. cbn [rv tv rot tra]. rewrite Es.
  pose proof (sqrt_lt_R0 s Ps) as N. pose proof (sqrt_sqrt s (Rlt_le _ _ Ps)) as SS.
  assert (ET : exp_tra omega v 1 = mv3 (V_matrix s (sqrt s) omega) v).
  { unfold exp_tra, exp_V, V_matrix. rewrite Es, mscale3_one, mm3_mscale_l, !Rmult_1_l, SS. reflexivity. }
  assert (Ex : forall z, exp_tra omega v 1 = z -> let y := sub3 z (exp_tra omega v 1) in dot3 y y <= 3e-20 * dot3 v v).
  { intros z <-. cbv zeta. pose proof (dot3_self_nonneg v) as X.
    assert (E0 : dot3 (sub3 (exp_tra omega v 1) (exp_tra omega v 1)) (sub3 (exp_tra omega v 1) (exp_tra omega v 1)) = 0).
    { generalize (exp_tra omega v 1). lring. }
    rewrite E0. change (car (fbase Rfld)) with R in *. lra. }
  destruct (Rle_lt_dec 1e-10 s) as [L|L].
  - assert (ER : to_rotation (so3_exp omega) = exp_rot omega 1).
    { rewrite rodrigues_large by (rewrite Es; exact L). unfold exp_rot. rewrite Es, Rmult_1_l. reflexivity. }
    assert (NT : ~ sqrt s < 1e-10) by (intros Q; nra).
    destruct (Rlt_dec (sqrt s) 1e-10) as [Q|_]; [contradiction|].
    split; [|split].
    + intros x. rewrite ER. cbv zeta. pose proof (dot3_self_nonneg x) as X.
      assert (E0 : dot3 (sub3 (mv3 (exp_rot omega 1) x) (mv3 (exp_rot omega 1) x)) (sub3 (mv3 (exp_rot omega 1) x) (mv3 (exp_rot omega 1) x)) = 0).
      { generalize (mv3 (exp_rot omega 1) x). lring. }
      rewrite E0. change (car (fbase Rfld)) with R in *. lra.
    + apply Ex. exact ET.
    + intros _. symmetry. exact ET.
  - split; [|split].
    + intros x. cbv zeta. rewrite (small_q omega s Es L), to_rotation_rodrigues. unfold exp_rot. rewrite Es, Rmult_1_l.
      rewrite rodrigues_diff. destruct (rodrigues_coef s (conj Ps L)) as [Ca Cb]. apply Rabs_le_between in Ca, Cb.
      set (da := 2 * real_taylor s * imag_taylor s - sin (sqrt s) / sqrt s) in *.
      set (db := 2 * imag_taylor s * imag_taylor s - (1 - cos (sqrt s)) / (sqrt s * sqrt s)) in *. clearbody da db.
      pose proof (cross_bound omega x) as [C1 C2]. pose proof (cross_bound omega (mv3 (skew omega) x)) as [C3 C4].
      rewrite Es in C2, C4. pose proof (dot3_self_nonneg x) as X.
      set (c := dot3 (mv3 (skew omega) x) (mv3 (skew omega) x)) in *.
      set (c2 := dot3 (mv3 (skew omega) (mv3 (skew omega) x)) _) in *. set (y := dot3 x x) in *.
      clearbody c c2 y. clear Es Ex ET. change (car (fbase Rfld)) with R in *.
      assert (A2 : 0 <= da * da <= 1e-60) by nra. assert (B2 : 0 <= db * db <= 1e-60) by nra.
      assert (P1 : s * y <= 1e-10 * y) by (apply Rmult_le_compat_r; lra).
      assert (Q1 : c <= 1e-10 * y) by lra.
      assert (Q2 : c2 <= 1e-10 * y). { assert (s * c <= 1 * c) by (apply Rmult_le_compat_r; lra). lra. }
      assert (da * da * c <= 1e-60 * (1e-10 * y)) by (apply Rmult_le_compat; lra).
      assert (db * db * c2 <= 1e-60 * (1e-10 * y)) by (apply Rmult_le_compat; lra).
      lra.
    + destruct (Rlt_dec (sqrt s) 1e-10) as [Q|Q]; [|apply Ex; exact ET].
      cbv zeta. rewrite ET.
      pose proof (sub_norm (mv3 (to_rotation (so3_exp omega)) v) (mv3 (V_matrix s (sqrt s) omega) v) v) as B.
      pose proof (small_move omega s Es L v) as B1. pose proof (V_move_bound omega v s Es ltac:(lra)) as B2.
      assert (S20 : s <= 1e-20) by nra. pose proof (dot3_self_nonneg v) as X. change (car (fbase Rfld)) with R in *.
      assert (s * dot3 v v <= 1e-20 * dot3 v v) by (apply Rmult_le_compat_r; lra).
      apply Rle_trans with (1 := B). lra.
    + intros G. destruct (Rlt_dec (sqrt s) 1e-10) as [Q|Q]; [exfalso; nra|]. symmetry. exact ET.
Qed.
