(** The rounded squared distance from above, and the nearest point up to rounding. *)
From Coq Require Import Reals Lra Psatz ZifyBool ZifyNat ZifyN.
From Flocq Require Import Core IEEE754.BinarySingleNaN.
From Verif Require Import Base BaseProofs Num Vec F64 F64Proofs F64Err KnnModel KnnSpec KnnProofs
  KdModel KdSpec KdProofs KdSearchProofs KdTop KdF64 KdNearSpec KdNear.
Open Scope R_scope.

Fixpoint depth (t : sumtree) : nat :=
  match t with SSq _ => 1 | SAdd l r => S (Nat.max (depth l) (depth r)) | SFma _ t => S (depth t) end%nat.
Fixpoint ops (t : sumtree) : nat :=
  match t with SSq _ => 1 | SAdd l r => S (ops l + ops r) | SFma _ t => S (ops t) end%nat.
Fixpoint squares (t : sumtree) (v : nat -> R) : R :=
  match t with SSq i => v i * v i | SAdd l r => squares l v + squares r v | SFma i t => v i * v i + squares t v end.

Lemma rx_upper a : 0 <= a -> rx a <= (1 + u64) * a + eta64.
Proof.
  intros H. pose proof (rnd_err a) as R. rewrite (Rabs_pos_eq a H) in R. apply Rabs_le_inv in R.
  assert (0 <= rnd a) by (rewrite <- rnd_0; apply rnd_le; exact H). pose proof E1024_pos.
  apply Rle_trans with (rnd a); [|lra]. unfold rx, sat. apply Rmax_lub; [lra|]. apply Rmin_l.
Qed.
Lemma squares_pos t v : 0 <= squares t v.
Proof. induction t; cbn [squares]; nra. Qed.
Lemma pow_up n m : (n <= m)%nat -> (1 + u64) ^ n <= (1 + u64) ^ m.
Proof. intros H. apply Rle_pow; [pose proof u64_pos; lra|exact H]. Qed.

Lemma sum_eval_le t v : vnotnan v ->
  val (sum_eval (D := Fnum) f64_fma t v) <= (1 + u64) ^ depth t * (squares t (fun i => val (vcomp v i)) + INR (ops t) * eta64).
Proof.
  intros Hv. pose proof u64_pos as U. pose proof eta64_pos as E.
  induction t as [i|l IHl r IHr|i t IH]; cbn [sum_eval depth ops squares].
  - cbn [nmul Fnum]. destruct (sq_val (vcomp v i) (vcomp_notnan v i Hv)) as [_ ->].
    set (x := val (vcomp v i)). eapply Rle_trans; [apply rx_upper; nra|]. cbn [INR pow]. nra.
  - destruct (sum_eval_ge l v Hv) as (l1 & l2 & _). destruct (sum_eval_ge r v Hv) as (r1 & r2 & _). cbn [nadd Fnum].
    destruct (add_pos_val _ _ l1 r1 l2 r2) as [_ ->]. eapply Rle_trans; [apply rx_upper; lra|].
    set (a := val (sum_eval _ l v)) in *. set (b := val (sum_eval _ r v)) in *.
    pose proof (squares_pos l (fun i => val (vcomp v i))) as Sl. pose proof (squares_pos r (fun i => val (vcomp v i))) as Sr.
    set (sl := squares l _) in *. set (sr := squares r _) in *. set (m := Nat.max (depth l) (depth r)).
    assert (Pl : (1 + u64) ^ depth l <= (1 + u64) ^ m) by (apply pow_up; lia).
    assert (Pr : (1 + u64) ^ depth r <= (1 + u64) ^ m) by (apply pow_up; lia).
    rewrite S_INR, plus_INR. pose proof (pos_INR (ops l)). pose proof (pos_INR (ops r)).
    set (ol := INR (ops l)) in *. set (or := INR (ops r)) in *.
    assert (0 <= ol * eta64) by (apply Rmult_le_pos; lra). assert (0 <= or * eta64) by (apply Rmult_le_pos; lra).
    assert (A1 : a <= (1 + u64) ^ m * (sl + ol * eta64)) by (eapply Rle_trans; [exact IHl|]; apply Rmult_le_compat_r; lra).
    assert (A2 : b <= (1 + u64) ^ m * (sr + or * eta64)) by (eapply Rle_trans; [exact IHr|]; apply Rmult_le_compat_r; lra).
    assert (P1 : 1 <= (1 + u64) ^ S m) by (apply pow_R1_Rle; lra).
    assert (A3 : (1 + u64) * (a + b) <= (1 + u64) * ((1 + u64) ^ m * (sl + ol * eta64) + (1 + u64) ^ m * (sr + or * eta64))) by (apply Rmult_le_compat_l; lra).
    assert (A4 : 1 * eta64 <= (1 + u64) ^ S m * eta64) by (apply Rmult_le_compat_r; lra).
    cbn [pow] in *. lra.
  - destruct (sum_eval_ge t v Hv) as (t1 & t2 & _). destruct (fma_pos_val (vcomp v i) _ (vcomp_notnan v i Hv) t1 t2) as [_ ->].
    set (x := val (vcomp v i)). set (a := val (sum_eval _ t v)) in *. eapply Rle_trans; [apply rx_upper; nra|].
    pose proof (squares_pos t (fun i => val (vcomp v i))) as St. set (s := squares t _) in *. set (m := depth t) in *.
    rewrite S_INR. pose proof (pos_INR (ops t)). set (o := INR (ops t)) in *. assert (0 <= o * eta64) by (apply Rmult_le_pos; lra).
    assert (P0 : 1 <= (1 + u64) ^ m) by (apply pow_R1_Rle; lra).
    assert (P1 : 1 <= (1 + u64) ^ S m) by (apply pow_R1_Rle; lra).
    assert (A0 : x * x <= (1 + u64) ^ m * (x * x)) by nra.
    assert (A3 : (1 + u64) * (x * x + a) <= (1 + u64) * ((1 + u64) ^ m * (x * x) + (1 + u64) ^ m * (s + o * eta64))) by (apply Rmult_le_compat_l; lra).
    assert (A4 : 1 * eta64 <= (1 + u64) ^ S m * eta64) by (apply Rmult_le_compat_r; lra).
    cbn [pow] in *. lra.
Qed.

Lemma leaves_pos t : (1 <= length (sum_leaves t))%nat.
Proof. induction t; cbn [sum_leaves length]; rewrite ?app_length; lia. Qed.
Lemma depth_leaves t : (depth t <= length (sum_leaves t))%nat.
Proof.
  induction t as [|l IHl r IHr|]; cbn [depth sum_leaves length]; rewrite ?app_length; try lia.
  pose proof (leaves_pos l). pose proof (leaves_pos r). lia.
Qed.
Lemma ops_leaves t : (ops t + 1 <= 2 * length (sum_leaves t))%nat.
Proof. induction t; cbn [ops sum_leaves length]; rewrite ?app_length; lia. Qed.
Lemma fold_shift l a : fold_right Rplus a l = fold_right Rplus 0 l + a.
Proof. induction l; cbn [fold_right]; lra. Qed.
Lemma squares_leaves t v : squares t v = fold_right Rplus 0 (map (fun i => v i * v i) (sum_leaves t)).
Proof.
  induction t as [i|l IHl r IHr|i t IH]; cbn [squares sum_leaves map fold_right]; try lra.
  rewrite map_app, fold_right_app, IHl, IHr. symmetry. apply fold_shift.
Qed.
Lemma fold_plus_perm l l' : Permutation l l' -> fold_right Rplus 0 l = fold_right Rplus 0 l'.
Proof. induction 1; cbn [fold_right]; lra. Qed.

Lemma sub_upper (x y : f64) : finite x -> finite y -> (val (f64_sub x y)) ^ 2 <= (1 + u64) ^ 2 * (B2R x - B2R y) ^ 2.
Proof.
  intros Fx Fy. destruct (sub_val x y Fx Fy) as [_ ->]. rewrite !finite_val by assumption.
  assert (Fo : finite (Bopp y)) by (unfold finite; rewrite is_finite_Bopp; exact Fy).
  pose proof (rnd_add_err x (Bopp y) Fx Fo) as R. rewrite B2R_Bopp in R. fold (B2R x - B2R y) in R. set (a := B2R x - B2R y) in *.
  assert (L : Rabs (rnd a) <= (1 + u64) * Rabs a).
  { replace (rnd a) with ((rnd a - a) + a) by ring. eapply Rle_trans; [apply Rabs_triang|]. lra. }
  assert (L2 : Rabs (rx a) <= Rabs (rnd a)).
  { unfold rx, sat. pose proof E1024_pos. unfold Rmax, Rmin. repeat destruct Rle_dec; unfold Rabs; repeat destruct Rcase_abs; lra. }
  rewrite <- (pow2_abs (rx a)), <- (pow2_abs a). replace ((1 + u64) ^ 2 * Rabs a ^ 2) with (((1 + u64) * Rabs a) ^ 2) by ring.
  apply pow_incr. split; [apply Rabs_pos|lra].
Qed.

Section Near.
Context (M tau : R) (order : sumtree).
Hypothesis M_range : bpow radix2 (-400) <= M <= bpow radix2 400.
Hypothesis tau_range : 0 <= tau <= 1.
Hypothesis FS : full_sum order.

Lemma fsqd_upper (p q : vec4 Fnum) : vfinite p -> vfinite q -> vw p = vw q ->
  val (fsqd order p q) <= (1 + u64) ^ 6 * (euclid p q ^ 2 + 7 * eta64).
Proof using FS.
  intros Fp Fq W. pose proof u64_pos as U. pose proof eta64_pos as E. unfold fsqd, sq_dist.
  eapply Rle_trans; [apply sum_eval_le, vsub_notnan; assumption|].
  assert (L4 : length (sum_leaves order) = 4%nat) by (apply (Permutation_length FS)).
  pose proof (depth_leaves order) as DL. pose proof (ops_leaves order) as OLv. rewrite L4 in DL, OLv.
  set (w := fun i => val (vcomp (vsub p q) i)).
  assert (SQ : squares order w = w 0%nat ^ 2 + w 1%nat ^ 2 + w 2%nat ^ 2 + w 3%nat ^ 2).
  { rewrite squares_leaves, (fold_plus_perm _ _ (Permutation_map (fun i => w i * w i) FS)). cbn [map fold_right]. ring. }
  destruct Fp as (p0 & p1 & p2 & p3). destruct Fq as (q0 & q1 & q2 & q3).
  pose proof (sub_upper _ _ p0 q0) as X. pose proof (sub_upper _ _ p1 q1) as Y. pose proof (sub_upper _ _ p2 q2) as Z. pose proof (sub_upper _ _ p3 q3) as V.
  rewrite W in V. replace (B2R (vw q) - B2R (vw q)) with 0 in V by ring.
  assert (ES : euclid p q ^ 2 = (B2R (vx p) - B2R (vx q)) ^ 2 + (B2R (vy p) - B2R (vy q)) ^ 2 + (B2R (vz p) - B2R (vz q)) ^ 2).
  { unfold euclid. apply pow2_sqrt.
    pose proof (pow2_ge_0 (B2R (vx p) - B2R (vx q))). pose proof (pow2_ge_0 (B2R (vy p) - B2R (vy q))). pose proof (pow2_ge_0 (B2R (vz p) - B2R (vz q))). lra. }
  assert (SB : squares order w <= (1 + u64) ^ 2 * euclid p q ^ 2).
  { rewrite SQ, ES. unfold w. rewrite !vcomp_vsub. cbn [vcomp]. rewrite W. lra. }
  assert (SP : 0 <= squares order w) by apply squares_pos.
  assert (O7 : INR (ops order) <= 7) by (replace 7 with (INR 7) by (cbn; lra); apply le_INR; lia).
  assert (P4 : (1 + u64) ^ depth order <= (1 + u64) ^ 4) by (apply pow_up; lia).
  pose proof (pos_INR (ops order)).
  apply Rle_trans with ((1 + u64) ^ 4 * ((1 + u64) ^ 2 * euclid p q ^ 2 + 7 * eta64)).
  - apply Rmult_le_compat; [apply pow_le; lra|assert (0 <= INR (ops order) * eta64) by (apply Rmult_le_pos; lra); lra|exact P4|].
    assert (INR (ops order) * eta64 <= 7 * eta64) by (apply Rmult_le_compat_r; lra). lra.
  - replace ((1 + u64) ^ 6 * (euclid p q ^ 2 + 7 * eta64)) with ((1 + u64) ^ 4 * ((1 + u64) ^ 2 * euclid p q ^ 2 + (1 + u64) ^ 2 * (7 * eta64))) by ring.
    apply Rmult_le_compat_l; [apply pow_le; lra|]. assert (1 <= (1 + u64) ^ 2) by nra. nra.
Qed.

Lemma fsqd_reach (p q : vec4 Fnum) : within M p -> within M q -> vw p = vw q -> nlt (fsqd order p q) (nmaxv (n := Fnum)) = true.
Proof using FS M_range.
  clear tau_range. intros Hp Hq W. pose proof (fsqd_upper p q (within_vfinite M p Hp) (within_vfinite M q Hq) W) as UP.
  apply f64_lt_val; [apply fsqd_ok; eapply within_vfinite; eassumption|reflexivity|]. rewrite (finite_val (nmaxv (n := Fnum))) by reflexivity.
  apply Rlt_le_trans with (bpow radix2 831); [|apply max_big]. eapply Rle_lt_trans; [exact UP|].
  pose proof u64_pos as U. pose proof u64_tiny as UT. pose proof (M_pos M M_range) as MP. pose proof (sq_bound M M_range) as SB. pose proof eta64_pos as EP.
  assert (UM : 0 < u64 * M) by (apply Rmult_lt_0_compat; lra). assert (UM' : u64 * M <= / 1000 * M) by (apply Rmult_le_compat_r; lra).
  assert (P6 : (1 + u64) ^ 6 <= 2) by (apply Rle_trans with ((1 + / 1000) ^ 6); [apply pow_incr; lra|lra]).
  assert (ED : euclid p q ^ 2 <= 12 * (M * M)).
  { unfold euclid. rewrite pow2_sqrt.
    2:{ pose proof (pow2_ge_0 (B2R (vx p) - B2R (vx q))). pose proof (pow2_ge_0 (B2R (vy p) - B2R (vy q))). pose proof (pow2_ge_0 (B2R (vz p) - B2R (vz q))). lra. }
    assert (Q : forall a b, Rabs a <= M -> Rabs b <= M -> (a - b) ^ 2 <= 4 * (M * M)).
    { intros a b A B. apply Rabs_le_inv in A, B. nra. }
    pose proof (Q _ _ (proj2 (Hp (vx p) ltac:(cbn; auto))) (proj2 (Hq (vx q) ltac:(cbn; auto)))).
    pose proof (Q _ _ (proj2 (Hp (vy p) ltac:(cbn; auto))) (proj2 (Hq (vy q) ltac:(cbn; auto)))).
    pose proof (Q _ _ (proj2 (Hp (vz p) ltac:(cbn; auto))) (proj2 (Hq (vz q) ltac:(cbn; auto)))). lra. }
  assert (E1 : eta64 <= M * M) by nra.
  apply Rle_lt_trans with (2 * (19 * (M * M))).
  { apply Rmult_le_compat; [apply pow_le; lra|pose proof (pow2_ge_0 (euclid p q)); lra|exact P6|lra]. }
  apply Rle_lt_trans with (38 * (bpow radix2 400 * bpow radix2 400)).
  { assert (M * M <= bpow radix2 400 * bpow radix2 400) by (apply Rmult_le_compat; lra). lra. }
  rewrite <- bpow_plus. apply Rlt_le_trans with (bpow radix2 6 * bpow radix2 (400 + 400)).
  - apply Rmult_lt_compat_r; [apply bpow_gt_0|]. change (bpow radix2 6) with 64. lra.
  - rewrite <- bpow_plus. apply bpow_le. lia.
Qed.

Lemma by_rounding_of_le (p q : vec4 Fnum) d : within M p -> within M q -> vw p = vw q -> notnan d -> 0 <= val d ->
  f64_lt (fsqd order p q) d = false -> by_rounding M tau q p d.
Proof using FS M_range tau_range.
  intros Hp Hq W Nd Pd L. apply f64_lt_val_false in L; [|apply fsqd_ok; eapply within_vfinite; eassumption|exact Nd].
  pose proof (fsqd_upper p q (within_vfinite M p Hp) (within_vfinite M q Hq) W) as UP.
  pose proof u64_pos as U. pose proof (u64_tiny) as UT. pose proof (M_pos M M_range) as MP. pose proof (sq_bound M M_range) as SB. pose proof eta64_pos as EP.
  set (D := euclid p q) in *. assert (DP : 0 <= D) by apply sqrt_pos. assert (UM : 0 < u64 * M) by (apply Rmult_lt_0_compat; lra).
  assert (BD : B2R d <= val d) by (destruct d as [s|[]| |s m e B]; cbn [val B2R] in *; try lra; pose proof E1024_pos; lra).
  unfold by_rounding. fold D.
  assert (C3 : (1 + u64) ^ 3 <= 1 + 4 * u64) by nra.
  apply Rle_trans with ((1 + u64) ^ 3 * (D + 3 * (u64 * M))).
  - assert (W0 : 0 <= (1 + u64) ^ 3 * (D + 3 * (u64 * M))) by (apply Rmult_le_pos; [apply pow_le; lra|lra]).
    rewrite <- (sqrt_pow2 _ W0). apply sqrt_le_1_alt. eapply Rle_trans; [exact BD|]. eapply Rle_trans; [exact L|]. eapply Rle_trans; [exact UP|].
    replace (((1 + u64) ^ 3 * (D + 3 * (u64 * M))) ^ 2) with ((1 + u64) ^ 6 * (D + 3 * (u64 * M)) ^ 2) by ring.
    apply Rmult_le_compat_l; [apply pow_le; lra|]. assert (0 <= D * (u64 * M)) by (apply Rmult_le_pos; lra). nra.
  - assert (E51 : bpow radix2 (-51) = 4 * u64) by (change (-51)%Z with (2 + -53)%Z; rewrite bpow_plus; reflexivity).
    assert (E47 : bpow radix2 (-47) = 64 * u64) by (change (-47)%Z with (6 + -53)%Z; rewrite bpow_plus; reflexivity).
    rewrite E51, E47.
    apply Rle_trans with ((1 + 4 * u64) * (D + 3 * (u64 * M))); [apply Rmult_le_compat_r; lra|].
    assert (0 <= (1 + 4 * u64) * (tau * D)) by (repeat apply Rmult_le_pos; lra).
    assert (4 * u64 * (3 * (u64 * M)) <= 4 * / 1000 * (3 * (u64 * M))) by (apply Rmult_le_compat_r; lra). lra.
Qed.
End Near.
