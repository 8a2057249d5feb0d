(** Rounding errors of sums and means in binary64. *)
From Coq Require Import Reals ZArith Lra Psatz.
From Coq Require Import Floats.SpecFloat.
From Flocq Require Import Core IEEE754.BinarySingleNaN Relative Plus_error.
From Verif Require Import Base BaseProofs Num F64 F64Proofs FloorProofs.
Local Open Scope R_scope.

(** Unit roundoff 2^-53 and half the smallest subnormal, 2^-1075. *)
Definition u64 : R := bpow radix2 (-53).
Definition eta64 : R := bpow radix2 (-1075).

Lemma u64_pos : 0 < u64. Proof. apply bpow_gt_0. Qed.
Lemma eta64_pos : 0 < eta64. Proof. apply bpow_gt_0. Qed.
Lemma u64_lt1 : u64 < 1.
Proof. unfold u64. change 1 with (bpow radix2 0). apply bpow_lt. lia. Qed.

Lemma u_ro_64 : u_ro radix2 53 = u64.
Proof.
  unfold u_ro, u64. change (/ 2) with (/ IZR (Zpower radix2 1)). rewrite IZR_Zpower by lia.
  rewrite <- bpow_opp, <- bpow_plus. f_equal.
Qed.

#[local] Instance fexp64_valid' : Valid_exp fexp64 := fexp_correct 53 1024 prec53.

Lemma rnd_small a k : (-1074 <= k <= 1023)%Z -> Rabs a <= bpow radix2 k -> Rabs (rnd a) <= bpow radix2 k.
Proof.
  intros Hk H.
  assert (F : rnd (bpow radix2 k) = bpow radix2 k).
  { apply round_generic; [typeclasses eauto|]. apply generic_format_bpow.
    unfold SpecFloat.fexp, SpecFloat.emin. lia. }
  apply Rabs_le_inv in H. apply Rabs_le. split.
  - rewrite <- F, <- rnd_opp. apply rnd_le. lra.
  - rewrite <- F. apply rnd_le. lra.
Qed.

Lemma rnd_lt_emax a k : (-1074 <= k <= 1023)%Z -> Rabs a <= bpow radix2 k -> Rabs (rnd a) < E1024.
Proof.
  intros Hk H. eapply Rle_lt_trans; [apply rnd_small; eauto|]. apply bpow_lt. lia.
Qed.

Lemma add_finite x y k : finite x -> finite y -> (-1074 <= k <= 1023)%Z ->
  Rabs (B2R x + B2R y) <= bpow radix2 k ->
  finite (f64_add x y) /\ B2R (f64_add x y) = rnd (B2R x + B2R y).
Proof.
  intros Fx Fy Hk H. unfold f64_add.
  pose proof (Bplus_correct 53 1024 _ _ mode_NE x y Fx Fy) as C.
  cbn [round_mode] in C. fold (rnd (B2R x + B2R y)) in C. fold E1024 in C.
  rewrite Rlt_bool_true in C by (eapply rnd_lt_emax; eauto).
  destruct C as (C1 & C2 & _). split; auto.
Qed.

Lemma sub_finite x y k : finite x -> finite y -> (-1074 <= k <= 1023)%Z ->
  Rabs (B2R x - B2R y) <= bpow radix2 k ->
  finite (f64_sub x y) /\ B2R (f64_sub x y) = rnd (B2R x - B2R y).
Proof.
  intros Fx Fy Hk H. unfold f64_sub.
  pose proof (Bminus_correct 53 1024 _ _ mode_NE x y Fx Fy) as C.
  cbn [round_mode] in C. fold (rnd (B2R x - B2R y)) in C. fold E1024 in C.
  rewrite Rlt_bool_true in C by (eapply rnd_lt_emax; eauto).
  destruct C as (C1 & C2 & _). split; auto.
Qed.

Lemma mul_finite x y k : finite x -> finite y -> (-1074 <= k <= 1023)%Z ->
  Rabs (B2R x * B2R y) <= bpow radix2 k ->
  finite (f64_mul x y) /\ B2R (f64_mul x y) = rnd (B2R x * B2R y).
Proof.
  intros Fx Fy Hk H. unfold f64_mul.
  pose proof (Bmult_correct 53 1024 _ _ mode_NE x y) as C.
  cbn [round_mode] in C. fold (rnd (B2R x * B2R y)) in C. fold E1024 in C.
  rewrite Rlt_bool_true in C by (eapply rnd_lt_emax; eauto).
  destruct C as (C1 & C2 & _). unfold finite in *. rewrite Fx, Fy in C2. split; auto.
Qed.

Lemma div_finite x y k : finite x -> B2R y <> 0 -> (-1074 <= k <= 1023)%Z ->
  Rabs (B2R x / B2R y) <= bpow radix2 k ->
  finite (f64_div x y) /\ B2R (f64_div x y) = rnd (B2R x / B2R y).
Proof.
  intros Fx Hy Hk H. unfold f64_div.
  pose proof (Bdiv_correct 53 1024 _ _ mode_NE x y Hy) as C.
  cbn [round_mode] in C. fold (rnd (B2R x / B2R y)) in C. fold E1024 in C.
  rewrite Rlt_bool_true in C by (eapply rnd_lt_emax; eauto).
  destruct C as (C1 & C2 & _). unfold finite in *. rewrite Fx in C2. split; auto.
Qed.

Lemma finite_format x : finite x -> generic_format radix2 fexp64 (B2R x).
Proof. intros _. apply generic_format_B2R. Qed.

(** Rounding a sum of two doubles: relative error at most u. *)
Lemma rnd_add_err x y : finite x -> finite y ->
  Rabs (rnd (B2R x + B2R y) - (B2R x + B2R y)) <= u64 * Rabs (B2R x + B2R y).
Proof.
  intros Fx Fy.
  destruct (FLT_plus_error_N_ex radix2 (SpecFloat.emin 53 1024) 53 (fun n => negb (Z.even n))
    (B2R x) (B2R y) (finite_format x Fx) (finite_format y Fy)) as (e & He & E).
  unfold rnd. change fexp64 with (FLT_exp (SpecFloat.emin 53 1024) 53).
  rewrite E. replace ((B2R x + B2R y) * (1 + e) - (B2R x + B2R y)) with (e * (B2R x + B2R y)) by ring.
  rewrite Rabs_mult. apply Rmult_le_compat_r; [apply Rabs_pos|].
  eapply Rle_trans; [exact He|]. rewrite <- u_ro_64. apply u_rod1pu_ro_le_u_ro.
Qed.

(** Rounding any real: relative error u plus absolute error eta. *)
Lemma rnd_err a : Rabs (rnd a - a) <= u64 * Rabs a + eta64.
Proof.
  destruct (error_N_FLT radix2 (SpecFloat.emin 53 1024) 53 eq_refl (fun n => negb (Z.even n)) a)
    as (e & h & He & Hh & _ & E).
  unfold rnd. change fexp64 with (FLT_exp (SpecFloat.emin 53 1024) 53).
  rewrite E. replace (a * (1 + e) + h - a) with (e * a + h) by ring.
  eapply Rle_trans; [apply Rabs_triang|]. apply Rplus_le_compat.
  - rewrite Rabs_mult. apply Rmult_le_compat_r; [apply Rabs_pos|].
    fold (u_ro radix2 53) in He. rewrite u_ro_64 in He. exact He.
  - eapply Rle_trans; [exact Hh|]. unfold eta64. change (SpecFloat.emin 53 1024) with (-1074)%Z.
    right. change (/ 2) with (/ IZR (Zpower radix2 1)). rewrite IZR_Zpower by lia.
    rewrite <- bpow_opp, <- bpow_plus. f_equal.
Qed.

(** Integers of at most 53 bits are added exactly. *)
Lemma rnd_int n : (Z.abs n <= 2 ^ 53)%Z -> rnd (IZR n) = IZR n.
Proof.
  intros H. destruct (f64_of_int n H) as [F E]. rewrite <- E.
  rewrite <- (finite_val _ F). apply val_format. apply finite_notnan. exact F.
Qed.

Lemma add_int x y a b : finite x -> finite y -> B2R x = IZR a -> B2R y = IZR b ->
  (Z.abs (a + b) <= 2 ^ 53)%Z -> finite (f64_add x y) /\ B2R (f64_add x y) = IZR (a + b).
Proof.
  intros Fx Fy Ex Ey H.
  destruct (add_finite x y 53 Fx Fy) as (F & E); [lia| |].
  - rewrite Ex, Ey, <- plus_IZR, <- abs_IZR. change (bpow radix2 53) with (IZR (2 ^ 53)). apply IZR_le. exact H.
  - split; auto. rewrite E, Ex, Ey, <- plus_IZR. apply rnd_int. exact H.
Qed.

Lemma B2R_nonzero_eq (x y : f64) : finite x -> finite y -> B2R x <> 0 -> B2R x = B2R y -> x = y.
Proof.
  intros Fx Fy Hx E. apply B2R_inj; auto.
  - destruct x; try discriminate Fx; [simpl in Hx; lra|reflexivity].
  - destruct y; try discriminate Fy; [rewrite E in Hx; simpl in Hx; lra|reflexivity].
Qed.

Lemma div_self x : finite x -> B2R x <> 0 -> f64_div x x = f64_of 1 0.
Proof.
  intros Fx Hx.
  assert (Q : B2R x / B2R x = 1) by (field; auto).
  destruct (div_finite x x 0 Fx Hx) as (F & E); [lia| |].
  - rewrite Q. rewrite Rabs_R1. simpl. lra.
  - rewrite Q in E. rewrite (rnd_int 1) in E by lia.
    destruct (f64_of_int 1) as (F1 & E1); [lia|].
    apply B2R_nonzero_eq; auto; rewrite E; [lra|]. rewrite E1. reflexivity.
Qed.

(** * Sums *)
Definition Rsuml (l : list R) : R := fold_right Rplus 0 l.
Definition sum_abs (l : list f64) : R := Rsuml (map (fun x => Rabs (B2R x)) l).
Definition sum_val (l : list f64) : R := Rsuml (map B2R l).

Lemma sum_abs_pos l : 0 <= sum_abs l.
Proof. induction l; simpl; unfold sum_abs; simpl; [lra|]. pose proof (Rabs_pos (B2R a)). unfold sum_abs in IHl. lra. Qed.
Lemma sum_val_abs l : Rabs (sum_val l) <= sum_abs l.
Proof.
  induction l as [|x l IH]; unfold sum_val, sum_abs in *; simpl; [rewrite Rabs_R0; lra|].
  eapply Rle_trans; [apply Rabs_triang|]. lra.
Qed.

Lemma pow1u_ge1 n : 1 <= (1 + u64) ^ n.
Proof. apply pow_R1_Rle. pose proof u64_pos. lra. Qed.

Lemma pow1u_le3 n : (Z.of_nat n <= 2 ^ 53)%Z -> (1 + u64) ^ n <= 3.
Proof.
  intros Hn. pose proof u64_pos.
  assert (P : (1 + u64) ^ n <= exp (INR n * u64)).
  { clear Hn. induction n as [|n IH]; [simpl; rewrite Rmult_0_l, exp_0; lra|].
    rewrite S_INR, Rmult_plus_distr_r, Rmult_1_l, exp_plus. rewrite <- tech_pow_Rmult, Rmult_comm.
    apply Rmult_le_compat; auto.
    - apply pow_le. lra.
    - lra.
    - left. pose proof (exp_ineq1 u64). lra. }
  eapply Rle_trans; [exact P|]. eapply Rle_trans; [|apply exp_le_3].
  assert (Hx : INR n * u64 <= 1).
  { rewrite INR_IZR_INZ. apply IZR_le in Hn. change (IZR (2 ^ 53)) with (bpow radix2 53) in Hn.
    apply (Rmult_le_compat_r u64) in Hn; [|lra]. unfold u64 in Hn at 2. rewrite <- bpow_plus in Hn.
    simpl bpow in Hn. lra. }
  destruct (Rle_lt_or_eq_dec _ _ Hx) as [L|E]; [left; apply exp_increasing; auto|rewrite E; lra].
Qed.

(** Left-to-right summation: error at most ((1+u)^n - 1) * sum of magnitudes. *)
Lemma fold_add_err l : forall s S A k,
  finite s -> (forall x, In x l -> finite x) ->
  Rabs (B2R s - S) <= ((1 + u64) ^ k - 1) * A -> Rabs S <= A ->
  (1 + u64) ^ (k + length l) * (A + sum_abs l) <= bpow radix2 1023 ->
  finite (fold_left f64_add l s) /\
  Rabs (B2R (fold_left f64_add l s) - (S + sum_val l))
  <= ((1 + u64) ^ (k + length l) - 1) * (A + sum_abs l).
Proof.
  induction l as [|x l IH]; intros s S A k Fs Fl HS HA HB.
  - simpl. unfold sum_val, sum_abs in *. simpl in *. rewrite !Rplus_0_r in *. rewrite Nat.add_0_r. auto.
  - pose proof u64_pos as U. pose proof (sum_abs_pos l) as Pl.
    assert (A0 : 0 <= A) by (eapply Rle_trans; [apply Rabs_pos|exact HA]).
    pose proof (Rabs_pos (B2R x)) as Px.
    assert (Fx : finite x) by (apply Fl; left; auto).
    assert (EA : A + sum_abs (x :: l) = (A + Rabs (B2R x)) + sum_abs l) by (unfold sum_abs; simpl; lra).
    assert (ES : S + sum_val (x :: l) = (S + B2R x) + sum_val l) by (unfold sum_val; simpl; lra).
    assert (EK : (k + length (x :: l) = (k + 1) + length l)%nat) by (simpl; lia).
    rewrite EA, ES, EK in *.
    set (g := (1 + u64) ^ k) in *. assert (G1 : 1 <= g) by apply pow1u_ge1.
    assert (Gk : (1 + u64) ^ (k + 1) = g * (1 + u64)) by (rewrite pow_add; simpl; unfold g; ring).
    (* size of the exact partial sum *)
    assert (Bs : Rabs (B2R s + B2R x) <= g * (A + Rabs (B2R x))).
    { replace (B2R s + B2R x) with ((B2R s - S) + (S + B2R x)) by ring.
      eapply Rle_trans; [apply Rabs_triang|].
      pose proof (Rabs_triang S (B2R x)).
      assert (0 <= (g - 1) * Rabs (B2R x)) by (apply Rmult_le_pos; lra). nra. }
    assert (Gm : g <= (1 + u64) ^ (k + 1 + length l)).
    { unfold g. apply Rle_pow; [lra|lia]. }
    destruct (add_finite s x 1023 Fs Fx) as (Fa & Ea); [lia| |].
    { eapply Rle_trans; [exact Bs|]. eapply Rle_trans; [|exact HB].
      apply Rmult_le_compat; lra. }
    cbn [fold_left].
    apply (IH (f64_add s x) (S + B2R x) (A + Rabs (B2R x)) (k + 1)%nat); auto.
    + intros y Hy. apply Fl. right; auto.
    + rewrite Ea, Gk. pose proof (rnd_add_err s x Fs Fx) as R.
      replace (rnd (B2R s + B2R x) - (S + B2R x))
        with ((rnd (B2R s + B2R x) - (B2R s + B2R x)) + (B2R s - S)) by ring.
      eapply Rle_trans; [apply Rabs_triang|].
      assert (u64 * Rabs (B2R s + B2R x) <= u64 * (g * (A + Rabs (B2R x)))).
      { apply Rmult_le_compat_l; lra. }
      assert (0 <= (g - 1) * Rabs (B2R x)) by (apply Rmult_le_pos; lra).
      nra.
    + eapply Rle_trans; [apply Rabs_triang|]. lra.
Qed.

(** Sums of ones are exact counts. *)
Lemma fold_add_ones l : forall s a, finite s -> B2R s = IZR a -> (0 <= a)%Z ->
  (forall x, In x l -> x = f64_of 1 0) -> (a + Z.of_nat (length l) <= 2 ^ 53)%Z ->
  finite (fold_left f64_add l s) /\ B2R (fold_left f64_add l s) = IZR (a + Z.of_nat (length l)).
Proof.
  induction l as [|x l IH]; intros s a Fs Es Ha Hl Hb.
  - simpl. rewrite Z.add_0_r. auto.
  - cbn [fold_left]. destruct (f64_of_int 1) as (F1 & E1); [lia|].
    assert (Hlen : Z.of_nat (length (x :: l)) = (1 + Z.of_nat (length l))%Z) by (simpl length; lia).
    rewrite Hlen in *. rewrite (Hl x) by (left; auto).
    destruct (add_int s (f64_of 1 0) a 1 Fs F1 Es E1) as (F & E); [lia|].
    replace (a + (1 + Z.of_nat (length l)))%Z with ((a + 1) + Z.of_nat (length l))%Z by lia.
    apply IH; auto; [lia|intros; apply Hl; right; auto|lia].
Qed.
