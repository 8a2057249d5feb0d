(** C35 in double precision: the weights the program computes, infinities included. *)
From Coq Require Import Reals ZArith Lra Psatz.
From Flocq Require Import Core IEEE754.BinarySingleNaN.
From Verif Require Import Base BaseProofs Num Vec Lin F64 F64Proofs F64Err FactorModel.
Open Scope R_scope.

(** c / d for a divisor not below the dividend. *)
Lemma div_down (c d : f64) : finite c -> 0 < B2R c -> notnan d -> B2R c <= val d ->
  finite (f64_div c d) /\ B2R (f64_div c d) = if is_finite d then rnd (B2R c / B2R d) else 0.
Proof.
  intros Fc Pc Nd L. destruct (is_finite d) eqn:Fd.
  - rewrite (finite_val d) in L by exact Fd. apply (div_finite c d 0); [exact Fc|lra|lia|].
    change (bpow radix2 0) with 1.
    assert (0 <= B2R c / B2R d) by (apply Rmult_le_pos; [lra|left; apply Rinv_0_lt_compat; lra]).
    rewrite Rabs_pos_eq by assumption. apply Rmult_le_reg_r with (B2R d); [lra|].
    unfold Rdiv. rewrite Rmult_assoc, Rinv_l by lra. lra.
  - destruct d as [s|s| |s m e B]; try discriminate.
    destruct c as [s'|s'| |s' m' e' B']; try discriminate; split; reflexivity.
Qed.

Lemma div_down_range (c d : f64) : finite c -> 0 < B2R c -> notnan d -> B2R c <= val d ->
  0 <= B2R (f64_div c d) <= 1.
Proof.
  intros Fc Pc Nd L. destruct (div_down c d Fc Pc Nd L) as [_ ->].
  destruct (is_finite d) eqn:Fd; [|lra]. rewrite (finite_val d) in L by exact Fd.
  assert (0 <= B2R c / B2R d) by (apply Rmult_le_pos; [lra|left; apply Rinv_0_lt_compat; lra]).
  split; [rewrite <- rnd_0; apply rnd_le; assumption|].
  replace 1 with (rnd (IZR 1)) by (apply rnd_int; lia). apply rnd_le.
  apply Rmult_le_reg_r with (B2R d); [lra|]. unfold Rdiv. rewrite Rmult_assoc, Rinv_l by lra. lra.
Qed.

Lemma div_down_mono (c d d' : f64) : finite c -> 0 < B2R c -> notnan d -> notnan d' ->
  B2R c <= val d -> val d <= val d' -> B2R (f64_div c d') <= B2R (f64_div c d).
Proof.
  intros Fc Pc Nd Nd' L L'. destruct (is_finite d') eqn:Fd'.
  - assert (Fd : is_finite d = true).
    { rewrite (finite_val d') in L' by exact Fd'. pose proof (finite_lt d' Fd') as B.
      apply Rabs_lt_inv in B. destruct d as [s|[]| |s m e Bd]; try reflexivity; try discriminate;
        cbn [val] in *; lra. }
    destruct (div_down c d Fc Pc Nd L) as [_ ->].
    destruct (div_down c d' Fc Pc Nd') as [_ ->]; [lra|]. rewrite Fd, Fd'.
    rewrite (finite_val d) in * by exact Fd. rewrite (finite_val d') in * by exact Fd'.
    apply rnd_le. unfold Rdiv. apply Rmult_le_compat_l; [lra|]. apply Rinv_le_contravar; lra.
  - destruct (div_down c d' Fc Pc Nd') as [_ ->]; [lra|]. rewrite Fd'.
    apply div_down_range; auto.
Qed.

Lemma babs_notnan (e : f64) : notnan e -> notnan (Babs e).
Proof. destruct e; auto. Qed.
Lemma babs_val (e : f64) : notnan e -> val (Babs e) = Rabs (val e).
Proof.
  intros N. pose proof E1024_pos. destruct (is_finite e) eqn:F.
  - rewrite (finite_val e) by exact F. rewrite finite_val by (unfold finite; rewrite is_finite_Babs; exact F).
    apply B2R_Babs.
  - destruct e as [s|[]| |s m x B]; try discriminate; cbn [val Babs];
      [rewrite Rabs_left by lra; lra|rewrite Rabs_pos_eq; lra].
Qed.

Lemma one_val : finite (f64_of 1 0) /\ B2R (f64_of 1 0) = 1.
Proof. split; [vm_compute; reflexivity|]. unfold B2R, F2R. vm_compute. lra. Qed.

(** [weight] is a sound robust weight on doubles: for every residual that is not NaN, infinities
    included, a finite double in [0,1], not larger for larger residuals. *)
Definition weights_down64 (weight : f64 -> f64) : Prop :=
  (forall e, notnan e -> finite (weight e) /\ 0 <= B2R (weight e) <= 1) /\
  (forall a b, notnan a -> notnan b -> Rabs (val a) <= Rabs (val b) -> B2R (weight b) <= B2R (weight a)).

Theorem C35_huber_in_doubles : forall c : f64, finite c -> 0 < B2R c -> weights_down64 (huber (D := Ffld) c) /\
  forall e, notnan e -> Rabs (val e) < B2R c -> B2R (huber (D := Ffld) c e) = 1.
Proof.
  intros c Fc Pc.
  assert (C : forall e : f64, notnan e ->
    (Rabs (val e) < B2R c /\ huber (D := Ffld) c e = f64_of 1 0) \/
    (B2R c <= Rabs (val e) /\ huber (D := Ffld) c e = f64_div c (Babs e))).
  { intros e Ne. change (huber (D := Ffld) c e) with (if f64_lt (Babs e) c then f64_of 1 0 else f64_div c (Babs e)).
    pose proof (babs_notnan e Ne) as Na. pose proof (finite_notnan c Fc) as Nc.
    pose proof (babs_val e Ne) as Va. pose proof (finite_val c Fc) as Vc.
    destruct (f64_lt (Babs e) c) eqn:E; [left|right]; (split; [|reflexivity]).
    - apply f64_lt_val in E; auto. rewrite Va, Vc in E. exact E.
    - apply f64_lt_val_false in E; auto. rewrite Va, Vc in E. exact E. }
  destruct one_val as [F1 V1]. split; [split|].
  - intros e Ne. destruct (C e Ne) as [[L ->]|[L ->]]; [split; [exact F1|lra]|].
    rewrite <- (babs_val e Ne) in L. pose proof (babs_notnan e Ne).
    split; [apply div_down; auto|apply div_down_range; auto].
  - intros a b Na Nb L. destruct (C a Na) as [[La ->]|[La ->]]; destruct (C b Nb) as [[Lb ->]|[Lb ->]].
    + lra.
    + rewrite V1. rewrite <- (babs_val b Nb) in Lb. apply div_down_range; auto using babs_notnan.
    + lra.
    + rewrite <- (babs_val b Nb), <- (babs_val a Na) in *. apply div_down_mono; auto using babs_notnan.
  - intros e Ne L. destruct (C e Ne) as [[_ ->]|[L' _]]; [exact V1|lra].
Qed.

Theorem C35_cauchy_in_doubles : forall c : f64, finite c -> 0 < B2R c -> weights_down64 (cauchy (D := Ffld) c).
Proof.
  intros c Fc Pc. pose proof (finite_notnan c Fc) as Nc. pose proof (finite_val c Fc) as Vc.
  assert (C : forall e : f64, notnan e -> notnan (f64_add c (f64_mul e e)) /\
    val (f64_add c (f64_mul e e)) = rx (B2R c + val (f64_mul e e)) /\ B2R c <= val (f64_add c (f64_mul e e))).
  { intros e Ne. destruct (sq_val e Ne) as [Ns _]. pose proof (sq_nonneg e Ne) as Ps.
    destruct (add_pos_val c (f64_mul e e) Nc Ns) as [Na Va]; [lra|exact Ps|].
    rewrite Vc in Va. split; [exact Na|]. split; [exact Va|]. rewrite <- Vc. apply add_pos_ge_l; auto. lra. }
  split.
  - intros e Ne. destruct (C e Ne) as (Na & _ & L).
    change (cauchy (D := Ffld) c e) with (f64_div c (f64_add c (f64_mul e e))).
    split; [apply div_down; auto|apply div_down_range; auto].
  - intros a b Na Nb L. destruct (C a Na) as (Ma & Va & La). destruct (C b Nb) as (Mb & Vb & Lb).
    change (B2R (f64_div c (f64_add c (f64_mul b b))) <= B2R (f64_div c (f64_add c (f64_mul a a)))).
    apply div_down_mono; auto. rewrite Va, Vb. apply rx_le. apply Rplus_le_compat_l. apply sq_mono; auto.
Qed.

(** The robustified error weight * e (robust_kernel.hpp:88, 97) for a finite raw error. *)
Theorem C35_error_in_doubles : forall (weight : f64 -> f64), weights_down64 weight ->
  forall x e : f64, notnan x -> finite e -> 0 <= B2R e ->
  finite (f64_mul (weight x) e) /\ 0 <= B2R (f64_mul (weight x) e) <= B2R e.
Proof.
  intros weight [W _] x e Nx Fe Pe. destruct (W x Nx) as [Fw [P0 P1]].
  set (w := weight x) in *.
  assert (B : 0 <= B2R w * B2R e <= B2R e) by nra.
  assert (Re : rnd (B2R e) = B2R e).
  { rewrite <- (finite_val e Fe). apply val_format, finite_notnan, Fe. }
  assert (Q : 0 <= rnd (B2R w * B2R e) <= B2R e).
  { split; [rewrite <- rnd_0; apply rnd_le; lra|].
    apply Rle_trans with (rnd (B2R e)); [apply rnd_le; lra|rewrite Re; lra]. }
  pose proof (Bmult_correct 53 1024 _ _ mode_NE w e) as C.
  cbn [round_mode] in C. fold (rnd (B2R w * B2R e)) in C. fold E1024 in C.
  pose proof (finite_lt e Fe) as Le. rewrite Rabs_pos_eq in Le by lra.
  rewrite Rlt_bool_true in C by (rewrite Rabs_pos_eq; lra).
  destruct C as (C1 & C2 & _). unfold finite in Fw, Fe. rewrite Fw, Fe in C2.
  split; [exact C2|]. unfold f64_mul. rewrite C1. exact Q.
Qed.

(** Neither kernel keeps its weight positive in doubles: at a residual of 2^600 Cauchy's weight
    with width 1 is zero, and at 2^1000 Huber's with width 2^-100. *)
Theorem C35_positive_in_doubles_refuted :
  exists c e c' e' : f64, finite c /\ finite e /\ 0 < B2R c /\ finite c' /\ finite e' /\ 0 < B2R c' /\
    B2R (cauchy (D := Ffld) c e) = 0 /\ B2R (huber (D := Ffld) c' e') = 0.
Proof.
  exists (f64_of 1 0), (f64_of 1 600), (f64_of 1 (-100)), (f64_of 1 1000).
  destruct one_val as [F1 V1].
  split; [exact F1|]. split; [vm_compute; reflexivity|]. split; [rewrite V1; lra|].
  split; [vm_compute; reflexivity|]. split; [vm_compute; reflexivity|].
  split.
  { apply (f64_lt_val (B754_zero false) (f64_of 1 (-100))); vm_compute; reflexivity. }
  assert (Z : forall x : f64, B2SF x = SpecFloat.S754_zero false -> B2R x = 0)
    by (intros [s|s| |s m e B]; try discriminate; reflexivity).
  split; apply Z; vm_compute; reflexivity.
Qed.

(** An infinite raw error is not weighted down to a number: its weight is zero and 0 * inf is NaN,
    so one such correspondence makes the whole robust error NaN. *)
Theorem C35_infinite_error_refuted : forall c : f64, finite c -> 0 < B2R c ->
  let e := f64_inf in let r := Bsqrt mode_NE e in
  B2R (huber (D := Ffld) c r) = 0 /\ B2R (cauchy (D := Ffld) c r) = 0 /\
  is_nan (f64_mul (huber (D := Ffld) c r) e) = true /\ is_nan (f64_mul (cauchy (D := Ffld) c r) e) = true.
Proof.
  intros c Fc Pc. cbv zeta. change (Bsqrt mode_NE f64_inf) with f64_inf.
  destruct c as [s|s| |s m x B]; try discriminate; [cbn in Pc; lra|].
  destruct s; [exfalso; unfold B2R in Pc; rewrite (F2R_cond_Zopp radix2 true) in Pc;
    pose proof (F2R_gt_0 radix2 (Float radix2 (Zpos m) x) eq_refl); cbn [cond_Ropp] in Pc; lra|].
  repeat split; reflexivity.
Qed.

(** Width 1: the weights of 0, 1/2, 3 and of an infinite residual are numbers in [0,1]. *)
Example C35_doubles_instance :
  finite (f64_of 1 0) /\ 0 < B2R (f64_of 1 0) /\ notnan f64_inf /\ finite (f64_of 9 0) /\
  B2SF (cauchy (D := Ffld) (f64_of 1 0) (f64_of 1 0)) = B2SF (f64_of 1 (-1)) /\
  B2SF (huber (D := Ffld) (f64_of 1 0) (f64_of (-4) 0)) = B2SF (f64_of 1 (-2)) /\
  B2SF (huber (D := Ffld) (f64_of 1 0) f64_inf) = SpecFloat.S754_zero false.
Proof.
  destruct one_val as [F1 V1]. split; [exact F1|]. split; [rewrite V1; lra|]. repeat split; vm_compute; reflexivity.
Qed.

Print Assumptions C35_huber_in_doubles.
Print Assumptions C35_cauchy_in_doubles.
Print Assumptions C35_error_in_doubles.
Print Assumptions C35_positive_in_doubles_refuted.
Print Assumptions C35_infinite_error_refuted.
