(** Order and monotonicity facts about binary64 used by the search proofs. *)
From Coq Require Import Reals ZArith Lra Psatz.
From Coq Require Import Floats.SpecFloat.
From Flocq Require Import Core IEEE754.BinarySingleNaN.
From Verif Require Import Base Num F64.

Local Open Scope R_scope.

Definition E1024 : R := bpow radix2 1024.
Notation fexp64 := (SpecFloat.fexp 53 1024).
Definition rnd (r : R) : R := round radix2 fexp64 ZnearestE r.
(** Clamp to [-2^1024, 2^1024]: infinities are represented by the two end points. *)
Definition sat (r : R) : R := Rmax (- E1024) (Rmin r E1024).

(** Real image of a non-NaN double, infinities mapped to +-2^1024. *)
Definition val (x : f64) : R :=
  match x with
  | B754_infinity true => - E1024
  | B754_infinity false => E1024
  | _ => B2R x
  end.

Definition notnan (x : f64) : Prop := is_nan x = false.
Definition finite (x : f64) : Prop := is_finite x = true.

Lemma E1024_pos : 0 < E1024.
Proof. apply bpow_gt_0. Qed.

Lemma finite_val x : finite x -> val x = B2R x.
Proof. destruct x; simpl; intros; try discriminate; reflexivity. Qed.

Lemma finite_notnan x : finite x -> notnan x.
Proof. destruct x; simpl; intros; try discriminate; reflexivity. Qed.

Lemma finite_lt x : finite x -> Rabs (B2R x) < E1024.
Proof. intros _. apply abs_B2R_lt_emax. Qed.

Lemma val_bound x : - E1024 <= val x <= E1024.
Proof.
  pose proof E1024_pos. destruct x as [s|[]| |s m e Hb] eqn:Ex; simpl; try lra.
  pose proof (abs_B2R_lt_emax 53 1024 (B754_finite s m e Hb)) as B.
  fold E1024 in B. apply Rabs_lt_inv in B. simpl in B. lra.
Qed.

Lemma f64_lt_val x y : notnan x -> notnan y -> (f64_lt x y = true <-> val x < val y).
Proof.
  intros Hx Hy. unfold f64_lt. pose proof E1024_pos as EP.
  assert (FF : finite x -> finite y -> (Bltb x y = true <-> val x < val y)).
  { intros Fx Fy. rewrite Bltb_correct by assumption.
    rewrite !finite_val by assumption.
    split; intros H. destruct (Rlt_bool_spec (B2R x) (B2R y)); [assumption|discriminate].
    apply Rlt_bool_true; assumption. }
  assert (IL : forall z, finite z -> - E1024 < val z < E1024).
  { intros z Fz. rewrite finite_val by assumption. apply Rabs_lt_inv. apply finite_lt. assumption. }
  destruct (is_finite x) eqn:Fx, (is_finite y) eqn:Fy.
  - apply FF; assumption.
  - pose proof (IL x Fx) as BX.
    destruct y as [sy|sy| |sy my ey By]; try discriminate.
    destruct x as [sx|sx| |sx mx ex Bx]; try discriminate; destruct sy;
      try destruct sx; cbn [val] in *; cbv [Bltb SFltb B2SF SFcompare];
      split; intros; try discriminate; try reflexivity; try lra.
  - pose proof (IL y Fy) as BY.
    destruct x as [sx|sx| |sx mx ex Bx]; try discriminate.
    destruct y as [sy|sy| |sy my ey By]; try discriminate; destruct sx;
      try destruct sy; cbn [val] in *; cbv [Bltb SFltb B2SF SFcompare];
      split; intros; try discriminate; try reflexivity; try lra.
  - destruct x as [sx|sx| |sx mx ex Bx]; try discriminate.
    destruct y as [sy|sy| |sy my ey By]; try discriminate.
    destruct sx, sy; cbn [val] in *; cbv [Bltb SFltb B2SF SFcompare];
      split; intros; try discriminate; try reflexivity; try lra.
Qed.

Lemma f64_lt_val_false x y : notnan x -> notnan y -> (f64_lt x y = false <-> val y <= val x).
Proof.
  intros Hx Hy. pose proof (f64_lt_val x y Hx Hy) as H.
  destruct (f64_lt x y); split; intros G; try discriminate; try reflexivity.
  - apply proj1 in H. specialize (H eq_refl). lra.
  - apply Rnot_lt_le. intros L. apply H in L. discriminate.
Qed.

Lemma f64_le_negb_lt x y : notnan x -> notnan y -> f64_le x y = negb (f64_lt y x).
Proof.
  intros Hx Hy. unfold f64_le, f64_lt, Bleb, Bltb, SFleb, SFltb.
  pose proof (Bcompare_swap 53 1024 x y) as S. unfold Bcompare in S. rewrite S.
  destruct (SFcompare (B2SF x) (B2SF y)) as [[]|] eqn:E; simpl; try reflexivity.
  exfalso. destruct x as [sx|[]| |[] mx ex Bx], y as [sy|[]| |[] my ey By];
    simpl in *; discriminate.
Qed.

Lemma f64_order : order_laws Fnum notnan.
Proof.
  split; cbn [car nlt nle nmaxv Fnum].
  - intros a Ha. apply f64_lt_val_false; auto. lra.
  - intros a b c Ha Hb Hc H1 H2. apply f64_lt_val in H1; auto. apply f64_lt_val in H2; auto.
    apply f64_lt_val; auto. lra.
  - intros a b c Ha Hb Hc H1 H2. apply f64_lt_val_false in H1; auto.
    apply f64_lt_val_false in H2; auto. apply f64_lt_val_false; auto. lra.
  - apply f64_le_negb_lt.
  - reflexivity.
Qed.

(** * Rounded operations *)
#[local] Instance fexp64_valid : Valid_exp fexp64 := fexp_correct 53 1024 prec53.

Lemma rnd_le a b : a <= b -> rnd a <= rnd b.
Proof. apply round_le; typeclasses eauto. Qed.

Lemma rnd_opp a : rnd (- a) = - rnd a.
Proof. apply round_NE_opp. Qed.

Lemma rnd_0 : rnd 0 = 0.
Proof. apply round_0; typeclasses eauto. Qed.

Lemma sat_le a b : a <= b -> sat a <= sat b.
Proof.
  intros H. unfold sat, Rmax, Rmin. pose proof E1024_pos.
  repeat destruct (Rle_dec _ _); lra.
Qed.

Lemma sat_in a : - E1024 <= a <= E1024 -> sat a = a.
Proof. intros H. unfold sat. rewrite Rmin_left by lra. apply Rmax_right. lra. Qed.

Lemma sat_hi a : E1024 <= a -> sat a = E1024.
Proof.
  intros H. pose proof E1024_pos. unfold sat. rewrite Rmin_right by lra.
  apply Rmax_right; lra.
Qed.

Lemma sat_lo a : a <= - E1024 -> sat a = - E1024.
Proof.
  intros H. pose proof E1024_pos. unfold sat. rewrite Rmin_left by lra.
  apply Rmax_left; lra.
Qed.

Lemma sat_opp a : sat (- a) = - sat a.
Proof.
  pose proof E1024_pos.
  destruct (Rle_lt_dec E1024 a); [rewrite (sat_hi a), sat_lo by lra; lra|].
  destruct (Rle_lt_dec a (- E1024)); [rewrite (sat_lo a), sat_hi by lra; lra|].
  rewrite !sat_in by lra. reflexivity.
Qed.

(** Rounded value with overflow to infinity. *)
Definition rx (r : R) : R := sat (rnd r).

Lemma rx_le a b : a <= b -> rx a <= rx b.
Proof. intros H. apply sat_le, rnd_le, H. Qed.

Lemma rx_opp a : rx (- a) = - rx a.
Proof. unfold rx. rewrite rnd_opp. apply sat_opp. Qed.

Lemma rx_0 : rx 0 = 0.
Proof. unfold rx. rewrite rnd_0. pose proof E1024_pos. apply sat_in; lra. Qed.

Lemma val_format x : notnan x -> rnd (val x) = val x.
Proof.
  intros Hx. apply round_generic; [typeclasses eauto|].
  assert (FE : generic_format radix2 fexp64 E1024).
  { apply generic_format_bpow. unfold SpecFloat.fexp, SpecFloat.emin. lia. }
  destruct x as [s|[]| |s m e B]; try discriminate; cbn [val].
  - apply generic_format_0.
  - apply generic_format_opp. exact FE.
  - exact FE.
  - apply (generic_format_B2R 53 1024 (B754_finite s m e B)).
Qed.

Lemma rx_val x : notnan x -> rx (val x) = val x.
Proof. intros H. unfold rx. rewrite val_format by auto. apply sat_in, val_bound. Qed.

Lemma B2SF_inf x s : B2SF x = S754_infinity s -> x = @B754_infinity 53 1024 s.
Proof. destruct x; simpl; intros H; inversion H; reflexivity. Qed.

Lemma sub_val x y : finite x -> finite y ->
  notnan (f64_sub x y) /\ val (f64_sub x y) = rx (val x - val y).
Proof.
  intros Fx Fy. rewrite (finite_val x), (finite_val y) by auto. unfold f64_sub.
  pose proof (Bminus_correct 53 1024 _ _ mode_NE x y Fx Fy) as C.
  cbn [round_mode] in C. fold (rnd (B2R x - B2R y)) in C.
  fold E1024 in C.
  destruct (Rlt_bool_spec (Rabs (rnd (B2R x - B2R y))) E1024) as [L|G].
  - destruct C as (C1 & C2 & _). split; [apply finite_notnan; exact C2|].
    rewrite finite_val by exact C2. rewrite C1. unfold rx. symmetry. apply sat_in.
    apply Rabs_lt_inv in L. lra.
  - destruct C as (C1 & C2). unfold binary_overflow, overflow_to_inf in C1.
    apply B2SF_inf in C1. rewrite C1. split; [reflexivity|].
    pose proof (Rabs_lt_inv _ _ (finite_lt x Fx)) as BX.
    pose proof (Rabs_lt_inv _ _ (finite_lt y Fy)) as BY.
    assert (SX : if Bsign x then B2R x <= 0 /\ 0 <= B2R y else 0 <= B2R x /\ B2R y <= 0).
    { destruct x as [[]|[]| |[] mx ex Bx]; try discriminate Fx;
      destruct y as [[]|[]| |[] my ey By]; try discriminate Fy; try discriminate C2;
      simpl; split; try lra;
      try (now apply F2R_ge_0); try (now apply F2R_le_0). }
    pose proof E1024_pos as EP.
    destruct (Bsign x); cbn [val]; unfold rx.
    + assert (rnd (B2R x - B2R y) <= 0). { rewrite <- rnd_0. apply rnd_le. lra. }
      rewrite Rabs_left1 in G by auto. rewrite sat_lo by lra. reflexivity.
    + assert (0 <= rnd (B2R x - B2R y)). { rewrite <- rnd_0. apply rnd_le. lra. }
      rewrite Rabs_pos_eq in G by auto. rewrite sat_hi by lra. reflexivity.
Qed.

Lemma add_val x y : finite x -> finite y ->
  notnan (f64_add x y) /\ val (f64_add x y) = rx (val x + val y).
Proof.
  intros Fx Fy. rewrite (finite_val x), (finite_val y) by auto. unfold f64_add.
  pose proof (Bplus_correct 53 1024 _ _ mode_NE x y Fx Fy) as C.
  cbn [round_mode] in C. fold (rnd (B2R x + B2R y)) in C.
  fold E1024 in C.
  destruct (Rlt_bool_spec (Rabs (rnd (B2R x + B2R y))) E1024) as [L|G].
  - destruct C as (C1 & C2 & _). split; [apply finite_notnan; exact C2|].
    rewrite finite_val by exact C2. rewrite C1. unfold rx. symmetry. apply sat_in.
    apply Rabs_lt_inv in L. lra.
  - destruct C as (C1 & C2). unfold binary_overflow, overflow_to_inf in C1.
    apply B2SF_inf in C1. rewrite C1. split; [reflexivity|].
    assert (SX : if Bsign x then B2R x <= 0 /\ B2R y <= 0 else 0 <= B2R x /\ 0 <= B2R y).
    { destruct x as [[]|[]| |[] mx ex Bx]; try discriminate Fx;
      destruct y as [[]|[]| |[] my ey By]; try discriminate Fy; try discriminate C2;
      simpl; split; try lra;
      try (now apply F2R_ge_0); try (now apply F2R_le_0). }
    pose proof E1024_pos as EP.
    destruct (Bsign x); cbn [val]; unfold rx.
    + assert (rnd (B2R x + B2R y) <= 0). { rewrite <- rnd_0. apply rnd_le. lra. }
      rewrite Rabs_left1 in G by auto. rewrite sat_lo by lra. reflexivity.
    + assert (0 <= rnd (B2R x + B2R y)). { rewrite <- rnd_0. apply rnd_le. lra. }
      rewrite Rabs_pos_eq in G by auto. rewrite sat_hi by lra. reflexivity.
Qed.

(** Squares are never NaN. *)
Lemma sq_val x : notnan x ->
  notnan (f64_mul x x) /\ val (f64_mul x x) = rx (val x * val x).
Proof.
  intros Hx. pose proof E1024_pos as EP.
  assert (E1 : 1 <= E1024). { change 1 with (bpow radix2 0). apply bpow_le. lia. }
  destruct (is_finite x) eqn:F.
  - rewrite (finite_val x) by exact F. unfold f64_mul.
    pose proof (Bmult_correct 53 1024 _ _ mode_NE x x) as C.
    cbn [round_mode] in C. fold (rnd (B2R x * B2R x)) in C. fold E1024 in C.
    destruct (Rlt_bool_spec (Rabs (rnd (B2R x * B2R x))) E1024) as [L|G].
    + destruct C as (C1 & C2 & _). rewrite F in C2. simpl in C2.
      split; [apply finite_notnan; exact C2|].
      rewrite finite_val by exact C2. rewrite C1. unfold rx. symmetry. apply sat_in.
      apply Rabs_lt_inv in L. lra.
    + unfold binary_overflow, overflow_to_inf in C. rewrite xorb_nilpotent in C.
      apply B2SF_inf in C. rewrite C. split; [reflexivity|]. cbn [val].
      assert (0 <= rnd (B2R x * B2R x)). { rewrite <- rnd_0. apply rnd_le. nra. }
      rewrite Rabs_pos_eq in G by auto. unfold rx. rewrite sat_hi by lra. reflexivity.
  - destruct x as [s|s| |s m e B]; try discriminate.
    unfold f64_mul. simpl. rewrite xorb_nilpotent. split; [reflexivity|]. cbn [val].
    assert (Q : E1024 <= rx (E1024 * E1024)).
    { replace E1024 with (rx (val f64_inf)) at 1 by (apply rx_val; reflexivity).
      apply rx_le. simpl. nra. }
    assert (rx (E1024 * E1024) <= E1024).
    { unfold rx, sat. apply Rmax_lub; [lra|apply Rmin_r]. }
    destruct s; [replace (- E1024 * - E1024) with (E1024 * E1024) by ring|]; lra.
Qed.

(** Sum of two non-negative non-NaN doubles (infinities included). *)
Lemma add_pos_val x y : notnan x -> notnan y -> 0 <= val x -> 0 <= val y ->
  notnan (f64_add x y) /\ val (f64_add x y) = rx (val x + val y).
Proof.
  intros Hx Hy Px Py. pose proof E1024_pos as EP.
  assert (HI : forall z, 0 <= z -> rx (E1024 + z) = E1024).
  { intros z Hz. apply Rle_antisym.
    - unfold rx, sat. apply Rmax_lub; [lra|apply Rmin_r].
    - replace E1024 with (rx (val f64_inf)) at 1 by (apply rx_val; reflexivity).
      apply rx_le. simpl. lra. }
  destruct (is_finite x) eqn:Fx, (is_finite y) eqn:Fy.
  - apply add_val; assumption.
  - destruct y as [s|[]| |s m e B]; try discriminate; simpl in Py; try lra.
    destruct x as [s'|s'| |s' m' e' B']; try discriminate; unfold f64_add; simpl Bplus;
      (split; [reflexivity|]); cbn [val]; rewrite Rplus_comm, HI; auto.
  - destruct x as [s|[]| |s m e B]; try discriminate; simpl in Px; try lra.
    destruct y as [s'|s'| |s' m' e' B']; try discriminate; unfold f64_add; simpl Bplus;
      (split; [reflexivity|]); cbn [val]; rewrite HI; auto.
  - destruct x as [s|[]| |s m e B]; try discriminate; simpl in Px; try lra.
    destruct y as [s|[]| |s m e B]; try discriminate; simpl in Py; try lra.
    unfold f64_add; simpl Bplus. split; [reflexivity|]. cbn [val]. rewrite HI; lra.
Qed.

Lemma add_pos_ge_l x y : notnan x -> notnan y -> 0 <= val x -> 0 <= val y ->
  val x <= val (f64_add x y).
Proof.
  intros Hx Hy Px Py. destruct (add_pos_val x y Hx Hy Px Py) as [_ ->].
  rewrite <- (rx_val x Hx) at 1. apply rx_le. lra.
Qed.

Lemma add_pos_ge_r x y : notnan x -> notnan y -> 0 <= val x -> 0 <= val y ->
  val y <= val (f64_add x y).
Proof.
  intros Hx Hy Px Py. destruct (add_pos_val x y Hx Hy Px Py) as [_ ->].
  rewrite <- (rx_val y Hy) at 1. apply rx_le. lra.
Qed.

Lemma sq_nonneg x : notnan x -> 0 <= val (f64_mul x x).
Proof.
  intros Hx. destruct (sq_val x Hx) as [_ ->]. rewrite <- rx_0. apply rx_le. nra.
Qed.

Lemma sq_mono x y : notnan x -> notnan y -> Rabs (val x) <= Rabs (val y) ->
  val (f64_mul x x) <= val (f64_mul y y).
Proof.
  intros Hx Hy H. destruct (sq_val x Hx) as [_ ->]. destruct (sq_val y Hy) as [_ ->].
  apply rx_le. apply Rsqr_le_abs_1 in H. exact H.
Qed.
