(** fast_floor computes the floor. *)
From Coq Require Import Reals ZArith Lra ZifyBool.
From Flocq Require Import Core IEEE754.BinarySingleNaN.
From Verif Require Import Base BaseProofs Num F64 F64Proofs FloorModel.
Open Scope Z_scope.

Lemma Btrunc_Ztrunc (x : f64) : Btrunc x = Ztrunc (B2R x).
Proof.
  apply eq_IZR. rewrite (Btrunc_correct 53 1024 prec53lt x).
  unfold round, F2R, scaled_mantissa, cexp, FIX_exp. cbn [Defs.Fnum Defs.Fexp].
  change (bpow radix2 (- 0)) with 1%R. change (bpow radix2 0) with 1%R. rewrite !Rmult_1_r. reflexivity.
Qed.

(** Integers of at most 53 bits are doubles. *)
Lemma f64_of_int n : Z.abs n <= 2 ^ 53 ->
  is_finite (f64_of n 0) = true /\ B2R (f64_of n 0) = IZR n.
Proof.
  intros Hn. unfold f64_of.
  pose proof (binary_normalize_correct 53 1024 _ _ mode_NE n 0 false) as C.
  assert (EF : F2R (Float radix2 n 0) = IZR n).
  { unfold F2R; simpl. apply Rmult_1_r. }
  rewrite EF in C.
  assert (G : generic_format radix2 (SpecFloat.fexp 53 1024) (IZR n)).
  { rewrite <- EF. destruct (Z.eq_dec (Z.abs n) (2 ^ 53)) as [E|E].
    - assert (n = 2 ^ 53 \/ n = - 2 ^ 53) as [->| ->] by lia.
      + rewrite EF. change (IZR (2 ^ 53)) with (IZR (Zpower radix2 53)).
        rewrite IZR_Zpower by lia. apply generic_format_bpow. vm_compute. discriminate.
      + rewrite EF, opp_IZR. change (IZR (2 ^ 53)) with (IZR (Zpower radix2 53)).
        apply generic_format_opp.
        rewrite IZR_Zpower by lia. apply generic_format_bpow. vm_compute. discriminate.
    - apply generic_format_F2R. intros Hnz. cbn [Defs.Fnum] in Hnz |- *.
      unfold cexp. rewrite EF. unfold SpecFloat.fexp, SpecFloat.emin.
      assert (mag radix2 (IZR n) <= 53).
      { apply mag_le_bpow.
        - apply IZR_neq. exact Hnz.
        - rewrite <- abs_IZR. change (bpow radix2 53) with (IZR (2 ^ 53)). apply IZR_lt. lia. }
      simpl Defs.Fexp. lia. }
  assert (Rd : round radix2 (SpecFloat.fexp 53 1024) (round_mode mode_NE) (IZR n) = IZR n).
  { apply round_generic; [typeclasses eauto|exact G]. }
  cbv zeta in C. rewrite Rd in C. rewrite Rlt_bool_true in C.
  - destruct C as (C1 & C2 & _). split; auto.
  - rewrite <- abs_IZR. eapply Rle_lt_trans; [apply IZR_le; exact Hn|].
    change (IZR (2 ^ 53)) with (bpow radix2 53). apply bpow_lt. lia.
Qed.

Lemma in_int_iff z : in_int z = true <-> INT_MIN <= z <= INT_MAX.
Proof. unfold in_int. lia. Qed.

Lemma trunc_floor_pos r : (0 <= r)%R -> Ztrunc r = Zfloor r.
Proof. intros. apply Ztrunc_floor; auto. Qed.

Lemma fast_floor_int_range m x : is_finite x = true -> in_int (Btrunc x) = true ->
  fast_floor m x = int_result m (Zfloor (B2R x)).
Proof.
  intros Fx HI. unfold fast_floor, cast_int. rewrite Fx, HI. cbn [andb bind].
  rewrite Btrunc_Ztrunc in *. set (r := B2R x) in *.
  apply in_int_iff in HI. unfold INT_MIN, INT_MAX in HI.
  assert (P53 : 2 ^ 53 = 9007199254740992) by reflexivity.
  destruct (f64_of_int (Ztrunc r)) as [Ff Fv]; [lia|].
  assert (HL : f64_lt x (f64_of (Ztrunc r) 0) = Rlt_bool r (IZR (Ztrunc r))).
  { destruct (f64_lt x (f64_of (Ztrunc r) 0)) eqn:E; symmetry.
    - apply Rlt_bool_true.
      apply f64_lt_val in E; try (apply finite_notnan; auto).
      rewrite !finite_val, Fv in E by auto. exact E.
    - apply Rlt_bool_false.
      apply f64_lt_val_false in E; try (apply finite_notnan; auto).
      rewrite !finite_val, Fv in E by auto. exact E. }
  rewrite HL. f_equal. symmetry.
  destruct (Rle_lt_dec 0 r) as [Hr|Hr].
  - rewrite Ztrunc_floor by auto. rewrite Rlt_bool_false; [lia|]. apply Zfloor_lb.
  - rewrite Ztrunc_ceil by lra. destruct (Req_dec (IZR (Zfloor r)) r) as [Ei|Ei].
    + assert (Ec : Zceil r = Zfloor r) by (rewrite <- Ei at 1; apply Zceil_IZR).
      rewrite Ec, Rlt_bool_false by lra. lia.
    + rewrite (Zceil_floor_neq r Ei). rewrite Rlt_bool_true; [lia|].
      rewrite plus_IZR. apply Zfloor_ub.
Qed.

(** If the floor fits in an int, so does the truncation. *)
Lemma floor_in_trunc_in r : in_int (Zfloor r) = true -> in_int (Ztrunc r) = true.
Proof.
  rewrite !in_int_iff. unfold INT_MIN, INT_MAX. intros H.
  destruct (Rle_lt_dec 0 r) as [Hr|Hr].
  - rewrite Ztrunc_floor; auto.
  - rewrite Ztrunc_ceil by lra.
    assert (Zfloor r <= Zceil r) by (apply le_IZR; eapply Rle_trans; [apply Zfloor_lb|apply Zceil_ub]).
    assert (Zceil r <= 0).
    { apply Zceil_glb. simpl. lra. }
    lia.
Qed.

Theorem fast_floor_correct m x : is_finite x = true -> in_int (Zfloor (B2R x)) = true ->
  fast_floor m x = Ok (Zfloor (B2R x)).
Proof.
  intros Fx HI. rewrite fast_floor_int_range; auto.
  - unfold int_result. rewrite HI. reflexivity.
  - rewrite Btrunc_Ztrunc. apply floor_in_trunc_in; auto.
Qed.

Theorem fast_floor_ub x : is_finite x = true -> in_int (Zfloor (B2R x)) = false ->
  fast_floor Strict x = UB.
Proof.
  intros Fx HI. destruct (in_int (Btrunc x)) eqn:E.
  - rewrite fast_floor_int_range; auto. unfold int_result. rewrite HI. reflexivity.
  - unfold fast_floor, cast_int. rewrite E, andb_false_r. reflexivity.
Qed.

Theorem fast_floor_ub_nonfinite x : is_finite x = false -> fast_floor Strict x = UB.
Proof. intros Fx. unfold fast_floor, cast_int. rewrite Fx. reflexivity. Qed.

(** On x86 the result outside the range is INT_MIN or INT_MAX. *)
Theorem fast_floor_x86_out x : (is_finite x = false \/ in_int (Zfloor (B2R x)) = false) ->
  fast_floor X86 x = Ok INT_MIN \/ fast_floor X86 x = Ok INT_MAX.
Proof.
  intros H. destruct (is_finite x && in_int (Btrunc x)) eqn:E.
  - apply andb_prop in E. destruct E as [Fx Ei]. destruct H as [H|H]; [congruence|].
    rewrite fast_floor_int_range by auto. unfold int_result. rewrite H. right. f_equal.
    rewrite Btrunc_Ztrunc in Ei. apply in_int_iff in Ei.
    destruct (Rle_lt_dec 0 (B2R x)) as [Hr|Hr].
    + rewrite Ztrunc_floor in Ei by auto. apply in_int_iff in Ei. congruence.
    + rewrite Ztrunc_ceil in Ei by lra.
      assert (Zceil (B2R x) <= Zfloor (B2R x) + 1).
      { apply Zceil_glb. rewrite plus_IZR. apply Rlt_le, Zfloor_ub. }
      assert (Zfloor (B2R x) = -2147483649).
      { unfold in_int, INT_MIN, INT_MAX in *.
        assert (Zfloor (B2R x) < 0) by (apply lt_IZR; eapply Rle_lt_trans; [apply Zfloor_lb|exact Hr]).
        lia. }
      rewrite H1. reflexivity.
  - unfold fast_floor, cast_int. rewrite E. cbn [bind].
    destruct (f64_lt x (f64_of INT_MIN 0)); [right|left]; reflexivity.
Qed.
