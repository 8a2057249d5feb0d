(** Double precision facts the registration theorems need. *)
From Coq Require Import Reals ZArith Lra.
From Flocq Require Import Core IEEE754.BinarySingleNaN.
From Flocq Require Plus_error.
From Verif Require Import Base Num Vec F64 F64Proofs Lin FactorModel FactorProofs.

Lemma f64_mul_comm (x y : f64) : f64_mul x y = f64_mul y x.
Proof.
  unfold f64_mul. apply B2SF_inj.
  destruct x as [sx|sx| |sx mx ex Hx], y as [sy|sy| |sy my ey Hy]; simpl; rewrite ?(Bool.xorb_comm sx sy); try reflexivity.
  rewrite !B2SF_SF2B. rewrite (Pos.mul_comm mx my), (Z.add_comm ex ey), (Bool.xorb_comm sy sx). reflexivity.
Qed.

Lemma f64_add_zero (x : f64) : x <> B754_zero true -> f64_add x (B754_zero false) = x.
Proof.
  intros H. unfold f64_add. destruct x as [[|]|s| |s m e Hm]; simpl; try reflexivity. exfalso. apply H. reflexivity.
Qed.

Lemma f64_add_not_negzero (x y : f64) : x <> B754_zero true -> f64_add x y <> B754_zero true.
Proof.
  intros Hx E. unfold f64_add in E.
  destruct (is_finite x) eqn:Fx; [destruct (is_finite y) eqn:Fy|].
  - pose proof (Bplus_correct 53 1024 _ _ mode_NE x y Fx Fy) as H. rewrite E in H.
    match goal with H : if ?c then _ else _ |- _ => destruct c eqn:Ec end.
    + destruct H as (H1 & _ & H3). simpl in H1, H3.
      destruct (Rcompare_spec (B2R x + B2R y) 0) as [Lt|Eq|Gt]; try discriminate.
      * (* rounding a non-zero sum of doubles does not give zero *)
        symmetry in H1. revert H1. apply Plus_error.round_plus_neq_0; try typeclasses eauto.
        -- apply generic_format_B2R.
        -- apply generic_format_B2R.
        -- lra.
      * destruct x as [[|]|s| |[|] m e Hm]; try discriminate; try congruence.
        destruct y as [[|]|s'| |[|] m' e' Hm']; try discriminate.
        assert (B2R (B754_finite true m e Hm) < 0)%R by (apply F2R_lt_0; reflexivity).
        assert (B2R (B754_finite true m' e' Hm') < 0)%R by (apply F2R_lt_0; reflexivity).
        simpl in *. lra.
    + destruct H as (H & _). simpl in H. discriminate.
  - destruct x as [s|s| |s m e Hm]; destruct y as [s'|s'| |s' m' e' Hm']; simpl in E; try discriminate; destruct s; discriminate.
  - destruct x as [s|s| |s m e Hm]; destruct y as [s'|s'| |s' m' e' Hm']; simpl in E; try discriminate; destruct s, s'; discriminate.
Qed.

Lemma f64_zero_absorbed : zero_absorbed Ffld (fun x : f64 => x <> B754_zero true).
Proof.
  split; [|split].
  - discriminate.
  - intros a b H. apply f64_add_not_negzero. exact H.
  - intros a H. apply f64_add_zero. exact H.
Qed.

Lemma huber_zero_f64 (c : f64) : f64_lt (B754_zero false) c = true ->
  nmul (n := Fnum) (huber (D := Ffld) c (fsqrt (f := Ffld) nzero)) nzero = nzero.
Proof.
  intros H. unfold huber.
  change (fabs (f := Ffld) (fsqrt (f := Ffld) nzero)) with (B754_zero false : f64).
  change (nlt (n := Ffld) (B754_zero false : f64) c) with (f64_lt (B754_zero false) c). rewrite H.
  reflexivity.
Qed.
