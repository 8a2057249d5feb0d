(** Zeros and magnitudes through one registration step in double precision. *)
From Coq Require Import Reals ZArith Lra Lia.
From Coq Require Import Floats.SpecFloat.
From Flocq Require Import Core IEEE754.BinarySingleNaN.
From Verif Require Import Base BaseProofs Num Vec Lin F64 F64Proofs F64Err KdF64 FactorModel ReduceModel OptModel HelperModel HelperProofs NanMap KeepF64Spec.
Open Scope R_scope.

Local Notation fin x := (is_finite (x : f64) = true).

(** * Zeros *)
Lemma isz_finite x : isz x -> fin x. Proof. intros [F _]. exact F. Qed.
Lemma isz_add x y : isz x -> isz y -> isz (f64_add x y).
Proof. intros [Fx Ex] Y. destruct (add_isz x x y (same_refl x Fx) Y) as (F & _ & E). split; [exact F|congruence]. Qed.
Lemma zero_cases x : isz x -> exists s, x = B754_zero s.
Proof.
  intros [F E]. destruct x as [s| | |s m e B]; try discriminate; [eauto|].
  exfalso. cbn [B2R] in E. apply eq_0_F2R in E. destruct s; discriminate.
Qed.
Lemma isz_zero s : isz (B754_zero s). Proof. split; reflexivity. Qed.
Lemma isz_mul_r x y : fin x -> isz y -> isz (f64_mul x y).
Proof. intros F Z. destruct (zero_cases y Z) as [s ->]. destruct x; try discriminate; apply isz_zero. Qed.
Lemma isz_mul_l x y : isz x -> fin y -> isz (f64_mul x y).
Proof. intros Z F. destruct (zero_cases x Z) as [s ->]. destruct y; try discriminate; apply isz_zero. Qed.
Lemma isz_opp (x : f64) : isz x -> isz (Bopp x).
Proof. intros Z. destruct (zero_cases x Z) as [s ->]. apply isz_zero. Qed.
Lemma isz_fma x y z : isz x -> isz y -> isz z -> isz (f64_fma x y z).
Proof.
  intros X Y Z. destruct (zero_cases x X) as [s ->], (zero_cases y Y) as [s' ->], (zero_cases z Z) as [s'' ->].
  destruct s, s', s''; apply isz_zero.
Qed.
Lemma isz_sub x y : same x y -> isz (f64_sub x y).
Proof.
  intros (Fx & Fy & E). unfold f64_sub. pose proof (Bminus_correct 53 1024 _ _ mode_NE x y Fx Fy) as H.
  rewrite E, Rminus_eq_0, round_0 in H by typeclasses eauto. rewrite Rabs_R0, Rlt_bool_true in H by apply bpow_gt_0.
  destruct H as (H1 & H2 & _). split; assumption.
Qed.
Lemma isz_sqrt (x : f64) : isz x -> isz (Bsqrt (prec_gt_0_ := prec53) (prec_lt_emax_ := prec53lt) mode_NE x).
Proof. intros Z. destruct (zero_cases x Z) as [s ->]. apply isz_zero. Qed.
Lemma isz_le_self x y : isz x -> isz y -> f64_le x y = true.
Proof. intros X Y. destruct (zero_cases x X) as [s ->], (zero_cases y Y) as [s' ->]. destruct s, s'; reflexivity. Qed.
Lemma isz_le x (y : f64) : isz x -> f64_le (f64_of 0 0) y = true -> f64_le x y = true.
Proof. intros X. destruct (zero_cases x X) as [s ->]. change (f64_of 0 0) with (@B754_zero 53 1024 false). destruct s, y as [[]|[]| |[]]; auto. Qed.

(** * Same values *)
Lemma same_sym x y : same x y -> same y x. Proof. intros (A & B & C). split; auto. Qed.
Lemma same_trans x y z : same x y -> same y z -> same x z.
Proof. intros (A & B & C) (D & E & F). split; [auto|]. split; [auto|congruence]. Qed.
Lemma same_isz x y : same x y -> isz x -> isz y. Proof. intros (A & B & C) [D E]. split; [auto|congruence]. Qed.
Lemma add_parts x y : fin (f64_add x y) -> fin x /\ fin y.
Proof. destruct x as [[]|[]| |], y as [[]|[]| |]; cbn; auto; discriminate. Qed.
Lemma same_mul2 x x' y y' : same x x' -> same y y' -> fin (f64_mul x' y') -> same (f64_mul x y) (f64_mul x' y').
Proof.
  intros (Fx & Fx' & Ex) (Fy & Fy' & Ey) F. unfold f64_mul in *.
  pose proof (Bmult_correct 53 1024 _ _ mode_NE x y) as H. pose proof (Bmult_correct 53 1024 _ _ mode_NE x' y') as H'.
  rewrite Ex, Ey in H. destruct (Rlt_bool _ _).
  - destruct H as (X1 & X2 & _), H' as (Y1 & Y2 & _). split; [rewrite X2, Fx, Fy; reflexivity|]. split; [exact F|]. congruence.
  - exfalso. revert F. rewrite <- is_finite_SF_B2SF, H'. unfold binary_overflow. cbn. destruct (xorb _ _); discriminate.
Qed.
Lemma same_add2 x x' y y' : same x x' -> same y y' -> fin (f64_add x' y') -> same (f64_add x y) (f64_add x' y').
Proof.
  intros (Fx & Fx' & Ex) (Fy & Fy' & Ey) F. unfold f64_add in *.
  pose proof (Bplus_correct 53 1024 _ _ mode_NE x y Fx Fy) as H. pose proof (Bplus_correct 53 1024 _ _ mode_NE x' y' Fx' Fy') as H'.
  rewrite Ex, Ey in H. destruct (Rlt_bool _ _).
  - destruct H as (X1 & X2 & _), H' as (Y1 & Y2 & _). split; [exact X2|]. split; [exact F|]. congruence.
  - exfalso. revert F. rewrite <- is_finite_SF_B2SF, (proj1 H'). unfold binary_overflow. cbn. destruct (Bsign _); discriminate.
Qed.
Lemma mul_one_r x y : same x y -> same (f64_mul x (f64_of 1 0)) y.
Proof.
  intros (Fx & Fy & E). unfold f64_mul.
  pose proof (Bmult_correct 53 1024 _ _ mode_NE x (f64_of 1 0)) as H.
  assert (O : B2R (f64_of 1 0) = 1%R).
  { assert (f64_of 1 0 = @B754_finite 53 1024 false 4503599627370496 (-52) eq_refl) as -> by (apply B2SF_inj; vm_compute; reflexivity).
    unfold B2R, F2R. cbn [Defs.Fnum Fexp cond_Zopp].
    change 4503599627370496%Z with (radix2 ^ 52)%Z. rewrite (IZR_Zpower radix2 52) by lia. rewrite <- bpow_plus. reflexivity. }
  rewrite O, Rmult_1_r, round_same in H. rewrite Rlt_bool_true in H by apply abs_B2R_lt_emax.
  destruct H as (H1 & H2 & _). split; [rewrite H2, Fx; reflexivity|]. split; [exact Fy|]. congruence.
Qed.
Lemma same_one x : same x (f64_of 1 0) -> x = f64_of 1 0.
Proof.
  intros (F & F1 & E).
  assert (O : B2R (f64_of 1 0) <> 0%R).
  { intros Z. assert (isz (f64_of 1 0)) as K by (split; auto). apply zero_cases in K. destruct K as [s K].
    apply (f_equal (@B2SF 53 1024)) in K. vm_compute in K. discriminate. }
  assert (S : is_finite_strict x = true /\ is_finite_strict (f64_of 1 0) = true).
  { split; [|reflexivity]. destruct x; auto; discriminate || (exfalso; apply O; rewrite <- E; reflexivity). }
  apply B2R_inj; [apply S|apply S|exact E].
Qed.

(** * Magnitudes *)
Lemma upto_fin a x : upto a x -> fin x. Proof. intros [F _]. exact F. Qed.
Lemma upto_le a b x : (a <= b)%Z -> upto a x -> upto b x.
Proof. intros L [F B]. split; [exact F|]. eapply Rle_trans; [exact B|]. apply bpow_le. exact L. Qed.
Lemma upto_mul a b x y : (-1074 <= a + b <= 1023)%Z -> upto a x -> upto b y -> upto (a + b) (f64_mul x y).
Proof.
  intros L [Fx Bx] [Fy By].
  assert (B : Rabs (B2R x * B2R y) <= bpow radix2 (a + b)).
  { rewrite Rabs_mult, bpow_plus. apply Rmult_le_compat; auto using Rabs_pos. }
  destruct (mul_finite x y (a + b) Fx Fy L B) as [F E]. split; [exact F|]. rewrite E. apply rnd_small; assumption.
Qed.
Lemma upto_add a x y : (-1074 <= a + 1 <= 1023)%Z -> upto a x -> upto a y -> upto (a + 1) (f64_add x y).
Proof.
  intros L [Fx Bx] [Fy By].
  assert (B : Rabs (B2R x + B2R y) <= bpow radix2 (a + 1)).
  { eapply Rle_trans; [apply Rabs_triang|]. rewrite bpow_plus. change (bpow radix2 1) with 2. lra. }
  destruct (add_finite x y (a + 1) Fx Fy L B) as [F E]. split; [exact F|]. rewrite E. apply rnd_small; assumption.
Qed.
Lemma upto_opp a (x : f64) : upto a x -> upto a (Bopp x).
Proof. intros [F B]. split; [rewrite is_finite_Bopp; exact F|]. rewrite B2R_Bopp, Rabs_Ropp. exact B. Qed.
Lemma upto_zero a : upto a (f64_of 0 0).
Proof. change (f64_of 0 0) with (@B754_zero 53 1024 false). split; [reflexivity|]. cbn [B2R]. rewrite Rabs_R0. apply bpow_ge_0. Qed.

Lemma all3_impl (P Q : f64 -> Prop) v : (forall x, P x -> Q x) -> all3 P v -> all3 Q v.
Proof. intros H (A & B & C). repeat split; auto. Qed.
Lemma allm_impl (P Q : f64 -> Prop) v : (forall x, P x -> Q x) -> allm P v -> allm Q v.
Proof. intros H (A & B & C). repeat split; eapply all3_impl; eauto. Qed.

Lemma upto_dot a b u v : (-1072 <= a + b <= 1020)%Z -> all3 (upto a) u -> all3 (upto b) v -> upto (a + b + 2) (dot3 u v).
Proof.
  intros L (A0 & A1 & A2) (B0 & B1 & B2). replace (a + b + 2)%Z with (a + b + 1 + 1)%Z by lia.
  apply upto_add; [lia| |].
  - apply upto_add; [lia| |]; apply upto_mul; auto; lia.
  - apply (upto_le (a + b)); [lia|]. apply upto_mul; auto; lia.
Qed.
Lemma all3_c P a : allm P a -> all3 P (c0 a) /\ all3 P (c1 a) /\ all3 P (c2 a).
Proof. intros ((A & B & C) & (D & E & F) & (G & H & I)). repeat split; assumption. Qed.
Lemma allm_tr P a : allm P a -> allm P (tr3 a).
Proof. intros H. apply all3_c in H. exact H. Qed.
Lemma upto_mm a b x y : (-1072 <= a + b <= 1020)%Z -> allm (upto a) x -> allm (upto b) y -> allm (upto (a + b + 2)) (mm3 x y).
Proof.
  intros L (A & B & C) Y. apply all3_c in Y. destruct Y as (D & E & F).
  split; [|split]; (split; [|split]); apply upto_dot; auto.
Qed.
Lemma upto_mopp a x : allm (upto a) x -> allm (upto a) (mopp3 x).
Proof. intros ((A & B & C) & (D & E & F) & (G & H & I)). split; [|split]; (split; [|split]); apply upto_opp; assumption. Qed.
Lemma upto_skew a v : all3 (upto a) v -> allm (upto a) (skew v).
Proof. intros (A & B & C). split; [|split]; (split; [|split]); first [assumption | apply upto_opp; assumption | apply upto_zero]. Qed.
Lemma upto_diag a v : all3 (upto a) v -> allm (upto a) (diag3 v).
Proof. intros (A & B & C). split; [|split]; (split; [|split]); first [assumption | apply upto_zero]. Qed.

(** Zero vectors. *)
Lemma isz_dot u v : all3 (fun x => fin x) u -> all3 isz v -> isz (dot3 u v).
Proof. intros (A0 & A1 & A2) (B0 & B1 & B2). apply isz_add; [apply isz_add|]; apply isz_mul_r; assumption. Qed.
Lemma isz_mv m v : allm (fun x => fin x) m -> all3 isz v -> all3 isz (mv3 m v).
Proof. intros (A & B & C) V. split; [|split]; apply isz_dot; auto. Qed.
Lemma all3_fin a v : all3 (upto a) v -> all3 (fun x => fin x) v.
Proof. apply all3_impl, upto_fin. Qed.
Lemma allm_fin a v : allm (upto a) v -> allm (fun x => fin x) v.
Proof. apply allm_impl, upto_fin. Qed.
Lemma isz_fin3 v : all3 isz v -> all3 (fun x => fin x) v.
Proof. apply all3_impl, isz_finite. Qed.
Lemma isz_jtr J r : allm (fun x => fin x) (jr J) -> allm (fun x => fin x) (jt J) -> all3 isz r -> all6 isz (jtr J r).
Proof. intros A B R. split; apply isz_mv; auto; apply allm_tr; assumption. Qed.
Lemma isz_half x : isz x -> isz (f64_mul (f64_of 1 (-1)) x).
Proof. intros X. apply isz_mul_r; [reflexivity|exact X]. Qed.
Lemma isz_quad M r : allm (fun x => fin x) M -> all3 isz r -> isz (quad M r).
Proof. intros FM R. apply isz_half. apply isz_dot; [apply isz_fin3, R|]. apply isz_mv; assumption. Qed.

(** * Sums of at most 2^53 terms *)
Definition upto_n (n : nat) (x : f64) : Prop := fin x /\ Rabs (B2R x) <= IZR (Z.of_nat n) * bpow radix2 92.
Lemma upto_n_format n : (Z.of_nat n < 2 ^ 53)%Z -> rnd (IZR (Z.of_nat n) * bpow radix2 92) = IZR (Z.of_nat n) * bpow radix2 92.
Proof.
  intros L. apply round_generic; [typeclasses eauto|].
  apply generic_format_FLT. exists (Float radix2 (Z.of_nat n) 92); [reflexivity| |cbn; unfold SpecFloat.emin; lia].
  cbn [Defs.Fnum]. rewrite Z.abs_eq by lia. exact L.
Qed.
Lemma upto_n_add n m x y : (Z.of_nat (n + m) < 2 ^ 53)%Z -> upto_n n x -> upto_n m y -> upto_n (n + m) (f64_add x y).
Proof.
  intros L [Fx Bx] [Fy By]. set (S := IZR (Z.of_nat (n + m)) * bpow radix2 92).
  assert (B : Rabs (B2R x + B2R y) <= S).
  { eapply Rle_trans; [apply Rabs_triang|]. unfold S. rewrite Nat2Z.inj_add, plus_IZR. lra. }
  assert (BS : S <= bpow radix2 145).
  { unfold S. change 145%Z with (53 + 92)%Z. rewrite bpow_plus. apply Rmult_le_compat_r; [apply bpow_ge_0|].
    change (bpow radix2 53) with (IZR (2 ^ 53)). apply IZR_le. lia. }
  destruct (add_finite x y 145 Fx Fy ltac:(lia) ltac:(lra)) as [F E]. split; [exact F|]. fold S. rewrite E.
  pose proof (upto_n_format (n + m) L) as FS. fold S in FS. apply Rabs_le_inv in B. apply Rabs_le. split.
  - rewrite <- FS, <- rnd_opp. apply rnd_le. lra.
  - rewrite <- FS. apply rnd_le. lra.
Qed.
Lemma upto_n_zero : upto_n 0 (f64_of 0 0).
Proof. destruct (upto_zero 0) as [F _]. split; [exact F|]. change (f64_of 0 0) with (@B754_zero 53 1024 false). cbn [B2R]. rewrite Rabs_R0. change (Z.of_nat 0) with 0%Z. lra. Qed.
Lemma upto_n_one x a : (a <= 92)%Z -> upto a x -> upto_n 1 x.
Proof. intros L H. apply (upto_le a 92 x L) in H. destruct H as [F B]. split; [exact F|]. change (Z.of_nat 1) with 1%Z. lra. Qed.
Lemma upto_n_fin n x : upto_n n x -> fin x. Proof. intros [F _]. exact F. Qed.
Lemma upto_n_upto n x : (Z.of_nat n < 2 ^ 32)%Z -> upto_n n x -> upto 124 x.
Proof.
  intros L [F B]. split; [exact F|]. eapply Rle_trans; [exact B|]. change 124%Z with (32 + 92)%Z. rewrite bpow_plus.
  apply Rmult_le_compat_r; [apply bpow_ge_0|]. change (bpow radix2 32) with (IZR (2 ^ 32)). apply IZR_le. lia.
Qed.
