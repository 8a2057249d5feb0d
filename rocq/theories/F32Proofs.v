(** Properties of the casts between float and double. *)
From Coq Require Import Reals ZArith Lra Psatz.
From Flocq Require Import Core IEEE754.BinarySingleNaN Relative.
From Verif Require Import Base Num F64 F32.
Open Scope R_scope.

Definition fexp32 : Z -> Z := SpecFloat.fexp 24 128.
Definition fexp64 : Z -> Z := SpecFloat.fexp 53 1024.
#[export] Instance fexp32_valid : Valid_exp fexp32 := fexp_correct 24 128 prec24.
#[export] Instance fexp64_valid : Valid_exp fexp64 := fexp_correct 53 1024 prec53.
Definition round32 (x : R) : R := round radix2 fexp32 ZnearestE x.

Lemma format_wider x : generic_format radix2 fexp32 x -> generic_format radix2 fexp64 x.
Proof.
  apply generic_inclusion_mag. intros _. unfold fexp32, fexp64, SpecFloat.fexp, SpecFloat.emin. lia.
Qed.
Lemma widen_finite (x : f32) : is_finite x = true -> is_finite (widen x) = true /\ B2R (widen x) = B2R x /\ Bsign (widen x) = Bsign x.
Proof.
  destruct x as [s|s| |s m e B]; try discriminate; intros _; [cbn; auto|]. cbn [widen].
  pose proof (binary_normalize_correct 53 1024 _ _ mode_NE (cond_Zopp s (Zpos m)) e s) as H. cbv zeta in H.
  assert (G : generic_format radix2 fexp64 (B2R (B754_finite s m e B : f32))) by (apply format_wider; apply generic_format_B2R).
  change (F2R {| Defs.Fnum := cond_Zopp s (Zpos m); Defs.Fexp := e |}) with (B2R (B754_finite s m e B : f32)) in H.
  change (SpecFloat.fexp 53 1024) with fexp64 in H. rewrite (round_generic radix2 fexp64 _ _ G) in H.
  rewrite Rlt_bool_true in H.
  2: { eapply Rlt_trans; [apply abs_B2R_lt_emax|]. apply bpow_lt. lia. }
  destruct H as (H1 & H2 & H3). split; [exact H2|]. split; [exact H1|]. rewrite H3. cbn [Bsign B2R].
  destruct s; cbn [cond_Zopp Z.opp].
  - rewrite Rcompare_Lt; [reflexivity|]. apply F2R_lt_0. reflexivity.
  - rewrite Rcompare_Gt; [reflexivity|]. apply F2R_gt_0. reflexivity.
Qed.
Lemma widen_special (x : f32) : is_finite x = false -> is_nan (widen x) = is_nan x /\ is_finite (widen x) = false.
Proof. destruct x; try discriminate; intros _; cbn; auto. Qed.

(** Narrowing rounds to the nearest float, or overflows to infinity. *)
Lemma narrow_finite (x : f64) : is_finite x = true ->
  if Rlt_bool (Rabs (round32 (B2R x))) (bpow radix2 128)
  then is_finite (narrow x) = true /\ B2R (narrow x) = round32 (B2R x) /\ Bsign (narrow x) = Bsign x
  else narrow x = B754_infinity (Bsign x).
Proof.
  destruct x as [s|s| |s m e B]; try discriminate; intros _.
  - cbn [narrow B2R]. unfold round32. rewrite round_0 by typeclasses eauto. rewrite Rabs_R0, Rlt_bool_true by apply bpow_gt_0. cbn. auto.
  - cbn [narrow]. pose proof (binary_normalize_correct 24 128 _ _ mode_NE (cond_Zopp s (Zpos m)) e s) as H. cbv zeta in H.
    change (F2R {| Defs.Fnum := cond_Zopp s (Zpos m); Defs.Fexp := e |}) with (B2R (B754_finite s m e B : f64)) in H.
    change (round radix2 (SpecFloat.fexp 24 128) (round_mode mode_NE) (B2R (B754_finite s m e B : f64))) with (round32 (B2R (B754_finite s m e B : f64))) in H.
    assert (SG : (match Rcompare (B2R (B754_finite s m e B : f64)) 0 with Eq => s | Lt => true | Gt => false end) = s /\
                 Rlt_bool (B2R (B754_finite s m e B : f64)) 0 = s).
    { cbn [B2R]. destruct s; cbn [cond_Zopp Z.opp].
      - rewrite Rcompare_Lt, Rlt_bool_true by (apply F2R_lt_0; reflexivity). auto.
      - rewrite Rcompare_Gt, Rlt_bool_false by (try apply Rlt_le; apply F2R_gt_0; reflexivity). auto. }
    destruct (Rlt_bool (Rabs (round32 (B2R (B754_finite s m e B : f64)))) (bpow radix2 128)).
    + destruct H as (H1 & H2 & H3). split; [exact H2|]. split; [exact H1|]. rewrite H3. apply SG.
    + rewrite (proj2 SG) in H. cbn [Bsign].
      generalize dependent (binary_normalize 24 128 prec24 prec24lt mode_NE (cond_Zopp s (Zpos m)) e s). intros y H.
      unfold binary_overflow in H. cbn in H. destruct y; cbn [B2SF] in H; try discriminate. congruence.
Qed.
(** What was a float comes back unchanged. *)
Lemma narrow_widen (x : f32) : narrow (widen x) = x.
Proof.
  destruct (is_finite x) eqn:F.
  - destruct (widen_finite x F) as (F' & R' & S'). pose proof (narrow_finite (widen x) F') as H. rewrite R' in H.
    assert (G : round32 (B2R x) = B2R x) by (apply round_generic; [typeclasses eauto|apply generic_format_B2R]).
    rewrite G, Rlt_bool_true in H by apply abs_B2R_lt_emax. destruct H as (H1 & H2 & H3).
    apply B2R_Bsign_inj; congruence.
  - destruct x; try discriminate; reflexivity.
Qed.
Lemma widen_inj x y : widen x = widen y -> x = y.
Proof. intros E. rewrite <- (narrow_widen x), <- (narrow_widen y), E. reflexivity. Qed.
(** Storing twice is storing once. *)
Lemma narrow_idem x : narrow (widen (narrow x)) = narrow x.
Proof. apply narrow_widen. Qed.

(** Error of one store. *)
Lemma round32_error x : Rabs (round32 x - x) <= bpow radix2 (-24) * Rabs x + bpow radix2 (-150).
Proof.
  unfold round32. destruct (error_N_FLT radix2 (-149) 24 eq_refl (fun z => negb (Z.even z)) x) as (eps & eta & H1 & H2 & _ & H3).
  change (round radix2 fexp32 ZnearestE x) with (round radix2 (FLT_exp (-149) 24) ZnearestE x). rewrite H3.
  replace (x * (1 + eps) + eta - x) with (x * eps + eta) by ring.
  eapply Rle_trans; [apply Rabs_triang|]. apply Rplus_le_compat.
  - rewrite Rabs_mult, Rmult_comm. apply Rmult_le_compat_r; [apply Rabs_pos|].
    replace (bpow radix2 (-24)) with (/ 2 * bpow radix2 (- 24 + 1)) by (change (-24 + 1)%Z with (1 + -24)%Z; rewrite bpow_plus; change (bpow radix2 1) with 2; lra).
    exact H1.
  - replace (bpow radix2 (-150)) with (/ 2 * bpow radix2 (-149)) by (change (-149)%Z with (1 + -150)%Z; rewrite bpow_plus; change (bpow radix2 1) with 2; lra).
    exact H2.
Qed.
(** Up to 2^127 nothing overflows. *)
Lemma narrow_in_range (x : f64) : is_finite x = true -> Rabs (B2R x) <= bpow radix2 127 ->
  is_finite (narrow x) = true /\ B2R (narrow x) = round32 (B2R x).
Proof.
  intros F L. pose proof (narrow_finite x F) as H. rewrite Rlt_bool_true in H; [split; apply H|].
  eapply Rle_lt_trans; [|apply (bpow_lt radix2 127 128); lia].
  unfold round32. apply abs_round_le_generic; try typeclasses eauto; [|exact L].
  apply generic_format_bpow. unfold fexp32, SpecFloat.fexp, SpecFloat.emin. lia.
Qed.
