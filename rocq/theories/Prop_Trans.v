(** C82: the translation of a pose increment (util/lie.hpp se3_exp) in doubles. *)
From Coq Require Import Reals ZArith List Lra Psatz Lia.
From Flocq Require Import Core IEEE754.BinarySingleNaN.
From Verif Require Import Base Num Vec F64 RNum Lin LinSpec LieSpec LinProofs F64Proofs FloorProofs F64Err ProjF64 FlatSpec FlatProofs FlatRun LieModel LieProofs LieFlow LieSmall
  LieF64Model RigidSpec RigidLen RigidF64 RigidQuat RigidStep RigidRun TransErr TransSpec TransF64.
Import ListNotations.
Open Scope R_scope.

Lemma eta_1070 : 8 * eta64 <= bpow radix2 (-1070).
Proof. unfold eta64. change 8 with (bpow radix2 3). rewrite <- bpow_plus. apply bpow_le. lia. Qed.

Lemma len_moderate (v : v3 Ffld) : moderate v -> length3 (real3 v) <= bpow radix2 901.
Proof.
  intros (_ & A & B & C). pose proof (bpow_gt_0 radix2 900) as P. assert (E : bpow radix2 901 = 2 * bpow radix2 900) by (change 901%Z with (1 + 900)%Z; rewrite bpow_plus; reflexivity).
  rewrite E. set (m := bpow radix2 900) in *. apply len_le; [lra|]. unfold real3, dot3. cbn [p0 p1 p2 nadd nmul fbase Rfld Rnum]. change (car (fbase Rfld)) with R in *.
  assert (Q : forall u, Rabs u <= m -> u * u <= m * m).
  { intros u H. rewrite <- (Rabs_pos_eq (u * u)) by apply Rle_0_sqr. rewrite Rabs_mult. apply Rmult_le_compat; auto using Rabs_pos. }
  pose proof (Q _ A). pose proof (Q _ B). pose proof (Q _ C). pose proof (Rle_0_sqr m) as M2. unfold Rsqr in M2. lra.
Qed.

Lemma cos_ge x : 0 <= x <= 1 -> 1 - x * x / 2 <= cos x <= 1.
Proof.
  intros H. split; [|apply COS_bound]. pose proof (cos_series x H) as [C _]. assert (X2 : 0 <= x * x) by apply Rle_0_sqr.
  assert (X4 : 0 <= x * x * (x * x)) by (apply Rmult_le_pos; assumption). assert (x * x * (x * x) * (x * x) <= x * x * (x * x) * 1).
  { apply Rmult_le_compat_l; [assumption|]. apply Rle_trans with (1 * 1); [apply Rmult_le_compat; lra|lra]. }
  assert (x * x * x * x * x * x = x * x * (x * x) * (x * x)) by ring. assert (x * x * x * x = x * x * (x * x)) by ring. lra.
Qed.

Lemma sin_ge x : 0 <= x <= 1 -> x - x * x * x / 6 <= sin x <= x.
Proof.
  intros H. pose proof (sin_series x H) as [S _]. assert (X2 : 0 <= x * x) by apply Rle_0_sqr. assert (X3 : 0 <= x * x * x) by (apply Rmult_le_pos; lra). assert (X5 : 0 <= x * x * x * (x * x)) by (apply Rmult_le_pos; assumption). split.
  - assert (x * x * x * (x * x) * (x * x) <= x * x * x * (x * x) * 1).
    { apply Rmult_le_compat_l; [assumption|]. apply Rle_trans with (1 * 1); [apply Rmult_le_compat; lra|lra]. }
    assert (x * x * x * x * x * x * x = x * x * x * (x * x) * (x * x)) by ring. assert (x * x * x * x * x = x * x * x * (x * x)) by ring. lra.
  - pose proof (sin_le_abs x) as A. rewrite (Rabs_pos_eq x) in A by lra. apply Rabs_le_inv in A. lra.
Qed.

Lemma rnd_cos x : bpow radix2 (-34) <= x -> Rabs (rnd (cos x) - cos x) <= 1.001 * bpow radix2 (-27) * x.
Proof.
  intros H. pose proof u64_pos as U. pose proof eta_u60 as EU. pose proof eta64_pos as EP. pose proof (bpow_gt_0 radix2 (-34)) as P34. pose proof (bpow_gt_0 radix2 (-27)) as P27.
  destruct (Rle_lt_dec (bpow radix2 (-26)) x) as [G|G].
  - pose proof (rnd_err (cos x)) as E. pose proof (COS_bound x) as B. assert (A : Rabs (cos x) <= 1) by (apply Rabs_le; lra).
    assert (u64 * Rabs (cos x) <= u64 * 1) by (apply Rmult_le_compat_l; lra).
    assert (UU : u64 = bpow radix2 (-27) * bpow radix2 (-26)) by (rewrite <- bpow_plus; reflexivity).
    assert (bpow radix2 (-27) * bpow radix2 (-26) <= bpow radix2 (-27) * x) by (apply Rmult_le_compat_l; lra). lra.
  - assert (X1 : x <= 1) by (apply Rle_trans with (bpow radix2 (-26)); [lra|change 1 with (bpow radix2 0); apply bpow_le; lia]).
    pose proof (cos_ge x ltac:(lra)) as C.
    assert (F1 : generic_format radix2 fexp64 1).
    { change 1 with (bpow radix2 0). apply generic_format_FLT_bpow; [reflexivity|]. discriminate. }
    destruct (round_N_pt radix2 fexp64 (fun n => negb (Z.even n)) (cos x)) as [_ N]. specialize (N 1 F1). change (round radix2 fexp64 (Znearest (fun n => negb (Z.even n))) (cos x)) with (rnd (cos x)) in N.
    rewrite (Rabs_pos_eq (1 - cos x)) in N by lra. assert (x * x <= bpow radix2 (-26) * x) by (apply Rmult_le_compat_r; lra).
    assert (bpow radix2 (-26) = 2 * bpow radix2 (-27)) by (change (-26)%Z with (1 + -27)%Z; rewrite bpow_plus; reflexivity).
    assert (0 <= bpow radix2 (-27) * x) by (apply Rmult_le_pos; lra). eapply Rle_trans; [exact N|]. nra.
Qed.

Lemma nearest_val r : Rabs r <= 1 -> B2R (nearest r) = rnd r.
Proof.
  intros H. assert (G : generic_format radix2 fexp64 (rnd r)) by (apply generic_format_round; typeclasses eauto).
  assert (S : Rabs (rnd r) <= bpow radix2 0) by (apply rnd_small; [lia|change (bpow radix2 0) with 1; exact H]).
  pose proof (binary_normalize_correct 53 1024 prec53 prec53lt mode_NE (Ztrunc (scaled_mantissa radix2 fexp64 (rnd r))) (cexp radix2 fexp64 (rnd r)) false) as C. cbv zeta in C.
  change (round_mode mode_NE) with ZnearestE in C. pose proof G as G'. unfold generic_format in G'. rewrite <- G' in C.
  change (round radix2 fexp64 ZnearestE (rnd r)) with (rnd (rnd r)) in C. assert (RR : rnd (rnd r) = rnd r) by (apply round_generic; [typeclasses eauto|exact G]).
  change (round radix2 (SpecFloat.fexp 53 1024) ZnearestE (rnd r)) with (rnd (rnd r)) in C. rewrite RR in C.
  rewrite Rlt_bool_true in C by (eapply Rle_lt_trans; [exact S|apply bpow_lt; lia]). destruct C as (C1 & _). exact C1.
Qed.

Section Split.
Context (fsin fcos : f64 -> f64) (v : v6 Ffld) (X : R -> pose Rfld).
Context (TM : tame (rv v)) (MO : moderate (tv v)) (FX : flow (real6 v) X).
Let h : R := length3 (real3 (rv v)).
Let L : R := length3 (real3 (tv v)).
Let theta : f64 := fsqrt (f := Ffld) (dot3 (D := Ffld) (rv v) (rv v)).

Lemma theta_facts : finite theta /\ 0 <= B2R theta /\ (B2R theta < 0.99e-10 -> h <= 0.991e-10) /\ (0.99e-10 <= B2R theta -> 0.98e-10 <= h /\ Rabs (B2R theta - h) <= 5.3 * (u64 * h)).
Proof using TM.
  clear MO FX X L. unfold h, theta, length3, real3. destruct v as [[a b c] [t0 t1 t2]]. cbn [rv tv p0 p1 p2]. destruct TM as ((Fa & Fb & Fc) & Ba & Bb & Bc). cbn [rv p0 p1 p2] in *.
  destruct (angle a b c Fa Fb Fc Ba Bb Bc) as (A1 & A2 & A3 & A4). split; [exact A1|]. split; [exact A2|]. split; [exact A3|]. intros H. destruct (A4 H) as ((A5 & _) & _ & A6). split; [exact A5|exact A6].
Qed.

Lemma large d : 0.99e-10 <= B2R theta -> f64_lt theta lit_1em10 = false -> 0 <= d <= 1e-3 ->
  finite (fcos theta) -> finite (fsin theta) -> Rabs (B2R (fcos theta) - cos (B2R theta)) <= d * h -> Rabs (B2R (fsin theta) - sin (B2R theta)) <= d * h ->
  finite3 (tra (fse3_exp fsin fcos v)) /\ apart (tra (fse3_exp fsin fcos v)) (tra (X 1)) <= 31 * ((d + 40 * u64) * L) + 8 * eta64.
Proof using TM MO FX.
  pose proof (len_moderate (tv v) MO) as HL. pose proof (comp_le (real3 (tv v))) as (L0 & L1 & L2). fold L in HL, L0, L1, L2.
  clearbody L. unfold h, theta, length3, real3. clear h theta. destruct v as [[a b c] [t0 t1 t2]]. cbn [rv tv p0 p1 p2]. destruct TM as ((Fa & Fb & Fc) & Ba & Bb & Bc). destruct MO as ((F0 & F1 & F2) & _). cbn [rv tv p0 p1 p2 real3] in *.
  intros H1 H2 H3 H4 H5 H6 H7.
  exact (large_tra fsin fcos a b c Fa Fb Fc Ba Bb Bc t0 t1 t2 F0 F1 F2 L HL L0 L1 L2 d X H1 H2 H3 H4 H5 H6 H7 FX).
Qed.

Lemma small : B2R theta < 1.01e-10 -> f64_lt theta lit_1em10 = true ->
  finite3 (tra (fse3_exp fsin fcos v)) /\ apart (tra (fse3_exp fsin fcos v)) (tra (X 1)) <= 1e-8 * L + 8 * eta64.
Proof using TM MO FX.
  pose proof (len_moderate (tv v) MO) as HL. pose proof (comp_le (real3 (tv v))) as (L0 & L1 & L2). fold L in HL, L0, L1, L2.
  clearbody L. unfold theta. clear h theta. destruct v as [[a b c] [t0 t1 t2]]. cbn [rv tv p0 p1 p2]. destruct TM as ((Fa & Fb & Fc) & Ba & Bb & Bc). destruct MO as ((F0 & F1 & F2) & _). cbn [rv tv p0 p1 p2 real3] in *.
  intros H1 H2. exact (small_tra fsin fcos a b c Fa Fb Fc Ba Bb Bc t0 t1 t2 F0 F1 F2 L HL L0 L1 L2 X H1 H2 FX).
Qed.
End Split.

(** Away from the threshold of the small-angle branch, the error is the rounding error plus the
    error of sine and cosine divided by the angle. *)
Theorem C82_translation : forall fsin fcos eps (v : v6 Ffld) X, 0 <= eps <= bpow radix2 (-44) -> within_of eps fsin sin -> within_of eps fcos cos ->
  tame (rv v) -> moderate (tv v) -> flow (real6 v) X -> 1.1e-10 <= length3 (real3 (rv v)) ->
  finite3 (tra (fse3_exp fsin fcos v)) /\
  apart (tra (fse3_exp fsin fcos v)) (tra (X 1)) <= 31 * (eps / length3 (real3 (rv v)) + 40 * bpow radix2 (-53)) * length3 (real3 (tv v)) + bpow radix2 (-1070).
Proof.
  intros fsin fcos eps v X E S C TM MO FX H. pose proof u64_pos as U. pose proof u64_small as US. destruct (theta_facts v TM) as (Ft & T0 & T1 & T2).
  set (theta := fsqrt (f := Ffld) (dot3 (D := Ffld) (rv v) (rv v))) in *. set (h := length3 (real3 (rv v))) in *.
  assert (Lt : 0.99e-10 <= B2R (theta : f64)) by (destruct (Rle_lt_dec 0.99e-10 (B2R (theta : f64))) as [G|G]; [exact G|specialize (T1 G); lra]).
  destruct (T2 Lt) as [_ T3]. destruct threshold as [Fh Hh]. apply Rabs_le_inv in T3. assert (u64 * h <= / 1000000 * h) by (apply Rmult_le_compat_r; lra).
  assert (NB : f64_lt theta lit_1em10 = false).
  { apply f64_lt_val_false; [apply finite_notnan; exact Ft|apply finite_notnan; exact Fh|]. rewrite !finite_val by assumption. lra. }
  assert (EH : eps / h * h = eps) by (field; lra).
  assert (D : 0 <= eps / h <= 1e-3).
  { split; [apply Rmult_le_pos; [lra|left; apply Rinv_0_lt_compat; lra]|]. apply Rmult_le_reg_r with h; [lra|]. rewrite EH.
    apply Rle_trans with (1e-3 * 1.1e-10); [|apply Rmult_le_compat_l; lra]. eapply Rle_trans; [apply E|]. assert (P44 : bpow radix2 (-44) = / 17592186044416) by reflexivity. rewrite P44. lra. }
  destruct (C theta Ft) as [C1 C2]. destruct (S theta Ft) as [S1 S2].
  destruct (large fsin fcos v X TM MO FX (eps / h) Lt NB D C1 S1 ltac:(fold h; rewrite EH; exact C2) ltac:(fold h; rewrite EH; exact S2)) as [G1 G2]. split; [exact G1|].
  pose proof eta_1070. change (bpow radix2 (-53)) with u64. lra.
Qed.

(** With correctly rounded sine and cosine, at every angle. *)
Theorem C82_every_angle : forall fsin fcos (v : v6 Ffld) X, nearest_of fsin sin -> nearest_of fcos cos -> tame (rv v) -> moderate (tv v) -> flow (real6 v) X ->
  finite3 (tra (fse3_exp fsin fcos v)) /\ apart (tra (fse3_exp fsin fcos v)) (tra (X 1)) <= bpow radix2 (-22) * length3 (real3 (tv v)) + bpow radix2 (-1070).
Proof.
  intros fsin fcos v X S C TM MO FX. pose proof u64_pos as U. pose proof u64_small as US. pose proof u64_tiny as UT. pose proof eta_u60 as EU. pose proof eta64_pos as EP. pose proof eta_1070 as E70. destruct (theta_facts v TM) as (Ft & T0 & _ & T2).
  set (theta := fsqrt (f := Ffld) (dot3 (D := Ffld) (rv v) (rv v))) in *. set (h := length3 (real3 (rv v))) in *. destruct threshold as [Fh Hh].
  assert (LN : 0 <= length3 (real3 (tv v))) by apply len_nonneg. set (L := length3 (real3 (tv v))) in *.
  assert (B22 : bpow radix2 (-22) = / 4194304) by reflexivity. assert (B27 : bpow radix2 (-27) = / 134217728) by reflexivity. assert (B34 : bpow radix2 (-34) = / 17179869184) by reflexivity.
  rewrite B22. destruct (f64_lt theta lit_1em10) eqn:Q.
  - assert (Lt : B2R (theta : f64) < 1.01e-10).
    { pose proof Q as Q'. apply f64_lt_val in Q'; [|apply finite_notnan; exact Ft|apply finite_notnan; exact Fh]. rewrite !finite_val in Q' by assumption. lra. }
    destruct (small fsin fcos v X TM MO FX Lt Q) as [G1 G2]. split; [exact G1|]. fold L in G2. assert (1e-8 * L <= / 4194304 * L) by (apply Rmult_le_compat_r; lra). lra.
  - assert (Lt : 0.9999e-10 <= B2R (theta : f64)).
    { pose proof Q as Q'. apply f64_lt_val_false in Q'; [|apply finite_notnan; exact Ft|apply finite_notnan; exact Fh]. rewrite !finite_val in Q' by assumption. lra. }
    destruct (T2 ltac:(lra)) as [Hl T3]. apply Rabs_le_inv in T3. assert (uh : u64 * h <= / 1000000 * h) by (apply Rmult_le_compat_r; lra).
    destruct (C theta Ft) as [C1 C2]. destruct (S theta Ft) as [S1 S2]. fold fexp64 in C2, S2.
    assert (Lt' : 0.99e-10 <= B2R (theta : f64)) by lra. assert (Dr : 0 <= 1.002 * / 134217728 <= 1e-3) by lra.
    assert (EC : Rabs (B2R (fcos theta) - cos (B2R (theta : f64))) <= 1.002 * / 134217728 * h).
    { rewrite C2. change (round radix2 _ ZnearestE) with rnd. pose proof (rnd_cos (B2R (theta : f64)) ltac:(rewrite B34; lra)) as RC. rewrite B27 in RC. lra. }
    assert (ES : Rabs (B2R (fsin theta) - sin (B2R (theta : f64))) <= 1.002 * / 134217728 * h).
    { rewrite S2. change (round radix2 _ ZnearestE) with rnd. pose proof (rnd_err (sin (B2R (theta : f64)))) as E. pose proof (sin_le_abs (B2R (theta : f64))) as A. rewrite (Rabs_pos_eq (B2R _)) in A by lra.
      assert (u64 * Rabs (sin (B2R (theta : f64))) <= 1e-12 * B2R (theta : f64)) by (apply Rmult_le_compat; auto using Rabs_pos; lra).
      assert (1e-60 * u64 <= 1e-60 * 1e-12) by lra. lra. }
    destruct (large fsin fcos v X TM MO FX (1.002 * / 134217728) Lt' Q Dr C1 S1 EC ES) as [G1 G2].
    split; [exact G1|]. fold L in G2. assert (u64 * L <= 1e-12 * L) by (apply Rmult_le_compat_r; lra). lra.
Qed.

(** Half of the digits are lost in places, whatever the quality of sine and cosine: at the angle
    2^-27 the nearest double to the cosine is one, and the computed translation of a unit vector
    across the axis stays in place although the exponential moves it by 2^-28. *)
Definition lost : v6 Ffld := P6 (D := Ffld) (P3 (D := Ffld) (f64_of 1 (-27)) (B754_zero false : f64) (B754_zero false : f64)) (P3 (D := Ffld) (B754_zero false : f64) (f64_of 1 0) (B754_zero false : f64)).

Lemma small_pow n : (-1074 <= - n)%Z -> (0 <= n <= 1000)%Z -> finite (f64_of 1 (- n)) /\ B2R (f64_of 1 (- n)) = bpow radix2 (- n).
Proof.
  intros H1 H2. pose proof (binary_normalize_correct 53 1024 prec53 prec53lt mode_NE 1 (- n) false) as C. cbv zeta in C.
  assert (E : F2R (Float radix2 1 (- n)) = bpow radix2 (- n)) by (unfold F2R; cbn [Fnum Fexp Defs.Fnum Defs.Fexp]; lra). rewrite E in C.
  assert (R1 : round radix2 (SpecFloat.fexp 53 1024) (round_mode mode_NE) (bpow radix2 (- n)) = bpow radix2 (- n)).
  { apply round_generic; [typeclasses eauto|]. apply generic_format_FLT_bpow; [reflexivity|]. exact H1. }
  rewrite R1 in C. rewrite Rabs_pos_eq in C by apply bpow_ge_0. rewrite Rlt_bool_true in C by (apply bpow_lt; lia). destruct C as (C1 & C2 & _). split; [exact C2|exact C1].
Qed.

Lemma one_val : finite (f64_of 1 0) /\ B2R (f64_of 1 0) = 1.
Proof. apply (lit_val 1). lia. Qed.

Lemma rnd_below (x y : f64) (r : R) : finite x -> finite y -> Rabs (B2R x - B2R y) <= bpow radix2 10 -> B2SF (f64_sub x y) = B2SF x -> B2R x - B2R y <= r <= B2R x -> rnd r = B2R x.
Proof.
  intros Fx Fy B E H. destruct (sub_finite x y 10 Fx Fy ltac:(lia) B) as [_ V]. apply B2SF_inj in E. rewrite E in V.
  assert (G : rnd (B2R x) = B2R x) by (apply round_generic; [typeclasses eauto|apply generic_format_B2R]).
  apply Rle_antisym.
  - rewrite <- G. apply round_le; [typeclasses eauto|typeclasses eauto|lra].
  - rewrite V. apply round_le; [typeclasses eauto|typeclasses eauto|lra].
Qed.

Theorem C82_digits_refuted : forall fsin fcos, nearest_of fsin sin -> nearest_of fcos cos -> exists v : v6 Ffld,
  tame (rv v) /\ moderate (tv v) /\ length3 (real3 (rv v)) = bpow radix2 (-27) /\ length3 (real3 (tv v)) = 1 /\
  real3 (tra (fse3_exp fsin fcos v)) = P3 (D := Rfld) 0 1 0 /\
  forall X, flow (real6 v) X -> bpow radix2 (-29) <= p2 (tra (X 1)) /\ bpow radix2 (-29) * length3 (real3 (tv v)) <= apart (tra (fse3_exp fsin fcos v)) (tra (X 1)).
Proof.
  intros fsin fcos S C. exists lost. destruct (small_pow 27 ltac:(lia) ltac:(lia)) as [F27 V27]. change (- (27))%Z with (-27)%Z in F27, V27. destruct (small_pow 55 ltac:(lia) ltac:(lia)) as [F55 V55]. change (- (55))%Z with (-55)%Z in F55, V55. destruct (small_pow 83 ltac:(lia) ltac:(lia)) as [F83 V83]. change (- (83))%Z with (-83)%Z in F83, V83. destruct one_val as [F1 V1].
  assert (P27 : bpow radix2 (-27) = / 134217728) by reflexivity. assert (P29 : bpow radix2 (-29) = / 536870912) by reflexivity.
  assert (P55 : bpow radix2 (-55) = / 36028797018963968) by reflexivity. assert (P83 : bpow radix2 (-83) = / 9671406556917033397649408) by reflexivity.
  assert (P10 : bpow radix2 10 = 1024) by reflexivity.
  assert (TH : fsqrt (f := Ffld) (dot3 (D := Ffld) (rv lost) (rv lost)) = f64_of 1 (-27)) by (apply B2SF_inj; vm_compute; reflexivity).
  assert (C1 : fcos (f64_of 1 (-27)) = f64_of 1 0).
  { destruct (C _ F27) as [G1 G2]. fold fexp64 in G2. change (round radix2 _ ZnearestE) with rnd in G2. rewrite V27 in G2.
    assert (CG := cos_ge (bpow radix2 (-27)) ltac:(rewrite P27; lra)).
    assert (RR : rnd (cos (bpow radix2 (-27))) = B2R (f64_of 1 0)).
    { apply (rnd_below (f64_of 1 0) (f64_of 1 (-55))); [exact F1|exact F55|rewrite V1, V55, P55, P10; apply Rabs_le; lra|vm_compute; reflexivity|rewrite V1, V55, P55; rewrite P27 in CG |- *; lra]. }
    rewrite RR in G2. apply B2R_inj; [|reflexivity|exact G2]. apply is_finite_strict_B2R. rewrite G2, V1. lra. }
  assert (S1 : fsin (f64_of 1 (-27)) = f64_of 1 (-27)).
  { destruct (S _ F27) as [G1 G2]. fold fexp64 in G2. change (round radix2 _ ZnearestE) with rnd in G2. rewrite V27 in G2.
    assert (SG := sin_ge (bpow radix2 (-27)) ltac:(rewrite P27; lra)).
    assert (RR : rnd (sin (bpow radix2 (-27))) = B2R (f64_of 1 (-27))).
    { apply (rnd_below (f64_of 1 (-27)) (f64_of 1 (-83))); [exact F27|exact F83|rewrite V27, V83, P27, P83, P10; apply Rabs_le; lra|vm_compute; reflexivity|rewrite V27, V83, P83; rewrite P27 in SG |- *; lra]. }
    rewrite RR in G2. apply B2R_inj; [|reflexivity|exact G2]. apply is_finite_strict_B2R. rewrite G2, V27, P27. lra. }
  assert (LR : length3 (real3 (rv lost)) = bpow radix2 (-27)).
  { unfold length3, real3, lost, dot3. cbn [rv p0 p1 p2 nadd nmul fbase Rfld Rnum]. rewrite V27. change (B2R (B754_zero false)) with 0. replace (_ + _) with (bpow radix2 (-27) * bpow radix2 (-27)) by (change (car (fbase Rfld)) with R; lra). apply sqrt_square. apply bpow_ge_0. }
  assert (LT : length3 (real3 (tv lost)) = 1).
  { unfold length3, real3, lost, dot3. cbn [tv p0 p1 p2 nadd nmul fbase Rfld Rnum]. rewrite V1. change (B2R (B754_zero false)) with 0. replace (_ + _) with 1 by (change (car (fbase Rfld)) with R; lra). apply sqrt_1. }
  assert (TR : real3 (tra (fse3_exp fsin fcos lost)) = P3 (D := Rfld) 0 1 0).
  { unfold fse3_exp. cbn [tra]. rewrite TH. replace (f64_lt (f64_of 1 (-27)) lit_1em10) with false by (vm_compute; reflexivity).
    unfold fV_matrix. rewrite C1, S1.
    set (y := mv3 _ _).
    assert (Y0 : p0 y = (B754_zero false : f64)) by (apply B2SF_inj; vm_compute; reflexivity).
    assert (Y1 : p1 y = (f64_of 1 0 : f64)) by (apply B2SF_inj; vm_compute; reflexivity).
    assert (Y2 : p2 y = (B754_zero false : f64)) by (apply B2SF_inj; vm_compute; reflexivity).
    clearbody y. destruct y as [y0 y1 y2]. cbn [p0 p1 p2] in Y0, Y1, Y2. subst. unfold real3. cbn [p0 p1 p2]. rewrite V1. reflexivity. }
  split; [split; [repeat split; assumption || reflexivity|unfold lost; cbn [rv p0 p1 p2]; rewrite V27; change (B2R (B754_zero false)) with 0; rewrite Rabs_R0, (Rabs_pos_eq (bpow _ _)) by apply bpow_ge_0; repeat split; try apply bpow_ge_0; apply bpow_le; lia]|].
  split; [split; [repeat split; assumption || reflexivity|unfold lost; cbn [tv p0 p1 p2]; rewrite V1; change (B2R (B754_zero false)) with 0; rewrite Rabs_R0, Rabs_R1; repeat split; try apply bpow_ge_0; change 1 with (bpow radix2 0); apply bpow_le; lia]|].
  split; [exact LR|]. split; [exact LT|]. split; [exact TR|]. intros X FX.
  assert (Z : bpow radix2 (-29) <= p2 (tra (X 1))).
  { set (k := bpow radix2 (-27)) in *.
    pose proof (exact_tra (f64_of 1 (-27)) (B754_zero false) (B754_zero false) (B754_zero false) (f64_of 1 0) (B754_zero false) X) as EX. rewrite V27, V1 in EX. change (B2R (B754_zero false)) with 0 in EX.
    assert (SQ : sqrt (k * k + 0 * 0 + 0 * 0) = k) by (replace (k * k + 0 * 0 + 0 * 0) with (k * k) by lra; apply sqrt_square; lra). fold k in EX. rewrite SQ in EX. rewrite (EX ltac:(lra) FX). cbv zeta. cbn [p2].
    pose proof (cos_series k ltac:(lra)) as [_ CS]. set (k2 := (k - sin k) / (k * k * k)).
    replace ((1 - cos k) / (k * k)) with ((1 - cos k) / k / k) by (field; lra). set (q := (1 - cos k) / k).
    assert (Q : k / 4 <= q).
    { unfold q. apply Rmult_le_reg_r with k; [lra|]. replace ((1 - cos k) / k * k) with (1 - cos k) by (field; lra).
      assert (k * k * k * k = k * k * (k * k)) by ring. assert (K2 : 0 <= k * k) by apply Rle_0_sqr. assert (k * k <= 1 * 1) by (apply Rmult_le_compat; lra). assert (k * k * (k * k) <= k * k * 1) by (apply Rmult_le_compat_l; lra). lra. }
    assert (QK : q / k * k = q) by (field; lra). rewrite P29.
    match goal with |- _ <= ?e => replace e with (q / k * k) by (generalize (q / k); intros; ring) end. rewrite QK. lra. }
  split; [exact Z|]. rewrite LT. unfold apart. rewrite TR. destruct (comp_le (sub3 (P3 (D := Rfld) 0 1 0) (tra (X 1)))) as (_ & _ & G). unfold sub3 at 1 in G. cbn [p2 nsub fbase Rfld Rnum] in G. change (car (fbase Rfld)) with R in *.
  rewrite Rabs_left1 in G; [lra|]. pose proof (bpow_gt_0 radix2 (-29)). lra.
Qed.

(** The contracts can be met, the curve exists, and the theorems say something about real twists. *)
Example C82_trigonometry : exists fsin fcos, nearest_of fsin sin /\ nearest_of fcos cos /\ within_of (bpow radix2 (-52)) fsin sin /\ within_of (bpow radix2 (-52)) fcos cos.
Proof.
  exists (fun x => nearest (sin (B2R x))), (fun x => nearest (cos (B2R x))). repeat split; try (apply nearest_sin; assumption); try (apply nearest_cos; assumption); try (apply nearest_ok; apply Rabs_le; first [apply SIN_bound|apply COS_bound]); apply nearest_val; apply Rabs_le; first [apply SIN_bound|apply COS_bound].
Qed.
Example C82_curve : forall v : v6 Ffld, exists X, flow (real6 v) X.
Proof.
  intros v. destruct (theta_pos_or_zero (real3 (rv v))) as [P|Z].
  - eexists. apply (flow_closed (real3 (rv v)) (real3 (tv v)) P).
  - eexists. unfold real6. rewrite Z. apply flow_straight.
Qed.
(** A turn by one radian: the first theorem gives an error below 2^-42. *)
Definition turn : v6 Ffld := P6 (D := Ffld) (P3 (D := Ffld) (f64_of 1 0) (B754_zero false : f64) (B754_zero false : f64)) (P3 (D := Ffld) (B754_zero false : f64) (f64_of 1 0) (B754_zero false : f64)).
Example C82_turn : forall fsin fcos X, within_of (bpow radix2 (-52)) fsin sin -> within_of (bpow radix2 (-52)) fcos cos -> flow (real6 turn) X ->
  apart (tra (fse3_exp fsin fcos turn)) (tra (X 1)) <= bpow radix2 (-42).
Proof.
  intros fsin fcos X S C FX. destruct one_val as [F1 V1].
  assert (L1 : length3 (real3 (rv turn)) = 1).
  { unfold length3, real3, turn, dot3. cbn [rv p0 p1 p2 nadd nmul fbase Rfld Rnum]. rewrite V1. change (B2R (B754_zero false)) with 0. replace (_ + _) with 1 by (change (car (fbase Rfld)) with R; lra). apply sqrt_1. }
  assert (L2 : length3 (real3 (tv turn)) = 1).
  { unfold length3, real3, turn, dot3. cbn [tv p0 p1 p2 nadd nmul fbase Rfld Rnum]. rewrite V1. change (B2R (B754_zero false)) with 0. replace (_ + _) with 1 by (change (car (fbase Rfld)) with R; lra). apply sqrt_1. }
  assert (P : bpow radix2 (-1070) <= bpow radix2 (-53)) by (apply bpow_le; lia).
  assert (P53 : bpow radix2 (-53) = / 9007199254740992) by reflexivity. assert (P52 : bpow radix2 (-52) = / 4503599627370496) by reflexivity. assert (P42 : bpow radix2 (-42) = / 4398046511104) by reflexivity.
  destruct (C82_translation fsin fcos (bpow radix2 (-52)) turn X) as [_ G]; [split; [apply bpow_ge_0|apply bpow_le; lia]|exact S|exact C| | |exact FX|rewrite L1; lra|].
  - split; [repeat split; assumption || reflexivity|]. unfold turn. cbn [rv p0 p1 p2]. rewrite V1. change (B2R (B754_zero false)) with 0. rewrite Rabs_R0, Rabs_R1. repeat split; try apply bpow_ge_0. change 1 with (bpow radix2 0). apply bpow_le. lia.
  - split; [repeat split; assumption || reflexivity|]. unfold turn. cbn [tv p0 p1 p2]. rewrite V1. change (B2R (B754_zero false)) with 0. rewrite Rabs_R0, Rabs_R1. repeat split; try apply bpow_ge_0. change 1 with (bpow radix2 0). apply bpow_le. lia.
  - rewrite L1, L2 in G. rewrite P42. rewrite P53, P52 in *. lra.
Qed.

Print Assumptions C82_translation.
Print Assumptions C82_every_angle.
Print Assumptions C82_digits_refuted.
