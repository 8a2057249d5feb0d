(** Rounding in the translation of a pose increment, lie.hpp:86-93. *)
From Coq Require Import Reals ZArith List Lra Psatz.
From Flocq Require Import Core IEEE754.BinarySingleNaN.
From Verif Require Import Base Num Vec F64 RNum Lin LinSpec LinProofs F64Proofs FloorProofs F64Err ProjF64 FlatSpec FlatProofs FlatRun LieF64Model RigidSpec RigidLen RigidF64 RigidQuat.
Open Scope R_scope.

(** Sine and cosine move no faster than their argument. *)
Lemma sin_le_abs x : Rabs (sin x) <= Rabs x.
Proof.
  assert (P : forall y, 0 < y -> Rabs (sin y) <= y).
  { intros y H. destruct (Rle_lt_dec y 1) as [L|L].
    - rewrite Rabs_pos_eq; [left; apply sin_lt_x; exact H|]. apply sin_ge_0; [lra|]. pose proof PI2_1. lra.
    - pose proof (SIN_bound y). apply Rabs_le. lra. }
  destruct (Rtotal_order x 0) as [N|[Z|G]].
  - pose proof (P (- x) ltac:(lra)) as Q. rewrite sin_neg, Rabs_Ropp in Q. rewrite (Rabs_left x) by lra. exact Q.
  - subst x. rewrite sin_0. lra.
  - rewrite (Rabs_pos_eq x) by lra. apply P. exact G.
Qed.
Lemma sin_lip x y : Rabs (sin x - sin y) <= Rabs (x - y).
Proof.
  rewrite form4, !Rabs_mult, (Rabs_pos_eq 2) by lra. pose proof (COS_bound ((x + y) / 2)) as C. pose proof (sin_le_abs ((x - y) / 2)) as S.
  unfold Rdiv in S at 2. rewrite Rabs_mult, (Rabs_pos_eq (/ 2)) in S by lra.
  assert (A : Rabs (cos ((x + y) / 2)) <= 1) by (apply Rabs_le; lra). pose proof (Rabs_pos (sin ((x - y) / 2))) as S0. pose proof (Rabs_pos (cos ((x + y) / 2))) as C0.
  apply Rle_trans with (2 * 1 * Rabs (sin ((x - y) / 2))); [apply Rmult_le_compat_r; lra|lra].
Qed.
Lemma cos_lip x y : Rabs (cos x - cos y) <= Rabs (x - y).
Proof.
  rewrite form2, !Rabs_mult, (Rabs_left (-2)) by lra. replace (- (-2)) with 2 by ring. pose proof (SIN_bound ((x + y) / 2)) as C. pose proof (sin_le_abs ((x - y) / 2)) as S.
  unfold Rdiv in S at 2. rewrite Rabs_mult, (Rabs_pos_eq (/ 2)) in S by lra.
  assert (A : Rabs (sin ((x + y) / 2)) <= 1) by (apply Rabs_le; lra). pose proof (Rabs_pos (sin ((x - y) / 2))) as S0. pose proof (Rabs_pos (sin ((x + y) / 2))) as C0.
  apply Rle_trans with (2 * Rabs (sin ((x - y) / 2)) * 1); [apply Rmult_le_compat_l; lra|lra].
Qed.

(** A quotient and a rounded quotient of perturbed numbers. *)
Lemma quot (N n T t E B k : R) : 0 < t -> 0 <= k <= 1e-3 -> Rabs (N - n) <= E -> Rabs n <= B -> Rabs (T - t) <= k * t ->
  0 < T /\ Rabs (N / T - n / t) <= 1.002 * (E + B * k) / t.
Proof.
  intros t0 K HN Hn HT. pose proof (Rabs_le_inv _ _ HT) as HT'. assert (kt : k * t <= 1e-3 * t) by (apply Rmult_le_compat_r; lra).
  assert (kt0 : 0 <= k * t) by (apply Rmult_le_pos; lra).
  assert (T0 : 0 < T) by lra. split; [exact T0|]. pose proof (Rabs_pos (N - n)) as E0. pose proof (Rabs_pos n) as B0.
  assert (BK : 0 <= B * k) by (apply Rmult_le_pos; lra).
  replace (N / T - n / t) with (((N - n) * t + n * (t - T)) * / (T * t)) by (field; lra).
  assert (P : 0 < / (T * t)) by (apply Rinv_0_lt_compat, Rmult_lt_0_compat; lra).
  rewrite Rabs_mult, (Rabs_pos_eq (/ (T * t))) by lra.
  assert (M : Rabs ((N - n) * t + n * (t - T)) <= (E + B * k) * t).
  { eapply Rle_trans; [apply Rabs_triang|]. rewrite !Rabs_mult, (Rabs_pos_eq t), (Rabs_minus_sym t T) by lra.
    assert (Rabs (N - n) * t <= E * t) by (apply Rmult_le_compat_r; lra).
    assert (Rabs n * Rabs (T - t) <= B * (k * t)) by (apply Rmult_le_compat; auto using Rabs_pos). lra. }
  apply Rle_trans with ((E + B * k) * t * / (T * t)); [apply Rmult_le_compat_r; lra|].
  replace ((E + B * k) * t * / (T * t)) with ((E + B * k) * / T) by (field; lra).
  unfold Rdiv. rewrite (Rmult_comm 1.002), Rmult_assoc. apply Rmult_le_compat_l; [lra|].
  replace (1.002 * / t) with (/ (t / 1.002)) by (field; lra). apply Rinv_le_contravar; lra.
Qed.

Lemma eta_u60 : eta64 <= 1e-60 * u64.
Proof.
  apply Rle_trans with (u64 * bpow radix2 (-300)); [unfold u64, eta64; rewrite <- bpow_plus; apply bpow_le; lia|].
  pose proof u64_pos. rewrite Rmult_comm. apply Rmult_le_compat_r; [lra|]. change (bpow radix2 (-300)) with (/ IZR (2 ^ 300)).
  replace 1e-60 with (/ 1e60) by lra. apply Rinv_le_contravar; [lra|]. replace 1e60 with (IZR (10 ^ 60)) by (change (10 ^ 60)%Z with 1000000000000000000000000000000000000000000000000000000000000%Z; lra).
  apply IZR_le. vm_compute. discriminate.
Qed.

Section Translation.
Context (a b c : f64) (Fa : finite a) (Fb : finite b) (Fc : finite c).
Context (Ba : Rabs (B2R a) <= B100) (Bb : Rabs (B2R b) <= B100) (Bc : Rabs (B2R c) <= B100).
Let s : R := B2R a * B2R a + B2R b * B2R b + B2R c * B2R c.
Let t : f64 := f64_add (f64_add (f64_mul a a) (f64_mul b b)) (f64_mul c c).
Let theta : f64 := Bsqrt mode_NE t.
Let h : R := sqrt s.

Lemma t_nonneg : 0 <= B2R t.
Proof using Fa Fb Fc Ba Bb Bc.
  assert (R0 : forall x, 0 <= x -> 0 <= rnd x).
  { intros x Hx. replace 0 with (rnd 0) by (apply round_0; typeclasses eauto). apply round_le; try typeclasses eauto. exact Hx. }
  assert (S : forall x, finite x -> Rabs (B2R x) <= B100 -> finite (f64_mul x x) /\ 0 <= B2R (f64_mul x x) <= bpow radix2 200).
  { intros x Fx Bx. destruct (sq_finite x Fx Bx) as (F & _ & L). split; [exact F|]. destruct (mul_finite x x 200 Fx Fx) as [_ V]; [lia|rewrite Rabs_pos_eq; lra|].
    rewrite V. split; [apply R0; lra|]. pose proof (rnd_small (B2R x * B2R x) 200 ltac:(lia) ltac:(rewrite Rabs_pos_eq; lra)) as Q. apply Rabs_le_inv in Q. lra. }
  destruct (S a Fa Ba) as [F1 N1]. destruct (S b Fb Bb) as [F2 N2]. destruct (S c Fc Bc) as [F3 N3].
  assert (B2 : 2 * bpow radix2 200 <= bpow radix2 201) by (change 201%Z with (1 + 200)%Z; rewrite bpow_plus; change (bpow radix2 1) with 2; lra).
  assert (B4 : 2 * bpow radix2 201 <= bpow radix2 202) by (change 202%Z with (1 + 201)%Z; rewrite bpow_plus; change (bpow radix2 1) with 2; lra).
  pose proof (bpow_gt_0 radix2 200).
  destruct (add_finite _ _ 201 F1 F2) as [F4 V4]; [lia|rewrite Rabs_pos_eq; lra|].
  assert (N4 : 0 <= B2R (f64_add (f64_mul a a) (f64_mul b b)) <= bpow radix2 201).
  { rewrite V4. split; [apply R0; lra|]. pose proof (rnd_small (B2R (f64_mul a a) + B2R (f64_mul b b)) 201 ltac:(lia) ltac:(rewrite Rabs_pos_eq; lra)) as Q. apply Rabs_le_inv in Q. lra. }
  destruct (add_finite _ _ 202 F4 F3) as [F5 V5]; [lia|rewrite Rabs_pos_eq; lra|]. unfold t. rewrite V5. apply R0. lra.
Qed.

(** The angle in doubles: either it counts as small, or it and its powers are accurate. *)
Lemma angle : finite theta /\ 0 <= B2R theta /\
  (B2R theta < 0.99e-10 -> h <= 0.991e-10) /\
  (0.99e-10 <= B2R theta -> 0.98e-10 <= h <= bpow radix2 101 /\ Rabs (B2R t - h * h) <= 3.01 * u64 * (h * h) /\ Rabs (B2R theta - h) <= 5.3 * (u64 * h)).
Proof using Fa Fb Fc Ba Bb Bc.
  destruct (sum_of_squares a b c Fa Fb Fc Ba Bb Bc) as [Ft Et]. fold s in Et. fold t in Ft, Et. destruct (s_facts a b c Fa Fb Fc Ba Bb Bc) as (S0 & _). fold s in S0.
  pose proof t_nonneg as T0. pose proof u64_pos as U. pose proof u64_small as US. pose proof u64_tiny as UT. pose proof eta64_pos as EP. pose proof eta_u60 as EU.
  pose proof (sqrt_sqrt s ltac:(lra)) as HH. pose proof (sqrt_pos s) as H0. fold h in HH, H0.
  assert (US2 : 0 <= u64 * s <= / 1000000 * s) by (split; [apply Rmult_le_pos|apply Rmult_le_compat_r]; lra).
  apply Rabs_le_inv in Et.
  assert (RT : finite theta /\ exists r, 0 <= r /\ r * r = B2R t /\ 0 <= B2R theta /\ Rabs (B2R theta - r) <= u64 * r + eta64).
  { destruct (Req_dec (B2R t) 0) as [Z|NZ].
    - assert (TZ : exists sg, t = B754_zero sg) by (destruct t as [sg|sg| |sg m e Bd]; [exists sg; reflexivity|discriminate Ft|discriminate Ft|]; exfalso;
        apply (F2R_neq_0 radix2 {| Defs.Fnum := cond_Zopp sg (Z.pos m); Defs.Fexp := e |}); [destruct sg; discriminate|exact Z]).
      destruct TZ as [sg TZ]. unfold theta. rewrite TZ. split; [reflexivity|]. exists 0. split; [lra|]. split; [simpl; ring|]. split; [simpl; lra|]. simpl. rewrite Rminus_eq_0, Rabs_R0. lra.
    - destruct (bsqrt_pos t Ft ltac:(lra)) as [Fq Vq]. fold theta in Fq, Vq. split; [exact Fq|]. exists (sqrt (B2R t)).
      pose proof (sqrt_pos (B2R t)) as P. split; [exact P|]. split; [apply sqrt_sqrt; lra|]. rewrite Vq. split.
      + replace 0 with (rnd 0) by (apply round_0; typeclasses eauto). apply round_le; try typeclasses eauto. exact P.
      + pose proof (rnd_err (sqrt (B2R t))) as E. rewrite (Rabs_pos_eq (sqrt (B2R t))) in E by exact P. exact E. }
  destruct RT as (Fth & r & r0 & rr & th0 & Er). split; [exact Fth|]. split; [exact th0|].
  assert (ur : 0 <= u64 * r <= / 1000000 * r) by (split; [apply Rmult_le_pos|apply Rmult_le_compat_r]; lra). apply Rabs_le_inv in Er.
  set (T := B2R t) in *. set (th := B2R theta) in *. clearbody T th. clear Ft.
  split.
  - intros L. destruct (Rle_lt_dec h 0.991e-10) as [G|G]; [exact G|]. exfalso.
    assert (r <= 0.9901e-10) by lra. assert (r * r <= 0.9901e-10 * 0.9901e-10) by (apply Rmult_le_compat; lra). assert (0.991e-10 * 0.991e-10 < h * h) by (apply Rmult_le_0_lt_compat; lra). lra.
  - intros L. assert (r1 : 0.989e-10 <= r) by lra. assert (0.989e-10 * 0.989e-10 <= r * r) by (apply Rmult_le_compat; lra).
    assert (s1 : 0.97e-20 <= s) by lra. assert (us : u64 * 0.97e-20 <= u64 * s) by (apply Rmult_le_compat_l; lra).
    assert (h1 : 0.98e-10 <= h).
    { destruct (Rle_lt_dec 0.98e-10 h) as [G|G]; [exact G|]. assert (h * h <= 0.98e-10 * 0.98e-10) by (apply Rmult_le_compat; lra). lra. }
    split; [split; [exact h1|]|].
    { destruct (Rle_lt_dec h (bpow radix2 101)) as [G|G]; [exact G|]. pose proof (bpow_gt_0 radix2 101) as G0.
      assert (N : bpow radix2 101 * bpow radix2 101 < h * h) by (apply Rmult_le_0_lt_compat; lra). rewrite <- bpow_plus in N. change (101 + 101)%Z with (2 + 200)%Z in N. rewrite bpow_plus in N.
      change (bpow radix2 2) with 4 in N. pose proof (bpow_gt_0 radix2 200). lra. }
    assert (TE : Rabs (T - s) <= 3.01 * (u64 * s)) by (apply Rabs_le; lra).
    split; [rewrite HH, Rmult_assoc; exact TE|].
    (* |r - h| (r + h) = |T - s| *)
    assert (RH : Rabs (r - h) * (r + h) <= 3.01 * (u64 * h) * h).
    { rewrite <- (Rabs_pos_eq (r + h)) at 1 by lra. rewrite <- Rabs_mult. replace ((r - h) * (r + h)) with (r * r - h * h) by ring. rewrite rr, HH.
      replace (3.01 * (u64 * h) * h) with (3.01 * (u64 * (h * h))) by ring. rewrite HH. exact TE. }
    assert (RH2 : Rabs (r - h) <= 3.01 * (u64 * h)).
    { apply Rmult_le_reg_r with h; [lra|]. eapply Rle_trans; [|exact RH]. apply Rmult_le_compat_l; [apply Rabs_pos|lra]. }
    assert (uh : u64 * 0.98e-10 <= u64 * h <= / 1000000 * h) by (split; [apply Rmult_le_compat_l|apply Rmult_le_compat_r]; lra).
    apply Rabs_le_inv in RH2. assert (u64 * r <= u64 * (1.00001 * h)) by (apply Rmult_le_compat_l; lra). apply Rabs_le. lra.
Qed.
(** Angles that do not count as small.  [d] bounds the error of the sine and cosine relative to
    the angle. *)
Context (Lth : 0.99e-10 <= B2R theta) (d : R) (d0 : 0 <= d <= 1e-3).
Context (C S : f64) (FC : finite C) (FS : finite S).
Context (EC : Rabs (B2R C - cos (B2R theta)) <= d * h) (ES : Rabs (B2R S - sin (B2R theta)) <= d * h).
Let D : R := d + 40 * u64.
Let k1 : R := (1 - cos h) / (h * h).
Let k2 : R := (h - sin h) / (h * h * h).
Let ih : R := / h.

Lemma h_facts : 0.98e-10 <= h <= bpow radix2 101 /\ 0 < ih <= 1.1e10 /\ h * ih = 1 /\ eta64 <= 1e-6 * (u64 * ih) /\ eta64 <= 1e-6 * (u64 * (ih * ih)) /\ eta64 <= 1e-6 * (u64 * (h * h * h)) /\
  0 <= u64 * h <= / 1000000 * h.
Proof using Fa Fb Fc Ba Bb Bc Lth.
  destruct angle as (_ & _ & _ & A). destruct (A Lth) as (H & _). pose proof u64_pos as U. pose proof u64_small as US. pose proof eta_u60 as EU. pose proof eta64_pos as EP.
  assert (I0 : 0 < ih) by (apply Rinv_0_lt_compat; lra).
  assert (I1 : ih <= 1.1e10). { apply Rmult_le_reg_r with h; [lra|]. unfold ih. rewrite Rinv_l by lra. lra. }
  assert (I2 : h * ih = 1) by (unfold ih; field; lra).
  assert (I3 : bpow radix2 (-101) <= ih).
  { unfold ih. replace (bpow radix2 (-101)) with (/ bpow radix2 101) by (symmetry; apply (bpow_opp radix2 101)). apply Rinv_le_contravar; lra. }
  assert (I4 : bpow radix2 (-202) <= ih * ih).
  { replace (bpow radix2 (-202)) with (bpow radix2 (-101) * bpow radix2 (-101)) by (rewrite <- bpow_plus; reflexivity). pose proof (bpow_ge_0 radix2 (-101)). apply Rmult_le_compat; lra. }
  assert (E20 : bpow radix2 (-20) <= 1e-6) by (change (bpow radix2 (-20)) with (/ IZR 1048576); lra).
  assert (E1 : eta64 <= bpow radix2 (-20) * (u64 * bpow radix2 (-202))) by (unfold eta64, u64; rewrite <- !bpow_plus; apply bpow_le; lia).
  assert (E2 : u64 * bpow radix2 (-202) <= u64 * bpow radix2 (-101)) by (apply Rmult_le_compat_l; [lra|apply bpow_le; lia]).
  assert (E3 : 0 <= u64 * bpow radix2 (-202)) by (apply Rmult_le_pos; [lra|apply bpow_ge_0]).
  assert (E4 : bpow radix2 (-20) * (u64 * bpow radix2 (-202)) <= 1e-6 * (u64 * bpow radix2 (-202))) by (apply Rmult_le_compat_r; lra).
  assert (E5 : u64 * bpow radix2 (-202) <= u64 * (ih * ih)) by (apply Rmult_le_compat_l; lra).
  assert (E6 : u64 * bpow radix2 (-101) <= u64 * ih) by (apply Rmult_le_compat_l; lra).
  split; [exact H|]. split; [lra|]. split; [exact I2|]. split; [lra|]. split; [lra|]. split.
  - assert (H2 : 0.96e-20 <= h * h) by (eapply Rle_trans; [|apply (Rmult_le_compat 0.98e-10 h 0.98e-10 h); lra]; lra).
    assert (H3 : 0.9e-30 <= h * h * h) by (eapply Rle_trans; [|apply (Rmult_le_compat 0.96e-20 (h * h) 0.98e-10 h); lra]; lra).
    assert (u64 * 0.9e-30 <= u64 * (h * h * h)) by (apply Rmult_le_compat_l; lra). lra.
  - split; [apply Rmult_le_pos|apply Rmult_le_compat_r]; lra.
Qed.
Lemma big120 (x : R) : Rabs x <= 10 * bpow radix2 101 -> Rabs x <= bpow radix2 120.
Proof using. clear. intros H. eapply Rle_trans; [exact H|]. change 120%Z with (19 + 101)%Z. rewrite bpow_plus. change (bpow radix2 19) with 524288. pose proof (bpow_gt_0 radix2 101). lra. Qed.

Lemma coef1 : finite (f64_div (f64_sub (lit 1) C) t) /\ Rabs (B2R (f64_div (f64_sub (lit 1) C) t) - k1) <= (1.002 * d + 10.4 * u64) * 1 * ih /\ Rabs k1 <= 1 * 1 * ih.
Proof using Fa Fb Fc Ba Bb Bc Lth d0 FC EC.
  destruct angle as (_ & _ & _ & A). destruct (A Lth) as (_ & ET & ETh). destruct h_facts as (H & I & HI & E1 & _ & _ & UH).
  pose proof u64_pos as U. pose proof u64_small as US. pose proof u64_tiny as UT. pose proof eta64_pos as EP.
  assert (N0 : 0 <= 1 - cos h <= h).
  { pose proof (COS_bound h). pose proof (cos_lip h 0) as L. rewrite cos_0, Rminus_0_r, (Rabs_pos_eq h) in L by lra. apply Rabs_le_inv in L. lra. }
  assert (dh : 0 <= d * h <= 1e-3 * h) by (split; [apply Rmult_le_pos|apply Rmult_le_compat_r]; lra).
  pose proof (cos_lip (B2R theta) h) as CL. assert (EC2 : Rabs (B2R C - cos h) <= d * h + 5.3 * (u64 * h)).
  { replace (B2R C - cos h) with ((B2R C - cos (B2R theta)) + (cos (B2R theta) - cos h)) by ring. eapply Rle_trans; [apply Rabs_triang|]. lra. }
  destruct (lit_val 1 ltac:(lia)) as [F1 V1]. apply Rabs_le_inv in EC2.
  assert (B1 : Rabs (1 - B2R C) <= 1.01 * h) by (apply Rabs_le; lra).
  destruct (sub_finite (lit 1) C 120 F1 FC) as [FN VN]; [lia|rewrite V1; apply big120; lra|]. rewrite V1 in VN.
  pose proof (rnd_err (1 - B2R C)) as EN. rewrite <- VN in EN.
  assert (uB : u64 * Rabs (1 - B2R C) <= u64 * (1.01 * h)) by (apply Rmult_le_compat_l; lra).
  assert (eh : eta64 <= 0.001 * (u64 * h)).
  { pose proof eta_u60. assert (u64 * 0.98e-10 <= u64 * h) by (apply Rmult_le_compat_l; lra). lra. }
  set (N := B2R (f64_sub (lit 1) C)) in *. apply Rabs_le_inv in EN.
  assert (NN : Rabs (N - (1 - cos h)) <= h * (d + 6.32 * u64)) by (apply Rabs_le; lra).
  assert (hh : 0 < h * h) by (apply Rmult_lt_0_compat; lra).
  destruct (quot N (1 - cos h) (B2R t) (h * h) (h * (d + 6.32 * u64)) h (3.01 * u64)) as [T0 Q]; [exact hh|lra|exact NN|apply Rabs_le; lra|exact ET|].
  replace (h * (d + 6.32 * u64) + h * (3.01 * u64)) with (h * (d + 9.33 * u64)) in Q by lra.
  replace (1.002 * (h * (d + 9.33 * u64)) / (h * h)) with (1.002 * (d + 9.33 * u64) * ih) in Q by (generalize 1.002 (d + 9.33 * u64); intros; unfold ih; field; lra).
  fold k1 in Q. assert (K1 : Rabs k1 <= ih).
  { unfold k1. replace ((1 - cos h) / (h * h)) with ((1 - cos h) * / h * ih) by (unfold ih; field; lra). fold ih.
    assert (P0 : 0 <= (1 - cos h) * ih) by (apply Rmult_le_pos; lra). assert (P1 : (1 - cos h) * ih <= h * ih) by (apply Rmult_le_compat_r; lra). rewrite HI in P1.
    rewrite Rabs_pos_eq by (apply Rmult_le_pos; lra). apply Rle_trans with (1 * ih); [apply Rmult_le_compat_r; lra|lra]. }
  assert (di : 0 <= d * ih <= 1e-3 * ih) by (split; [apply Rmult_le_pos|apply Rmult_le_compat_r]; lra). assert (ui : 0 <= u64 * ih <= / 1000000 * ih) by (split; [apply Rmult_le_pos|apply Rmult_le_compat_r]; lra).
  assert (QB : Rabs (N / B2R t) <= 1.01 * ih).
  { pose proof (Rabs_triang (N / B2R t - k1) k1) as T. replace (N / B2R t - k1 + k1) with (N / B2R t) in T by ring. lra. }
  destruct (div_finite (f64_sub (lit 1) C) t 40 FN) as [Fq Vq]; [lra|lia|fold N; change (bpow radix2 40) with 1099511627776; lra|]. fold N in Vq.
  pose proof (rnd_err (N / B2R t)) as Er. rewrite <- Vq in Er.
  assert (uQ : u64 * Rabs (N / B2R t) <= u64 * (1.01 * ih)) by (apply Rmult_le_compat_l; lra).
  split; [exact Fq|]. split; [|lra].
  set (x := B2R (f64_div _ _)) in *. replace (x - k1) with ((x - N / B2R t) + (N / B2R t - k1)) by ring. eapply Rle_trans; [apply Rabs_triang|]. lra.
Qed.

Lemma coef2 : finite (f64_div (f64_sub theta S) (f64_mul t theta)) /\
  Rabs (B2R (f64_div (f64_sub theta S) (f64_mul t theta)) - k2) <= (1.002 * d + 33.5 * u64) * ih * ih /\ Rabs k2 <= 2 * ih * ih.
Proof using Fa Fb Fc Ba Bb Bc Lth d0 FS ES.
  destruct angle as (Fth & _ & _ & A). destruct (A Lth) as (_ & ET & ETh). destruct h_facts as (H & I & HI & E1 & E2 & E3 & UH).
  destruct (sum_of_squares a b c Fa Fb Fc Ba Bb Bc) as [Ft _]. fold t in Ft.
  pose proof u64_pos as U. pose proof u64_small as US. pose proof u64_tiny as UT. pose proof eta64_pos as EP.
  assert (N0 : 0 <= h - sin h <= 2 * h).
  { pose proof (sin_le_abs h) as L. rewrite (Rabs_pos_eq h) in L by lra. apply Rabs_le_inv in L. lra. }
  assert (dh : 0 <= d * h <= 1e-3 * h) by (split; [apply Rmult_le_pos|apply Rmult_le_compat_r]; lra).
  pose proof (sin_lip (B2R theta) h) as CL. assert (ES2 : Rabs (B2R S - sin h) <= d * h + 5.3 * (u64 * h)).
  { replace (B2R S - sin h) with ((B2R S - sin (B2R theta)) + (sin (B2R theta) - sin h)) by ring. eapply Rle_trans; [apply Rabs_triang|]. lra. }
  apply Rabs_le_inv in ES2. pose proof (Rabs_le_inv _ _ ETh) as ETh'.
  assert (B1 : Rabs (B2R theta - B2R S) <= 2.01 * h) by (apply Rabs_le; lra).
  destruct (sub_finite theta S 120 Fth FS) as [FN VN]; [lia|apply big120; lra|].
  pose proof (rnd_err (B2R theta - B2R S)) as EN. rewrite <- VN in EN.
  assert (uB : u64 * Rabs (B2R theta - B2R S) <= u64 * (2.01 * h)) by (apply Rmult_le_compat_l; lra).
  assert (eh : eta64 <= 0.001 * (u64 * h)).
  { pose proof eta_u60. assert (u64 * 0.98e-10 <= u64 * h) by (apply Rmult_le_compat_l; lra). lra. }
  set (N := B2R (f64_sub theta S)) in *. apply Rabs_le_inv in EN.
  assert (NN : Rabs (N - (h - sin h)) <= h * (d + 12.62 * u64)) by (apply Rabs_le; lra).
  assert (hh : 0 < h * h) by (apply Rmult_lt_0_compat; lra). assert (hhh : 0 < h * h * h) by (apply Rmult_lt_0_compat; lra).
  set (T2 := B2R t) in *. set (th := B2R theta) in *.
  assert (TT : Rabs (T2 * th - h * h * h) <= 8.32 * (u64 * (h * h * h))).
  { replace (T2 * th - h * h * h) with ((T2 - h * h) * th + h * h * (th - h)) by ring. eapply Rle_trans; [apply Rabs_triang|]. rewrite !Rabs_mult, (Rabs_pos_eq h) by lra.
    assert (X1 : Rabs (T2 - h * h) * Rabs th <= 3.01 * u64 * (h * h) * (1.0001 * h)) by (apply Rmult_le_compat; auto using Rabs_pos; apply Rabs_le; lra).
    assert (X2 : h * h * Rabs (th - h) <= h * h * (5.3 * (u64 * h))) by (apply Rmult_le_compat_l; lra). 
    assert (0 <= u64 * (h * h * h)) by (apply Rmult_le_pos; lra). lra. }
  assert (uhhh : 0 <= u64 * (h * h * h) <= / 1000000 * (h * h * h)) by (split; [apply Rmult_le_pos|apply Rmult_le_compat_r]; lra).
  apply Rabs_le_inv in TT. assert (TB : Rabs (T2 * th) <= 1.0001 * (h * h * h)) by (apply Rabs_le; lra).
  assert (TBB : Rabs (T2 * th) <= bpow radix2 310).
  { eapply Rle_trans; [exact TB|]. change 310%Z with (7 + (101 + (101 + 101)))%Z. rewrite !bpow_plus. change (bpow radix2 7) with 128. pose proof (bpow_gt_0 radix2 101) as B0. set (B := bpow radix2 101) in *.
    assert (h * h <= B * B) by (apply Rmult_le_compat; lra). assert (h * h * h <= B * B * B) by (apply Rmult_le_compat; lra). assert (BB : 0 < B * B) by (apply Rmult_lt_0_compat; exact B0). assert (0 < B * B * B) by (apply Rmult_lt_0_compat; assumption). lra. }
  destruct (mul_finite t theta 310 Ft Fth) as [F3 V3]; [lia|exact TBB|]. fold T2 th in V3. pose proof (rnd_err (T2 * th)) as R3. rewrite <- V3 in R3.
  set (T3 := B2R (f64_mul t theta)) in *. assert (uT : u64 * Rabs (T2 * th) <= u64 * (1.0001 * (h * h * h))) by (apply Rmult_le_compat_l; lra). apply Rabs_le_inv in R3.
  assert (E33 : Rabs (T3 - h * h * h) <= 9.33 * u64 * (h * h * h)) by (apply Rabs_le; lra).
  destruct (quot N (h - sin h) T3 (h * h * h) (h * (d + 12.62 * u64)) (2 * h) (9.33 * u64)) as [T0 Q]; [exact hhh|lra|exact NN|apply Rabs_le; lra|exact E33|].
  replace (h * (d + 12.62 * u64) + 2 * h * (9.33 * u64)) with (h * (d + 31.28 * u64)) in Q by lra.
  replace (1.002 * (h * (d + 31.28 * u64)) / (h * h * h)) with (1.002 * (d + 31.28 * u64) * (ih * ih)) in Q by (generalize 1.002 (d + 31.28 * u64); intros; unfold ih; field; lra).
  fold k2 in Q. assert (ii : 0 < ih * ih) by (apply Rmult_lt_0_compat; lra). assert (K2 : Rabs k2 <= 2 * (ih * ih)).
  { unfold k2. replace ((h - sin h) / (h * h * h)) with ((h - sin h) * ih * (ih * ih)) by (unfold ih; field; lra).
    assert (P0 : 0 <= (h - sin h) * ih) by (apply Rmult_le_pos; lra). assert (P1 : (h - sin h) * ih <= 2 * h * ih) by (apply Rmult_le_compat_r; lra).
    rewrite Rabs_pos_eq by (apply Rmult_le_pos; lra). apply Rmult_le_compat_r; lra. }
  assert (di : 0 <= d * (ih * ih) <= 1e-3 * (ih * ih)) by (split; [apply Rmult_le_pos|apply Rmult_le_compat_r]; lra). assert (ui : 0 <= u64 * (ih * ih) <= / 1000000 * (ih * ih)) by (split; [apply Rmult_le_pos|apply Rmult_le_compat_r]; lra).
  assert (QB : Rabs (N / T3) <= 2.01 * (ih * ih)).
  { pose proof (Rabs_triang (N / T3 - k2) k2) as T. replace (N / T3 - k2 + k2) with (N / T3) in T by ring. lra. }
  assert (i2 : ih * ih <= 1.1e10 * 1.1e10) by (apply Rmult_le_compat; lra).
  destruct (div_finite (f64_sub theta S) (f64_mul t theta) 80 FN) as [Fq Vq]; [fold T3; lra|lia|fold N T3; change (bpow radix2 80) with 1208925819614629174706176; lra|]. fold N T3 in Vq.
  pose proof (rnd_err (N / T3)) as Er. rewrite <- Vq in Er.
  assert (uQ : u64 * Rabs (N / T3) <= u64 * (2.01 * (ih * ih))) by (apply Rmult_le_compat_l; lra).
  split; [exact Fq|]. rewrite !Rmult_assoc. split; [|lra].
  set (x := B2R (f64_div _ _)) in *. replace (x - k2) with ((x - N / T3) + (N / T3 - k2)) by ring. eapply Rle_trans; [apply Rabs_triang|]. lra.
Qed.

Lemma scale (cf x : f64) (k E B G : R) : finite cf -> finite x -> 0 < G <= 1.1e10 -> eta64 <= 1e-6 * (u64 * G) -> 0 <= E <= 0.01 -> 0 <= B <= 2 ->
  Rabs (B2R cf - k) <= E * G * ih -> Rabs k <= B * G * ih -> Rabs (B2R x) <= h ->
  finite (f64_mul cf x) /\ Rabs (B2R (f64_mul cf x) - k * B2R x) <= (E + (B + 0.011) * u64) * G /\ Rabs (k * B2R x) <= B * G.
Proof using Fa Fb Fc Ba Bb Bc Lth.
  intros Fcf Fx HG HE E0 B0 H K X. destruct h_facts as (Hh & I & HI & _).
  pose proof u64_pos as U. pose proof u64_small as US.
  assert (KX : Rabs (k * B2R x) <= B * G).
  { rewrite Rabs_mult. apply Rle_trans with (B * G * ih * h); [apply Rmult_le_compat; auto using Rabs_pos|]. replace (B * G * ih * h) with (B * G * (h * ih)) by ring. rewrite HI. lra. }
  assert (DX : Rabs (B2R cf * B2R x - k * B2R x) <= E * G).
  { replace (B2R cf * B2R x - k * B2R x) with ((B2R cf - k) * B2R x) by ring. rewrite Rabs_mult.
    apply Rle_trans with (E * G * ih * h); [apply Rmult_le_compat; auto using Rabs_pos|]. replace (E * G * ih * h) with (E * G * (h * ih)) by ring. rewrite HI. lra. }
  assert (P : Rabs (B2R cf * B2R x) <= (B + E) * G).
  { pose proof (Rabs_triang (B2R cf * B2R x - k * B2R x) (k * B2R x)) as T. replace (B2R cf * B2R x - k * B2R x + k * B2R x) with (B2R cf * B2R x) in T by ring. lra. }
  assert (PG : (B + E) * G <= 2.01 * 1.1e10) by (apply Rmult_le_compat; lra).
  destruct (mul_finite cf x 80 Fcf Fx) as [F V]; [lia|change (bpow radix2 80) with 1208925819614629174706176; lra|]. pose proof (rnd_err (B2R cf * B2R x)) as Er. rewrite <- V in Er.
  assert (uP : u64 * Rabs (B2R cf * B2R x) <= u64 * ((B + 0.01) * G)).
  { apply Rmult_le_compat_l; [lra|]. eapply Rle_trans; [exact P|]. apply Rmult_le_compat_r; lra. }
  split; [exact F|]. split; [|exact KX]. set (y := B2R (f64_mul cf x)) in *.
  replace (y - k * B2R x) with ((y - B2R cf * B2R x) + (B2R cf * B2R x - k * B2R x)) by ring. eapply Rle_trans; [apply Rabs_triang|]. 
  assert (0 <= u64 * G) by (apply Rmult_le_pos; lra). lra.
Qed.
(** A number, its exact value, its error and its size. *)
Definition nr (x : f64) (X e B : R) : Prop := finite x /\ Rabs (B2R x - X) <= e /\ Rabs (B2R x) <= B.
Lemma nr_add x X e B y Y f C' e' B' : nr x X e B -> nr y Y f C' -> B + C' <= 1000 -> e + f + (B + C') * u64 <= e' -> (B + C') * 1.000001 <= B' ->
  nr (f64_add x y) (X + Y) e' B'.
Proof using.
  clear. intros (Fx & Hx & Kx) (Fy & Hy & Ky) L E Q. pose proof u64_pos as U. pose proof u64_small as US.
  pose proof (Rabs_triang (B2R x) (B2R y)) as T. pose proof (Rabs_pos (B2R x)). pose proof (Rabs_pos (B2R y)).
  destruct (add_finite x y 1000 Fx Fy) as (F & V); [lia|pose proof big1000; lra|]. pose proof (rnd_add_err x y Fx Fy) as Er. rewrite <- V in Er.
  assert (UB : u64 * Rabs (B2R x + B2R y) <= u64 * (B + C')) by (apply Rmult_le_compat_l; lra).
  assert (UB2 : u64 * (B + C') <= / 1000000 * (B + C')) by (apply Rmult_le_compat_r; lra).
  split; [exact F|]. apply Rabs_le_inv in Er, Hx, Hy. apply Rabs_le_inv in T. split; apply Rabs_le; lra.
Qed.

Let c1 : f64 := f64_div (f64_sub (lit 1) C) t.
Let c2 : f64 := f64_div (f64_sub theta S) (f64_mul t theta).
Lemma once x : finite x -> Rabs (B2R x) <= h -> nr (f64_mul c1 x) (k1 * B2R x) (1.002 * D) 1.01.
Proof using Fa Fb Fc Ba Bb Bc Lth d0 FC EC.
  intros Fx X. destruct coef1 as (F & E & K). pose proof u64_pos as U. pose proof u64_tiny as UT. pose proof eta_u60 as EU.
  destruct (scale c1 x k1 (1.002 * d + 10.4 * u64) 1 1 F Fx ltac:(lra) ltac:(lra) ltac:(lra) ltac:(lra) E K X) as (G & H & KX).
  split; [exact G|]. assert (DD : (1.002 * d + 10.4 * u64 + (1 + 0.011) * u64) * 1 <= 1.002 * D) by (unfold D; lra).
  split; [lra|]. pose proof (Rabs_triang (B2R (f64_mul c1 x) - k1 * B2R x) (k1 * B2R x)) as T. replace (B2R (f64_mul c1 x) - k1 * B2R x + k1 * B2R x) with (B2R (f64_mul c1 x)) in T by ring. lra.
Qed.
Lemma twice x y : finite x -> Rabs (B2R x) <= h -> finite y -> Rabs (B2R y) <= h -> nr (f64_mul (f64_mul c2 x) y) (k2 * B2R x * B2R y) (1.002 * D) 2.01.
Proof using Fa Fb Fc Ba Bb Bc Lth d0 FS ES.
  intros Fx X Fy Y. destruct coef2 as (F & E & K). pose proof u64_pos as U. pose proof u64_tiny as UT. pose proof eta_u60 as EU. destruct h_facts as (_ & I & _ & E1 & _).
  destruct (scale c2 x k2 (1.002 * d + 33.5 * u64) 2 ih F Fx ltac:(lra) ltac:(lra) ltac:(lra) ltac:(lra) E K X) as (G & H & KX).
  destruct (scale (f64_mul c2 x) y (k2 * B2R x) (1.002 * d + 33.5 * u64 + (2 + 0.011) * u64) 2 1 G Fy ltac:(lra) ltac:(lra) ltac:(lra) ltac:(lra)) as (G2 & H2 & KX2); [lra|lra|exact Y|].
  split; [exact G2|]. assert (DD : (1.002 * d + 33.5 * u64 + (2 + 0.011) * u64 + (2 + 0.011) * u64) * 1 <= 1.002 * D) by (unfold D; lra).
  split; [lra|]. set (z := B2R (f64_mul (f64_mul c2 x) y)) in *. pose proof (Rabs_triang (z - k2 * B2R x * B2R y) (k2 * B2R x * B2R y)) as T. replace (z - k2 * B2R x * B2R y + k2 * B2R x * B2R y) with z in T by ring. lra.
Qed.

(** An entry of the matrix V. *)
Lemma entry o x x1 y1 x2 y2 x3 y3 : finite o -> Rabs (B2R o) <= 1 ->
  (forall z, In z (x :: x1 :: y1 :: x2 :: y2 :: x3 :: y3 :: nil) -> finite z /\ Rabs (B2R z) <= h) ->
  nr (f64_add (f64_add o (f64_mul c1 x)) (f64_add (f64_add (f64_mul (f64_mul c2 x1) y1) (f64_mul (f64_mul c2 x2) y2)) (f64_mul (f64_mul c2 x3) y3)))
     (B2R o + k1 * B2R x + (k2 * B2R x1 * B2R y1 + k2 * B2R x2 * B2R y2 + k2 * B2R x3 * B2R y3)) (4.6 * D) 8.3.
Proof using Fa Fb Fc Ba Bb Bc Lth d0 FC EC FS ES.
  intros Fo Bo A. pose proof u64_pos as U. pose proof u64_tiny as UT. assert (DU : 40 * u64 <= D) by (unfold D; lra).
  destruct (A x) as [Fx Hx]; [simpl; tauto|]. destruct (A x1) as [F1 H1]; [simpl; tauto|]. destruct (A y1) as [F2 H2]; [simpl; tauto|]. destruct (A x2) as [F3 H3]; [simpl; tauto|].
  destruct (A y2) as [F4 H4]; [simpl; tauto|]. destruct (A x3) as [F5 H5]; [simpl; tauto|]. destruct (A y3) as [F6 H6]; [simpl; tauto|].
  assert (O : nr o (B2R o) 0 1) by (split; [exact Fo|split; [rewrite Rminus_eq_0, Rabs_R0; lra|exact Bo]]).
  pose proof (nr_add _ _ _ _ _ _ _ _ (1.06 * D) 2.02 O (once x Fx Hx) ltac:(lra) ltac:(lra) ltac:(lra)) as P.
  pose proof (nr_add _ _ _ _ _ _ _ _ (2.11 * D) 4.03 (twice x1 y1 F1 H1 F2 H2) (twice x2 y2 F3 H3 F4 H4) ltac:(lra) ltac:(lra) ltac:(lra)) as W.
  pose proof (nr_add _ _ _ _ _ _ _ _ (3.27 * D) 6.05 W (twice x3 y3 F5 H5 F6 H6) ltac:(lra) ltac:(lra) ltac:(lra)) as M.
  exact (nr_add _ _ _ _ _ _ _ _ (4.6 * D) 8.3 P M ltac:(lra) ltac:(lra) ltac:(lra)).
Qed.

(** A row of V times the translation part of the twist. *)
Lemma row V0 V1 V2 v0 v1 v2 t0 t1 t2 L : nr V0 v0 (4.6 * D) 8.3 -> nr V1 v1 (4.6 * D) 8.3 -> nr V2 v2 (4.6 * D) 8.3 ->
  finite t0 -> finite t1 -> finite t2 -> Rabs (B2R t0) <= L -> Rabs (B2R t1) <= L -> Rabs (B2R t2) <= L -> L <= bpow radix2 901 ->
  finite (f64_add (f64_add (f64_mul V0 t0) (f64_mul V1 t1)) (f64_mul V2 t2)) /\
  Rabs (B2R (f64_add (f64_add (f64_mul V0 t0) (f64_mul V1 t1)) (f64_mul V2 t2)) - (v0 * B2R t0 + v1 * B2R t1 + v2 * B2R t2)) <= 15.5 * (D * L) + 4 * eta64.
Proof using d0.
  clear -d0. intros N0 N1 N2 F0 F1 F2 B0 B1 B2 HL. pose proof u64_pos as U. pose proof u64_small as US. pose proof eta64_pos as EP. pose proof eta_tiny as ET.
  assert (DU : 40 * u64 <= D) by (unfold D; lra). pose proof (Rabs_pos (B2R t0)) as L0. assert (L1 : 0 <= L) by lra.
  assert (uL : 0 <= u64 * L <= / 1000000 * L) by (split; [apply Rmult_le_pos|apply Rmult_le_compat_r]; lra). assert (DL : 40 * (u64 * L) <= D * L) by (rewrite <- Rmult_assoc; apply Rmult_le_compat_r; lra).
  assert (B10 : 30 * L <= bpow radix2 910).
  { change 910%Z with (9 + 901)%Z. rewrite bpow_plus. change (bpow radix2 9) with 512. pose proof (bpow_gt_0 radix2 901). lra. }
  assert (B1020 : bpow radix2 910 + 1 <= bpow radix2 1000).
  { apply Rle_trans with (bpow radix2 910 + bpow radix2 910); [pose proof (bpow_le radix2 0 910 ltac:(lia)) as Q; change (bpow radix2 0) with 1 in Q; lra|].
    replace (bpow radix2 910 + bpow radix2 910) with (bpow radix2 911) by (change 911%Z with (1 + 910)%Z; rewrite bpow_plus; change (bpow radix2 1) with 2; ring). apply bpow_le. lia. }
  assert (P : forall V v x, nr V v (4.6 * D) 8.3 -> finite x -> Rabs (B2R x) <= L -> finite (f64_mul V x) /\ Rabs (B2R (f64_mul V x) - v * B2R x) <= 4.6 * (D * L) + 8.3 * (u64 * L) + eta64 /\
    Rabs (B2R (f64_mul V x)) <= 8.31 * L + eta64).
  { intros V v x (FV & EV & BV) Fx Bx. assert (M : Rabs (B2R V * B2R x) <= 8.3 * L) by (rewrite Rabs_mult; apply Rmult_le_compat; auto using Rabs_pos).
    destruct (mul_finite V x 1000 FV Fx) as [F W]; [lia|lra|]. pose proof (rnd_err (B2R V * B2R x)) as Er. rewrite <- W in Er.
    assert (uM : u64 * Rabs (B2R V * B2R x) <= u64 * (8.3 * L)) by (apply Rmult_le_compat_l; lra).
    assert (DV : Rabs (B2R V * B2R x - v * B2R x) <= 4.6 * D * L) by (replace (B2R V * B2R x - v * B2R x) with ((B2R V - v) * B2R x) by ring; rewrite Rabs_mult; apply Rmult_le_compat; auto using Rabs_pos).
    split; [exact F|]. apply Rabs_le_inv in Er, DV, M. split; apply Rabs_le; lra. }
  destruct (P V0 v0 t0 N0 F0 B0) as (G0 & E0 & M0). destruct (P V1 v1 t1 N1 F1 B1) as (G1 & E1 & M1). destruct (P V2 v2 t2 N2 F2 B2) as (G2 & E2 & M2). clear P N0 N1 N2.
  set (q0 := f64_mul V0 t0) in *. set (q1 := f64_mul V1 t1) in *. set (q2 := f64_mul V2 t2) in *.
  apply Rabs_le_inv in E0, E1, E2, M0, M1, M2.
  assert (MA : Rabs (B2R q0 + B2R q1) <= 16.62 * L + 2 * eta64) by (apply Rabs_le; lra).
  destruct (add_finite q0 q1 1000 G0 G1) as [G3 V3]; [lia|lra|]. pose proof (rnd_add_err q0 q1 G0 G1) as R3. rewrite <- V3 in R3.
  assert (u3 : u64 * Rabs (B2R q0 + B2R q1) <= u64 * (16.62 * L + 2 * eta64)) by (apply Rmult_le_compat_l; lra).
  assert (ue : 0 <= u64 * eta64 <= / 1000000 * eta64) by (split; [apply Rmult_le_pos|apply Rmult_le_compat_r]; lra).
  set (q3 := f64_add q0 q1) in *. apply Rabs_le_inv in R3, MA.
  assert (MB : Rabs (B2R q3 + B2R q2) <= 24.95 * L + 4 * eta64) by (apply Rabs_le; lra).
  destruct (add_finite q3 q2 1000 G3 G2) as [G4 V4]; [lia|lra|]. pose proof (rnd_add_err q3 q2 G3 G2) as R4. rewrite <- V4 in R4.
  assert (u4 : u64 * Rabs (B2R q3 + B2R q2) <= u64 * (24.95 * L + 4 * eta64)) by (apply Rmult_le_compat_l; lra). apply Rabs_le_inv in R4.
  split; [exact G4|]. apply Rabs_le. lra.
Qed.
End Translation.
