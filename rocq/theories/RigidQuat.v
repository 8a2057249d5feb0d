(** The quaternion of an increment has length one up to 21 units of rounding. *)
From Coq Require Import Reals ZArith Lra Psatz.
From Flocq Require Import Core IEEE754.BinarySingleNaN.
From Verif Require Import Base Num Vec F64 RNum Lin LinSpec LinProofs F64Proofs FloorProofs F64Err ProjF64 FlatSpec FlatProofs FlatRun LieModel LieProofs LieSmall LieF64Model RigidSpec RigidLen RigidF64.
Open Scope R_scope.

Definition B100 : R := bpow radix2 100.
Lemma B100_pos : 1 <= B100. Proof. change 1 with (bpow radix2 0). apply bpow_le. lia. Qed.
Lemma eta_B100 : eta64 * B100 <= 1e-6 * u64.
Proof.
  unfold B100, eta64. rewrite <- bpow_plus. apply Rle_trans with (u64 * bpow radix2 (-20)).
  - unfold u64. rewrite <- bpow_plus. apply bpow_le. lia.
  - pose proof u64_pos. change (bpow radix2 (-20)) with (/ IZR 1048576). lra.
Qed.

Lemma sq_finite (a : f64) : finite a -> Rabs (B2R a) <= B100 ->
  finite (f64_mul a a) /\ Rabs (B2R (f64_mul a a) - B2R a * B2R a) <= u64 * (B2R a * B2R a) + eta64 /\ 0 <= B2R a * B2R a <= bpow radix2 200.
Proof.
  intros F H. pose proof (Rle_0_sqr (B2R a)) as N. unfold Rsqr in N.
  assert (L : B2R a * B2R a <= bpow radix2 200).
  { replace (bpow radix2 200) with (B100 * B100) by (unfold B100; rewrite <- bpow_plus; reflexivity). rewrite <- (Rabs_pos_eq (B2R a * B2R a)) by lra.
    rewrite Rabs_mult. pose proof (Rabs_pos (B2R a)). apply Rmult_le_compat; lra. }
  destruct (mul_finite a a 200 F F) as (G & V); [lia|rewrite Rabs_pos_eq by lra; exact L|].
  split; [exact G|]. split; [|lra]. rewrite V. pose proof (rnd_err (B2R a * B2R a)) as E. rewrite (Rabs_pos_eq (B2R a * B2R a)) in E by lra. exact E.
Qed.

Lemma over_val n (r : R) : (1 <= n <= 2 ^ 53)%Z -> r = / IZR n -> finite (over n) /\ Rabs (B2R (over n) - r) <= u64 * r + eta64.
Proof.
  intros H ->. destruct (lit_val 1 ltac:(lia)) as [F1 V1]. destruct (lit_val n ltac:(lia)) as [Fn Vn].
  assert (N : 1 <= IZR n) by (apply IZR_le; lia). assert (I : 0 < / IZR n <= 1).
  { split; [apply Rinv_0_lt_compat; lra|]. rewrite <- Rinv_1. apply Rinv_le_contravar; lra. }
  destruct (div_finite (lit 1) (lit n) 0 F1) as (F & V); [rewrite Vn; lra|lia|rewrite V1, Vn; unfold Rdiv; rewrite Rmult_1_l, Rabs_pos_eq by lra; change (bpow radix2 0) with 1; lra|].
  split; [exact F|]. unfold over. rewrite V, V1, Vn. unfold Rdiv. rewrite Rmult_1_l. pose proof (rnd_err (/ IZR n)) as E. rewrite (Rabs_pos_eq (/ IZR n)) in E by lra. exact E.
Qed.
Lemma ap_over n (r : R) : (1 <= n <= 2 ^ 53)%Z -> r = / IZR n -> r <= 0.9 -> 0 <= r -> ap (over n) r 1 (r * 1.000001 + 1e-30).
Proof.
  intros H E L P. destruct (over_val n r H E) as [F D]. pose proof u64_pos as U. pose proof u64_small as US. pose proof eta_u as EU. pose proof eta_tiny as ET.
  assert (u64 * r <= u64 * 0.9) by (apply Rmult_le_compat_l; lra). assert (u64 * r <= / 1000000 * r) by (apply Rmult_le_compat_r; lra).
  split; [exact F|]. split; [lra|]. apply Rabs_le_inv in D. apply Rabs_le. lra.
Qed.
Lemma threshold : finite lit_1em10 /\ 0.9999e-10 <= B2R lit_1em10 <= 1.0001e-10.
Proof.
  destruct (over_val 10000000000 1e-10 ltac:(lia) ltac:(lra)) as [F D]. change lit_1em10 with (over 10000000000).
  split; [exact F|]. pose proof u64_pos as U. pose proof u64_small as US. pose proof eta_tiny as ET.
  assert (u64 * 1e-10 <= / 1000000 * 1e-10) by (apply Rmult_le_compat_r; lra). apply Rabs_le_inv in D. lra.
Qed.
Lemma ap_half : ap lit_half 0.5 0 0.5.
Proof.
  assert (F : finite lit_half) by (vm_compute; reflexivity). assert (V : B2R lit_half = 0.5).
  { rewrite <- (SF2R_B2SF 53 1024). replace (B2SF lit_half) with (SpecFloat.S754_finite false 4503599627370496 (-53)) by (vm_compute; reflexivity).
    unfold SF2R, F2R. cbn [Defs.Fnum Defs.Fexp cond_Zopp]. change (bpow radix2 (-53)) with (/ IZR 9007199254740992). lra. }
  split; [exact F|]. rewrite V. split; [rewrite Rminus_eq_0, Rabs_R0; lra|rewrite Rabs_pos_eq; lra].
Qed.
Lemma square_near (x X e B : R) : 0 <= e -> Rabs (x - X) <= e -> Rabs x <= B -> Rabs X <= B -> Rabs (x * x - X * X) <= 2 * B * e.
Proof.
  intros E D P Q. replace (x * x - X * X) with ((x - X) * (x + X)) by ring. rewrite Rabs_mult. rewrite Rmult_comm.
  pose proof (Rabs_triang x X). apply Rmult_le_compat; auto using Rabs_pos. lra.
Qed.

Section Exp.
Context (fsin fcos : f64 -> f64) (AS : accurate fsin sin) (AC : accurate fcos cos).
Context (a b c : f64) (Fa : finite a) (Fb : finite b) (Fc : finite c).
Context (Ba : Rabs (B2R a) <= B100) (Bb : Rabs (B2R b) <= B100) (Bc : Rabs (B2R c) <= B100).
Let s : R := B2R a * B2R a + B2R b * B2R b + B2R c * B2R c.
Let t : f64 := f64_add (f64_add (f64_mul a a) (f64_mul b b)) (f64_mul c c).

Lemma s_facts : 0 <= s <= 3 * bpow radix2 200 /\ B2R a * B2R a <= s /\ B2R b * B2R b <= s /\ B2R c * B2R c <= s.
Proof using Fa Fb Fc Ba Bb Bc.
  destruct (sq_finite a Fa Ba) as (_ & _ & A). destruct (sq_finite b Fb Bb) as (_ & _ & B). destruct (sq_finite c Fc Bc) as (_ & _ & C). unfold s. lra.
Qed.
Lemma sum_of_squares : finite t /\ Rabs (B2R t - s) <= 3.001 * (u64 * s) + 6 * eta64.
Proof using Fa Fb Fc Ba Bb Bc.
  destruct (sq_finite a Fa Ba) as (F1 & E1 & A1). destruct (sq_finite b Fb Bb) as (F2 & E2 & A2). destruct (sq_finite c Fc Bc) as (F3 & E3 & A3).
  unfold t, s. set (x := f64_mul a a) in *. set (y := f64_mul b b) in *. set (z := f64_mul c c) in *.
  set (A := B2R a * B2R a) in *. set (B := B2R b * B2R b) in *. set (C := B2R c * B2R c) in *. clearbody x y z A B C.
  pose proof u64_pos as U. pose proof u64_small as US. pose proof eta64_pos as E0. pose proof eta_tiny as ET.
  assert (P2 : 1 <= bpow radix2 200) by (change 1 with (bpow radix2 0); apply bpow_le; lia).
  assert (P3 : 100 * bpow radix2 200 <= bpow radix2 210).
  { change 210%Z with (10 + 200)%Z. rewrite bpow_plus. change (bpow radix2 10) with 1024. lra. }
  set (P := bpow radix2 200) in *. clearbody P.
  assert (uA : 0 <= u64 * A <= / 1000000 * A) by (split; [apply Rmult_le_pos|apply Rmult_le_compat_r]; lra).
  assert (uB : 0 <= u64 * B <= / 1000000 * B) by (split; [apply Rmult_le_pos|apply Rmult_le_compat_r]; lra).
  assert (uC : 0 <= u64 * C <= / 1000000 * C) by (split; [apply Rmult_le_pos|apply Rmult_le_compat_r]; lra).
  assert (uuA : u64 * (u64 * A) <= / 1000000 * (u64 * A)) by (apply Rmult_le_compat_r; lra).
  assert (uuB : u64 * (u64 * B) <= / 1000000 * (u64 * B)) by (apply Rmult_le_compat_r; lra).
  assert (uuC : u64 * (u64 * C) <= / 1000000 * (u64 * C)) by (apply Rmult_le_compat_r; lra).
  assert (uE : 0 <= u64 * eta64 <= / 1000000 * eta64) by (split; [apply Rmult_le_pos|apply Rmult_le_compat_r]; lra).
  apply Rabs_le_inv in E1, E2, E3.
  destruct (add_finite x y 210 F1 F2) as (F4 & V4); [lia|apply Rabs_le; lra|]. pose proof (rnd_add_err x y F1 F2) as E4. rewrite <- V4 in E4.
  set (v := f64_add x y) in *. clearbody v.
  assert (M1 : u64 * Rabs (B2R x + B2R y) <= u64 * (A + B) * 1.000002 + / 1000 * eta64).
  { apply Rle_trans with (u64 * (A + B + u64 * A + u64 * B + 2 * eta64)); [apply Rmult_le_compat_l; [lra|]; apply Rabs_le; lra|]. lra. }
  apply Rabs_le_inv in E4.
  destruct (add_finite v z 210 F4 F3) as (F5 & V5); [lia|apply Rabs_le; lra|]. pose proof (rnd_add_err v z F4 F3) as E5. rewrite <- V5 in E5.
  assert (M2 : u64 * Rabs (B2R v + B2R z) <= u64 * (A + B + C) * 1.00001 + / 1000 * eta64).
  { apply Rle_trans with (u64 * (A + B + C + 2.1 * (u64 * (A + B + C)) + 4 * eta64)); [apply Rmult_le_compat_l; [lra|]; apply Rabs_le; lra|]. lra. }
  split; [exact F5|]. apply Rabs_le_inv in E5. apply Rabs_le. lra.
Qed.

(** Small angles. *)
Let imag_small : f64 := f64_add (f64_sub lit_half (f64_mul (over 48) t)) (f64_mul (over 3840) (f64_mul t t)).
Let real_small : f64 := f64_add (f64_sub (lit 1) (f64_mul (over 8) t)) (f64_mul (over 384) (f64_mul t t)).
Definition unit_quat (w x y z : f64) : Prop := finite w /\ finite x /\ finite y /\ finite z /\
  Rabs (B2R w * B2R w + (B2R x * B2R x + B2R y * B2R y + B2R z * B2R z) - 1) <= 21 * u64.

Lemma small_unit : f64_lt t lit_1em10 = true ->
  unit_quat real_small (f64_mul imag_small a) (f64_mul imag_small b) (f64_mul imag_small c).
Proof using Fa Fb Fc Ba Bb Bc.
  intros L. destruct sum_of_squares as [Ft Et]. destruct threshold as [Fh Hh]. destruct s_facts as (S0 & Sa & Sb & Sc).
  apply f64_lt_val in L; [|apply finite_notnan; assumption|apply finite_notnan; assumption]. rewrite !finite_val in L by assumption.
  pose proof u64_pos as U. pose proof u64_small as US. pose proof u64_tiny as UT. pose proof eta_tiny as ET. pose proof eta64_pos as EP.
  assert (US2 : u64 * s <= / 1000000 * s) by (apply Rmult_le_compat_r; lra).
  apply Rabs_le_inv in Et. assert (S1 : s <= 1.001e-10) by lra.
  assert (uS : 0 <= u64 * s <= u64 * 1.001e-10) by (split; [apply Rmult_le_pos|apply Rmult_le_compat_l]; lra).
  assert (E30 : eta64 <= 1e-6 * u64) by (pose proof eta_u; lra).
  assert (Dt : Rabs (B2R t - s) <= 1e-5 * u64) by (apply Rabs_le; lra).
  assert (Pt : ap t (B2R t) 0 1.1e-10) by (apply ap_self; [exact Ft|apply Rabs_le; lra]).
  pose proof (ap_mul _ _ _ _ _ _ _ _ 2e-6 2e-20 Pt Pt ltac:(lra) ltac:(lra) ltac:(lra) ltac:(lra) ltac:(lra)) as Q.
  pose proof (ap_mul _ _ _ _ _ _ _ _ 2e-6 2.4e-12 (ap_over 48 (1 / 48) ltac:(lia) ltac:(lra) ltac:(lra) ltac:(lra)) Pt ltac:(lra) ltac:(lra) ltac:(lra) ltac:(lra) ltac:(lra)) as I1.
  pose proof (ap_mul _ _ _ _ _ _ _ _ 2e-6 1e-20 (ap_over 3840 (1 / 3840) ltac:(lia) ltac:(lra) ltac:(lra) ltac:(lra)) Q ltac:(lra) ltac:(lra) ltac:(lra) ltac:(lra) ltac:(lra)) as I2.
  pose proof (ap_sub _ _ _ _ _ _ _ _ 0.51 0.5001 ap_half I1 ltac:(lra) ltac:(lra) ltac:(lra)) as I3.
  pose proof (ap_add _ _ _ _ _ _ _ _ 1.1 0.501 I3 I2 ltac:(lra) ltac:(lra) ltac:(lra)) as I4. fold imag_small in I4.
  pose proof (ap_mul _ _ _ _ _ _ _ _ 2e-6 2e-11 (ap_over 8 (1 / 8) ltac:(lia) ltac:(lra) ltac:(lra) ltac:(lra)) Pt ltac:(lra) ltac:(lra) ltac:(lra) ltac:(lra) ltac:(lra)) as R1.
  pose proof (ap_mul _ _ _ _ _ _ _ _ 2e-6 1e-20 (ap_over 384 (1 / 384) ltac:(lia) ltac:(lra) ltac:(lra) ltac:(lra)) Q ltac:(lra) ltac:(lra) ltac:(lra) ltac:(lra) ltac:(lra)) as R2.
  pose proof (ap_sub _ _ _ _ _ _ _ _ 1.01 1.0001 ap_one R1 ltac:(lra) ltac:(lra) ltac:(lra)) as R3.
  pose proof (ap_add _ _ _ _ _ _ _ _ 2.1 1.001 R3 R2 ltac:(lra) ltac:(lra) ltac:(lra)) as R4. fold real_small in R4.
  clear Q I1 I2 I3 R1 R2 R3.
  assert (TT : Rabs (B2R t * B2R t - s * s) <= 1e-5 * u64).
  { eapply Rle_trans; [apply (square_near _ _ (1e-5 * u64) 1.1e-10); [lra|exact Dt|apply Rabs_le; lra|apply Rabs_le; lra]|]. lra. }
  apply Rabs_le_inv in Dt, TT.
  assert (I5 : ap imag_small (imag_taylor s) 1.2 0.501).
  { apply (ap_weaken _ _ (1.1 + 0.1) 0.501); [|lra|lra]. apply (ap_shift _ _ _ _ _ _ I4). unfold imag_taylor. apply Rabs_le. lra. }
  assert (R5 : ap real_small (real_taylor s) 2.2 1.001).
  { apply (ap_weaken _ _ (2.1 + 0.1) 1.001); [|lra|lra]. apply (ap_shift _ _ _ _ _ _ R4). unfold real_taylor. apply Rabs_le. lra. }
  clear I4 R4.
  assert (C : forall x, finite x -> B2R x * B2R x <= s -> ap (f64_mul imag_small x) (imag_taylor s * B2R x) 1e-3 1e-5).
  { intros x Fx Hx. assert (X : Rabs (B2R x) <= 1.1e-5).
    { rewrite <- (Rabs_pos_eq 1.1e-5) by lra. apply Rsqr_le_abs_0. unfold Rsqr. lra. }
    apply (ap_mul _ _ _ _ _ _ _ _ 1e-3 1e-5 I5 (ap_self x _ Fx X)); lra. }
  assert (NT := taylor_norm_bound s ltac:(lra) ltac:(lra)).
  assert (S3 : s * s * s / 23040 <= 1e-3 * u64).
  { assert (s * s <= 1.1e-20) by nra. assert (0 <= s * s) by nra. assert (s * s * s <= 1.2e-30) by nra.
    assert (1e-16 <= u64) by (unfold u64; change (bpow radix2 (-53)) with (/ IZR 9007199254740992); lra). lra. }
  set (g := imag_taylor s) in *. set (h := real_taylor s) in *.
  assert (G : Rabs g <= 0.6). { destruct I5 as (_ & D & K). apply Rabs_le_inv in D, K. apply Rabs_le. lra. }
  assert (Hb : Rabs h <= 1.002). { destruct R5 as (_ & D & K). apply Rabs_le_inv in D, K. apply Rabs_le. lra. }
  assert (CC : forall x, finite x -> B2R x * B2R x <= s -> finite (f64_mul imag_small x) /\
    Rabs (B2R (f64_mul imag_small x) * B2R (f64_mul imag_small x) - g * g * (B2R x * B2R x)) <= 1e-3 * u64).
  { intros x Fx Hx. destruct (C x Fx Hx) as (F & D & K). split; [exact F|].
    replace (g * g * (B2R x * B2R x)) with (g * B2R x * (g * B2R x)) by ring.
    eapply Rle_trans; [apply (square_near _ _ (1e-3 * u64) 0.5); [lra|exact D|lra|]|lra]. apply Rabs_le_inv in D, K. apply Rabs_le. lra. }
  destruct (CC a Fa Sa) as [F1 D1]. destruct (CC b Fb Sb) as [F2 D2]. destruct (CC c Fc Sc) as [F3 D3]. destruct R5 as (F4 & D4 & K4).
  assert (D5 : Rabs (B2R real_small * B2R real_small - h * h) <= 5 * u64).
  { eapply Rle_trans; [apply (square_near _ _ (2.2 * u64) 1.002); [lra|exact D4|lra|exact Hb]|lra]. }
  repeat (split; [assumption|]).
  assert (E : g * g * (B2R a * B2R a) + g * g * (B2R b * B2R b) + g * g * (B2R c * B2R c) = g * g * s) by (unfold s; ring).
  apply Rabs_le_inv in D1, D2, D3, D5. apply Rabs_le. lra.
Qed.

(** Other angles. *)
Lemma eta_u30 : eta64 <= 1e-20 * u64.
Proof.
  apply Rle_trans with (u64 * bpow radix2 (-100)); [unfold u64, eta64; rewrite <- bpow_plus; apply bpow_le; lia|].
  pose proof u64_pos. rewrite Rmult_comm. apply Rmult_le_compat_r; [lra|]. change (bpow radix2 (-100)) with (/ IZR (2 ^ 100)).
  change (2 ^ 100)%Z with 1267650600228229401496703205376%Z. lra.
Qed.
Let theta : f64 := Bsqrt mode_NE t.
Let half_theta : f64 := f64_mul lit_half theta.
Let imag_large : f64 := f64_div (fsin half_theta) theta.

Lemma large_theta : f64_lt t lit_1em10 = false ->
  finite theta /\ 0.99e-5 <= B2R theta <= bpow radix2 110 /\ Rabs (B2R theta * B2R theta - s) <= 5.2 * u64 * (B2R theta * B2R theta).
Proof using Fa Fb Fc Ba Bb Bc.
  intros L. destruct sum_of_squares as [Ft Et]. destruct threshold as [Fh Hh]. destruct s_facts as (S0 & _).
  apply f64_lt_val_false in L; [|apply finite_notnan; assumption|apply finite_notnan; assumption]. rewrite !finite_val in L by assumption.
  pose proof u64_pos as U. pose proof u64_small as US. pose proof u64_tiny as UT. pose proof eta_tiny as ET. pose proof eta64_pos as EP. pose proof eta_u30 as EU.
  assert (US2 : 0 <= u64 * s <= / 1000000 * s) by (split; [apply Rmult_le_pos|apply Rmult_le_compat_r]; lra).
  apply Rabs_le_inv in Et. assert (S1 : 0.99e-10 <= s) by lra. assert (us : u64 * 0.99e-10 <= u64 * s) by (apply Rmult_le_compat_l; lra).
  destruct (bsqrt_pos t Ft ltac:(lra)) as [Fq Vq]. fold theta in Fq, Vq. set (T := B2R t) in *.
  pose proof (rnd_err (sqrt T)) as Er. rewrite <- Vq in Er. pose proof (sqrt_sqrt T ltac:(lra)) as SS. pose proof (sqrt_pos T) as SP.
  set (r := sqrt T) in *. rewrite (Rabs_pos_eq r) in Er by lra. clearbody r.
  assert (R1 : 0.995e-5 <= r). { destruct (Rle_lt_dec 0.995e-5 r) as [G|G]; [exact G|]. assert (r * r < 0.995e-5 * 0.995e-5) by nra. lra. }
  assert (ur : u64 * 0.995e-5 <= u64 * r <= / 1000000 * r) by (split; [apply Rmult_le_compat_l|apply Rmult_le_compat_r]; lra).
  assert (R2 : r <= bpow radix2 102).
  { destruct (Rle_lt_dec r (bpow radix2 102)) as [G|G]; [exact G|]. pose proof (bpow_gt_0 radix2 102) as G0.
    assert (N : bpow radix2 102 * bpow radix2 102 < r * r) by nra. rewrite <- bpow_plus in N. change (102 + 102)%Z with (4 + 200)%Z in N. rewrite bpow_plus in N.
    change (bpow radix2 4) with 16 in N. lra. }
  assert (R3 : 10 * bpow radix2 102 <= bpow radix2 110). { change 110%Z with (8 + 102)%Z. rewrite bpow_plus. change (bpow radix2 8) with 256. pose proof (bpow_gt_0 radix2 102). lra. }
  assert (D : Rabs (B2R theta - r) <= 1.001 * (u64 * r)) by lra.
  assert (Q : Rabs (B2R theta * B2R theta - r * r) <= 2 * (1.00001 * r) * (1.001 * (u64 * r))).
  { apply square_near; [lra|exact D| |]; [apply Rabs_le_inv in D; apply Rabs_le; lra|rewrite Rabs_pos_eq; lra]. }
  replace (2 * (1.00001 * r) * (1.001 * (u64 * r))) with (2.00202002 * (u64 * (r * r))) in Q by lra. rewrite SS in Q.
  set (h := B2R theta) in *. clearbody h.
  split; [exact Fq|]. apply Rabs_le_inv in D. split; [lra|].
  apply Rabs_le_inv in Q. assert (uT : u64 * T <= / 1000000 * T) by (apply Rmult_le_compat_r; lra).
  assert (T1 : T <= 1.00001 * (h * h)) by lra. assert (T2 : s <= 1.00002 * (h * h)) by lra.
  assert (uh1 : u64 * T <= u64 * (1.00001 * (h * h))) by (apply Rmult_le_compat_l; lra).
  assert (uh2 : u64 * s <= u64 * (1.00002 * (h * h))) by (apply Rmult_le_compat_l; lra).
  apply Rabs_le. lra.
Qed.

Lemma large_unit : f64_lt t lit_1em10 = false ->
  unit_quat (fcos half_theta) (f64_mul imag_large a) (f64_mul imag_large b) (f64_mul imag_large c).
Proof using Fa Fb Fc Ba Bb Bc AS AC.
  intros L. destruct (large_theta L) as (Ft & Rt & Et). clear L. destruct s_facts as (S0 & Sa & Sb & Sc).
  pose proof u64_pos as U. pose proof u64_small as US. pose proof u64_tiny as UT. pose proof eta64_pos as EP. pose proof eta_u30 as EU.
  pose proof eta_B100 as EB. pose proof B100_pos as BP.
  assert (Fh : finite half_theta).
  { destruct ap_half as (F & _ & H). destruct (mul_finite lit_half theta 110 F Ft) as [G _]; [lia| |exact G].
    rewrite Rabs_mult, (Rabs_pos_eq (B2R theta)) by lra. pose proof (bpow_gt_0 radix2 110). pose proof (Rabs_pos (B2R lit_half)). nra. }
  destruct (AS _ Fh) as [Fs Es]. destruct (AC _ Fh) as [Fcs Ec].
  assert (U2 : bpow radix2 (-52) = 2 * u64). { unfold u64. change (-52)%Z with (1 + -53)%Z. rewrite bpow_plus. change (bpow radix2 1) with 2. reflexivity. }
  rewrite U2 in Es, Ec. pose proof (SIN_bound (B2R half_theta)) as SB. pose proof (COS_bound (B2R half_theta)) as CB.
  pose proof (sin2_cos2 (B2R half_theta)) as SC. unfold Rsqr in SC.
  set (S := sin (B2R half_theta)) in *. set (C := cos (B2R half_theta)) in *.
  set (sc := B2R (fsin half_theta)) in *. set (cc := B2R (fcos half_theta)) in *.
  assert (Hs : Rabs sc <= 1.001) by (apply Rabs_le_inv in Es; apply Rabs_le; lra). assert (Hc : Rabs cc <= 1.001) by (apply Rabs_le_inv in Ec; apply Rabs_le; lra).
  assert (Q1 : Rabs (sc * sc - S * S) <= 4.01 * u64).
  { eapply Rle_trans; [apply (square_near _ _ (2 * u64) 1.001); [lra|exact Es|exact Hs|apply Rabs_le; lra]|lra]. }
  assert (Q2 : Rabs (cc * cc - C * C) <= 4.01 * u64).
  { eapply Rle_trans; [apply (square_near _ _ (2 * u64) 1.001); [lra|exact Ec|exact Hc|apply Rabs_le; lra]|lra]. }
  set (h := B2R theta) in *. assert (Ih : 0 < / h) by (apply Rinv_0_lt_compat; lra).
  assert (Ih2 : / h <= 110000). { replace 110000 with (/ (1 / 110000)) by field. apply Rinv_le_contravar; lra. }
  assert (Hq : Rabs (sc / h) <= bpow radix2 20).
  { unfold Rdiv. rewrite Rabs_mult, (Rabs_pos_eq (/ h)) by lra. change (bpow radix2 20) with 1048576. pose proof (Rabs_pos sc). nra. }
  destruct (div_finite (fsin half_theta) theta 20 Fs) as [Fi Vi]; [fold h; lra|lia|exact Hq|]. fold imag_large in Fi, Vi. fold sc h in Vi.
  pose proof (rnd_err (sc / h)) as Ei. rewrite <- Vi in Ei. clear Vi.
  set (k := B2R imag_large) in *.
  assert (HH : 0 < h * h) by nra.
  assert (Comp : forall x, finite x -> Rabs (B2R x) <= B100 -> B2R x * B2R x <= s ->
    finite (f64_mul imag_large x) /\ Rabs (B2R (f64_mul imag_large x) * B2R (f64_mul imag_large x) - sc * sc * (B2R x / h * (B2R x / h))) <= u64 * (4.2 * (B2R x / h * (B2R x / h)) + 1e-3)).
  { intros x Fx Bx Hx. set (X := B2R x) in *. set (r := X / h) in *.
    assert (XR : X = r * h) by (unfold r; field; lra).
    assert (Rr : Rabs r <= 1.001).
    { rewrite <- (Rabs_pos_eq 1.001) by lra. apply Rsqr_le_abs_0. unfold Rsqr. apply Rabs_le_inv in Et.
      assert (u64 * (h * h) <= / 1000000 * (h * h)) by (apply Rmult_le_compat_r; lra).
      assert (N : r * r * (h * h) <= 1.00001 * (h * h)) by (replace (r * r * (h * h)) with (X * X) by (rewrite XR; ring); lra).
      apply Rmult_le_reg_r in N; [|exact HH]. lra. }
    assert (D1 : Rabs (k * X - sc * r) <= u64 * Rabs (sc * r) + 1e-6 * u64).
    { replace (k * X - sc * r) with ((k - sc / h) * X) by (rewrite XR; field; lra). rewrite Rabs_mult.
      apply Rle_trans with ((u64 * Rabs (sc / h) + eta64) * Rabs X); [apply Rmult_le_compat_r; [apply Rabs_pos|exact Ei]|].
      rewrite Rmult_plus_distr_r. apply Rplus_le_compat.
      - rewrite Rmult_assoc, <- Rabs_mult. apply Req_le. do 2 f_equal. rewrite XR. field. lra.
      - apply Rle_trans with (eta64 * B100); [apply Rmult_le_compat_l; lra|exact EB]. }
    assert (Hr : Rabs (sc * r) <= 1.001 * Rabs r) by (rewrite Rabs_mult; apply Rmult_le_compat_r; [apply Rabs_pos|exact Hs]).
    pose proof (Rabs_pos r) as R0. pose proof (Rabs_pos (sc * r)) as R0'.
    assert (uR : 0 <= u64 * Rabs r <= / 1000000 * Rabs r) by (split; [apply Rmult_le_pos|apply Rmult_le_compat_r]; lra).
    assert (uR1 : u64 * Rabs r <= u64 * 1.001) by (apply Rmult_le_compat_l; lra).
    assert (uS : u64 * Rabs (sc * r) <= u64 * (1.001 * Rabs r)) by (apply Rmult_le_compat_l; lra).
    assert (KX : Rabs (k * X) <= 1.0011 * Rabs r + 1e-6 * u64).
    { pose proof (Rabs_triang (k * X - sc * r) (sc * r)) as T. replace (k * X - sc * r + sc * r) with (k * X) in T by ring. lra. }
    destruct (mul_finite imag_large x 10 Fi Fx) as [Fv Vv]; [lia|fold k X; change (bpow radix2 10) with 1024; lra|]. fold k X in Vv.
    pose proof (rnd_err (k * X)) as Ev. rewrite <- Vv in Ev. split; [exact Fv|]. set (v := B2R (f64_mul imag_large x)) in *.
    assert (uK : u64 * Rabs (k * X) <= u64 * (1.0011 * Rabs r + 1e-6 * u64)) by (apply Rmult_le_compat_l; lra).
    assert (uu : u64 * u64 <= / 1000000 * u64) by (apply Rmult_le_compat_r; lra).
    set (m := Rabs r) in *.
    assert (D2 : Rabs (v - sc * r) <= u64 * (2.05 * m + 1e-5)).
    { replace (v - sc * r) with ((v - k * X) + (k * X - sc * r)) by ring. eapply Rle_trans; [apply Rabs_triang|]. lra. }
    assert (Vm : Rabs v <= 1.005 * m + 5e-6).
    { pose proof (Rabs_triang (v - k * X) (k * X)) as T. replace (v - k * X + k * X) with v in T by ring. lra. }
    replace (sc * sc * (r * r)) with (sc * r * (sc * r)) by ring.
    replace (v * v - sc * r * (sc * r)) with ((v - sc * r) * (v + sc * r)) by ring. rewrite Rabs_mult.
    apply Rle_trans with (u64 * (2.05 * m + 1e-5) * (2.01 * m + 1e-5)).
    { apply Rmult_le_compat; [apply Rabs_pos|apply Rabs_pos|exact D2|]. eapply Rle_trans; [apply Rabs_triang|]. lra. }
    assert (MM : m * m = r * r) by (unfold m; rewrite <- Rabs_mult; apply Rabs_pos_eq; apply Rle_0_sqr). rewrite <- MM.
    rewrite Rmult_assoc. apply Rmult_le_compat_l; [lra|]. pose proof (Rle_0_sqr m) as M2. unfold Rsqr in M2. lra. }
  destruct (Comp a Fa Ba Sa) as [F1 D1]. destruct (Comp b Fb Bb Sb) as [F2 D2]. destruct (Comp c Fc Bc Sc) as [F3 D3].
  repeat (split; [assumption|]). fold cc.
  set (ra := B2R a / h) in *. set (rb := B2R b / h) in *. set (rc := B2R c / h) in *.
  assert (Rho : Rabs (ra * ra + rb * rb + rc * rc - 1) <= 5.2 * u64).
  { replace (ra * ra + rb * rb + rc * rc - 1) with ((s - h * h) * / (h * h)) by (unfold ra, rb, rc, s; field; lra).
    rewrite Rabs_mult, (Rabs_pos_eq (/ (h * h))) by (apply Rlt_le, Rinv_0_lt_compat; lra). rewrite Rabs_minus_sym.
    apply Rmult_le_reg_r with (1 := HH). rewrite Rmult_assoc, Rinv_l by lra. lra. }
  set (n := ra * ra + rb * rb + rc * rc) in *.
  assert (SN : Rabs (sc * sc * n - sc * sc) <= 5.3 * u64).
  { replace (sc * sc * n - sc * sc) with (sc * sc * (n - 1)) by ring. rewrite Rabs_mult, Rabs_mult.
    apply Rle_trans with (1.001 * 1.001 * (5.2 * u64)); [|lra]. pose proof (Rabs_pos sc).
    apply Rmult_le_compat; [apply Rmult_le_pos; lra|apply Rabs_pos| |exact Rho]. apply Rmult_le_compat; lra. }
  apply Rabs_le_inv in Rho, SN, Q1, Q2, D1, D2, D3.
  assert (E : sc * sc * (ra * ra) + sc * sc * (rb * rb) + sc * sc * (rc * rc) = sc * sc * n) by (unfold n; ring).
  assert (E2 : u64 * (4.2 * (ra * ra) + 1e-3) + u64 * (4.2 * (rb * rb) + 1e-3) + u64 * (4.2 * (rc * rc) + 1e-3) = 4.2 * (u64 * n) + 3e-3 * u64) by (unfold n; field).
  assert (un : u64 * n <= u64 * 1.001) by (apply Rmult_le_compat_l; lra).
  apply Rabs_le. lra.
Qed.
End Exp.
