(** Increments and products of nearly rigid rotations are nearly rigid. *)
From Coq Require Import Reals ZArith Lra Psatz List.
From Flocq Require Import Core IEEE754.BinarySingleNaN.
From Verif Require Import Base Num Vec F64 RNum Lin LinSpec LinProofs F64Proofs F64Err FlatSpec FlatProofs FlatRun LieModel LieProofs LieSmall LieF64Model RigidSpec RigidLen RigidF64 RigidQuat.
Import ListNotations.
Open Scope R_scope.

Lemma sq_le_abs (x : R) : x * x <= 1.0005 -> Rabs x <= 1.001.
Proof. intros H. rewrite <- (Rabs_pos_eq 1.001) by lra. apply Rsqr_le_abs_0. unfold Rsqr. lra. Qed.

(** The exact matrix of a quaternion of length nearly one. *)
Lemma near_unit_stretch (q : quat) k : 0 <= k <= 1e-6 -> Rabs (qnorm2 q - 1) <= k -> stretch (2.01 * k) (to_rotation q) /\ Rabs (det3 (to_rotation q) - 1) <= 4.01 * k.
Proof.
  intros K H. assert (V : 0 <= dot3 (qv q) (qv q) <= 1.001).
  { pose proof (dot3_self_nonneg (qv q)). pose proof (Rle_0_sqr (qw q)) as W. unfold Rsqr in W. unfold qnorm2 in H. apply Rabs_le_inv in H. change (car (fbase Rfld)) with R in *. lra. }
  split.
  - intros x. pose proof (to_rotation_norm q x) as N. pose proof (cross_bound (qv q) x) as [C0 C1].
    pose proof (len_sq x) as X. pose proof (len_sq (mv3 (to_rotation q) x)) as Y. pose proof (len_nonneg x) as LX. pose proof (len_nonneg (mv3 (to_rotation q) x)) as LY.
    rewrite <- X, <- Y in N. rewrite <- X in C1. set (d := qnorm2 q - 1) in *. set (c := dot3 (mv3 (skew (qv q)) x) _) in *. set (v := dot3 (qv q) (qv q)) in *.
    set (a := length3 (mv3 (to_rotation q) x)) in *. set (b := length3 x) in *. change (car (fbase Rfld)) with R in *. clearbody a b c d v. clear X Y.
    assert (B2 : 0 <= b * b) by nra. assert (CB : c <= 1.001 * (b * b)) by (apply Rle_trans with (1 := C1); apply Rmult_le_compat_r; lra).
    assert (P : Rabs (a * a - b * b) <= 4.004 * k * (b * b)).
    { replace (a * a - b * b) with (4 * d * c) by lra. rewrite !Rabs_mult, (Rabs_pos_eq 4), (Rabs_pos_eq c) by lra.
      replace (4.004 * k * (b * b)) with (4 * k * (1.001 * (b * b))) by lra. apply Rmult_le_compat; [pose proof (Rabs_pos d); lra|lra|lra|lra]. }
    destruct (Req_dec b 0) as [Z|Z].
    { subst b. rewrite Rmult_0_l, Rmult_0_r in P. rewrite Rmult_0_r. apply Rabs_le_inv in P. assert (a * a = 0) by lra. assert (a = 0) by nra. subst a. rewrite Rminus_0_r, Rabs_R0. lra. }
    assert (BP : 0 < b) by lra. assert (A1 : 0.999 * b <= a).
    { destruct (Rle_lt_dec (0.999 * b) a) as [G|G]; [exact G|]. exfalso. assert (a * a <= 0.999 * b * (0.999 * b)) by (apply Rmult_le_compat; lra).
      apply Rabs_le_inv in P. assert (0 < b * b) by nra. assert (4.004 * k * (b * b) <= 4.004 * 1e-6 * (b * b)) by (apply Rmult_le_compat_r; lra). lra. }
    assert (M : Rabs (a - b) * (1.999 * b) <= 2.01 * k * b * (1.999 * b)).
    { apply Rle_trans with (Rabs (a - b) * (a + b)); [apply Rmult_le_compat_l; [apply Rabs_pos|lra]|].
      rewrite <- (Rabs_pos_eq (a + b)) at 1 by lra. rewrite <- Rabs_mult. replace ((a - b) * (a + b)) with (a * a - b * b) by ring.
      apply Rle_trans with (1 := P). assert (0 <= k * (b * b)) by (apply Rmult_le_pos; lra). lra. }
    apply Rmult_le_reg_r in M; [exact M|lra].
  - rewrite to_rotation_det. set (d := qnorm2 q) in *. set (v := dot3 (qv q) (qv q)) in *. change (car (fbase Rfld)) with R in *.
    replace (1 - 4 * v * (1 - d) - 1) with (4 * v * (d - 1)) by ring. rewrite !Rabs_mult, (Rabs_pos_eq 4), (Rabs_pos_eq v) by lra.
    apply Rle_trans with (4 * 1.001 * k); [|lra]. apply Rmult_le_compat; [lra|apply Rabs_pos|lra|exact H].
Qed.

Lemma entries_weaken f g M : entries f M -> f <= g -> entries g M.
Proof. unfold entries. intros ((? & ? & ?) & (? & ? & ?) & (? & ? & ?)) FG. repeat split; lra. Qed.
Lemma stretch_weaken f g M : stretch f M -> f <= g -> stretch g M.
Proof. intros S H x. pose proof (len_nonneg x). apply Rle_trans with (1 := S x). apply Rmult_le_compat_r; lra. Qed.

Section Increment.
Context (fsin fcos : f64 -> f64) (AS : accurate fsin sin) (AC : accurate fcos cos).

Lemma increment_unit (w : v3 Ffld) : tame w ->
  let q := fso3_exp fsin fcos w in unit_quat (fqw q) (p0 (fqv q)) (p1 (fqv q)) (p2 (fqv q)).
Proof using AS AC.
  destruct w as [a b c]. intros ((Fa & Fb & Fc) & Ba & Bb & Bc). cbn [p0 p1 p2] in *. cbv zeta. unfold fso3_exp.
  set (t := f64_add (f64_add (f64_mul (a : f64) a) (f64_mul b b)) (f64_mul c c)).
  change (dot3 (P3 a b c) (P3 a b c)) with t. destruct (f64_lt t lit_1em10) eqn:L.
  - exact (small_unit a b c Fa Fb Fc Ba Bb Bc L).
  - exact (large_unit fsin fcos AS AC a b c Fa Fb Fc Ba Bb Bc L).
Qed.

Lemma increment_rigid (d : v6 Ffld) : tame (rv d) -> rigid_within (87 * u64) (rot (fse3_exp fsin fcos d)).
Proof using AS AC.
  intros T. pose proof (increment_unit (rv d) T) as H. cbv zeta in H. change (rot (fse3_exp fsin fcos d)) with (fto_rotation (fso3_exp fsin fcos (rv d))).
  destruct (fso3_exp fsin fcos (rv d)) as [w [x y z]]. cbn [fqw fqv p0 p1 p2] in H. destruct H as (Fw & Fx & Fy & Fz & N).
  change (car (fbase Ffld)) with f64 in *. pose proof u64_pos as U. pose proof u64_tiny as UT.
  pose proof (Rle_0_sqr (B2R w)) as Qw. pose proof (Rle_0_sqr (B2R x)) as Qx. pose proof (Rle_0_sqr (B2R y)) as Qy. pose proof (Rle_0_sqr (B2R z)) as Qz. unfold Rsqr in *.
  pose proof (Rabs_le_inv _ _ N) as N'.
  destruct (rotation_entries w x y z Fw Fx Fy Fz) as [F E]; [apply sq_le_abs; lra|apply sq_le_abs; lra|apply sq_le_abs; lra|apply sq_le_abs; lra|].
  destruct (near_unit_stretch (realq (mkFquat w (P3 (D := Ffld) x y z))) (21 * u64)) as [S D]; [lra|exact N|].
  set (M := to_rotation (realq _)) in *. set (R0 := fto_rotation _) in *.
  pose proof (stretch_near _ (14 * u64) _ _ ltac:(lra) S E) as S2.
  split; [exact F|]. split.
  - apply (stretch_weaken _ _ _ S2). lra.
  - pose proof (stretch_entries _ _ S) as EM. pose proof (stretch_entries _ _ S2) as EN.
    pose proof (det_near 1.001 (14 * u64) M (real33 R0) ltac:(lra) (entries_weaken _ 1.001 _ EM ltac:(lra)) (entries_weaken _ 1.001 _ EN ltac:(lra)) E) as DN.
    apply Rabs_le_inv in DN, D. lra.
Qed.
End Increment.

(** Rounded products. *)
Lemma dot_near (a b c d e f : f64) : finite a -> finite b -> finite c -> finite d -> finite e -> finite f ->
  Rabs (B2R a) <= 1.01 -> Rabs (B2R b) <= 1.01 -> Rabs (B2R c) <= 1.01 -> Rabs (B2R d) <= 1.01 -> Rabs (B2R e) <= 1.01 -> Rabs (B2R f) <= 1.01 ->
  close_entry (f64_add (f64_add (f64_mul a d) (f64_mul b e)) (f64_mul c f)) (B2R a * B2R d + B2R b * B2R e + B2R c * B2R f) 8.3.
Proof.
  intros. assert (P : forall x y, finite x -> finite y -> Rabs (B2R x) <= 1.01 -> Rabs (B2R y) <= 1.01 -> ap (f64_mul x y) (B2R x * B2R y) 1.0202 1.0202).
  { intros x y Fx Fy Hx Hy. apply (ap_mul _ _ _ _ _ _ _ _ 1.0202 1.0202 (ap_self x _ Fx Hx) (ap_self y _ Fy Hy)); lra. }
  pose proof (ap_add _ _ _ _ _ _ _ _ 4.0809 2.0405 (P a d ltac:(auto) ltac:(auto) ltac:(auto) ltac:(auto)) (P b e ltac:(auto) ltac:(auto) ltac:(auto) ltac:(auto)) ltac:(lra) ltac:(lra) ltac:(lra)) as S.
  pose proof (ap_add _ _ _ _ _ _ _ _ 8.3 4 S (P c f ltac:(auto) ltac:(auto) ltac:(auto) ltac:(auto)) ltac:(lra) ltac:(lra) ltac:(lra)) as T.
  exact (ap_close _ _ _ _ T).
Qed.
Lemma mm_entries (M N : m3 Ffld) : finite33 M -> finite33 N -> entries 1.01 (real33 M) -> entries 1.01 (real33 N) ->
  finite33 (mm3 M N) /\ entries (8.3 * u64) (msub3 (real33 (mm3 M N)) (mm3 (real33 M) (real33 N))).
Proof.
  destruct M as [[a1 a2 a3] [b1 b2 b3] [c1 c2 c3]], N as [[t1 t2 t3] [q1 q2 q3] [s1 s2 s3]].
  intros ((A1 & A2 & A3) & (B1 & B2 & B3) & (C1 & C2 & C3)) ((P1 & P2 & P3) & (Q1 & Q2 & Q3) & (S1 & S2 & S3))
    ((HA1 & HA2 & HA3) & (HB1 & HB2 & HB3) & (HC1 & HC2 & HC3)) ((HP1 & HP2 & HP3) & (HQ1 & HQ2 & HQ3) & (HS1 & HS2 & HS3)).
  unfold real33, real3 in *. cbn [r0 r1 r2 p0 p1 p2] in *. change (car (fbase Ffld)) with f64 in *.
  destruct (dot_near a1 a2 a3 t1 q1 s1) as [F1 E1]; auto. destruct (dot_near a1 a2 a3 t2 q2 s2) as [F2 E2]; auto. destruct (dot_near a1 a2 a3 t3 q3 s3) as [F3 E3]; auto.
  destruct (dot_near b1 b2 b3 t1 q1 s1) as [F4 E4]; auto. destruct (dot_near b1 b2 b3 t2 q2 s2) as [F5 E5]; auto. destruct (dot_near b1 b2 b3 t3 q3 s3) as [F6 E6]; auto.
  destruct (dot_near c1 c2 c3 t1 q1 s1) as [F7 E7]; auto. destruct (dot_near c1 c2 c3 t2 q2 s2) as [F8 E8]; auto. destruct (dot_near c1 c2 c3 t3 q3 s3) as [F9 E9]; auto.
  split; [repeat split; assumption|]. repeat split; assumption.
Qed.

Lemma compose_rigid d e (M N : m3 Ffld) : 0 <= d -> 0 <= e -> (1 + d) * (1 + e) <= 1.01 -> rigid_within d M -> rigid_within e N ->
  rigid_within ((1 + d) * (1 + e) * (1 + 40 * u64) - 1) (mm3 M N).
Proof.
  intros D0 E0 L (FM & SM & DM) (FN & SN & DN). pose proof u64_pos as U. pose proof u64_tiny as UT.
  change (stretch d (real33 M)) in SM. change (stretch e (real33 N)) in SN. assert (DE : 0 <= d * e) by (apply Rmult_le_pos; lra).
  assert (D1 : d <= 0.01) by lra. assert (E1 : e <= 0.01) by lra.
  destruct (mm_entries M N FM FN (entries_weaken _ 1.01 _ (stretch_entries _ _ SM) ltac:(lra)) (entries_weaken _ 1.01 _ (stretch_entries _ _ SN) ltac:(lra))) as [F E].
  pose proof (stretch_mm d e _ _ ltac:(lra) ltac:(lra) SM SN) as S. pose proof (stretch_near _ (8.3 * u64) _ _ ltac:(lra) S E) as S2.
  assert (uDE : 0 <= u64 * (d + e + d * e)) by (apply Rmult_le_pos; lra).
  split; [exact F|]. split.
  - apply (stretch_weaken _ _ _ S2). lra.
  - pose proof (det_near 1.01001 (8.3 * u64) _ (real33 (mm3 M N)) ltac:(lra) (entries_weaken _ 1.01001 _ (stretch_entries _ _ S) ltac:(lra)) (entries_weaken _ 1.01001 _ (stretch_entries _ _ S2) ltac:(lra)) E) as DD.
    rewrite det_mm in DD. assert (P : (1 - 4 * d) * (1 - 4 * e) <= det3 (real33 M) * det3 (real33 N)) by (apply Rmult_le_compat; lra).
    apply Rabs_le_inv in DD. lra.
Qed.
