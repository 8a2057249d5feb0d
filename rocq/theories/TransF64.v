(** The translation of a pose increment against the exponential of its twist. *)
From Coq Require Import Reals ZArith List Lra Psatz.
From Flocq Require Import Core IEEE754.BinarySingleNaN.
From Verif Require Import Base Num Vec F64 RNum Lin LinSpec LieSpec LinProofs F64Proofs FloorProofs F64Err ProjF64 FlatSpec FlatProofs FlatRun LieModel LieProofs LieFlow LieSmall
  LieF64Model RigidSpec RigidLen RigidF64 RigidQuat RigidStep TransErr TransSpec.
Import ListNotations.
Open Scope R_scope.

Lemma three_close (x y z : f64) (X Y Z m : R) : 0 <= m -> Rabs (B2R x - X) <= m -> Rabs (B2R y - Y) <= m -> Rabs (B2R z - Z) <= m ->
  apart (P3 (D := Ffld) x y z) (P3 (D := Rfld) X Y Z) <= 2 * m.
Proof.
  intros M A B C. unfold apart, real3. cbn [p0 p1 p2]. apply len_le; [lra|]. unfold sub3, dot3. cbn [p0 p1 p2 nadd nmul nsub fbase Rfld Rnum]. change (car (fbase Rfld)) with R in *.
  assert (Q : forall u, Rabs u <= m -> u * u <= m * m).
  { intros u H. rewrite <- (Rabs_pos_eq (u * u)) by apply Rle_0_sqr. rewrite Rabs_mult. apply Rmult_le_compat; auto using Rabs_pos. }
  pose proof (Q _ A). pose proof (Q _ B). pose proof (Q _ C). pose proof (Rle_0_sqr m) as M2. unfold Rsqr in M2. lra.
Qed.

Section Large.
Context (fsin fcos : f64 -> f64).
Context (a b c : f64) (Fa : finite a) (Fb : finite b) (Fc : finite c).
Context (Ba : Rabs (B2R a) <= B100) (Bb : Rabs (B2R b) <= B100) (Bc : Rabs (B2R c) <= B100).
Context (t0 t1 t2 : f64) (F0 : finite t0) (F1 : finite t1) (F2 : finite t2) (L : R) (HL : L <= bpow radix2 901).
Context (L0 : Rabs (B2R t0) <= L) (L1 : Rabs (B2R t1) <= L) (L2 : Rabs (B2R t2) <= L).
Let s : R := B2R a * B2R a + B2R b * B2R b + B2R c * B2R c.
Let h : R := sqrt s.
Let t : f64 := f64_add (f64_add (f64_mul a a) (f64_mul b b)) (f64_mul c c).
Let theta : f64 := Bsqrt mode_NE t.
Let w : v6 Ffld := P6 (D := Ffld) (P3 (D := Ffld) a b c) (P3 (D := Ffld) t0 t1 t2).

Lemma exact_tra X : 0 < h -> flow (real6 w) X ->
  let k1 := (1 - cos h) / (h * h) in let k2 := (h - sin h) / (h * h * h) in
  let a := B2R a in let b := B2R b in let c := B2R c in
  tra (X 1) = P3 (D := Rfld)
    ((1 + k1 * 0 + (k2 * 0 * 0 + k2 * - c * c + k2 * b * - b)) * B2R t0 + (0 + k1 * - c + (k2 * 0 * - c + k2 * - c * 0 + k2 * b * a)) * B2R t1 + (0 + k1 * b + (k2 * 0 * b + k2 * - c * - a + k2 * b * 0)) * B2R t2)
    ((0 + k1 * c + (k2 * c * 0 + k2 * 0 * c + k2 * - a * - b)) * B2R t0 + (1 + k1 * 0 + (k2 * c * - c + k2 * 0 * 0 + k2 * - a * a)) * B2R t1 + (0 + k1 * - a + (k2 * c * b + k2 * 0 * - a + k2 * - a * 0)) * B2R t2)
    ((0 + k1 * - b + (k2 * - b * 0 + k2 * a * c + k2 * 0 * - b)) * B2R t0 + (0 + k1 * a + (k2 * - b * - c + k2 * a * 0 + k2 * 0 * a)) * B2R t1 + (1 + k1 * 0 + (k2 * - b * b + k2 * a * - a + k2 * 0 * 0)) * B2R t2).
Proof using.
  clear -h w. intros H F. cbv zeta. set (om := P3 (D := Rfld) (B2R a) (B2R b) (B2R c)).
  assert (HS : sqrt (dot3 om om) = h) by reflexivity.
  rewrite (flow_unique _ _ _ 1 F (flow_closed om (P3 (D := Rfld) (B2R t0) (B2R t1) (B2R t2)) ltac:(rewrite HS; exact H))). cbn [tra].
  unfold exp_tra, exp_V. rewrite HS, !Rmult_1_l. generalize ((1 - cos h) / (h * h)) ((h - sin h) / (h * h * h)) (B2R t0) (B2R t1) (B2R t2). unfold om. generalize (B2R a) (B2R b) (B2R c).
  clear. intros a b c k1 k2 x y z. lring.
Qed.

Lemma large_tra d X : 0.99e-10 <= B2R theta -> f64_lt theta lit_1em10 = false -> 0 <= d <= 1e-3 ->
  finite (fcos theta) -> finite (fsin theta) -> Rabs (B2R (fcos theta) - cos (B2R theta)) <= d * h -> Rabs (B2R (fsin theta) - sin (B2R theta)) <= d * h ->
  flow (real6 w) X ->
  finite3 (tra (fse3_exp fsin fcos w)) /\ apart (tra (fse3_exp fsin fcos w)) (tra (X 1)) <= 31 * ((d + 40 * u64) * L) + 8 * eta64.
Proof using Fa Fb Fc Ba Bb Bc F0 F1 F2 HL L0 L1 L2.
  intros Lth NB D0 FC FS EC ES FX. destruct (angle a b c Fa Fb Fc Ba Bb Bc) as (_ & _ & _ & A). destruct (A Lth) as (Hh & _). clear A. fold s in Hh. fold h in Hh.
  rewrite (exact_tra X ltac:(lra) FX). cbv zeta.
  destruct (s_facts a b c Fa Fb Fc Ba Bb Bc) as (S0 & Sa & Sb & Sc). fold s in S0, Sa, Sb, Sc.
  assert (Le : forall x : f64, B2R x * B2R x <= s -> Rabs (B2R x) <= h).
  { intros x Hx. unfold h. rewrite <- sqrt_Rsqr_abs. apply sqrt_le_1_alt. exact Hx. }
  pose proof (Le a Sa) as Ha. pose proof (Le b Sb) as Hb. pose proof (Le c Sc) as Hc. clear Le.
  set (z := B754_zero false : f64). set (na := (@Bopp 53 1024 a)). set (nb := (@Bopp 53 1024 b)). set (nc := (@Bopp 53 1024 c)). set (o := f64_of 1 0).
  assert (Z : finite z /\ Rabs (B2R z) <= h) by (split; [reflexivity|]; change (B2R z) with 0; rewrite Rabs_R0; lra).
  assert (Z1 : B2R z = 0) by reflexivity.
  assert (NA : B2R na = - B2R a) by apply B2R_Bopp. assert (NB1 : B2R nb = - B2R b) by apply B2R_Bopp. assert (NC : B2R nc = - B2R c) by apply B2R_Bopp.
  assert (FNA : finite na /\ Rabs (B2R na) <= h) by (split; [unfold finite, na; rewrite <- Fa; apply is_finite_Bopp|rewrite NA, Rabs_Ropp; exact Ha]).
  assert (FNB : finite nb /\ Rabs (B2R nb) <= h) by (split; [unfold finite, nb; rewrite <- Fb; apply is_finite_Bopp|rewrite NB1, Rabs_Ropp; exact Hb]).
  assert (FNC : finite nc /\ Rabs (B2R nc) <= h) by (split; [unfold finite, nc; rewrite <- Fc; apply is_finite_Bopp|rewrite NC, Rabs_Ropp; exact Hc]).
  destruct (lit_val 1 ltac:(lia)) as [Fo Vo]. change (lit 1) with o in Fo, Vo.
  assert (Bo : Rabs (B2R o) <= 1) by (rewrite Vo, Rabs_pos_eq; lra). assert (Bz : Rabs (B2R z) <= 1) by (rewrite Z1, Rabs_R0; lra).
  pose proof (conj Fa Ha) as PA. pose proof (conj Fb Hb) as PB. pose proof (conj Fc Hc) as PC.
  pose proof (entry a b c Fa Fb Fc Ba Bb Bc Lth d D0 (fcos theta) (fsin theta) FC FS EC ES) as En. fold t theta in En. fold s in En. fold h in En.
  set (C1 := f64_div (f64_sub (lit 1) (fcos theta)) t) in *. set (C2 := f64_div (f64_sub theta (fsin theta)) (f64_mul t theta)) in *.
  set (k1 := (1 - cos h) / (h * h)) in *. set (k2 := (h - sin h) / (h * h * h)) in *.
  assert (En' : forall e x x1 y1 x2 y2 x3 y3 : f64, finite e -> Rabs (B2R e) <= 1 -> finite x /\ Rabs (B2R x) <= h -> finite x1 /\ Rabs (B2R x1) <= h -> finite y1 /\ Rabs (B2R y1) <= h ->
    finite x2 /\ Rabs (B2R x2) <= h -> finite y2 /\ Rabs (B2R y2) <= h -> finite x3 /\ Rabs (B2R x3) <= h -> finite y3 /\ Rabs (B2R y3) <= h ->
    nr (f64_add (f64_add e (f64_mul C1 x)) (f64_add (f64_add (f64_mul (f64_mul C2 x1) y1) (f64_mul (f64_mul C2 x2) y2)) (f64_mul (f64_mul C2 x3) y3)))
     (B2R e + k1 * B2R x + (k2 * B2R x1 * B2R y1 + k2 * B2R x2 * B2R y2 + k2 * B2R x3 * B2R y3)) (4.6 * (d + 40 * u64)) 8.3).
  { intros e x x1 y1 x2 y2 x3 y3 He1 He2 H1 H2 H3 H4 H5 H6 H7. apply En; auto. intros v Hv. simpl in Hv. intuition (subst; auto). }
  clear En.
  pose proof (row d D0 _ _ _ _ _ _ t0 t1 t2 L (En' o z z z nc c b nb Fo Bo Z Z Z FNC PC PB FNB) (En' z nc z nc nc z b a (proj1 Z) Bz FNC Z FNC FNC Z PB PA) (En' z b z b nc na b z (proj1 Z) Bz PB Z PB FNC FNA PB Z) F0 F1 F2 L0 L1 L2 HL) as [G0 E0].
  pose proof (row d D0 _ _ _ _ _ _ t0 t1 t2 L (En' z c c z z c na nb (proj1 Z) Bz PC PC Z Z PC FNA FNB) (En' o z c nc z z na a Fo Bo Z PC FNC Z Z FNA PA) (En' z na c b z na na z (proj1 Z) Bz FNA PC PB Z FNA FNA Z) F0 F1 F2 L0 L1 L2 HL) as [G1 E1].
  pose proof (row d D0 _ _ _ _ _ _ t0 t1 t2 L (En' z nb nb z a c z nb (proj1 Z) Bz FNB FNB Z PA PC Z FNB) (En' z a nb nc a z z a (proj1 Z) Bz PA FNB FNC PA Z Z PA) (En' o z nb b a na z z Fo Bo Z FNB PB PA FNA Z Z) F0 F1 F2 L0 L1 L2 HL) as [G2 E2].
  rewrite ?Z1, ?NA, ?NB1, ?NC, ?Vo in E0, E1, E2.
  match type of G0 with finite ?x => set (X0 := x) in * end. match type of G1 with finite ?x => set (X1 := x) in * end. match type of G2 with finite ?x => set (X2 := x) in * end.
  assert (TR : tra (fse3_exp fsin fcos w) = P3 (D := Ffld) X0 X1 X2).
  { unfold fse3_exp. cbn [rv tv w tra]. change (dot3 (D := Ffld) (P3 (D := Ffld) a b c) (P3 (D := Ffld) a b c)) with t. change (fsqrt (f := Ffld) t) with theta. rewrite NB. reflexivity. }
  rewrite TR. split; [split; [exact G0|split; [exact G1|exact G2]]|].
  assert (D1 : 0 <= (d + 40 * u64) * L) by (pose proof (Rabs_pos (B2R t0)); pose proof u64_pos; apply Rmult_le_pos; lra). pose proof eta64_pos as EP.
  eapply Rle_trans; [apply (three_close X0 X1 X2 _ _ _ (15.5 * ((d + 40 * u64) * L) + 4 * eta64) ltac:(lra) E0 E1 E2)|]. lra.
Qed.
(** The small-angle branch: the rotation is the identity up to the angle. *)
Lemma small_tra X : B2R theta < 1.01e-10 -> f64_lt theta lit_1em10 = true -> flow (real6 w) X ->
  finite3 (tra (fse3_exp fsin fcos w)) /\ apart (tra (fse3_exp fsin fcos w)) (tra (X 1)) <= 1e-8 * L + 8 * eta64.
Proof using Fa Fb Fc Ba Bb Bc F0 F1 F2 HL L0 L1 L2.
  intros Lth NB FX. pose proof u64_pos as U. pose proof u64_small as US. pose proof u64_tiny as UT. pose proof eta64_pos as EP. pose proof eta_u60 as EU. pose proof eta_tiny as ET.
  destruct (s_facts a b c Fa Fb Fc Ba Bb Bc) as (S0 & Sa & Sb & Sc). fold s in S0, Sa, Sb, Sc.
  assert (Hh : 0 <= h <= 1.02e-10).
  { split; [apply sqrt_pos|]. destruct (angle a b c Fa Fb Fc Ba Bb Bc) as (_ & _ & A1 & A2). fold s t in A1, A2. fold h theta in A1, A2.
    destruct (Rlt_le_dec (B2R theta) 0.99e-10) as [G|G]; [specialize (A1 G); lra|]. destruct (A2 G) as (H1 & _ & H2). apply Rabs_le_inv in H2.
    assert (u64 * h <= / 1000000 * h) by (apply Rmult_le_compat_r; lra). lra. }
  assert (HH : h * h = s) by (apply sqrt_sqrt; lra). assert (S1 : s <= 1.1e-20).
  { rewrite <- HH. apply Rle_trans with (1.02e-10 * 1.02e-10); [apply Rmult_le_compat; lra|lra]. }
  destruct (sum_of_squares a b c Fa Fb Fc Ba Bb Bc) as [Ft Et]. fold s t in Et. fold t in Ft. pose proof (t_nonneg a b c Fa Fb Fc Ba Bb Bc) as T0. fold t in T0.
  assert (us : 0 <= u64 * s <= / 1000000 * s) by (split; [apply Rmult_le_pos|apply Rmult_le_compat_r]; lra). apply Rabs_le_inv in Et.
  assert (T1 : B2R t <= 1.2e-20) by (pose proof eta_u30; lra).
  destruct threshold as [Fh Hth].
  assert (TS : f64_lt t lit_1em10 = true).
  { destruct (f64_lt t lit_1em10) eqn:Q; [reflexivity|]. exfalso. apply f64_lt_val_false in Q; [|apply finite_notnan; assumption|apply finite_notnan; assumption]. rewrite !finite_val in Q by assumption. lra. }
  pose proof (small_unit a b c Fa Fb Fc Ba Bb Bc TS) as UQ. fold t in UQ.
  set (im := f64_add (f64_sub lit_half (f64_mul (over 48) t)) (f64_mul (over 3840) (f64_mul t t))) in *. set (re := f64_add (f64_sub (lit 1) (f64_mul (over 8) t)) (f64_mul (over 384) (f64_mul t t))) in *.
  assert (IM : ap im (0.5 - 1 / 48 * B2R t + 1 / 3840 * (B2R t * B2R t)) 1.1 0.501).
  { assert (Pt : ap t (B2R t) 0 1.1e-10) by (apply ap_self; [exact Ft|apply Rabs_le; lra]).
    pose proof (ap_mul _ _ _ _ _ _ _ _ 2e-6 2e-20 Pt Pt ltac:(lra) ltac:(lra) ltac:(lra) ltac:(lra) ltac:(lra)) as Q.
    pose proof (ap_mul _ _ _ _ _ _ _ _ 2e-6 2.4e-12 (ap_over 48 (1 / 48) ltac:(lia) ltac:(lra) ltac:(lra) ltac:(lra)) Pt ltac:(lra) ltac:(lra) ltac:(lra) ltac:(lra) ltac:(lra)) as I1.
    pose proof (ap_mul _ _ _ _ _ _ _ _ 2e-6 1e-20 (ap_over 3840 (1 / 3840) ltac:(lia) ltac:(lra) ltac:(lra) ltac:(lra)) Q ltac:(lra) ltac:(lra) ltac:(lra) ltac:(lra) ltac:(lra)) as I2.
    pose proof (ap_sub _ _ _ _ _ _ _ _ 0.51 0.5001 ap_half I1 ltac:(lra) ltac:(lra) ltac:(lra)) as I3.
    exact (ap_add _ _ _ _ _ _ _ _ 1.1 0.501 I3 I2 ltac:(lra) ltac:(lra) ltac:(lra)). }
  destruct IM as (Fi & _ & Bi).
  assert (Sm : forall x : f64, finite x -> B2R x * B2R x <= s -> Rabs (B2R (f64_mul im x)) <= 0.6e-10).
  { intros x Fx Hx. assert (Xh : Rabs (B2R x) <= 1.02e-10).
    { apply Rle_trans with h; [|lra]. unfold h. rewrite <- sqrt_Rsqr_abs. apply sqrt_le_1_alt. exact Hx. }
    assert (M : Rabs (B2R im * B2R x) <= 0.501 * 1.02e-10) by (rewrite Rabs_mult; apply Rmult_le_compat; auto using Rabs_pos).
    destruct (mul_finite im x 1000 Fi Fx) as [_ V]; [lia|pose proof big1000; lra|]. pose proof (rnd_err (B2R im * B2R x)) as Er. rewrite <- V in Er.
    assert (uM : u64 * Rabs (B2R im * B2R x) <= / 1000000 * (0.501 * 1.02e-10)) by (apply Rmult_le_compat; auto using Rabs_pos; lra).
    apply Rabs_le_inv in Er, M. apply Rabs_le. lra. }
  pose proof (Sm a Fa Sa) as Ia. pose proof (Sm b Fb Sb) as Ib. pose proof (Sm c Fc Sc) as Ic.
  set (qx := f64_mul im a) in *. set (qy := f64_mul im b) in *. set (qz := f64_mul im c) in *. destruct UQ as (Fw & Fx & Fy & Fz & N).
  assert (W : Rabs (B2R re) <= 1.001).
  { apply sq_le_abs. pose proof (Rle_0_sqr (B2R qx)). pose proof (Rle_0_sqr (B2R qy)). pose proof (Rle_0_sqr (B2R qz)). unfold Rsqr in *. apply Rabs_le_inv in N. lra. }
  destruct (rotation_entries re qx qy qz Fw Fx Fy Fz W ltac:(lra) ltac:(lra) ltac:(lra)) as [FR ER].
  assert (TR : tra (fse3_exp fsin fcos w) = mv3 (fto_rotation (mkFquat re (P3 (D := Ffld) qx qy qz))) (P3 (D := Ffld) t0 t1 t2)).
  { unfold fse3_exp. cbn [rv tv w tra]. change (dot3 (D := Ffld) (P3 (D := Ffld) a b c) (P3 (D := Ffld) a b c)) with t. change (fsqrt (f := Ffld) t) with theta. rewrite NB.
    unfold fso3_exp. change (dot3 (D := Ffld) (P3 (D := Ffld) a b c) (P3 (D := Ffld) a b c)) with t. rewrite TS. reflexivity. }
  assert (PR : forall x y : f64, Rabs (B2R x) <= 0.6e-10 -> Rabs (B2R y) <= 1.001 -> Rabs (2 * B2R x * B2R y) <= 1.3e-10).
  { intros x y Hx Hy. rewrite !Rabs_mult, (Rabs_pos_eq 2) by lra. apply Rle_trans with (2 * 0.6e-10 * 1.001); [|lra].
    apply Rmult_le_compat; [pose proof (Rabs_pos (B2R x)); lra|apply Rabs_pos|lra|exact Hy]. }
  assert (PS : forall x y : f64, Rabs (B2R x) <= 0.6e-10 -> Rabs (B2R y) <= 0.6e-10 -> Rabs (2 * B2R x * B2R y) <= 1e-19).
  { intros x y Hx Hy. rewrite !Rabs_mult, (Rabs_pos_eq 2) by lra. apply Rle_trans with (2 * 0.6e-10 * 0.6e-10); [|lra].
    apply Rmult_le_compat; [pose proof (Rabs_pos (B2R x)); lra|apply Rabs_pos|lra|exact Hy]. }
  set (Rf := fto_rotation _) in *.
  assert (NRn : forall (x : f64) (E I : R), finite x -> Rabs (B2R x - E) <= 14 * u64 -> Rabs (E - I) <= 1.4e-10 -> Rabs I <= 1 -> nr x I (4.6 * (1e-10 + 40 * u64)) 8.3).
  { intros x E I Hx H1 H2 H3. apply Rabs_le_inv in H1, H2, H3. split; [exact Hx|]. split; apply Rabs_le; lra. }
  destruct FR as ((f00 & f01 & f02) & (f10 & f11 & f12) & (f20 & f21 & f22)). destruct ER as ((e00 & e01 & e02) & (e10 & e11 & e12) & (e20 & e21 & e22)).
  unfold msub3, sub3, real33, real3, to_rotation, realq, r3 in e00, e01, e02, e10, e11, e12, e20, e21, e22.
  cbn [r0 r1 r2 p0 p1 p2 fqw fqv qw qv nsub fbase Rfld Rnum real3] in e00, e01, e02, e10, e11, e12, e20, e21, e22. unfold real3 in e00, e01, e02, e10, e11, e12, e20, e21, e22. cbn [p0 p1 p2] in e00, e01, e02, e10, e11, e12, e20, e21, e22.
  pose proof (PR qx re Ia W) as wx. pose proof (PR qy re Ib W) as wy. pose proof (PR qz re Ic W) as wz.
  pose proof (PS qx qx Ia Ia) as xx. pose proof (PS qy qy Ib Ib) as yy. pose proof (PS qz qz Ic Ic) as zz.
  pose proof (PS qy qx Ib Ia) as xy. pose proof (PS qz qx Ic Ia) as xz. pose proof (PS qz qy Ic Ib) as yz.
  apply Rabs_le_inv in wx, wy, wz, xx, yy, zz, xy, xz, yz.
  assert (O1 : Rabs 1 <= 1) by (rewrite Rabs_pos_eq; lra). assert (O0 : Rabs 0 <= 1) by (rewrite Rabs_R0; lra).
  assert (L00 : 0 <= L) by (pose proof (Rabs_pos (B2R t0)); lra).
  pose proof (row 1e-10 ltac:(lra) _ _ _ _ _ _ t0 t1 t2 L (NRn _ _ 1 f00 e00 ltac:(apply Rabs_le; lra) O1) (NRn _ _ 0 f01 e01 ltac:(apply Rabs_le; lra) O0) (NRn _ _ 0 f02 e02 ltac:(apply Rabs_le; lra) O0) F0 F1 F2 L0 L1 L2 HL) as [G0 E0].
  pose proof (row 1e-10 ltac:(lra) _ _ _ _ _ _ t0 t1 t2 L (NRn _ _ 0 f10 e10 ltac:(apply Rabs_le; lra) O0) (NRn _ _ 1 f11 e11 ltac:(apply Rabs_le; lra) O1) (NRn _ _ 0 f12 e12 ltac:(apply Rabs_le; lra) O0) F0 F1 F2 L0 L1 L2 HL) as [G1 E1].
  pose proof (row 1e-10 ltac:(lra) _ _ _ _ _ _ t0 t1 t2 L (NRn _ _ 0 f20 e20 ltac:(apply Rabs_le; lra) O0) (NRn _ _ 0 f21 e21 ltac:(apply Rabs_le; lra) O0) (NRn _ _ 1 f22 e22 ltac:(apply Rabs_le; lra) O1) F0 F1 F2 L0 L1 L2 HL) as [G2 E2].
  rewrite TR. split; [split; [exact G0|split; [exact G1|exact G2]]|].
  set (tr := P3 (D := Rfld) (B2R t0) (B2R t1) (B2R t2)).
  assert (uL : 0 <= u64 * L <= 1e-12 * L) by (split; [apply Rmult_le_pos|apply Rmult_le_compat_r]; lra).
  assert (A1 : apart (mv3 Rf (P3 (D := Ffld) t0 t1 t2)) tr <= 2 * (15.5 * ((1e-10 + 40 * u64) * L) + 4 * eta64)).
  { unfold tr.
    assert (M0 : 1 * B2R t0 + 0 * B2R t1 + 0 * B2R t2 = B2R t0) by lra. assert (M1 : 0 * B2R t0 + 1 * B2R t1 + 0 * B2R t2 = B2R t1) by lra. assert (M2 : 0 * B2R t0 + 0 * B2R t1 + 1 * B2R t2 = B2R t2) by lra.
    rewrite M0 in E0. rewrite M1 in E1. rewrite M2 in E2.
    apply three_close; [lra|exact E0|exact E1|exact E2]. }
  assert (A2 : length3 (sub3 tr (tra (X 1))) <= 1e-10 * (2 * L)).
  { assert (LT : length3 tr <= 2 * L).
    { apply len_le; [lra|]. unfold tr, dot3. cbn [p0 p1 p2 nadd nmul fbase Rfld Rnum]. change (car (fbase Rfld)) with R in *.
      assert (Q : forall u, Rabs u <= L -> u * u <= L * L). { intros u Hu. rewrite <- (Rabs_pos_eq (u * u)) by apply Rle_0_sqr. rewrite Rabs_mult. apply Rmult_le_compat; auto using Rabs_pos. }
      pose proof (Q _ L0). pose proof (Q _ L1). pose proof (Q _ L2). pose proof (Rle_0_sqr L) as M2. unfold Rsqr in M2. lra. }
    set (om := P3 (D := Rfld) (B2R a) (B2R b) (B2R c)). assert (Os : dot3 om om = s) by reflexivity.
    assert (FX' : flow (P6 (D := Rfld) om tr) X) by exact FX.
    destruct (theta_pos_or_zero om) as [P|Z].
    - rewrite (flow_unique _ _ _ 1 FX' (flow_closed om tr P)). cbn [tra]. rewrite Os in P.
      assert (SP : 0 < s) by (destruct (Rle_lt_or_eq_dec 0 s ltac:(lra)) as [Q|Q]; [exact Q|rewrite <- Q, sqrt_0 in P; lra]).
      assert (EV : exp_tra om tr 1 = mv3 (V_matrix s (sqrt s) om) tr).
      { unfold exp_tra, exp_V, V_matrix. rewrite Os, !Rmult_1_l. rewrite (sqrt_sqrt s) by lra. generalize ((1 - cos (sqrt s)) / s) ((sqrt s - sin (sqrt s)) / (s * sqrt s)). unfold tr. generalize (B2R t0) (B2R t1) (B2R t2). unfold om. generalize (B2R a) (B2R b) (B2R c). clear. intros. lring. }
      rewrite EV. pose proof (V_move_bound om tr s Os ltac:(lra)) as VM.
      set (y := mv3 (V_matrix s (sqrt s) om) tr) in *.
      assert (SW : dot3 (sub3 tr y) (sub3 tr y) = dot3 (sub3 y tr) (sub3 y tr)) by (clear; destruct tr, y; lring).
      apply len_le; [lra|]. rewrite SW. pose proof (len_sq tr) as LS. pose proof (len_nonneg tr) as LN.
      assert (D1 : dot3 tr tr <= 2 * L * (2 * L)) by (rewrite <- LS; apply Rmult_le_compat; lra).
      assert (D0 : 0 <= dot3 tr tr) by apply dot3_self_nonneg. change (car (fbase Rfld)) with R in *. fold y in VM.
      assert (0.3 * s * dot3 tr tr <= 1e-20 * (2 * L * (2 * L))) by (apply Rmult_le_compat; lra). lra.
    - rewrite Z in FX'. rewrite (flow_unique _ _ _ 1 FX' (flow_straight tr)). cbn [tra].
      assert (SZ : length3 (sub3 tr (scale3 (1 : car Rfld) tr)) = 0).
      { assert (DZ : forall q : v3 Rfld, dot3 (sub3 q (scale3 (1 : car Rfld) q)) (sub3 q (scale3 (1 : car Rfld) q)) = (0 : car Rfld)) by (clear; intros q; destruct q; lring).
        unfold length3. rewrite DZ. apply sqrt_0. }
      rewrite SZ. lra. }
  unfold apart in *. set (x := real3 _) in *.
  replace (sub3 x (tra (X 1))) with (add3 (sub3 x tr) (sub3 tr (tra (X 1)))) by (clear; destruct x, tr, (tra (X 1)); lring).
  eapply Rle_trans; [apply len_add|]. lra.
Qed.
End Large.
