(** Rounding in the exponential map and in products of rotations. *)
From Coq Require Import Reals ZArith Lra Psatz.
From Flocq Require Import Core IEEE754.BinarySingleNaN.
From Flocq.Prop Require Import Mult_error.
From Verif Require Import Base Num Vec F64 RNum Lin LinSpec LinProofs F64Proofs FloorProofs F64Err ProjF64 FlatSpec FlatProofs FlatRun LieModel LieProofs LieSmall LieF64Model RigidSpec RigidLen.
Open Scope R_scope.

(** [x] is finite, stands for [X] up to [e] units of rounding, and is at most [B]. *)
Definition ap (x : f64) (X e B : R) : Prop := finite x /\ Rabs (B2R x - X) <= e * u64 /\ Rabs (B2R x) <= B.

Lemma eta_tiny : eta64 <= 1e-30.
Proof.
  apply Rle_trans with (bpow radix2 (-100)); [apply bpow_le; lia|]. change (bpow radix2 (-100)) with (/ IZR (2 ^ 100)). 
  change (2 ^ 100)%Z with 1267650600228229401496703205376%Z. lra.
Qed.
Lemma big1000 : 1000 <= bpow radix2 1000.
Proof. apply Rle_trans with (bpow radix2 10); [change (bpow radix2 10) with (IZR 1024); lra|apply bpow_le; lia]. Qed.

Lemma ap_intro x X e B : finite x -> Rabs (B2R x - X) <= e * u64 -> Rabs X + e * u64 <= B -> ap x X e B.
Proof.
  intros F H K. split; [exact F|]. split; [exact H|]. pose proof (Rabs_triang (B2R x - X) X) as T. replace (B2R x - X + X) with (B2R x) in T by ring. lra.
Qed.
Lemma ap_weaken x X e B e' B' : ap x X e B -> e <= e' -> B <= B' -> ap x X e' B'.
Proof.
  intros (F & H & K) E Q. pose proof u64_pos. split; [exact F|]. split; [|lra]. apply Rle_trans with (1 := H). apply Rmult_le_compat_r; lra.
Qed.
Lemma ap_shift x X Y e d B : ap x X e B -> Rabs (X - Y) <= d * u64 -> ap x Y (e + d) B.
Proof.
  intros (F & H & K) E. split; [exact F|]. split; [|exact K]. replace (B2R x - Y) with ((B2R x - X) + (X - Y)) by ring.
  eapply Rle_trans; [apply Rabs_triang|]. lra.
Qed.

Lemma ap_add x X e B y Y f C e' B' : ap x X e B -> ap y Y f C -> B + C <= 1000 -> e + f + (B + C) <= e' -> (B + C) * 1.000001 <= B' ->
  ap (f64_add x y) (X + Y) e' B'.
Proof.
  intros (Fx & Hx & Kx) (Fy & Hy & Ky) L E Q. pose proof u64_pos as U. pose proof u64_small as US.
  pose proof (Rabs_triang (B2R x) (B2R y)) as T. pose proof (Rabs_pos (B2R x)). pose proof (Rabs_pos (B2R y)).
  destruct (add_finite x y 1000 Fx Fy) as (F & V); [lia|pose proof big1000; lra|]. pose proof (rnd_add_err x y Fx Fy) as Er. rewrite <- V in Er.
  assert (UB : u64 * Rabs (B2R x + B2R y) <= u64 * (B + C)) by (apply Rmult_le_compat_l; lra).
  assert (UB2 : u64 * (B + C) <= / 1000000 * (B + C)) by (apply Rmult_le_compat_r; lra).
  assert (UE : (e + f + (B + C)) * u64 <= e' * u64) by (apply Rmult_le_compat_r; lra).
  split; [exact F|]. apply Rabs_le_inv in Er, Hx, Hy. apply Rabs_le_inv in T. split; apply Rabs_le; lra.
Qed.
Lemma ap_sub x X e B y Y f C e' B' : ap x X e B -> ap y Y f C -> B + C <= 1000 -> e + f + (B + C) + 1e-6 <= e' -> (B + C) * 1.000001 + 1e-30 <= B' ->
  ap (f64_sub x y) (X - Y) e' B'.
Proof.
  intros (Fx & Hx & Kx) (Fy & Hy & Ky) L E Q. pose proof u64_pos as U. pose proof u64_small as US. pose proof eta_u as EU. pose proof eta_tiny as ET.
  pose proof (Rabs_triang (B2R x) (- B2R y)) as T. rewrite Rabs_Ropp in T. pose proof (Rabs_pos (B2R x)). pose proof (Rabs_pos (B2R y)).
  change (B2R x + - B2R y) with (B2R x - B2R y) in T.
  destruct (sub_finite x y 1000 Fx Fy) as (F & V); [lia|pose proof big1000; lra|]. pose proof (rnd_err (B2R x - B2R y)) as Er. rewrite <- V in Er.
  assert (UB : u64 * Rabs (B2R x - B2R y) <= u64 * (B + C)) by (apply Rmult_le_compat_l; lra).
  assert (UB2 : u64 * (B + C) <= / 1000000 * (B + C)) by (apply Rmult_le_compat_r; lra).
  assert (UE : (e + f + (B + C) + 1e-6) * u64 <= e' * u64) by (apply Rmult_le_compat_r; lra).
  split; [exact F|]. apply Rabs_le_inv in Er, Hx, Hy. apply Rabs_le_inv in T. split; apply Rabs_le; lra.
Qed.
Lemma ap_mul x X e B y Y f C e' B' : ap x X e B -> ap y Y f C -> 0 <= e -> 0 <= f -> B * C <= 1000 ->
  B * f + (C + f * 1e-12) * e + B * C + 1e-6 <= e' -> B * C * 1.000001 + 1e-30 <= B' ->
  ap (f64_mul x y) (X * Y) e' B'.
Proof.
  intros (Fx & Hx & Kx) (Fy & Hy & Ky) E0 F0 L E Q. pose proof u64_pos as U. pose proof u64_small as US. pose proof u64_tiny as UT. pose proof eta_u as EU. pose proof eta_tiny as ET.
  pose proof (Rabs_pos (B2R x)). pose proof (Rabs_pos (B2R y)).
  assert (P : Rabs (B2R x * B2R y) <= B * C) by (rewrite Rabs_mult; apply Rmult_le_compat; lra).
  destruct (mul_finite x y 1000 Fx Fy) as (F & V); [lia|pose proof big1000; lra|]. pose proof (rnd_err (B2R x * B2R y)) as Er. rewrite <- V in Er.
  assert (BC : 0 <= B * C) by (apply Rmult_le_pos; lra).
  assert (UB : u64 * Rabs (B2R x * B2R y) <= u64 * (B * C)) by (apply Rmult_le_compat_l; lra).
  assert (UB2 : u64 * (B * C) <= / 1000000 * (B * C)) by (apply Rmult_le_compat_r; lra).
  assert (UE : (B * f + (C + f * 1e-12) * e + B * C + 1e-6) * u64 <= e' * u64) by (apply Rmult_le_compat_r; lra).
  assert (YB : Rabs Y <= C + f * 1e-12).
  { pose proof (Rabs_triang (- (B2R y - Y)) (B2R y)) as T. rewrite Rabs_Ropp in T. replace (- (B2R y - Y) + B2R y) with Y in T by ring.
    assert (f * u64 <= f * 1e-12) by (apply Rmult_le_compat_l; lra). lra. }
  assert (D : Rabs (B2R x * B2R y - X * Y) <= B * (f * u64) + (C + f * 1e-12) * (e * u64)).
  { replace (B2R x * B2R y - X * Y) with (B2R x * (B2R y - Y) + Y * (B2R x - X)) by ring.
    eapply Rle_trans; [apply Rabs_triang|]. rewrite !Rabs_mult. apply Rplus_le_compat; apply Rmult_le_compat; auto using Rabs_pos. }
  split; [exact F|]. apply Rabs_le_inv in Er, D. apply Rabs_le_inv in P. split; apply Rabs_le; lra.
Qed.
(** Doubling is exact. *)
Lemma lit_val n : (Z.abs n <= 2 ^ 53)%Z -> finite (lit n) /\ B2R (lit n) = IZR n.
Proof. apply f64_of_int. Qed.
Lemma ap_twice x X e B : ap x X e B -> B <= 100 -> 0 <= B -> ap (f64_mul (lit 2) x) (2 * X) (2 * e) (2 * B).
Proof.
  intros (Fx & Hx & Kx) L B0. destruct (lit_val 2 ltac:(lia)) as [F2 V2].
  destruct (mul_finite (lit 2) x 1000 F2 Fx) as (F & V); [lia| |].
  { rewrite V2, Rabs_mult, (Rabs_pos_eq 2) by lra. pose proof big1000. lra. }
  assert (G : rnd (2 * B2R x) = 2 * B2R x).
  { apply round_generic; [typeclasses eauto|]. replace (2 * B2R x) with (B2R x * bpow radix2 1) by (change (bpow radix2 1) with 2; ring).
    change fexp64 with (FLT_exp (SpecFloat.emin 53 1024) 53). apply mult_bpow_pos_exact_FLT; [|lia]. apply generic_format_B2R. }
  rewrite V2, G in V. split; [exact F|]. rewrite V. replace (2 * B2R x - 2 * X) with (2 * (B2R x - X)) by ring.
  rewrite !Rabs_mult, (Rabs_pos_eq 2) by lra. split; lra.
Qed.

(** toRotationMatrix: every entry within 14 units of the exact one. *)
Definition realq (q : fquat) : quat := mkQuat (B2R (fqw q)) (real3 (fqv q)).
Lemma ap_self x B : finite x -> Rabs (B2R x) <= B -> ap x (B2R x) 0 B.
Proof. intros F H. split; [exact F|]. split; [|exact H]. rewrite Rminus_eq_0, Rabs_R0. lra. Qed.
Lemma ap_one : ap (lit 1) 1 0 1.
Proof. destruct (lit_val 1 ltac:(lia)) as [F V]. split; [exact F|]. rewrite V. split; [rewrite Rminus_eq_0, Rabs_R0; lra|rewrite Rabs_pos_eq; lra]. Qed.

Definition close_entry (x : f64) (X e : R) : Prop := finite x /\ Rabs (B2R x - X) <= e * u64.
Lemma ap_close x X e B : ap x X e B -> close_entry x X e. Proof. intros (F & H & _). split; assumption. Qed.

Section Quat.
Context (w x y z : f64).
Context (Fw : finite w) (Fx : finite x) (Fy : finite y) (Fz : finite z).
Context (Bw : Rabs (B2R w) <= 1.001) (Bx : Rabs (B2R x) <= 1.001) (By : Rabs (B2R y) <= 1.001) (Bz : Rabs (B2R z) <= 1.001).
Lemma ap_prod a b : finite a -> finite b -> Rabs (B2R a) <= 1.001 -> Rabs (B2R b) <= 1.001 ->
  ap (f64_mul (f64_mul (lit 2) a) b) (2 * B2R a * B2R b) 2.005 2.005.
Proof.
  intros Fa Fb A B. pose proof (ap_twice a _ _ _ (ap_self a _ Fa A) ltac:(lra) ltac:(lra)) as T.
  apply (ap_mul _ _ _ _ _ _ _ _ 2.005 2.005 T (ap_self b _ Fb B)); lra.
Qed.
Lemma diag_entry a b c d : finite a -> finite b -> finite c -> finite d -> Rabs (B2R a) <= 1.001 -> Rabs (B2R b) <= 1.001 -> Rabs (B2R c) <= 1.001 -> Rabs (B2R d) <= 1.001 ->
  close_entry (f64_sub (lit 1) (f64_add (f64_mul (f64_mul (lit 2) a) b) (f64_mul (f64_mul (lit 2) c) d))) (1 - (2 * B2R a * B2R b + 2 * B2R c * B2R d)) 14.
Proof.
  intros. pose proof (ap_add _ _ _ _ _ _ _ _ 8.02 4.011 (ap_prod a b ltac:(auto) ltac:(auto) ltac:(auto) ltac:(auto)) (ap_prod c d ltac:(auto) ltac:(auto) ltac:(auto) ltac:(auto)) ltac:(lra) ltac:(lra) ltac:(lra)) as S.
  pose proof (ap_sub _ _ _ _ _ _ _ _ 14 6 ap_one S ltac:(lra) ltac:(lra) ltac:(lra)) as T. exact (ap_close _ _ _ _ T).
Qed.
Lemma sum_entry a b c d : finite a -> finite b -> finite c -> finite d -> Rabs (B2R a) <= 1.001 -> Rabs (B2R b) <= 1.001 -> Rabs (B2R c) <= 1.001 -> Rabs (B2R d) <= 1.001 ->
  close_entry (f64_add (f64_mul (f64_mul (lit 2) a) b) (f64_mul (f64_mul (lit 2) c) d)) (2 * B2R a * B2R b + 2 * B2R c * B2R d) 14.
Proof.
  intros. pose proof (ap_add _ _ _ _ _ _ _ _ 14 6 (ap_prod a b ltac:(auto) ltac:(auto) ltac:(auto) ltac:(auto)) (ap_prod c d ltac:(auto) ltac:(auto) ltac:(auto) ltac:(auto)) ltac:(lra) ltac:(lra) ltac:(lra)) as S.
  exact (ap_close _ _ _ _ S).
Qed.
Lemma dif_entry a b c d : finite a -> finite b -> finite c -> finite d -> Rabs (B2R a) <= 1.001 -> Rabs (B2R b) <= 1.001 -> Rabs (B2R c) <= 1.001 -> Rabs (B2R d) <= 1.001 ->
  close_entry (f64_sub (f64_mul (f64_mul (lit 2) a) b) (f64_mul (f64_mul (lit 2) c) d)) (2 * B2R a * B2R b - 2 * B2R c * B2R d) 14.
Proof.
  intros. pose proof (ap_sub _ _ _ _ _ _ _ _ 14 6 (ap_prod a b ltac:(auto) ltac:(auto) ltac:(auto) ltac:(auto)) (ap_prod c d ltac:(auto) ltac:(auto) ltac:(auto) ltac:(auto)) ltac:(lra) ltac:(lra) ltac:(lra)) as S.
  exact (ap_close _ _ _ _ S).
Qed.

Let q : fquat := mkFquat w (P3 (D := Ffld) x y z).
Definition finite33 (M : m3 Ffld) : Prop := finite3 (r0 M) /\ finite3 (r1 M) /\ finite3 (r2 M).
Lemma rotation_entries : finite33 (fto_rotation q) /\ entries (14 * u64) (msub3 (real33 (fto_rotation q)) (to_rotation (realq q))).
Proof using Fw Fx Fy Fz Bw Bx By Bz.
  pose proof (diag_entry y y z z Fy Fy Fz Fz By By Bz Bz) as [Fa Ea]. pose proof (dif_entry y x z w Fy Fx Fz Fw By Bx Bz Bw) as [Fb Eb].
  pose proof (sum_entry z x y w Fz Fx Fy Fw Bz Bx By Bw) as [Fc Ec]. pose proof (sum_entry y x z w Fy Fx Fz Fw By Bx Bz Bw) as [Fd Ed].
  pose proof (diag_entry x x z z Fx Fx Fz Fz Bx Bx Bz Bz) as [Fe Ee]. pose proof (dif_entry z y x w Fz Fy Fx Fw Bz By Bx Bw) as [Ff Ef].
  pose proof (dif_entry z x y w Fz Fx Fy Fw Bz Bx By Bw) as [Fg Eg]. pose proof (sum_entry z y x w Fz Fy Fx Fw Bz By Bx Bw) as [Fh Eh].
  pose proof (diag_entry x x y y Fx Fx Fy Fy Bx Bx By By) as [Fi Ei].
  split.
  - unfold finite33, finite3, fto_rotation, q. cbn [r0 r1 r2 p0 p1 p2 fqw fqv]. repeat split; assumption.
  - unfold entries, msub3, sub3, real33, real3, fto_rotation, to_rotation, realq, q, r3.
    cbn [r0 r1 r2 p0 p1 p2 fqw fqv qw qv nsub fbase Rfld Rnum real3]. unfold real3. cbn [p0 p1 p2]. repeat split; assumption.
Qed.
End Quat.
