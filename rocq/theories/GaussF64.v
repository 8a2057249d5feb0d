(** Rounding in the statistics of a Gaussian voxel. *)
From Coq Require Import Reals ZArith List Lia Lra Psatz.
From Flocq Require Import Core IEEE754.BinarySingleNaN.
From Verif Require Import Base BaseProofs Num Vec F64 F64Proofs FloorProofs F64Err VoxSpec VmapModel VmapSpec VmapHist FlatSpec GaussF64Spec.
Open Scope R_scope.

Notation G j := ((1 + u64) ^ j - 1).
Lemma pow1u_le2 j : (Z.of_nat j <= 2 ^ 52)%Z -> (1 + u64) ^ j <= 2.
Proof.
  intros H. pose proof (pow1u_le3 (2 * j)) as P. rewrite Nat.mul_comm, pow_mult in P. pose proof (pow1u_ge1 j) as Q.
  set (x := (1 + u64) ^ j) in *. cbn [pow] in P. assert (x * (x * 1) <= 3) by (apply P; lia). nra.
Qed.
Lemma pow1u_lin j : (Z.of_nat j <= 2 ^ 52)%Z -> G j <= INR j * (2 * u64).
Proof.
  induction j as [|j IH]; intros H; [cbn [pow INR]; lra|].
  rewrite S_INR, <- tech_pow_Rmult. assert (IH' := IH ltac:(lia)). pose proof (pow1u_le2 j ltac:(lia)). pose proof u64_pos. nra.
Qed.

Section Scalar.
Context (M : R) (M0 : 0 <= M) (M1 : M <= bpow radix2 900).

(** A sum of n numbers with exact value S, after j roundings, d of which may have underflowed. *)
Definition sum_ok (j n d : nat) (x : f64) (S : R) : Prop :=
  finite x /\ Rabs S <= INR n * M /\ Rabs (B2R x - S) <= G j * (INR n * M) + (1 + u64) ^ j * (INR d * INR n * eta64).
Definition mean_ok (j n d : nat) (x : f64) (S : R) : Prop :=
  finite x /\ Rabs S <= INR n * M /\ Rabs (B2R x - S / INR n) <= G j * M + (1 + u64) ^ j * (INR d * eta64).

Definition small (k : nat) : Prop := (Z.of_nat k <= 2 ^ 52)%Z.

Lemma INR_small k : small k -> INR k <= bpow radix2 52.
Proof. intros H. rewrite INR_IZR_INZ. change (bpow radix2 52) with (IZR (2 ^ 52)). apply IZR_le. exact H. Qed.
Lemma size j n d : small j -> small n -> small d ->
  INR n * M + (G j * (INR n * M) + (1 + u64) ^ j * (INR d * INR n * eta64)) <= bpow radix2 990.
Proof using M0 M1.
  intros Hj Hn Hd. pose proof (pow1u_le2 j Hj) as P2. pose proof (pow1u_ge1 j) as P1. set (x := (1 + u64) ^ j) in *.
  pose proof (INR_small n Hn). pose proof (INR_small d Hd). pose proof (pos_INR n). pose proof (pos_INR d).
  assert (A : INR n * M <= bpow radix2 952).
  { change (bpow radix2 952) with (bpow radix2 (52 + 900)). rewrite bpow_plus. apply Rmult_le_compat; assumption. }
  assert (B : INR d * INR n * eta64 <= 1).
  { apply Rle_trans with (bpow radix2 52 * bpow radix2 52 * eta64).
    - apply Rmult_le_compat_r; [left; apply eta64_pos|]. apply Rmult_le_compat; assumption.
    - unfold eta64. rewrite <- !bpow_plus. apply (bpow_le radix2 _ 0). lia. }
  assert (A0 : 0 <= INR n * M) by (apply Rmult_le_pos; assumption).
  assert (B0 : 0 <= INR d * INR n * eta64) by (apply Rmult_le_pos; [apply Rmult_le_pos; assumption|left; apply eta64_pos]).
  assert (C : 2 * bpow radix2 952 + 2 <= bpow radix2 990).
  { change 2 with (bpow radix2 1). rewrite <- bpow_plus. apply Rle_trans with (bpow radix2 953 + bpow radix2 953).
    - apply Rplus_le_compat; apply bpow_le; lia.
    - replace (bpow radix2 953 + bpow radix2 953) with (bpow radix2 1 * bpow radix2 953) by (change (bpow radix2 1) with 2; ring).
      rewrite <- bpow_plus. apply bpow_le. lia. }
  set (a := INR n * M) in *. set (b := INR d * INR n * eta64) in *. clearbody a b x. nra.
Qed.

Lemma sum_zero d : sum_ok 0 0 d (f64_of 0 0) 0.
Proof using M0.
  split; [reflexivity|]. cbn [INR pow]. rewrite Rabs_R0. split; [lra|].
  change (B2R (f64_of 0 0)) with 0. rewrite Rminus_0_r, Rabs_R0. lra.
Qed.
Lemma sum_add j n d x S p : small (j + 1) -> small (n + 1) -> small d -> sum_ok j n d x S -> finite p -> Rabs (B2R p) <= M ->
  sum_ok (j + 1) (n + 1) d (f64_add x p) (S + B2R p).
Proof using M0 M1.
  intros Hj Hn Hd (Fx & HS & HE) Fp HP. pose proof u64_pos as U.
  pose proof (size (j + 1) (n + 1) d Hj Hn Hd) as SZ. unfold sum_ok. rewrite !pow_add, pow_1 in *. rewrite plus_INR in *. cbn [INR] in *.
  pose proof (pow1u_ge1 j) as P1. set (z := (1 + u64) ^ j) in *. pose proof (pos_INR n) as N0. pose proof (pos_INR d) as D0.
  pose proof eta64_pos as ET.
  set (a := INR n * M) in *. assert (EA : (INR n + 1) * M = a + M) by (unfold a; ring). rewrite EA in *.
  set (b := INR d * INR n * eta64) in *.
  assert (EB : INR d * (INR n + 1) * eta64 = b + INR d * eta64) by (unfold b; ring). rewrite EB in *.
  set (c := INR d * eta64) in *. assert (C0 : 0 <= c) by (unfold c; apply Rmult_le_pos; lra).
  assert (B0 : 0 <= b) by (unfold b; apply Rmult_le_pos; [apply Rmult_le_pos|]; lra).
  assert (A0 : 0 <= a) by (unfold a; apply Rmult_le_pos; lra).
  assert (E1 : Rabs (B2R x + B2R p - (S + B2R p)) <= (z - 1) * a + z * b).
  { replace (B2R x + B2R p - (S + B2R p)) with (B2R x - S) by ring. exact HE. }
  assert (ES : Rabs (S + B2R p) <= a + M) by (eapply Rle_trans; [apply Rabs_triang|lra]).
  assert (EX : Rabs (B2R x + B2R p) <= a + M + ((z - 1) * a + z * b)).
  { replace (B2R x + B2R p) with ((S + B2R p) + (B2R x + B2R p - (S + B2R p))) by ring. eapply Rle_trans; [apply Rabs_triang|lra]. }
  assert (ZU : 0 <= z * u64) by (apply Rmult_le_pos; lra).
  assert (K1 : 0 <= z * u64 * a) by (apply Rmult_le_pos; lra). assert (K2 : 0 <= z * u64 * b) by (apply Rmult_le_pos; lra).
  assert (K3 : 0 <= (z * (1 + u64) - 1) * M) by (apply Rmult_le_pos; lra). assert (K4 : 0 <= z * (1 + u64) * c) by (apply Rmult_le_pos; lra).
  destruct (add_finite x p 990 Fx Fp) as [F E]; [lia| |].
  { eapply Rle_trans; [exact EX|]. eapply Rle_trans; [|exact SZ]. clearbody z a b c. lra. }
  split; [exact F|]. split; [exact ES|]. rewrite E. pose proof (rnd_add_err x p Fx Fp) as R.
  replace (rnd (B2R x + B2R p) - (S + B2R p)) with ((rnd (B2R x + B2R p) - (B2R x + B2R p)) + (B2R x + B2R p - (S + B2R p))) by ring.
  eapply Rle_trans; [apply Rabs_triang|].
  assert (Q : u64 * Rabs (B2R x + B2R p) <= u64 * (a + M + ((z - 1) * a + z * b))) by (apply Rmult_le_compat_l; lra).
  assert (K5 : 0 <= (z - 1) * M) by (apply Rmult_le_pos; lra). assert (K6 : 0 <= (z - 1) * M * u64) by (apply Rmult_le_pos; lra). clearbody z a b c. lra.
Qed.
Lemma sum_fold ps : forall j n d x S, small (j + length ps) -> small (n + length ps) -> small d -> sum_ok j n d x S ->
  Forall (fun p => finite p /\ Rabs (B2R p) <= M) ps ->
  sum_ok (j + length ps) (n + length ps) d (fold_left f64_add ps x) (S + Rsum (map B2R ps)).
Proof using M0 M1.
  induction ps as [|p ps IH]; intros j n d x S Hj Hn Hd H F; cbn [length fold_left map].
  - rewrite !Nat.add_0_r. change (Rsum []) with 0. rewrite Rplus_0_r. exact H.
  - inversion F as [|q l [Fp HP] Fs]. subst. cbn [length] in *. unfold small in *.
    replace (j + Datatypes.S (length ps))%nat with (j + 1 + length ps)%nat in * by lia.
    replace (n + Datatypes.S (length ps))%nat with (n + 1 + length ps)%nat in * by lia.
    change (Rsum (B2R p :: map B2R ps)) with (B2R p + Rsum (map B2R ps)). rewrite <- Rplus_assoc.
    apply IH; auto. apply sum_add; auto; unfold small; lia.
Qed.
Lemma sum_div j n d x S y : small (j + 1) -> small n -> small d -> (1 <= n)%nat -> sum_ok j n d x S -> B2R y = INR n ->
  mean_ok (j + 1) n (d + 1) (f64_div x y) S.
Proof using M0 M1.
  intros Hj Hn Hd H1 (Fx & HS & HE) EY. pose proof u64_pos as U.
  assert (N1 : 1 <= INR n) by (apply (le_INR 1); exact H1).
  assert (Hj' : small j) by (unfold small in *; lia). pose proof (size j n d Hj' Hn Hd) as SZ.
  unfold mean_ok. rewrite !pow_add, pow_1 in *. rewrite plus_INR in *. cbn [INR] in *.
  pose proof (pow1u_ge1 j) as P1. set (z := (1 + u64) ^ j) in *. pose proof (pos_INR d) as D0. pose proof eta64_pos as ET.
  set (N := INR n) in *. set (c := INR d * eta64). assert (C0 : 0 <= c) by (unfold c; apply Rmult_le_pos; lra).
  assert (EB : INR d * N * eta64 = N * c) by (unfold c; ring). rewrite EB in *.
  assert (EX : Rabs (B2R x / N - S / N) <= (z - 1) * M + z * c).
  { replace (B2R x / N - S / N) with ((B2R x - S) / N) by (field; lra). unfold Rdiv. rewrite Rabs_mult, Rabs_inv, (Rabs_pos_eq N) by lra.
    apply Rmult_le_reg_r with N; [lra|]. rewrite Rmult_assoc, Rinv_l, Rmult_1_r by lra. clearbody z N c. nra. }
  assert (EM : Rabs (S / N) <= M).
  { unfold Rdiv. rewrite Rabs_mult, Rabs_inv, (Rabs_pos_eq N) by lra. apply Rmult_le_reg_r with N; [lra|]. rewrite Rmult_assoc, Rinv_l, Rmult_1_r by lra. lra. }
  assert (EQ : Rabs (B2R x / N) <= M + ((z - 1) * M + z * c)).
  { replace (B2R x / N) with (S / N + (B2R x / N - S / N)) by ring. eapply Rle_trans; [apply Rabs_triang|lra]. }
  destruct (div_finite x y 990 Fx) as [F E]; [rewrite EY; lra|lia| |].
  { rewrite EY. eapply Rle_trans; [exact EQ|]. eapply Rle_trans; [|exact SZ].
    assert (0 <= (N - 1) * (z * M)) by (apply Rmult_le_pos; [lra|apply Rmult_le_pos; lra]).
    assert (0 <= (N - 1) * (z * c)) by (apply Rmult_le_pos; [lra|apply Rmult_le_pos; lra]). clearbody z N c. lra. }
  split; [exact F|]. split; [exact HS|]. rewrite E, EY. pose proof (rnd_err (B2R x / N)) as R.
  replace (rnd (B2R x / N) - S / N) with ((rnd (B2R x / N) - B2R x / N) + (B2R x / N - S / N)) by ring.
  eapply Rle_trans; [apply Rabs_triang|].
  assert (Q : u64 * Rabs (B2R x / N) <= u64 * (M + ((z - 1) * M + z * c))) by (apply Rmult_le_compat_l; lra).
  replace ((INR d + 1) * eta64) with (c + eta64) by (unfold c; ring).
  assert (0 <= (z * (1 + u64) - 1) * eta64).
  { assert (0 <= z * u64) by (apply Rmult_le_pos; lra). apply Rmult_le_pos; lra. }
  clearbody z N c. lra.
Qed.
Lemma mean_mul j n d x S y : small (j + 1) -> small n -> small (d + 1) -> (1 <= n)%nat -> mean_ok j n d x S -> finite y -> B2R y = INR n ->
  sum_ok (j + 1) n (d + 1) (f64_mul x y) S.
Proof using M0 M1.
  intros Hj Hn Hd H1 (Fx & HS & HE) Fy EY. pose proof u64_pos as U.
  assert (N1 : 1 <= INR n) by (apply (le_INR 1); exact H1).
  assert (Hj' : small j) by (unfold small in *; lia). pose proof (size j n (d + 1) Hj' Hn Hd) as SZ.
  unfold sum_ok. rewrite !pow_add, pow_1 in *. rewrite plus_INR in *. cbn [INR] in *.
  pose proof (pow1u_ge1 j) as P1. set (z := (1 + u64) ^ j) in *. pose proof (pos_INR d) as D0. pose proof eta64_pos as ET.
  set (N := INR n) in *. set (c := INR d * eta64) in *. assert (C0 : 0 <= c) by (unfold c; apply Rmult_le_pos; lra).
  assert (EB : (INR d + 1) * N * eta64 = N * c + N * eta64) by (unfold c; ring). rewrite EB in *.
  assert (EX : Rabs (B2R x * N - S) <= (z - 1) * (N * M) + z * (N * c)).
  { replace (B2R x * N - S) with ((B2R x - S / N) * N) by (field; lra). rewrite Rabs_mult, (Rabs_pos_eq N) by lra.
    apply (Rmult_le_compat_r N) in HE; [|lra]. clearbody z N c. lra. }
  assert (EQ : Rabs (B2R x * N) <= N * M + ((z - 1) * (N * M) + z * (N * c))).
  { replace (B2R x * N) with (S + (B2R x * N - S)) by ring. eapply Rle_trans; [apply Rabs_triang|lra]. }
  assert (NE : 0 <= N * eta64) by (apply Rmult_le_pos; lra).
  destruct (mul_finite x y 990 Fx Fy) as [F E]; [lia| |].
  { rewrite EY. eapply Rle_trans; [exact EQ|]. eapply Rle_trans; [|exact SZ]. assert (0 <= z * (N * eta64)) by (apply Rmult_le_pos; lra). clearbody z N c. lra. }
  split; [exact F|]. split; [exact HS|]. rewrite E, EY. pose proof (rnd_err (B2R x * N)) as R.
  replace (rnd (B2R x * N) - S) with ((rnd (B2R x * N) - B2R x * N) + (B2R x * N - S)) by ring.
  eapply Rle_trans; [apply Rabs_triang|].
  assert (Q : u64 * Rabs (B2R x * N) <= u64 * (N * M + ((z - 1) * (N * M) + z * (N * c)))) by (apply Rmult_le_compat_l; lra).
  assert (T : eta64 <= z * (1 + u64) * (N * eta64)).
  { assert (1 * eta64 <= N * eta64) by (apply Rmult_le_compat_r; lra).
    assert (0 <= (z * (1 + u64) - 1) * (N * eta64)); [|lra].
    assert (0 <= z * u64) by (apply Rmult_le_pos; lra). apply Rmult_le_pos; lra. }
  clearbody z N c. lra.
Qed.
End Scalar.

(** ** Voxels *)
Section Voxels.
Context (of_nat : nat -> f64) (CT : counts of_nat).
Notation C := (gauss_contents (D := Fnum) of_nat).
Notation gadd := (gauss_add (D := Fnum) of_nat).
Notation gfin := (gauss_finalize (D := Fnum) of_nat).

(** One component of the statistics: of the mean or of the covariance. *)
Record component (pi : gaussian Fnum -> f64) (rho : item Fnum -> f64) : Prop := mkComponent {
  co_add : forall g q, pi (gadd g q) = f64_add (if finalized g then f64_mul (pi g) (of_nat (num_points g)) else pi g) (rho q);
  co_fin : forall g, pi (gfin g) = if finalized g then pi g else f64_div (pi g) (of_nat (num_points g));
  co_new : pi (empty C) = f64_of 0 0
}.
Lemma mean_component i : component (fun g => vcomp (D := Fnum) (g_mean g) i) (fun q => vcomp (D := Fnum) (it_pt q) i).
Proof.
  split.
  - intros g q. unfold gauss_add. destruct (finalized g); destruct i as [|[|[|i]]]; reflexivity.
  - intros g. unfold gauss_finalize. destruct (finalized g); destruct i as [|[|[|i]]]; reflexivity.
  - destruct i as [|[|[|i]]]; reflexivity.
Qed.
Lemma cov_component i j : component (fun g => entry_at (g_cov g) i j) (fun q => entry_at (it_cov q) i j).
Proof.
  split.
  - intros g q. unfold gauss_add. destruct (finalized g); destruct i as [|[|[|i]]]; destruct j as [|[|[|j]]]; reflexivity.
  - intros g. unfold gauss_finalize. destruct (finalized g); destruct i as [|[|[|i]]]; destruct j as [|[|[|j]]]; reflexivity.
  - destruct i as [|[|[|i]]]; destruct j as [|[|[|j]]]; reflexivity.
Qed.
Lemma add_flags g q : finalized (gadd g q) = false /\ num_points (gadd g q) = (num_points g + 1)%nat.
Proof. unfold gauss_add. destruct (finalized g) eqn:F; cbn [finalized num_points]; auto. Qed.

Section View.
Context (pi : gaussian Fnum -> f64) (rho : item Fnum -> f64) (V : component pi rho).

Lemma fold_plain qs : forall g, finalized g = false ->
  let g' := fold_left gadd qs g in
  finalized g' = false /\ num_points g' = (num_points g + length qs)%nat /\ pi g' = fold_left f64_add (map rho qs) (pi g).
Proof using V.
  induction qs as [|q qs IH]; intros g F; cbn [fold_left length map].
  - rewrite Nat.add_0_r. auto.
  - destruct (add_flags g q) as [A B]. destruct (IH (gadd g q) A) as (X & Y & Z). split; [exact X|]. split; [rewrite Y, B; lia|].
    rewrite Z, (co_add _ _ V), F. reflexivity.
Qed.
(** The points of one insertion, at least one. *)
Lemma fold_batch q qs g :
  let g' := gfin (fold_left gadd (q :: qs) g) in
  let n := (num_points g + length (q :: qs))%nat in
  finalized g' = true /\ num_points g' = n /\
  pi g' = f64_div (fold_left f64_add (map rho (q :: qs)) (if finalized g then f64_mul (pi g) (of_nat (num_points g)) else pi g)) (of_nat n).
Proof using V.
  cbn [fold_left map]. destruct (add_flags g q) as [A B]. destruct (fold_plain qs (gadd g q) A) as (X & Y & Z).
  set (g1 := fold_left gadd qs (gadd g q)) in *. cbn zeta. rewrite (co_fin _ _ V), X.
  assert (N : num_points g1 = (num_points g + length (q :: qs))%nat) by (rewrite Y, B; cbn [length]; lia).
  split; [unfold gauss_finalize; rewrite X; reflexivity|]. split; [unfold gauss_finalize; rewrite X; exact N|].
  rewrite N, Z, (co_add _ _ V). reflexivity.
Qed.

Context (M : R) (M0 : 0 <= M) (M1 : M <= bpow radix2 900).
(** A voxel that holds the points qs of c insertions. *)
Definition voxel_ok (g : gaussian Fnum) (qs : list (item Fnum)) (c : nat) : Prop :=
  (1 <= c)%nat /\ (1 <= length qs)%nat /\ finalized g = true /\ num_points g = length qs /\
  mean_ok M (length qs + 2 * c - 1) (length qs) (2 * c - 1) (pi g) (Rsum (map (fun q => B2R (rho q)) qs)).

Lemma Rsum_app l1 l2 : Rsum (l1 ++ l2) = Rsum l1 + Rsum l2.
Proof. induction l1 as [|x l IH]; cbn [app]; [change (Rsum []) with 0; ring|]. change (x + Rsum (l ++ l2) = x + Rsum l + Rsum l2). rewrite IH. ring. Qed.
Lemma rhos l : map B2R (map rho l) = map (fun q => B2R (rho q)) l.
Proof. rewrite map_map. reflexivity. Qed.
Lemma bounded l : Forall (fun q => within M (rho q)) l -> Forall (fun p => finite p /\ Rabs (B2R p) <= M) (map rho l).
Proof. intros H. apply Forall_map. exact H. Qed.

Lemma first_ok q qs : small (length (q :: qs) + 2) -> Forall (fun q => within M (rho q)) (q :: qs) ->
  voxel_ok (gfin (fold_left gadd (q :: qs) (empty C))) (q :: qs) 1.
Proof using V M0 M1 CT.
  intros HS F. set (l := q :: qs) in *. assert (L1 : (1 <= length l)%nat) by (unfold l; cbn [length]; lia).
  destruct (fold_batch q qs (empty C)) as (X & Y & Z). fold l in X, Y, Z. cbn [gauss_contents empty num_points finalized] in X, Y, Z. rewrite Nat.add_0_l in Y, Z.
  split; [lia|]. split; [exact L1|]. split; [exact X|]. split; [exact Y|]. cbn [gauss_contents empty]. rewrite Z.
  replace (pi {| finalized := false; num_points := 0; g_mean := vzero; g_cov := mzero |}) with (f64_of 0 0) by (symmetry; exact (co_new _ _ V)).
  unfold small in *. destruct (CT (length l)) as [Fn En]; [lia|].
  replace (length l + 2 * 1 - 1)%nat with (length l + 1)%nat by lia. change (2 * 1 - 1)%nat with (0 + 1)%nat.
  apply sum_div; auto; try (unfold small; lia).
  pose proof (sum_fold M M0 M1 (map rho l) 0 0 0 (f64_of 0 0) 0) as Q. rewrite map_length, !Nat.add_0_l, Rplus_0_l, rhos in Q.
  apply Q; try (unfold small; lia); [apply sum_zero; exact M0|apply bounded; exact F].
Qed.
Lemma next_ok g ps c q qs : voxel_ok g ps c -> small (length ps + length (q :: qs) + 2 * (c + 1)) -> Forall (fun q => within M (rho q)) (q :: qs) ->
  voxel_ok (gfin (fold_left gadd (q :: qs) g)) (ps ++ q :: qs) (c + 1).
Proof using V M0 M1 CT.
  intros (C1 & P1 & Fg & Ng & Mg) HS F. set (l := q :: qs) in *. assert (L1 : (1 <= length l)%nat) by (unfold l; cbn [length]; lia).
  destruct (fold_batch q qs g) as (X & Y & Z). fold l in X, Y, Z. rewrite Fg, Ng in *.
  split; [lia|]. split; [rewrite app_length; lia|]. split; [exact X|]. split; [rewrite app_length; exact Y|]. rewrite Z, app_length, map_app, Rsum_app.
  unfold small in *. destruct (CT (length ps)) as [Fn En]; [lia|]. destruct (CT (length ps + length l)%nat) as [Fm Em]; [lia|].
  replace (length ps + length l + 2 * (c + 1) - 1)%nat with ((length ps + 2 * c - 1 + 1 + length l) + 1)%nat by lia.
  replace (2 * (c + 1) - 1)%nat with ((2 * c - 1 + 1) + 1)%nat by lia.
  apply sum_div; auto; try (unfold small; lia).
  assert (S0 : sum_ok M (length ps + 2 * c - 1 + 1) (length ps) (2 * c - 1 + 1) (f64_mul (pi g) (of_nat (length ps))) (Rsum (map (fun q => B2R (rho q)) ps))).
  { apply mean_mul; auto; unfold small; lia. }
  pose proof (fun H1 H2 H3 => sum_fold M M0 M1 (map rho l) _ _ _ _ _ H1 H2 H3 S0) as Q. rewrite map_length, rhos in Q.
  apply Q; try (unfold small; lia). apply bounded; exact F.
Qed.

Context {pose : Type} (coord_of : vec4 Fnum -> outcome coord) (act : pose -> item Fnum -> item Fnum) (co : coord).
Notation here := (here coord_of act co).
Notation batch := (batch Fnum C coord_of pose act co).
Lemma rest_ok ks : forall g ps c, voxel_ok g ps c ->
  small (length (ps ++ flat_map here ks) + 2 * (c + visits coord_of act co ks)) -> Forall (fun q => within M (rho q)) (flat_map here ks) ->
  voxel_ok (fold_left batch ks g) (ps ++ flat_map here ks) (c + visits coord_of act co ks).
Proof using V M0 M1 CT.
  induction ks as [|k ks IH]; intros g ps c H HS F.
  - cbn [fold_left flat_map]. change (visits coord_of act co []) with 0%nat. rewrite app_nil_r, Nat.add_0_r. exact H.
  - cbn [fold_left flat_map] in *. unfold visits in *. cbn [filter] in *. unfold VmapHist.batch at 2. cbn [finalize add gauss_contents].
    destruct (here k) as [|q qs] eqn:E.
    + cbn [app fold_left] in *. assert (Q : gfin g = g) by (unfold gauss_finalize; destruct H as (_ & _ & -> & _); reflexivity). rewrite Q. apply IH; auto.
    + rewrite app_assoc in *. apply Forall_app in F. destruct F as [F1 F2]. cbn [length] in *. unfold small in *. rewrite !app_length in HS. cbn [length] in HS.
      replace (c + S (length (filter (fun k => match here k with [] => false | _ => true end) ks)))%nat
        with (c + 1 + length (filter (fun k => match here k with [] => false | _ => true end) ks))%nat by lia.
      apply IH; auto.
      * apply next_ok; auto. unfold small. cbn [length]. lia.
      * unfold small. rewrite !app_length. cbn [length]. lia.
Qed.
Lemma history_ok k ks : here k <> [] ->
  let qs := flat_map here (k :: ks) in
  small (length qs + 2 * visits coord_of act co (k :: ks)) -> Forall (fun q => within M (rho q)) qs ->
  voxel_ok (fold_left batch (k :: ks) (empty C)) qs (visits coord_of act co (k :: ks)).
Proof using V M0 M1 CT.
  intros N0 qs HS F. unfold qs in *. cbn [fold_left flat_map] in *. unfold VmapHist.batch at 2. cbn [finalize add]. unfold visits in *. cbn [filter] in *.
  destruct (here k) as [|q l] eqn:E; [now destruct N0|]. apply Forall_app in F. destruct F as [F1 F2]. unfold small in *. cbn [length] in *. rewrite app_length in HS. cbn [length] in HS.
  change (S (length (filter (fun k => match here k with [] => false | _ => true end) ks))) with (1 + visits coord_of act co ks)%nat.
  apply rest_ok; auto.
  - apply first_ok; auto. unfold small. cbn [length]. lia.
  - unfold small, visits. rewrite app_length. cbn [length]. lia.
Qed.
Lemma ok_near g qs c : voxel_ok g qs c -> small (length qs + 2 * c) -> near_mean (length qs) c M (pi g) (map rho qs).
Proof using M0.
  intros (C1 & L1 & _ & _ & Fx & _ & HE) HS. split; [exact Fx|]. unfold mean. rewrite !map_length, map_map. eapply Rle_trans; [exact HE|].
  set (j := (length qs + 2 * c - 1)%nat). assert (Hj : (Z.of_nat j <= 2 ^ 52)%Z) by (unfold small in HS; unfold j; lia).
  pose proof (pow1u_lin j Hj) as A. pose proof (pow1u_le2 j Hj) as B. pose proof (pow1u_ge1 j) as B1. pose proof u64_pos as U. pose proof eta64_pos as ET.
  unfold accuracy. assert (bpow radix2 (-52) = 2 * u64) as -> by (change (-52)%Z with (1 + -53)%Z; rewrite bpow_plus; reflexivity).
  assert (bpow radix2 (-1073) = 4 * eta64) as -> by (change (-1073)%Z with (2 + -1075)%Z; rewrite bpow_plus; reflexivity).
  assert (J : INR j <= INR (length qs + 2 * c)) by (apply le_INR; unfold j; lia).
  assert (D : INR (2 * c - 1) <= 2 * INR c) by (change 2 with (INR 2); rewrite <- mult_INR; apply le_INR; lia). pose proof (pos_INR (2 * c - 1)).
  apply Rplus_le_compat.
  - apply Rmult_le_compat_r; [exact M0|]. eapply Rle_trans; [exact A|]. apply Rmult_le_compat_r; lra.
  - replace (INR c * (4 * eta64)) with (2 * ((2 * INR c) * eta64)) by ring.
    apply Rmult_le_compat; [lra|apply Rmult_le_pos; lra|exact B|]. apply Rmult_le_compat_r; lra.
Qed.
End View.

(** The fourth component of points whose fourth component is one. *)
Section Ones.
Notation pi := (fun g : gaussian Fnum => vcomp (D := Fnum) (g_mean g) 3).
Notation rho := (fun q : item Fnum => vcomp (D := Fnum) (it_pt q) 3).
Definition one_ok (g : gaussian Fnum) (n : nat) : Prop := (1 <= n)%nat /\ finalized g = true /\ num_points g = n /\ pi g = f64_of 1 0.
Lemma ones_div x a l : finite x -> B2R x = INR a -> Forall (fun q => rho q = f64_of 1 0) l -> l <> [] -> small (a + length l) ->
  f64_div (fold_left f64_add (map rho l) x) (of_nat (a + length l)) = f64_of 1 0.
Proof using CT.
  intros Fx Ex F N0 HS. unfold small in HS. destruct (CT (a + length l)%nat) as [Fn En]; [lia|].
  assert (Q : finite (fold_left f64_add (map rho l) x) /\ B2R (fold_left f64_add (map rho l) x) = INR (a + length l)).
  { clear N0 Fn En. revert a x Fx Ex HS. induction F as [|q l Hq F IH]; intros a x Fx Ex HS; cbn [map fold_left length].
    - rewrite Nat.add_0_r. auto.
    - rewrite Hq. cbn [length] in HS. destruct (f64_of_int 1) as (F1 & E1); [lia|].
      rewrite INR_IZR_INZ in Ex. destruct (add_int x (f64_of 1 0) (Z.of_nat a) 1 Fx F1 Ex E1) as [F2 E2]; [lia|].
      replace (a + S (length l))%nat with ((a + 1) + length l)%nat by lia. apply IH; auto; [|lia].
      rewrite E2, INR_IZR_INZ. f_equal. lia. }
  destruct Q as [F2 E2]. assert (fold_left f64_add (map rho l) x = of_nat (a + length l)) as ->.
  { apply B2R_nonzero_eq; auto; [|congruence]. rewrite E2. apply not_0_INR. destruct l; [now destruct N0|cbn [length]; lia]. }
  apply div_self; [exact Fn|]. rewrite En. apply not_0_INR. destruct l; [now destruct N0|cbn [length]; lia].
Qed.
Context {pose : Type} (coord_of : vec4 Fnum -> outcome coord) (act : pose -> item Fnum -> item Fnum) (co : coord).
Notation here := (here coord_of act co).
Notation batch := (batch Fnum C coord_of pose act co).
Lemma one_history k ks : here k <> [] -> let qs := flat_map here (k :: ks) in
  small (length qs) -> Forall (fun q : item Fnum => vw (it_pt q) = f64_of 1 0) qs -> pi (fold_left batch (k :: ks) (empty C)) = f64_of 1 0.
Proof using CT.
  intros N0 qs HS F. unfold qs in *. cbn [fold_left flat_map] in *. clear qs.
  assert (NX : forall ks g n, one_ok g n -> small (n + length (flat_map here ks)) -> Forall (fun q => rho q = f64_of 1 0) (flat_map here ks) ->
    exists n', one_ok (fold_left batch ks g) n').
  { clear -CT. induction ks as [|k ks IH]; intros g n H HS F; [exists n; exact H|]. cbn [fold_left flat_map] in *. unfold VmapHist.batch at 2. cbn [finalize add gauss_contents].
    destruct H as (L & Fg & Ng & Pg). destruct (here k) as [|q l] eqn:E.
    - cbn [fold_left app] in *. assert (Q : gfin g = g) by (unfold gauss_finalize; rewrite Fg; reflexivity). rewrite Q. apply (IH g n); auto. repeat split; auto.
    - apply Forall_app in F. destruct F as [F1 F2]. rewrite app_length in HS. unfold small in *.
      destruct (fold_batch _ _ (mean_component 3) q l g) as (X & Y & Z). rewrite Fg, Ng, Pg in *.
      apply (IH _ (n + length (q :: l))%nat); auto; [|lia]. split; [lia|]. split; [exact X|]. split; [exact Y|]. etransitivity; [exact Z|]. cbv beta in Pg. rewrite ?Pg.
      destruct (CT n) as [Fn En]; [lia|]. destruct (f64_of_int 1) as (F1' & E1); [lia|].
      destruct (mul_finite (f64_of 1 0) (of_nat n) 60 F1' Fn) as [Fm Em]; [lia| |].
      { rewrite E1, En, Rmult_1_l, INR_IZR_INZ, <- abs_IZR. apply Rle_trans with (bpow radix2 52); [change (bpow radix2 52) with (IZR (2 ^ 52)); apply IZR_le; lia|apply bpow_le; lia]. }
      apply ones_div; auto; [|discriminate|unfold small; lia].
      rewrite Em, E1, En, Rmult_1_l, INR_IZR_INZ. apply rnd_int. lia. }
  apply Forall_app in F. destruct F as [F1 F2]. rewrite app_length in HS. unfold VmapHist.batch at 2. cbn [finalize add].
  destruct (here k) as [|q l] eqn:E; [now destruct N0|].
  destruct (fold_batch _ _ (mean_component 3) q l (empty C)) as (X & Y & Z). cbn [gauss_contents empty num_points finalized] in X, Y, Z. rewrite Nat.add_0_l in Y, Z.
  destruct (NX ks (gfin (fold_left gadd (q :: l) (empty C))) (length (q :: l))) as (n' & _ & _ & _ & W); auto.
  split; [cbn [length]; lia|]. split; [exact X|]. split; [exact Y|]. etransitivity; [exact Z|].
  change (of_nat (length (q :: l))) with (of_nat (0 + length (q :: l))). apply ones_div; [reflexivity|reflexivity|exact F1|discriminate|]. unfold small in *. lia.
Qed.
End Ones.
End Voxels.
