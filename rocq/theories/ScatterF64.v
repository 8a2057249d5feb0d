(** Rounding errors of the covariance matrix of a set of doubles. *)
From Coq Require Import Reals Lra Psatz.
From Flocq Require Import Core IEEE754.BinarySingleNaN.
From Verif Require Import Base BaseProofs Num Vec RNum F64 F64Proofs FloorProofs F64Err Lin LinSpec LinProofs FactorModel EstModel EstSpec EstReal FlatSpec.
Open Scope R_scope.

Lemma pow1u_lin n : INR n * u64 <= / 2 -> (1 + u64) ^ n - 1 <= 2 * (INR n * u64).
Proof.
  pose proof u64_pos as U. induction n as [|n IH]; intros H; [simpl; lra|].
  rewrite S_INR in *. assert (H' : INR n * u64 <= / 2) by nra. specialize (IH H'). rewrite <- tech_pow_Rmult.
  assert (1 <= (1 + u64) ^ n) by apply pow1u_ge1. pose proof (pos_INR n) as P0.
  assert ((1 + u64) * (1 + u64) ^ n <= (1 + u64) * (1 + 2 * (INR n * u64))) by (apply Rmult_le_compat_l; lra).
  assert (u64 * (2 * (INR n * u64)) <= u64 * 1) by (apply Rmult_le_compat_l; lra). lra.
Qed.

Lemma sum_abs_le l B : (forall x, In x l -> Rabs (B2R x) <= B) -> sum_abs l <= INR (length l) * B.
Proof.
  induction l as [|x l IH]; intros H; unfold sum_abs in *; cbn [map Rsuml fold_right length].
  - simpl INR. lra.
  - rewrite S_INR. pose proof (H x (or_introl eq_refl)). fold (Rsuml (map (fun x => Rabs (B2R x)) l)).
    specialize (IH (fun y Hy => H y (or_intror Hy))). lra.
Qed.

(** Sum of at most 2^30 doubles from zero. *)
Lemma fold_sum l B : (forall x, In x l -> finite x /\ Rabs (B2R x) <= B) -> 0 <= B -> INR (length l) * B <= bpow radix2 1000 ->
  INR (length l) * u64 <= / 8 ->
  finite (fold_left f64_add l (f64_of 0 0)) /\
  Rabs (B2R (fold_left f64_add l (f64_of 0 0)) - sum_val l) <= 2 * (INR (length l) * u64) * (INR (length l) * B).
Proof.
  intros H B0 HB Ht. set (N := INR (length l)) in *.
  destruct (f64_of_int 0) as (F0 & E0); [lia|].
  assert (SA : sum_abs l <= N * B) by (apply sum_abs_le; intros; apply H; auto).
  pose proof (sum_abs_pos l) as SP. pose proof u64_pos as U.
  assert (P : (1 + u64) ^ length l - 1 <= 2 * (N * u64)) by (apply pow1u_lin; fold N; lra).
  destruct (fold_add_err l (f64_of 0 0) 0 0 0) as (Ff & Fe); auto.
  - intros x Hx. apply H; auto.
  - rewrite E0. simpl. rewrite Rminus_0_r, Rabs_R0. lra.
  - rewrite Rabs_R0. lra.
  - rewrite Rplus_0_l, Nat.add_0_l. apply Rle_trans with (2 * bpow radix2 1000).
    + apply Rmult_le_compat; [pose proof (pow1u_ge1 (length l)); lra|lra|lra|lra].
    + change (2) with (bpow radix2 1). rewrite <- bpow_plus. apply bpow_le. lia.
  - split; auto. rewrite Rplus_0_l in Fe. eapply Rle_trans; [exact Fe|]. rewrite Nat.add_0_l, Rplus_0_l.
    pose proof (pow1u_ge1 (length l)). apply Rmult_le_compat; lra.
Qed.

Lemma close_mul x x' y y' e f a b : Rabs (x - x') <= e -> Rabs (y - y') <= f -> Rabs x <= a -> Rabs y' <= b ->
  Rabs (x * y - x' * y') <= a * f + b * e.
Proof.
  intros He Hf Ha Hb. replace (x * y - x' * y') with (x * (y - y') + y' * (x - x')) by ring.
  eapply Rle_trans; [apply Rabs_triang|]. rewrite !Rabs_mult.
  apply Rplus_le_compat; apply Rmult_le_compat; auto using Rabs_pos.
Qed.
Lemma close_size x x' e a : Rabs (x - x') <= e -> Rabs x' <= a -> Rabs x <= a + e.
Proof. intros H1 H2. replace x with (x' + (x - x')) by ring. eapply Rle_trans; [apply Rabs_triang|]. lra. Qed.
Lemma close_trans x y z e f : Rabs (x - y) <= e -> Rabs (y - z) <= f -> Rabs (x - z) <= e + f.
Proof. intros H1 H2. replace (x - z) with ((x - y) + (y - z)) by ring. eapply Rle_trans; [apply Rabs_triang|]. lra. Qed.

Lemma rnd_near z a g : Rabs z <= a -> eta64 <= u64 * g -> Rabs (rnd z - z) <= u64 * (a + g).
Proof.
  intros H G. eapply Rle_trans; [apply rnd_err|]. pose proof u64_pos.
  assert (u64 * Rabs z <= u64 * a) by (apply Rmult_le_compat_l; lra). lra.
Qed.

(** * One entry *)
Section Entry.
Context {A : Type} (f g : A -> f64) (l : list A) (M : R) (n : f64).
Let N := INR (length l).
Hypothesis NE : (1 <= length l)%nat.
Hypothesis NB : (Z.of_nat (length l) <= 2 ^ 30)%Z.
Hypothesis ML : bpow radix2 (-400) <= M.
Hypothesis MU : M <= bpow radix2 400.
Hypothesis Hf : forall a, In a l -> finite (f a) /\ Rabs (B2R (f a)) <= M.
Hypothesis Hg : forall a, In a l -> finite (g a) /\ Rabs (B2R (g a)) <= M.
Hypothesis Fn : finite n.
Hypothesis En : B2R n = N.

Let t := N * u64.
Let Q := N * (M * M).
Lemma N_ge1 : 1 <= N.
Proof. unfold N. replace 1 with (INR 1) by reflexivity. apply le_INR. exact NE. Qed.
Lemma N_le : N <= bpow radix2 30.
Proof. unfold N. rewrite INR_IZR_INZ. change (bpow radix2 30) with (IZR (2 ^ 30)). apply IZR_le. exact NB. Qed.
Lemma M_pos : 0 < M.
Proof. pose proof (bpow_gt_0 radix2 (-400)). lra. Qed.
Lemma t_small : u64 <= t /\ t <= / 1000.
Proof.
  pose proof N_ge1. pose proof N_le. pose proof u64_pos. unfold t. split; [nra|].
  apply Rle_trans with (bpow radix2 30 * u64); [apply Rmult_le_compat_r; lra|]. unfold u64. rewrite <- bpow_plus.
  change (30 + -53)%Z with (-23)%Z. apply Rle_trans with (bpow radix2 (-10)); [apply bpow_le; lia|].
  change (bpow radix2 (-10)) with (/ IZR 1024). lra.
Qed.
Lemma eta_M : eta64 <= u64 * M.
Proof.
  apply Rle_trans with (u64 * bpow radix2 (-400)).
  - unfold eta64, u64. rewrite <- bpow_plus. apply bpow_le. lia.
  - apply Rmult_le_compat_l; [left; apply u64_pos|exact ML].
Qed.
Lemma eta_MM : eta64 <= u64 * (M * M).
Proof.
  apply Rle_trans with (u64 * (bpow radix2 (-400) * bpow radix2 (-400))).
  - unfold eta64, u64. rewrite <- !bpow_plus. apply bpow_le. lia.
  - apply Rmult_le_compat_l; [left; apply u64_pos|]. pose proof (bpow_gt_0 radix2 (-400)). apply Rmult_le_compat; lra.
Qed.
Lemma MM_le : M * M <= bpow radix2 800.
Proof.
  change 800%Z with (400 + 400)%Z. rewrite bpow_plus. pose proof M_pos. apply Rmult_le_compat; lra.
Qed.
Lemma Q_le : Q <= bpow radix2 830.
Proof.
  change 830%Z with (30 + 800)%Z. rewrite bpow_plus. unfold Q. pose proof N_ge1. pose proof M_pos.
  apply Rmult_le_compat; [lra|nra|apply N_le|apply MM_le].
Qed.
Lemma MM_Q : M * M <= Q.
Proof. unfold Q. pose proof N_ge1. pose proof M_pos. assert (0 < M * M) by nra. nra. Qed.

Lemma up4 k x : (k <= 1000)%Z -> x <= 4 * bpow radix2 k -> x <= bpow radix2 1010.
Proof.
  intros Hk H. eapply Rle_trans; [exact H|]. change 4 with (bpow radix2 2). rewrite <- bpow_plus. apply bpow_le. lia.
Qed.

Lemma sum_of (h : A -> f64) B : (forall a, In a l -> finite (h a) /\ Rabs (B2R (h a)) <= B) -> 0 <= B -> B <= 2 * bpow radix2 800 ->
  finite (fold_left f64_add (map h l) (f64_of 0 0)) /\
  Rabs (B2R (fold_left f64_add (map h l) (f64_of 0 0)) - sumR (fun a => B2R (h a)) l) <= 2 * t * (N * B).
Proof using NE NB.
  intros H B0 B1. destruct (fold_sum (map h l) B) as (F & E).
  - intros x Hx. apply in_map_iff in Hx as (a & <- & Ha). auto.
  - exact B0.
  - rewrite map_length. fold N. apply Rle_trans with (bpow radix2 30 * (2 * bpow radix2 800)).
    + apply Rmult_le_compat; auto; [unfold N; apply pos_INR|apply N_le].
    + change 2 with (bpow radix2 1). rewrite <- !bpow_plus. apply bpow_le. lia.
  - rewrite map_length. fold N. fold t. pose proof t_small. lra.
  - split; [exact F|]. rewrite map_length in E. fold N in E. fold t in E.
    replace (sumR (fun a => B2R (h a)) l) with (sum_val (map h l)); [exact E|].
    unfold sum_val. rewrite map_map. clear. induction l as [|a l' IH]; cbn; [reflexivity|]. f_equal. exact IH.
Qed.
Lemma sumR_abs (h : A -> R) B : (forall a, In a l -> Rabs (h a) <= B) -> Rabs (sumR h l) <= N * B.
Proof using.
  unfold N. clear. induction l as [|a l' IH]; intros H; cbn [sumR fold_right length].
  - rewrite Rabs_R0. simpl. lra.
  - rewrite S_INR. eapply Rle_trans; [apply Rabs_triang|]. pose proof (H a (or_introl eq_refl)).
    specialize (IH (fun b Hb => H b (or_intror Hb))). unfold sumR in IH. lra.
Qed.
Lemma sumR_sub (h k : A -> R) : sumR h l - sumR k l = sumR (fun a => h a - k a) l.
Proof using. clear. induction l as [|a l' IH]; cbn [sumR fold_right]; [ring|]. unfold sumR in IH. rewrite <- IH. ring. Qed.

Let sa := fold_left f64_add (map f l) (f64_of 0 0).
Let sb := fold_left f64_add (map g l) (f64_of 0 0).
Let c := fold_left f64_add (map (fun a => f64_mul (f a) (g a)) l) (f64_of 0 0).
Let SA := sumR (fun a => B2R (f a)) l.
Let SB := sumR (fun a => B2R (g a)) l.
Let SC := sumR (fun a => B2R (f a) * B2R (g a)) l.

Lemma entry_cross : finite c /\ Rabs (B2R c - SC) <= 4.2 * (t * Q) /\ Rabs (B2R c) <= 1.1 * Q.
Proof.
  pose proof M_pos as M0. pose proof u64_pos as U. destruct t_small as [T1 T2]. pose proof MM_Q as HQ. pose proof N_ge1 as N1.
  assert (MM0 : 0 < M * M) by nra.
  assert (HP : forall a, In a l -> finite (f64_mul (f a) (g a)) /\ Rabs (B2R (f64_mul (f a) (g a)) - B2R (f a) * B2R (g a)) <= 2 * u64 * (M * M)
    /\ Rabs (B2R (f64_mul (f a) (g a))) <= 1.1 * (M * M) /\ Rabs (B2R (f a) * B2R (g a)) <= M * M).
  { intros a Ha. destruct (Hf a Ha) as [Ff Bf]. destruct (Hg a Ha) as [Fg Bg].
    assert (B : Rabs (B2R (f a) * B2R (g a)) <= M * M).
    { rewrite Rabs_mult. apply Rmult_le_compat; auto using Rabs_pos. }
    destruct (mul_finite (f a) (g a) 1010 Ff Fg) as (F & E); [lia| |].
    { apply (up4 800); [lia|]. pose proof MM_le. lra. }
    split; [exact F|]. rewrite E. pose proof (rnd_near _ _ _ B eta_MM) as R. split; [lra|]. split; [|exact B].
    pose proof (close_size _ _ _ _ R B). assert (u64 * (M * M) <= / 1000 * (M * M)) by (apply Rmult_le_compat_r; lra). lra. }
  destruct (sum_of (fun a => f64_mul (f a) (g a)) (1.1 * (M * M))) as (F & E).
  { intros a Ha. destruct (HP a Ha) as (H1 & _ & H2 & _). auto. }
  { lra. } { pose proof MM_le. pose proof (bpow_gt_0 radix2 800). lra. }
  fold c in F, E.
  assert (D : Rabs (sumR (fun a => B2R (f64_mul (f a) (g a))) l - SC) <= N * (2 * u64 * (M * M))).
  { unfold SC. rewrite sumR_sub. apply sumR_abs. intros a Ha. apply (HP a Ha). }
  pose proof (close_trans _ _ _ _ _ E D) as CE.
  assert (E1 : 2 * t * (N * (1.1 * (M * M))) + N * (2 * u64 * (M * M)) <= 4.2 * (t * Q)).
  { assert (u64 * Q <= t * Q) by (apply Rmult_le_compat_r; lra). unfold Q in *. lra. }
  assert (CE' : Rabs (B2R c - SC) <= 4.2 * (t * Q)) by lra.
  split; [exact F|]. split; [exact CE'|].
  assert (BC : Rabs SC <= Q). { unfold Q. apply sumR_abs. intros a Ha. apply (HP a Ha). }
  pose proof (close_size _ _ _ _ CE' BC). assert (t * Q <= / 1000 * Q) by (apply Rmult_le_compat_r; lra). lra.
Qed.

Lemma sum_coord (h : A -> f64) : (forall a, In a l -> finite (h a) /\ Rabs (B2R (h a)) <= M) ->
  let s := fold_left f64_add (map h l) (f64_of 0 0) in let S := sumR (fun a => B2R (h a)) l in
  finite s /\ Rabs (B2R s - S) <= 2 * t * (N * M) /\ Rabs S <= N * M /\ Rabs (B2R s) <= 1.1 * (N * M).
Proof.
  intros H s S. pose proof M_pos as M0. pose proof u64_pos as U. destruct t_small as [T1 T2]. pose proof N_ge1 as N1.
  destruct (sum_of h M H) as (F & E).
  { lra. } { apply Rle_trans with (bpow radix2 400); auto. apply Rle_trans with (bpow radix2 800); [apply bpow_le; lia|].
    pose proof (bpow_gt_0 radix2 800). lra. }
  fold s in F, E. fold S in E. split; [exact F|]. split; [exact E|].
  assert (BS : Rabs S <= N * M). { apply sumR_abs. intros a Ha. apply H; auto. }
  split; [exact BS|]. pose proof (close_size _ _ _ _ E BS).
  assert (0 < N * M) by (apply Rmult_lt_0_compat; lra).
  assert (t * (N * M) <= / 1000 * (N * M)) by (apply Rmult_le_compat_r; lra). lra.
Qed.

Lemma entry_mean : let m := f64_div sa n in
  finite m /\ Rabs (B2R m - SA / N) <= 4.1 * (t * M) /\ Rabs (B2R m) <= 1.2 * M.
Proof.
  intros m. pose proof M_pos as M0. pose proof u64_pos as U. destruct t_small as [T1 T2]. pose proof N_ge1 as N1.
  destruct (sum_coord f Hf) as (F & E & BS & Bs). fold sa in F, E, Bs. fold SA in E, BS.
  assert (R1 : Rabs (B2R sa / N - SA / N) <= 2 * t * M).
  { replace (B2R sa / N - SA / N) with ((B2R sa - SA) * / N) by (field; lra). rewrite Rabs_mult, (Rabs_pos_eq (/ N)) by (left; apply Rinv_0_lt_compat; lra).
    apply (Rmult_le_compat_r (/ N)) in E; [|left; apply Rinv_0_lt_compat; lra].
    replace (2 * t * (N * M) * / N) with (2 * t * M) in E by (field; lra). exact E. }
  assert (R2 : Rabs (B2R sa / N) <= 1.1 * M).
  { unfold Rdiv. rewrite Rabs_mult, (Rabs_pos_eq (/ N)) by (left; apply Rinv_0_lt_compat; lra).
    apply (Rmult_le_compat_r (/ N)) in Bs; [|left; apply Rinv_0_lt_compat; lra].
    replace (1.1 * (N * M) * / N) with (1.1 * M) in Bs by (field; lra). exact Bs. }
  destruct (div_finite sa n 1010 F) as (Fm & Em).
  { rewrite En. lra. } { lia. }
  { rewrite En. apply (up4 400); [lia|]. lra. }
  fold m in Fm, Em. rewrite En in Em. split; [exact Fm|].
  pose proof (rnd_near _ _ _ R2 eta_M) as R. rewrite <- Em in R.
  assert (u64 * M <= t * M) by (apply Rmult_le_compat_r; lra).
  assert (t * M <= / 1000 * M) by (apply Rmult_le_compat_r; lra).
  split.
  - pose proof (close_trans _ _ _ _ _ R R1). lra.
  - pose proof (close_size _ _ _ _ R R2). lra.
Qed.

Definition exact_entry : R := (SC - SA * SB / N) / N.
Lemma entry_err : let w := f64_div (f64_sub c (f64_mul (f64_div sa n) sb)) n in
  finite w /\ Rabs (B2R w - exact_entry) <= 24 * INR (length l) * u64 * (M * M).
Proof.
  intros w. pose proof M_pos as M0. pose proof u64_pos as U. destruct t_small as [T1 T2]. pose proof N_ge1 as N1.
  pose proof MM_Q as HQ. pose proof Q_le as QU. assert (MM0 : 0 < M * M) by nra.
  assert (Q0 : 0 < Q) by lra. assert (TQ : u64 * Q <= t * Q) by (apply Rmult_le_compat_r; lra).
  assert (TQ' : t * Q <= / 1000 * Q) by (apply Rmult_le_compat_r; lra). assert (TQ0 : 0 < t * Q) by (apply Rmult_lt_0_compat; lra).
  destruct entry_cross as (Fc & Ec & Bc). destruct entry_mean as (Fm & Em & Bm).
  destruct (sum_coord g Hg) as (Fb & Eb & BSB & Bb). fold sb in Fb, Eb, Bb. fold SB in Eb, BSB.
  set (m := f64_div sa n) in *.
  assert (etaQ : eta64 <= u64 * Q). { eapply Rle_trans; [apply eta_MM|]. apply Rmult_le_compat_l; lra. }
  (* mean times sum *)
  assert (P1 : Rabs (B2R m * B2R sb - SA / N * SB) <= 6.5 * (t * Q)).
  { eapply Rle_trans; [apply (close_mul _ _ _ _ _ _ _ _ Em Eb Bm BSB)|]. unfold Q. lra. }
  assert (P2 : Rabs (B2R m * B2R sb) <= 1.32 * Q).
  { rewrite Rabs_mult. eapply Rle_trans; [apply Rmult_le_compat; [apply Rabs_pos|apply Rabs_pos|exact Bm|exact Bb]|]. unfold Q. lra. }
  destruct (mul_finite m sb 1010 Fm Fb) as (Fq & Eq); [lia| |].
  { apply (up4 830); [lia|]. lra. }
  pose proof (rnd_near _ _ _ P2 etaQ) as Rq. rewrite <- Eq in Rq. set (q := f64_mul m sb) in *.
  pose proof (close_trans _ _ _ _ _ Rq P1) as Eq'. pose proof (close_size _ _ _ _ Rq P2) as Bq.
  (* difference *)
  assert (D1 : Rabs ((B2R c - B2R q) - (SC - SA * SB / N)) <= 13.1 * (t * Q)).
  { replace (SA * SB / N) with (SA / N * SB) by (field; lra).
    replace ((B2R c - B2R q) - (SC - SA / N * SB)) with ((B2R c - SC) + - (B2R q - SA / N * SB)) by ring.
    eapply Rle_trans; [apply Rabs_triang|]. rewrite Rabs_Ropp. lra. }
  assert (D2 : Rabs (B2R c - B2R q) <= 2.5 * Q).
  { unfold Rminus. eapply Rle_trans; [apply Rabs_triang|]. rewrite Rabs_Ropp. lra. }
  destruct (sub_finite c q 1010 Fc Fq) as (Fd & Ed); [lia| |].
  { apply (up4 830); [lia|]. lra. }
  pose proof (rnd_near _ _ _ D2 etaQ) as Rd. rewrite <- Ed in Rd. set (d := f64_sub c q) in *.
  pose proof (close_trans _ _ _ _ _ Rd D1) as Ed'. pose proof (close_size _ _ _ _ Rd D2) as Bd.
  (* quotient *)
  assert (IN : 0 < / N) by (apply Rinv_0_lt_compat; lra).
  assert (W1 : Rabs (B2R d / N - exact_entry) <= 16.7 * (t * (M * M))).
  { unfold exact_entry. replace (B2R d / N - (SC - SA * SB / N) / N) with ((B2R d - (SC - SA * SB / N)) * / N) by (field; lra).
    rewrite Rabs_mult, (Rabs_pos_eq (/ N)) by lra.
    assert (E : Rabs (B2R d - (SC - SA * SB / N)) <= 16.7 * (t * Q)) by lra.
    apply (Rmult_le_compat_r (/ N)) in E; [|lra].
    replace (16.7 * (t * Q) * / N) with (16.7 * (t * (M * M))) in E by (unfold Q; field; lra). exact E. }
  assert (W2 : Rabs (B2R d / N) <= 2.6 * (M * M)).
  { unfold Rdiv. rewrite Rabs_mult, (Rabs_pos_eq (/ N)) by lra.
    assert (E : Rabs (B2R d) <= 2.6 * Q) by lra. apply (Rmult_le_compat_r (/ N)) in E; [|lra].
    replace (2.6 * Q * / N) with (2.6 * (M * M)) in E by (unfold Q; field; lra). exact E. }
  destruct (div_finite d n 1010 Fd) as (Fw & Ew).
  { rewrite En. lra. } { lia. }
  { rewrite En. apply (up4 800); [lia|]. pose proof MM_le. lra. }
  fold w in Fw, Ew. rewrite En in Ew. split; [exact Fw|].
  pose proof (rnd_near _ _ _ W2 eta_MM) as Rw. rewrite <- Ew in Rw. pose proof (close_trans _ _ _ _ _ Rw W1) as R.
  assert (u64 * (M * M) <= t * (M * M)) by (apply Rmult_le_compat_r; lra).
  replace (24 * INR (length l) * u64 * (M * M)) with (24 * (t * (M * M))) by (unfold t, N; ring).
  assert (0 < t * (M * M)) by (apply Rmult_lt_0_compat; lra). lra.
Qed.
End Entry.
