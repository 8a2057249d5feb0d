(** Proofs for estimation on a cloud of doubles. *)
From Coq Require Import Reals Lra Psatz.
From Flocq Require Import Core IEEE754.BinarySingleNaN.
From Verif Require Import Base BaseProofs Num Vec RNum F64 F64Proofs FloorProofs F64Err Lin LinSpec LinProofs FactorModel EstModel EstSpec EstReal
  FlatSpec ScatterF64 ProjF64.
Open Scope R_scope.

(** * The entries of the covariance matrix *)
Lemma at3_sum (l : list (vec4 Ffld)) a : forall acc : v3 Ffld,
  at3 (fold_left (fun s p => add3 s (head p)) l acc) a = fold_left f64_add (map (fun q : vec4 Ffld => at4 q a : f64) l) (at3 acc a).
Proof. induction l as [|p l IH]; intros acc; cbn [fold_left map]; [reflexivity|]. rewrite IH. f_equal. destruct a; reflexivity. Qed.
Lemma at33_sum (l : list (vec4 Ffld)) a b : forall acc : m3 Ffld,
  at33 (fold_left (fun s p => madd3 s (outer3 (head p) (head p))) l acc) a b =
  fold_left f64_add (map (fun q : vec4 Ffld => f64_mul (at4 q a) (at4 q b)) l) (at33 acc a b).
Proof. induction l as [|p l IH]; intros acc; cbn [fold_left map]; [reflexivity|]. rewrite IH. f_equal. destruct a, b; reflexivity. Qed.
Lemma zero_lit : f64_of 0 0 = B754_zero false. Proof. vm_compute. reflexivity. Qed.
Lemma at33_scatter of_nat (l : list (vec4 Ffld)) a b :
  at33 (scatter (D := Ffld) of_nat l) a b =
  f64_div (f64_sub (fold_left f64_add (map (fun q : vec4 Ffld => f64_mul (at4 q a) (at4 q b)) l) (f64_of 0 0))
    (f64_mul (f64_div (fold_left f64_add (map (fun q : vec4 Ffld => at4 q a : f64) l) (f64_of 0 0)) (of_nat (length l)))
       (fold_left f64_add (map (fun q : vec4 Ffld => at4 q b : f64) l) (f64_of 0 0)))) (of_nat (length l)).
Proof.
  rewrite zero_lit. pose proof (at33_sum l a b mzero3) as C. pose proof (at3_sum l a zero3) as A. pose proof (at3_sum l b zero3) as B.
  replace (at33 (mzero3 (D := Ffld)) a b) with (B754_zero false : f64) in C by (destruct a, b; reflexivity).
  replace (at3 (zero3 (D := Ffld)) a) with (B754_zero false : f64) in A by (destruct a; reflexivity).
  replace (at3 (zero3 (D := Ffld)) b) with (B754_zero false : f64) in B by (destruct b; reflexivity).
  rewrite <- C, <- A, <- B. unfold scatter. fold (sum_cross l). fold (sum_points l). destruct a, b; reflexivity.
Qed.

Lemma sumR_map {A B : Type} (h : A -> B) (f : B -> R) l : sumR f (map h l) = sumR (fun a => f (h a)) l.
Proof. induction l as [|a l IH]; cbn; [reflexivity|]. unfold sumR in IH. rewrite IH. reflexivity. Qed.
Lemma at4_real q a : (at4 (real4 q) a : R) = B2R (at4 q a).
Proof. destruct a; reflexivity. Qed.

Lemma exact_covariance (l : list (vec4 Ffld)) a b : l <> [] ->
  exact_entry (fun q : vec4 Ffld => at4 q a : f64) (fun q => at4 q b : f64) l = covariance a b (map real4 l).
Proof.
  intros NE. assert (N0 : 0 < INR (length l)) by (apply lt_0_INR; destruct l; [congruence|cbn; lia]).
  unfold exact_entry, covariance. rewrite map_length, sumR_map. f_equal.
  set (ma := mean_of a (map real4 l)). set (mb := mean_of b (map real4 l)).
  assert (Ea : sumR (fun q : vec4 Ffld => B2R (at4 q a)) l = INR (length l) * ma).
  { unfold ma, mean_of. rewrite map_length, sumR_map. rewrite (sumR_ext (fun q : vec4 Ffld => B2R (at4 q a : f64)) (fun q => (at4 (real4 q) a : R))) by (intros; symmetry; apply at4_real). field. lra. }
  assert (Eb : sumR (fun q : vec4 Ffld => B2R (at4 q b)) l = INR (length l) * mb).
  { unfold mb, mean_of. rewrite map_length, sumR_map. rewrite (sumR_ext (fun q : vec4 Ffld => B2R (at4 q b : f64)) (fun q => (at4 (real4 q) b : R))) by (intros; symmetry; apply at4_real). field. lra. }
  transitivity (sumR (fun q : vec4 Ffld => 1 * (B2R (at4 q a) * B2R (at4 q b)) + 1 * (- mb * B2R (at4 q a) + 1 * (- ma * B2R (at4 q b) + 1 * (ma * mb)))) l).
  - rewrite sumR_lin, (sumR_lin (fun q : vec4 Ffld => B2R (at4 q a)) _), (sumR_lin (fun q : vec4 Ffld => B2R (at4 q b)) _), sumR_const, Ea, Eb. field. lra.
  - apply sumR_ext. intros q. rewrite !at4_real. ring.
Qed.

(** Variance along a direction is the quadratic form of the covariances. *)
Lemma sumR_lin3 {A : Type} (f g h : A -> R) a b c l : sumR (fun x => a * f x + b * g x + c * h x) l = a * sumR f l + b * sumR g l + c * sumR h l.
Proof.
  rewrite (sumR_ext _ (fun x => 1 * (a * f x + b * g x) + c * h x)) by (intros; ring).
  rewrite sumR_lin, sumR_lin. ring.
Qed.
Lemma variance_form (u : v3 Rfld) (pts : list (vec4 Rfld)) : pts <> [] ->
  variance_along u pts =
  covariance AX AX pts * (p0 u * p0 u) + covariance AY AY pts * (p1 u * p1 u) + covariance AZ AZ pts * (p2 u * p2 u) +
  2 * (covariance AY AX pts * (p0 u * p1 u) + covariance AZ AX pts * (p0 u * p2 u) + covariance AZ AY pts * (p1 u * p2 u)).
Proof.
  intros NE. assert (N0 : 0 < INR (length pts)) by (apply lt_0_INR; destruct pts; [congruence|cbn; lia]).
  destruct u as [a b c]. cbn [p0 p1 p2]. change (car (fbase Rfld)) with R in *.
  assert (EM : mean_along (P3 (D := Rfld) a b c) pts = a * mean_of AX pts + b * mean_of AY pts + c * mean_of AZ pts).
  { unfold mean_along, mean_of. rewrite (sumR_ext (along (P3 (D := Rfld) a b c)) (fun q => a * (at4 q AX : R) + b * (at4 q AY : R) + c * (at4 q AZ : R))).
    - rewrite sumR_lin3. field. lra.
    - intros q. unfold along, dot3. cbn. ring. }
  unfold variance_along. rewrite EM.
  set (x := mean_of AX pts). set (y := mean_of AY pts). set (z := mean_of AZ pts). unfold covariance. fold x y z.
  rewrite (sumR_ext _ (fun q : vec4 Rfld => 1 * ((a * a) * (((at4 q AX : R) - x) * ((at4 q AX : R) - x)) + (b * b) * (((at4 q AY : R) - y) * ((at4 q AY : R) - y)) + (c * c) * (((at4 q AZ : R) - z) * ((at4 q AZ : R) - z)))
     + 1 * ((2 * a * b) * (((at4 q AY : R) - y) * ((at4 q AX : R) - x)) + (2 * a * c) * (((at4 q AZ : R) - z) * ((at4 q AX : R) - x)) + (2 * b * c) * (((at4 q AZ : R) - z) * ((at4 q AY : R) - y))))).
  - rewrite sumR_lin, !sumR_lin3. field. lra.
  - intros q. unfold along, dot3. cbn. ring.
Qed.

(** A symmetric form with small coefficients is small. *)
Lemma form_small (cxx cyy czz cyx czx czy e x y z : R) : Rabs cxx <= e -> Rabs cyy <= e -> Rabs czz <= e -> Rabs cyx <= e -> Rabs czx <= e -> Rabs czy <= e ->
  Rabs (cxx * (x * x) + cyy * (y * y) + czz * (z * z) + 2 * (cyx * (x * y) + czx * (x * z) + czy * (y * z))) <= 3 * e * (x * x + y * y + z * z).
Proof.
  intros H1 H2 H3 H4 H5 H6.
  apply Rabs_le_inv in H1, H2, H3, H4, H5, H6.
  assert (Sx : 0 <= x * x) by apply Rle_0_sqr. assert (Sy : 0 <= y * y) by apply Rle_0_sqr. assert (Sz : 0 <= z * z) by apply Rle_0_sqr.
  assert (C : forall c a b, - e <= c <= e -> - (e * (a * a + b * b)) <= 2 * (c * (a * b)) <= e * (a * a + b * b)).
  { intros c a b Hc. assert (0 <= (a - b) * (a - b)) by apply Rle_0_sqr. assert (0 <= (a + b) * (a + b)) by apply Rle_0_sqr. assert (0 <= e) by lra.
    assert (0 <= (e - c) * ((a + b) * (a + b)) ) by (apply Rmult_le_pos; lra).
    assert (0 <= (e + c) * ((a - b) * (a - b)) ) by (apply Rmult_le_pos; lra).
    assert (0 <= (e - c) * ((a - b) * (a - b)) ) by (apply Rmult_le_pos; lra).
    assert (0 <= (e + c) * ((a + b) * (a + b)) ) by (apply Rmult_le_pos; lra). lra. }
  assert (S : forall c a, - e <= c <= e -> - (e * (a * a)) <= c * (a * a) <= e * (a * a)).
  { intros c a Hc. assert (0 <= a * a) by apply Rle_0_sqr. assert (0 <= (e + c) * (a * a)) by (apply Rmult_le_pos; lra).
    assert (0 <= (e - c) * (a * a)) by (apply Rmult_le_pos; lra). lra. }
  pose proof (C _ x y H4). pose proof (C _ x z H5). pose proof (C _ y z H6).
  pose proof (S _ x H1). pose proof (S _ y H2). pose proof (S _ z H3). apply Rabs_le. lra.
Qed.

Lemma form_close (W : m3 Ffld) (rp : list (vec4 Rfld)) (E : R) (u : v3 Rfld) : rp <> [] ->
  (forall a b, Rabs (B2R (at33 W a b) - covariance a b rp) <= E) ->
  Rabs (lower_form W u - variance_along u rp) <= 3 * E * dot3 u u.
Proof.
  intros NE H. rewrite variance_form by exact NE. unfold lower_form.
  destruct u as [x y z]. unfold dot3. cbn [p0 p1 p2 nadd nmul fbase Rfld Rnum]. change (car (fbase Rfld)) with R in *.
  pose proof (form_small _ _ _ _ _ _ E x y z (H AX AX) (H AY AY) (H AZ AZ) (H AY AX) (H AZ AX) (H AZ AY)) as F.
  eapply Rle_trans; [|exact F]. right. f_equal. ring.
Qed.

Section Points.
Context (of_nat : nat -> f64) (pts : list (vec4 Ffld)) (M : R).
Hypothesis CT : counts of_nat.
Hypothesis NE : (1 <= length pts)%nat.
Hypothesis NB : (Z.of_nat (length pts) <= 2 ^ 30)%Z.
Hypothesis ML : bpow radix2 (-400) <= M.
Hypothesis MU : M <= bpow radix2 400.
Hypothesis HP : forall q, In q pts -> reaches M q.
Let W := scatter (D := Ffld) of_nat pts.
Let E := 24 * INR (length pts) * u64 * (M * M).

Lemma scatter_err a b : finite (at33 W a b) /\ Rabs (B2R (at33 W a b) - covariance a b (map real4 pts)) <= E.
Proof.
  unfold W. rewrite at33_scatter. destruct (CT (length pts)) as [Fn En]; [lia|].
  rewrite <- exact_covariance by (intros ->; cbn in NE; lia).
  apply (entry_err (fun q : vec4 Ffld => at4 q a : f64) (fun q => at4 q b : f64) pts M (of_nat (length pts))); auto.
  - intros q Hq. apply (HP q Hq).
  - intros q Hq. apply (HP q Hq).
Qed.

Lemma covariance_size a b : Rabs (covariance a b (map real4 pts)) <= 2 * (M * M).
Proof.
  rewrite <- exact_covariance by (intros ->; cbn in NE; lia). unfold exact_entry.
  set (N := INR (length pts)). assert (N1 : 1 <= N). { unfold N. replace 1 with (INR 1) by reflexivity. apply le_INR. exact NE. }
  set (SC := sumR _ pts). set (SA := sumR _ pts). set (SB := sumR _ pts).
  assert (M0 : 0 < M) by (pose proof (bpow_gt_0 radix2 (-400)); lra).
  assert (BC : Rabs SC <= N * (M * M)).
  { apply sumR_abs. intros q Hq. rewrite Rabs_mult. destruct (HP q Hq) as [_ H]. apply Rmult_le_compat; auto using Rabs_pos; apply H. }
  assert (BA : Rabs SA <= N * M) by (apply sumR_abs; intros q Hq; destruct (HP q Hq) as [_ H]; apply H).
  assert (BB : Rabs SB <= N * M) by (apply sumR_abs; intros q Hq; destruct (HP q Hq) as [_ H]; apply H).
  assert (IN : 0 < / N) by (apply Rinv_0_lt_compat; lra).
  assert (BD : Rabs (SA * SB / N) <= N * (M * M)).
  { unfold Rdiv. rewrite !Rabs_mult, (Rabs_pos_eq (/ N)) by lra.
    apply Rle_trans with ((N * M) * (N * M) * / N); [|right; field; lra].
    apply Rmult_le_compat_r; [lra|]. apply Rmult_le_compat; auto using Rabs_pos. }
  unfold Rdiv at 1. rewrite Rabs_mult, (Rabs_pos_eq (/ N)) by lra.
  apply Rle_trans with (2 * (N * (M * M)) * / N); [|right; field; lra].
  apply Rmult_le_compat_r; [lra|]. unfold Rminus. eapply Rle_trans; [apply Rabs_triang|]. rewrite Rabs_Ropp. lra.
Qed.

Lemma lower_close (u : v3 Rfld) : Rabs (lower_form W u - variance_along u (map real4 pts)) <= 3 * E * dot3 u u.
Proof. apply form_close; [destruct pts; [cbn in NE; lia|discriminate]|]. intros a b. apply scatter_err. Qed.
End Points.

(** * Normalisation of an almost unit vector *)
Lemma u64_small : u64 <= / 1000000.
Proof. unfold u64. apply Rle_trans with (bpow radix2 (-20)); [apply bpow_le; lia|]. change (bpow radix2 (-20)) with (/ IZR 1048576). lra. Qed.
Lemma eta_u : eta64 <= u64 * / 1000000.
Proof.
  apply Rle_trans with (u64 * bpow radix2 (-1022)).
  - unfold eta64, u64. rewrite <- bpow_plus. apply bpow_le. lia.
  - apply Rmult_le_compat_l; [left; apply u64_pos|]. apply Rle_trans with (bpow radix2 (-20)); [apply bpow_le; lia|].
    change (bpow radix2 (-20)) with (/ IZR 1048576). lra.
Qed.
Lemma bpow2 : bpow radix2 2 = 4. Proof. reflexivity. Qed.

Lemma unit_len (x y z : f64) : finite x -> finite y -> finite z ->
  Rabs (B2R x * B2R x + B2R y * B2R y + B2R z * B2R z - 1) <= 4 * u64 ->
  let s := f64_add (f64_add (f64_mul x x) (f64_mul y y)) (f64_mul z z) in
  finite s /\ Rabs (B2R s - 1) <= 7.5 * u64.
Proof.
  intros Fx Fy Fz H s. pose proof u64_pos as U. pose proof u64_small as US. pose proof eta_u as EU.
  set (a := B2R x) in *. set (b := B2R y) in *. set (c := B2R z) in *.
  apply Rabs_le_inv in H. assert (Sx : 0 <= a * a) by nra. assert (Sy : 0 <= b * b) by nra. assert (Sz : 0 <= c * c) by nra.
  assert (sq : forall v w, finite v -> w = B2R v * B2R v -> 0 <= w <= 1.1 -> finite (f64_mul v v) /\ Rabs (B2R (f64_mul v v) - w) <= u64 * w + eta64).
  { intros v w Fv -> Hw. destruct (mul_finite v v 2 Fv Fv) as (F & E); [lia| |].
    { rewrite Rabs_pos_eq by lra. rewrite bpow2. lra. }
    split; [exact F|]. rewrite E. eapply Rle_trans; [apply rnd_err|]. rewrite Rabs_pos_eq by lra. lra. }
  destruct (sq x (a * a) Fx eq_refl) as [F1 E1]; [lra|]. destruct (sq y (b * b) Fy eq_refl) as [F2 E2]; [lra|].
  destruct (sq z (c * c) Fz eq_refl) as [F3 E3]; [lra|]. clear sq.
  apply Rabs_le_inv in E1, E2, E3. set (p := B2R (f64_mul x x)) in *. set (q := B2R (f64_mul y y)) in *. set (r := B2R (f64_mul z z)) in *.
  assert (X1 : u64 * (a * a) <= u64 * 1.1) by (apply Rmult_le_compat_l; lra). assert (X2 : u64 * (b * b) <= u64 * 1.1) by (apply Rmult_le_compat_l; lra).
  assert (X3 : u64 * (c * c) <= u64 * 1.1) by (apply Rmult_le_compat_l; lra).
  assert (X0 : u64 * (a * a) + u64 * (b * b) + u64 * (c * c) <= u64 * 1.01).
  { rewrite <- !Rmult_plus_distr_l. apply Rmult_le_compat_l; lra. }
  assert (A1 : Rabs (p + q) <= 1.01) by (apply Rabs_le; lra).
  destruct (add_finite (f64_mul x x) (f64_mul y y) 2 F1 F2) as (F4 & E4); [lia| |].
  { fold p q. rewrite bpow2. lra. }
  fold p q in E4. pose proof (rnd_add_err _ _ F1 F2) as R4. fold p q in R4. rewrite <- E4 in R4.
  assert (R4' : u64 * Rabs (p + q) <= u64 * 1.01) by (apply Rmult_le_compat_l; lra).
  set (w := f64_add (f64_mul x x) (f64_mul y y)) in *. assert (R4'' : Rabs (B2R w - (p + q)) <= 1.01 * u64) by lra. apply Rabs_le_inv in R4''.
  assert (A2 : Rabs (B2R w + r) <= 1.01) by (apply Rabs_le; lra).
  destruct (add_finite w (f64_mul z z) 2 F4 F3) as (F5 & E5); [lia| |].
  { fold r. rewrite bpow2. lra. }
  fold r in E5. pose proof (rnd_add_err _ _ F4 F3) as R5. fold r in R5. rewrite <- E5 in R5. fold s in E5, R5, F5.
  assert (R5' : u64 * Rabs (B2R w + r) <= u64 * 1.01) by (apply Rmult_le_compat_l; lra).
  assert (R5'' : Rabs (B2R s - (B2R w + r)) <= 1.01 * u64) by lra. apply Rabs_le_inv in R5''.
  split; [exact F5|]. apply Rabs_le. lra.
Qed.

Lemma sqrt_near1 s : Rabs (s - 1) <= / 2 -> Rabs (sqrt s - 1) <= Rabs (s - 1).
Proof.
  intros H. apply Rabs_le_inv in H. assert (0 < s) by lra. pose proof (sqrt_lt_R0 s H0) as P. pose proof (sqrt_sqrt s (Rlt_le _ _ H0)) as Q.
  replace (s - 1) with ((sqrt s - 1) * (sqrt s + 1)) by (rewrite <- Q at 3; ring).
  rewrite Rabs_mult. rewrite (Rabs_pos_eq (sqrt s + 1)) by lra. pose proof (Rabs_pos (sqrt s - 1)). nra.
Qed.

(** The component of the normalised vector against the component. *)
Definition near_component (n v : f64) : Prop := finite n /\ Rabs (B2R n - B2R v) <= 10 * u64 * Rabs (B2R v) + eta64.

Lemma unit_div (r v : f64) : finite v -> Rabs (B2R r - 1) <= 8.6 * u64 -> Rabs (B2R v) <= 1.1 -> near_component (f64_div v r) v.
Proof.
  intros Fv Hr Hv. pose proof u64_pos as U. pose proof u64_small as US. apply Rabs_le_inv in Hr.
  assert (R0 : 0 < B2R r) by lra. assert (IR : 0 < / B2R r) by (apply Rinv_0_lt_compat; lra).
  assert (I1 : Rabs (/ B2R r - 1) <= 8.7 * u64).
  { replace (/ B2R r - 1) with ((1 - B2R r) * / B2R r) by (field; lra). rewrite Rabs_mult, (Rabs_pos_eq (/ B2R r)) by lra.
    assert (/ B2R r <= 1.001). { apply Rmult_le_reg_r with (B2R r); [exact R0|]. rewrite Rinv_l by lra. nra. }
    assert (Rabs (1 - B2R r) <= 8.6 * u64) by (apply Rabs_le; lra).
    eapply Rle_trans; [apply Rmult_le_compat; [apply Rabs_pos|lra|eassumption|eassumption]|]. lra. }
  assert (D1 : Rabs (B2R v / B2R r - B2R v) <= 8.7 * u64 * Rabs (B2R v)).
  { replace (B2R v / B2R r - B2R v) with ((/ B2R r - 1) * B2R v) by (field; lra). rewrite Rabs_mult.
    apply Rmult_le_compat_r; [apply Rabs_pos|exact I1]. }
  pose proof (Rabs_pos (B2R v)) as V0.
  assert (UV : u64 * Rabs (B2R v) <= / 1000000 * Rabs (B2R v)) by (apply Rmult_le_compat_r; lra).
  assert (D2 : Rabs (B2R v / B2R r) <= 1.01 * Rabs (B2R v)).
  { eapply Rle_trans; [apply (close_size _ _ _ _ D1 (Rle_refl _))|]. lra. }
  destruct (div_finite v r 2 Fv) as (F & E); [lra|lia| |].
  { rewrite bpow2. lra. }
  split; [exact F|]. rewrite E. pose proof (rnd_err (B2R v / B2R r)) as R.
  assert (R' : u64 * Rabs (B2R v / B2R r) <= u64 * (1.01 * Rabs (B2R v))) by (apply Rmult_le_compat_l; lra).
  assert (0 <= u64 * Rabs (B2R v)) by (apply Rmult_le_pos; lra).
  assert (R'' : Rabs (rnd (B2R v / B2R r) - B2R v / B2R r) <= 1.01 * u64 * Rabs (B2R v) + eta64) by lra.
  pose proof (close_trans _ _ _ _ _ R'' D1). lra.
Qed.

Lemma abs_le11 t : t * t <= 1.1 -> Rabs t <= 1.1.
Proof. intros H. apply Rabs_le. split; apply Rnot_lt_le; intros L; nra. Qed.
Lemma normalized_near (v : v3 Ffld) : (forall a, finite (at3 v a)) -> Rabs (dot3 (real3 v) (real3 v) - 1) <= 4 * u64 ->
  forall a, near_component (at3 (normalized v) a) (at3 v a).
Proof.
  intros Fv H. pose proof u64_pos as U. pose proof u64_small as US. pose proof eta_u as EU.
  destruct v as [x y z]. pose proof (Fv AX) as Fx. pose proof (Fv AY) as Fy. pose proof (Fv AZ) as Fz. cbn in Fx, Fy, Fz. clear Fv.
  unfold dot3, real3 in H. cbn [p0 p1 p2 nadd nmul fbase Rfld Rnum] in H. change (car (fbase Ffld)) with f64 in *.
  destruct (unit_len x y z Fx Fy Fz H) as [Fs Es]. set (s := f64_add (f64_add (f64_mul x x) (f64_mul y y)) (f64_mul z z)) in *.
  pose proof Es as Es'. apply Rabs_le_inv in Es'. assert (S0 : 0 < B2R s) by lra.
  assert (LT : f64_lt (B754_zero false) s = true).
  { apply f64_lt_val; [reflexivity|apply finite_notnan; exact Fs|]. rewrite !finite_val by (reflexivity || exact Fs). exact S0. }
  destruct (bsqrt_pos s Fs S0) as [Fr Er]. set (r := Bsqrt mode_NE s) in *.
  assert (R1 : Rabs (B2R r - 1) <= 8.6 * u64).
  { rewrite Er. pose proof (sqrt_near1 (B2R s)) as Q. assert (Q1 : Rabs (sqrt (B2R s) - 1) <= 7.5 * u64) by (eapply Rle_trans; [apply Q; lra|exact Es]).
    pose proof (rnd_err (sqrt (B2R s))) as R. pose proof (sqrt_pos (B2R s)) as P. rewrite (Rabs_pos_eq (sqrt (B2R s))) in R by exact P.
    pose proof Q1 as Q2. apply Rabs_le_inv in Q2. assert (u64 * sqrt (B2R s) <= u64 * 1.01) by (apply Rmult_le_compat_l; lra).
    assert (R' : Rabs (rnd (sqrt (B2R s)) - sqrt (B2R s)) <= 1.02 * u64) by lra.
    pose proof (close_trans _ _ _ _ _ R' Q1). lra. }
  assert (EN : normalized (P3 (D := Ffld) x y z) = P3 (D := Ffld) (f64_div x r) (f64_div y r) (f64_div z r)).
  { unfold normalized, dot3. cbn [p0 p1 p2]. change (nlt (n := fbase Ffld)) with f64_lt. change (nzero (n := fbase Ffld)) with (B754_zero false : f64).
    change (nadd (n := fbase Ffld)) with f64_add. change (nmul (n := fbase Ffld)) with f64_mul. fold s. rewrite LT. reflexivity. }
  rewrite EN. set (a := B2R x) in *. set (b := B2R y) in *. set (c := B2R z) in *. apply Rabs_le_inv in H.
  pose proof (Rle_0_sqr a) as Sa. pose proof (Rle_0_sqr b) as Sb. pose proof (Rle_0_sqr c) as Sc. unfold Rsqr in Sa, Sb, Sc.
  intros [| |]; cbn [at3 p0 p1 p2]; apply unit_div; auto; apply abs_le11; fold a b c; lra.
Qed.

(** * The normal *)
Lemma abs_le1001 t : t * t <= 1.00001 -> Rabs t <= 1.001.
Proof. intros H. apply Rabs_le. split; apply Rnot_lt_le; intros L; nra. Qed.
Lemma unit_components (v : v3 Ffld) : Rabs (dot3 (real3 v) (real3 v) - 1) <= 4 * u64 -> forall a, Rabs (B2R (at3 v a)) <= 1.001.
Proof.
  intros H. pose proof u64_pos as U. pose proof u64_small as US. destruct v as [x y z].
  unfold dot3, real3 in H. cbn [p0 p1 p2 nadd nmul fbase Rfld Rnum] in H.
  pose proof (Rle_0_sqr (B2R x)) as Sa. pose proof (Rle_0_sqr (B2R y)) as Sb. pose proof (Rle_0_sqr (B2R z)) as Sc. unfold Rsqr in *.
  apply Rabs_le_inv in H. intros [| |]; cbn [at3 p0 p1 p2]; apply abs_le1001; lra.
Qed.

(** Components of the normalised vector, as real numbers. *)
Definition almost (n v : R) : Prop := Rabs (n - v) <= 10.1 * u64 /\ Rabs n <= 1.01 /\ Rabs v <= 1.01.
Lemma near_almost n v : near_component n v -> Rabs (B2R v) <= 1.001 -> finite n /\ almost (B2R n) (B2R v).
Proof.
  intros [F H] V. pose proof u64_pos as U. pose proof u64_small as US. pose proof eta_u as EU. split; [exact F|].
  assert (u64 * Rabs (B2R v) <= u64 * 1.001) by (apply Rmult_le_compat_l; lra).
  assert (H1 : Rabs (B2R n - B2R v) <= 10.1 * u64) by lra. split; [exact H1|]. split; [|lra].
  pose proof (close_size _ _ _ _ H1 V). lra.
Qed.
Lemma almost_mul n v m w : almost n v -> almost m w -> Rabs (n * m - v * w) <= 20.5 * u64.
Proof.
  intros (H1 & H2 & H3) (H4 & H5 & H6). pose proof u64_pos. eapply Rle_trans; [apply (close_mul _ _ _ _ _ _ _ _ H1 H4 H2 H6)|]. lra.
Qed.

Lemma coef_mul c d e f : Rabs c <= e -> Rabs d <= f -> - (e * f) <= c * d <= e * f.
Proof.
  intros H1 H2. apply Rabs_le_inv. rewrite Rabs_mult. apply Rmult_le_compat; auto using Rabs_pos.
Qed.

Lemma zero_mul x : finite x -> finite (f64_mul x (B754_zero false)) /\ B2R (f64_mul x (B754_zero false)) = 0.
Proof.
  intros F. destruct (mul_finite x (B754_zero false) 0 F eq_refl) as [F1 E1]; [lia| |].
  - cbn [B2R]. rewrite Rmult_0_r, Rabs_R0. apply bpow_ge_0.
  - split; [exact F1|]. rewrite E1. cbn [B2R]. rewrite Rmult_0_r. apply rnd_0.
Qed.

Lemma facing_err (M : R) (p : vec4 Ffld) (x y z : f64) : bpow radix2 (-400) <= M -> M <= bpow radix2 400 -> reaches M p ->
  (finite x /\ Rabs (B2R x) <= 1.01) -> (finite y /\ Rabs (B2R y) <= 1.01) -> (finite z /\ Rabs (B2R z) <= 1.01) ->
  let d := dot4 p (V4 (D := Ffld) x y z (B754_zero false)) in
  finite d /\ Rabs (B2R d - (B2R (vx p) * B2R x + B2R (vy p) * B2R y + B2R (vz p) * B2R z)) <= 16 * u64 * M.
Proof.
  intros ML MU [Fw HP] [Fx Bx] [Fy By] [Fz Bz] d. pose proof (HP AX) as [FX BX]. pose proof (HP AY) as [FY BY]. pose proof (HP AZ) as [FZ BZ].
  cbn [at4] in *. clear HP. destruct p as [px py pz pw]. cbn [vx vy vz vw] in *. change (car (fbase Ffld)) with f64 in *.
  pose proof u64_pos as U. pose proof u64_small as US. assert (M0 : 0 < M) by (pose proof (bpow_gt_0 radix2 (-400)); lra).
  assert (UM : u64 * M <= / 1000000 * M) by (apply Rmult_le_compat_r; lra).  assert (UM0 : 0 < u64 * M) by (apply Rmult_lt_0_compat; lra).
  assert (EM : eta64 <= u64 * M).
  { apply Rle_trans with (u64 * bpow radix2 (-400)); [|apply Rmult_le_compat_l; lra]. unfold eta64, u64. rewrite <- bpow_plus. apply bpow_le. lia. }
  assert (TOP : forall t, t <= 4 * M -> t <= bpow radix2 402).
  { intros t Ht. change 402%Z with (2 + 400)%Z. rewrite bpow_plus, bpow2. lra. }
  assert (PR : forall a b : f64, finite a -> Rabs (B2R a) <= M -> finite b -> Rabs (B2R b) <= 1.01 ->
    finite (f64_mul a b) /\ Rabs (B2R (f64_mul a b) - B2R a * B2R b) <= 2.1 * u64 * M /\ Rabs (B2R (f64_mul a b)) <= 1.02 * M).
  { intros a b Fa Ba Fb Bb. assert (B : Rabs (B2R a * B2R b) <= 1.01 * M).
    { rewrite Rabs_mult, Rmult_comm. apply Rmult_le_compat; auto using Rabs_pos. }
    destruct (mul_finite a b 402 Fa Fb) as (F & E); [lia|apply TOP; lra|]. split; [exact F|].
    rewrite E. pose proof (rnd_near _ _ _ B EM) as R. split; [lra|]. pose proof (close_size _ _ _ _ R B). lra. }
  destruct (PR px x FX BX Fx Bx) as (F1 & E1 & B1). destruct (PR py y FY BY Fy By) as (F2 & E2 & B2). destruct (PR pz z FZ BZ Fz Bz) as (F3 & E3 & B3).
  clear PR. destruct (zero_mul pw Fw) as [F4 E4].
  unfold d, dot4. cbn [vx vy vz vw]. change (nadd (n := fbase Ffld)) with f64_add. change (nmul (n := fbase Ffld)) with f64_mul. clear d.
  set (a := f64_mul px x) in *. set (b := f64_mul py y) in *. set (c := f64_mul pz z) in *. set (e := f64_mul pw (B754_zero false)) in *.
  assert (SUM : forall s t A B, finite s -> finite t -> Rabs (B2R s) <= A -> Rabs (B2R t) <= B -> A + B <= 4 * M -> 
    finite (f64_add s t) /\ Rabs (B2R (f64_add s t) - (B2R s + B2R t)) <= u64 * (A + B) /\ Rabs (B2R (f64_add s t)) <= (A + B) + u64 * (A + B)).
  { intros s t A B Fs Ft Bs Bt AB. assert (Q : Rabs (B2R s + B2R t) <= A + B) by (eapply Rle_trans; [apply Rabs_triang|]; lra).
    destruct (add_finite s t 402 Fs Ft) as (F & E); [lia|apply TOP; lra|]. split; [exact F|].
    pose proof (rnd_add_err s t Fs Ft) as R. rewrite <- E in R. assert (u64 * Rabs (B2R s + B2R t) <= u64 * (A + B)) by (apply Rmult_le_compat_l; lra).
    split; [lra|]. assert (R' : Rabs (B2R (f64_add s t) - (B2R s + B2R t)) <= u64 * (A + B)) by lra. apply (close_size _ _ _ _ R' Q). }
  destruct (SUM a b _ _ F1 F2 B1 B2) as (F5 & E5 & B5); [lra|].
  assert (B4 : Rabs (B2R e) <= 0) by (rewrite E4, Rabs_R0; lra).
  destruct (SUM c e _ _ F3 F4 B3 B4) as (F6 & E6 & B6); [lra|].
  assert (B5' : Rabs (B2R (f64_add a b)) <= 2.1 * M) by lra. assert (B6' : Rabs (B2R (f64_add c e)) <= 1.1 * M) by lra.
  destruct (SUM _ _ _ _ F5 F6 B5' B6') as (F7 & E7 & _); [lra|]. split; [exact F7|].
  apply Rabs_le_inv in E1, E2, E3, E5, E6, E7. apply Rabs_le. rewrite E4 in *. lra.
Qed.

Lemma opp_real (x : f64) : B2R (@Bopp 53 1024 x) = - B2R x. Proof. apply B2R_Bopp. Qed.
Lemma variance_even (x y z : R) pts : pts <> [] -> variance_along (P3 (D := Rfld) (- x) (- y) (- z)) pts = variance_along (P3 (D := Rfld) x y z) pts.
Proof. intros NE. rewrite !variance_form by exact NE. cbn [p0 p1 p2]. ring. Qed.

Section Normal.
Context (of_nat : nat -> f64) (pts : list (vec4 Ffld)) (M eps : R) (V : m3 Ffld) (p : vec4 Ffld).
Hypothesis CT : counts of_nat.
Hypothesis NE : (5 <= length pts)%nat.
Hypothesis NB : (Z.of_nat (length pts) <= 2 ^ 30)%Z.
Hypothesis ML : bpow radix2 (-400) <= M.
Hypothesis MU : M <= bpow radix2 400.
Hypothesis HP : forall q, In q pts -> reaches M q.
Hypothesis HV : least_direction eps (scatter (D := Ffld) of_nat pts) (c0 V).
Hypothesis Hp : reaches M p.

Lemma normal_of_near : nearly_good_normal (eps + 256 * INR (length pts) * u64 * (M * M)) M p (normal_of V p) pts.
Proof.
  destruct HV as (Fv & Lv & Min). pose proof u64_pos as U. pose proof u64_small as US.
  assert (M0 : 0 < M) by (pose proof (bpow_gt_0 radix2 (-400)); lra).
  pose proof (unit_components _ Lv) as Cv. pose proof (normalized_near _ Fv Lv) as Nv.
  destruct (near_almost _ _ (Nv AX) (Cv AX)) as [Fx Ax]. destruct (near_almost _ _ (Nv AY) (Cv AY)) as [Fy Ay].
  destruct (near_almost _ _ (Nv AZ) (Cv AZ)) as [Fz Az]. clear Nv.
  set (n := normalized (c0 V)) in *. set (v := c0 V) in *. cbn [at3] in *.
  assert (NEl : map real4 pts <> []) by (destruct pts; [cbn in NE; lia|discriminate]).
  assert (N5 : 5 <= INR (length pts)). { replace 5 with (INR 5) by (cbn; lra). apply le_INR. exact NE. }
  set (E := 24 * INR (length pts) * u64 * (M * M)).
  assert (UMM : 0 < u64 * (M * M)) by (apply Rmult_lt_0_compat; [|apply Rmult_lt_0_compat]; lra).
  assert (E5 : 120 * (u64 * (M * M)) <= E).
  { unfold E. replace (24 * INR (length pts) * u64 * (M * M)) with (INR (length pts) * (24 * (u64 * (M * M)))) by ring.
    apply Rle_trans with (5 * (24 * (u64 * (M * M)))); [lra|]. apply Rmult_le_compat_r; lra. }
  (* squares of the components *)
  pose proof (almost_mul _ _ _ _ Ax Ax) as Qxx. pose proof (almost_mul _ _ _ _ Ay Ay) as Qyy. pose proof (almost_mul _ _ _ _ Az Az) as Qzz.
  pose proof (almost_mul _ _ _ _ Ax Ay) as Qxy. pose proof (almost_mul _ _ _ _ Ax Az) as Qxz. pose proof (almost_mul _ _ _ _ Ay Az) as Qyz.
  (* length *)
  assert (LN : Rabs (B2R (p0 n) * B2R (p0 n) + B2R (p1 n) * B2R (p1 n) + B2R (p2 n) * B2R (p2 n) - 1) <= 72 * u64).
  { unfold dot3, real3 in Lv. cbn [p0 p1 p2 nadd nmul fbase Rfld Rnum] in Lv. apply Rabs_le_inv in Lv, Qxx, Qyy, Qzz. apply Rabs_le.
    set (a1 := B2R (p0 n) * B2R (p0 n)) in *. set (a2 := B2R (p1 n) * B2R (p1 n)) in *. set (a3 := B2R (p2 n) * B2R (p2 n)) in *.
    set (b1 := B2R (p0 v) * B2R (p0 v)) in *. set (b2 := B2R (p1 v) * B2R (p1 v)) in *. set (b3 := B2R (p2 v) * B2R (p2 v)) in *. lra. }
  (* variance *)
  assert (VN : forall u : v3 Rfld, dot3 u u = 1 -> variance_along (real3 n) (map real4 pts) <= variance_along u (map real4 pts) + (eps + 256 * INR (length pts) * u64 * (M * M))).
  { intros u Hu. specialize (Min u Hu).
    assert (NE1 : (1 <= length pts)%nat) by lia.
    pose proof (lower_close of_nat pts M CT NE1 NB ML MU HP u) as Lu. pose proof (lower_close of_nat pts M CT NE1 NB ML MU HP (real3 v)) as Lvv.
    fold E in Lu, Lvv. rewrite Hu in Lu. apply Rabs_le_inv in Lu, Lvv.
    assert (DV : variance_along (real3 n) (map real4 pts) - variance_along (real3 v) (map real4 pts) <= 9 * (2 * (M * M) * (20.5 * u64))).
    { pose proof (covariance_size of_nat pts M NE1 NB ML HP) as CS. rewrite !variance_form by exact NEl. set (rp := map real4 pts) in *. clearbody rp.
      unfold real3. cbn [p0 p1 p2].
      pose proof (coef_mul _ _ _ _ (CS AX AX) Qxx). pose proof (coef_mul _ _ _ _ (CS AY AY) Qyy). pose proof (coef_mul _ _ _ _ (CS AZ AZ) Qzz).
      pose proof (coef_mul _ _ _ _ (CS AY AX) Qxy). pose proof (coef_mul _ _ _ _ (CS AZ AX) Qxz). pose proof (coef_mul _ _ _ _ (CS AZ AY) Qyz).
      rewrite !Rmult_minus_distr_l in *. lra. }
    assert (DL : 3 * E * dot3 (real3 v) (real3 v) <= 3 * E * 1.001).
    { apply Rmult_le_compat_l; [lra|]. apply Rabs_le_inv in Lv. lra. }
    replace (256 * INR (length pts) * u64 * (M * M)) with (256 / 24 * E) by (unfold E; field).
    change (car (fbase Rfld)) with R in *. set (vu := variance_along u _) in *. set (vn := variance_along (real3 n) _) in *. set (vv := variance_along (real3 v) _) in *. lra. }
  destruct (facing_err M p (p0 n) (p1 n) (p2 n) ML MU Hp) as [Fd Ed].
  { split; [exact Fx|apply Ax]. } { split; [exact Fy|apply Ay]. } { split; [exact Fz|apply Az]. }
  unfold normal_of. fold v n. cbv zeta. change (nzero (n := fbase Ffld)) with (B754_zero false : f64).
  set (nv := V4 (D := Ffld) (p0 n) (p1 n) (p2 n) (B754_zero false)) in *. set (d := dot4 p nv) in *.
  change (nlt (n := fbase Ffld)) with f64_lt. apply Rabs_le_inv in Ed.
  destruct (f64_lt (B754_zero false) d) eqn:LT.
  - apply f64_lt_val in LT; [|reflexivity|apply finite_notnan; exact Fd]. rewrite !finite_val in LT by (reflexivity || exact Fd). cbn [B2R] in LT.
    unfold nearly_good_normal, vopp, real4, head, nv. cbn [vx vy vz vw]. change (fopp (f := Ffld)) with (@Bopp 53 1024). rewrite !opp_real. cbn [B2R].
    split; [lra|]. split.
    { unfold dot3. cbn [p0 p1 p2 nadd nmul fbase Rfld Rnum]. replace (- B2R (p0 n) * - B2R (p0 n) + - B2R (p1 n) * - B2R (p1 n) + - B2R (p2 n) * - B2R (p2 n) - 1)
        with (B2R (p0 n) * B2R (p0 n) + B2R (p1 n) * B2R (p1 n) + B2R (p2 n) * B2R (p2 n) - 1) by ring. exact LN. }
    split. { unfold dot3. cbn [p0 p1 p2 nadd nmul fbase Rfld Rnum]. lra. }
    intros u Hu. pose proof (variance_even (B2R (p0 n)) (B2R (p1 n)) (B2R (p2 n)) (map real4 pts) NEl) as VE. eapply Rle_trans; [right; exact VE|exact (VN u Hu)].
  - apply f64_lt_val_false in LT; [|reflexivity|apply finite_notnan; exact Fd]. rewrite !finite_val in LT by (reflexivity || exact Fd). cbn [B2R] in LT.
    unfold nearly_good_normal, real4, head, nv. cbn [vx vy vz vw B2R]. split; [reflexivity|]. split; [exact LN|].
    split. { unfold dot3. cbn [p0 p1 p2 nadd nmul fbase Rfld Rnum]. lra. }
    exact VN.
Qed.
End Normal.
