(** C73: how far estimated normals can be trusted in double precision. *)
From Coq Require Import Reals Lra Psatz Permutation.
From Flocq Require Import Core IEEE754.BinarySingleNaN.
From Verif Require Import Base BaseProofs Num Vec RNum F64 F64Proofs FloorProofs F64Err Lin LinSpec LinProofs FactorModel EstModel EstSpec EstProofs
  EstReal FlatSpec ScatterF64 FlatProofs FlatRun NanProofs.
Open Scope R_scope.

(** Every entry of the covariance matrix handed to the eigen-solver, for any number of points of
    any magnitude, against the covariance of the real points. *)
Theorem C73_covariance : forall of_nat (pts : list (vec4 Ffld)) (M : R),
  counts of_nat -> (1 <= length pts)%nat -> (Z.of_nat (length pts) <= 2 ^ 30)%Z ->
  bpow radix2 (-400) <= M <= bpow radix2 400 -> (forall q, In q pts -> reaches M q) ->
  forall a b, finite (at33 (scatter (D := Ffld) of_nat pts) a b) /\
    Rabs (B2R (at33 (scatter (D := Ffld) of_nat pts) a b) - covariance a b (map real4 pts)) <= 24 * INR (length pts) * u64 * (M * M).
Proof. intros of_nat pts M CT N1 NB [ML MU] HP a b. apply scatter_err; assumption. Qed.

(** Every normal a successful estimation leaves in a cloud of doubles.  The solver is asked to be
    good, up to eps, on matrices close to the covariance of the neighbours. *)
Theorem C73_normals : forall knn eig of_nat milli st jp jn jc k (c c' : cloud Ffld) (M eps : R),
  counts of_nat -> bpow radix2 (-400) <= M <= bpow radix2 400 -> (forall q, In q (cl_points c) -> reaches M q) ->
  estimate (D := Ffld) knn eig of_nat milli st jp jn jc k c = Ok c' -> has_normals st = true ->
  forall i p, nth_error (cl_points c) i = Some p -> exists found, knn p k = Ok found /\
    ((5 <= length found)%nat -> (Z.of_nat (length found) <= 2 ^ 30)%Z -> exists pts, neighbourhood knn k c i p found pts /\
      ((forall W : m3 Ffld, (forall a b, finite (at33 W a b) /\
           Rabs (B2R (at33 W a b) - covariance a b (map real4 pts)) <= 24 * INR (length pts) * u64 * (M * M)) ->
         least_direction eps W (c0 (eig W))) ->
       exists n, nth_error (cl_normals c') i = Some n /\
         nearly_good_normal (eps + 256 * INR (length pts) * u64 * (M * M)) M p n pts)).
Proof.
  intros knn eig of_nat milli st jp jn jc k c c' M eps CT [ML MU] HP H S i p E.
  destruct (estimated_normal knn eig of_nat milli st jp jn jc k c c' H S i p E) as (found & EK & REST). exists found. split; [exact EK|].
  intros F5 FB. destruct (REST F5) as (pts & NB & EN). exists pts. split; [exact NB|]. intros SV.
  destruct NB as (_ & _ & F2). pose proof (Forall2_len _ _ _ F2) as LE.
  assert (HQ : forall q, In q pts -> reaches M q).
  { intros q Hq. clear -F2 HP Hq. induction F2 as [|j x f ps Hj _ IH]; [destruct Hq|]. destruct Hq as [<-|Hq]; [|auto].
    apply HP. apply nth_error_In in Hj. exact Hj. }
  exists (normal_of (eig (scatter (D := Ffld) of_nat pts)) p). split; [exact EN|].
  apply (normal_of_near of_nat pts M eps (eig (scatter (D := Ffld) of_nat pts)) p); auto; try lia.
  - apply SV. intros a b. apply scatter_err; auto; lia.
  - apply HP. apply nth_error_In in E. exact E.
Qed.

(** Over the reals the normals of a cloud do not depend on where along the plane it lies (C67).
    In doubles they do: a strip of floor has vertical normals near the origin; moved 4500 km along
    the floor, with every coordinate still exact, its normals lie in the floor, whatever the search
    order and whichever eigenvector a solver accurate to 1e-6 returns. *)
Theorem C73_anywhere_refuted :
  (forall i p q, nth_error (strip_points 0) i = Some p -> nth_error (strip_points far) i = Some q ->
     real4 q = V4 (D := Rfld) (B2R (vx p) + 4500000) (B2R (vy p)) (B2R (vz p)) (B2R (vw p)) /\ B2R (vz p) = 0) /\
  forall knn eig milli st jp jn jc c1 c2, has_normals st = true ->
    (forall p, exists found, knn p 5%nat = Ok found /\ Permutation (seq 0 5) found) ->
    (forall pts, Permutation (strip_points 0) pts \/ Permutation (strip_points far) pts ->
       let W := scatter (D := Ffld) exact_count pts in least_direction 1e-6 W (c0 (eig W))) ->
    estimate (D := Ffld) knn eig exact_count milli st jp jn jc 5 (strip 0) = Ok c1 ->
    estimate (D := Ffld) knn eig exact_count milli st jp jn jc 5 (strip far) = Ok c2 ->
    forall i, (i < 5)%nat -> exists n1 n2, nth_error (cl_normals c1) i = Some n1 /\ nth_error (cl_normals c2) i = Some n2 /\
      0.99 <= Rabs (B2R (vz n1)) /\ 0.99 <= Rabs (B2R (vx n2)).
Proof.
  split; [exact strip_moved|].
  intros knn eig milli st jp jn jc c1 c2 S HK HE H1 H2 i Hi.
  assert (G : forall base c, (base = 0 \/ base = far)%Z -> estimate (D := Ffld) knn eig exact_count milli st jp jn jc 5 (strip base) = Ok c ->
    exists p found, let W := scatter (D := Ffld) exact_count (pick (strip_points base) found) in
      In found (orders (seq 0 5)) /\ least_direction 1e-6 W (c0 (eig W)) /\ nth_error (cl_normals c) i = Some (normal_of (eig W) p)).
  { intros base c HB H. destruct (nth_error (strip_points base) i) as [p|] eqn:E.
    2: { apply nth_error_None in E. change (length (strip_points base)) with 5%nat in E. lia. }
    destruct (estimated_normal knn eig exact_count milli st jp jn jc 5 _ c H S i p E) as (found & EK & REST).
    destruct (HK p) as (found' & EK' & PM). rewrite EK in EK'. apply Ok_inj in EK'. subst found'.
    destruct REST as (pts & (_ & _ & F2) & EN).
    { rewrite <- (Permutation_length PM). cbn. lia. }
    pose proof (picked _ _ _ F2) as ->. exists p, found. split; [apply orders_in; exact PM|]. split; [|exact EN].
    apply HE. destruct HB as [-> | ->]; [left|right].
    - change (strip_points 0) with (pick (strip_points 0) (seq 0 5)) at 1. apply Permutation_map. exact PM.
    - change (strip_points far) with (pick (strip_points far) (seq 0 5)) at 1. apply Permutation_map. exact PM. }
  destruct (G 0%Z c1 (or_introl eq_refl) H1) as (q1 & f1 & In1 & L1 & E1). destruct (G far c2 (or_intror eq_refl) H2) as (q2 & f2 & In2 & L2 & E2).
  pose proof (proj1 (forallb_forall _ _) near_check f1 In1) as S1. pose proof (proj1 (forallb_forall _ _) far_check f2 In2) as S2.
  eexists. eexists. split; [exact E1|]. split; [exact E2|]. split.
  - apply (normal_kept _ _ _ q1 L1). exact (near_direction _ _ _ (Rle_refl _) S1 L1).
  - apply (normal_kept _ _ _ q2 L2). exact (far_direction _ _ _ (Rle_refl _) S2 L2).
Qed.

(** * Non-vacuity *)
(** A solver for the matrices of the strip: the first axis if its entry is negative, else the third. *)
Definition strip_eig (W : m3 Ffld) : m3 Ffld :=
  let o := f64_of 1 0 in let z := B754_zero false : f64 in
  if f64_lt (at33 W AX AX) z then M3 (D := Ffld) (P3 (D := Ffld) o z z) (P3 (D := Ffld) z o z) (P3 (D := Ffld) z z o) else M3 (D := Ffld) (P3 (D := Ffld) z o z) (P3 (D := Ffld) z z o) (P3 (D := Ffld) o z z).
Definition strip_knn : vec4 Ffld -> nat -> outcome (list nat) := fun _ _ => Ok [0; 1; 2; 3; 4]%nat.

Lemma strip_eig_good W : far_shape W = true \/ near_shape W = true -> least_direction 1e-6 W (c0 (strip_eig W)).
Proof.
  intros H. destruct (f64_of_int 1) as [F1 E1]; [lia|]. unfold strip_eig. cbv zeta.
  assert (SQ : forall t : R, 0 <= t * t) by (intros; apply Rle_0_sqr).
  destruct H as [H|H].
  - pose proof H as H'. unfold far_shape, shaped in H'. do 5 (apply andb_prop in H' as [H' _]). destruct lit9m as [F9 E9].
    assert (F8 : finite (f64_of (-1) (-8))) by (vm_compute; reflexivity).
    pose proof (between_real _ _ _ F8 F9 H') as [Fx [_ Bx]].
    assert (LT : f64_lt (at33 W AX AX) (B754_zero false) = true).
    { apply f64_lt_val; [apply finite_notnan; exact Fx|reflexivity|]. rewrite !finite_val by (exact Fx || reflexivity). cbn [B2R]. lra. }
    rewrite LT. destruct (shaped_form _ _ _ F8 F9 H) as (x & y & [_ Hx] & [Hy _] & Form). rewrite E9 in Hx.
    split; [intros [| |]; cbn; auto|]. split.
    { unfold dot3, real3, c0. cbn [p0 p1 p2 r0 r1 r2 nadd nmul fbase Rfld Rnum]. rewrite E1. cbn [B2R]. replace (1 * 1 + 0 * 0 + 0 * 0 - 1) with 0 by ring.
      rewrite Rabs_R0. pose proof u64_pos. lra. }
    intros u Hu. rewrite !Form. unfold real3, c0. cbn [p0 p1 p2 r0 r1 r2]. rewrite E1. cbn [B2R].
    unfold dot3 in Hu. cbn [nadd nmul fbase Rfld Rnum] in Hu. pose proof (SQ (p0 u)) as S0. pose proof (SQ (p1 u)) as S1. pose proof (SQ (p2 u)) as S2.
    change (car (fbase Rfld)) with R in *. set (a := p0 u * p0 u) in *. set (b := p1 u * p1 u) in *. set (d := p2 u * p2 u) in *.
    assert (Hs : a + b + d = 1) by exact Hu. assert (0 <= y * b) by (apply Rmult_le_pos; lra). assert (0 <= - x * (1 - a)) by (apply Rmult_le_pos; lra). lra.
  - pose proof H as H'. unfold near_shape, shaped in H'. do 5 (apply andb_prop in H' as [H' _]). destruct lit9 as [F9 E9].
    assert (F8 : finite (f64_of 1 (-8))) by (vm_compute; reflexivity).
    pose proof (between_real _ _ _ F9 F8 H') as [Fx [Bx _]].
    assert (LT : f64_lt (at33 W AX AX) (B754_zero false) = false).
    { apply f64_lt_val_false; [apply finite_notnan; exact Fx|reflexivity|]. rewrite !finite_val by (exact Fx || reflexivity). cbn [B2R]. lra. }
    rewrite LT. destruct (shaped_form _ _ _ F9 F8 H) as (x & y & [Hx _] & [Hy _] & Form). rewrite E9 in Hx.
    split; [intros [| |]; cbn; auto|]. split.
    { unfold dot3, real3, c0. cbn [p0 p1 p2 r0 r1 r2 nadd nmul fbase Rfld Rnum]. rewrite E1. cbn [B2R]. replace (0 * 0 + 0 * 0 + 1 * 1 - 1) with 0 by ring.
      rewrite Rabs_R0. pose proof u64_pos. lra. }
    intros u Hu. rewrite !Form. unfold real3, c0. cbn [p0 p1 p2 r0 r1 r2]. cbn [B2R]. pose proof (SQ (p0 u)) as S0. pose proof (SQ (p1 u)) as S1.
    change (car (fbase Rfld)) with R in *. set (a := p0 u * p0 u) in *. set (b := p1 u * p1 u) in *.
    assert (0 <= x * a) by (apply Rmult_le_pos; lra). assert (0 <= y * b) by (apply Rmult_le_pos; lra). lra.
Qed.

(** The hypotheses of the refutation hold for this search and this solver, and both runs succeed. *)
Example C73_strip : (forall p, exists found, strip_knn p 5%nat = Ok found /\ Permutation (seq 0 5) found) /\
  (forall pts, Permutation (strip_points 0) pts \/ Permutation (strip_points far) pts ->
     let W := scatter (D := Ffld) exact_count pts in least_direction 1e-6 W (c0 (strip_eig W))) /\
  forall base, exists c, estimate (D := Ffld) strip_knn strip_eig exact_count (f64_of 1 (-10)) Normals vzero vzero cov_invalid 5 (strip base) = Ok c.
Proof.
  split; [|split].
  - intros p. exists [0; 1; 2; 3; 4]%nat. split; [reflexivity|apply Permutation_refl].
  - intros pts HP W. apply strip_eig_good. unfold W.
    assert (G : forall base, Permutation (strip_points base) pts -> exists found, In found (orders (seq 0 5)) /\ pts = pick (strip_points base) found).
    { intros base P. change (strip_points base) with (pick (strip_points base) (seq 0 5)) in P at 1.
      apply Permutation_sym, Permutation_map_inv in P as (f & -> & Pf). exists f. split; [apply orders_in; exact Pf|reflexivity]. }
    destruct HP as [P|P]; [right|left]; destruct (G _ P) as (f & In_f & ->).
    + exact (proj1 (forallb_forall _ _) near_check f In_f).
    + exact (proj1 (forallb_forall _ _) far_check f In_f).
  - intros base. apply estimate_total. intros p _. exists [0; 1; 2; 3; 4]%nat. split; [reflexivity|]. cbn [strip strip_points cl_points length]. repeat constructor; lia.
Qed.

(** The strip near the origin meets the hypotheses of the positive theorems with M = 4. *)
Example C73_near : (forall q, In q (cl_points (strip 0)) -> reaches 4 q) /\ counts exact_count /\ bpow radix2 (-400) <= 4 <= bpow radix2 400.
Proof.
  split; [|split; [exact exact_count_counts|]].
  - assert (G : forall x y, (-4 <= x <= 4)%Z -> (-4 <= y <= 4)%Z -> reaches 4 (strip_point 0 x y)).
    { intros x y Hx Hy. destruct (f64_of_int 0) as [F0 E0]; [lia|]. destruct (f64_of_int 1) as [F1 E1]; [lia|].
      destruct (f64_of_int y) as [Fy Ey]; [lia|]. destruct (f64_of_dyadic (0 + x) (-5)) as [Fx Ex]; [lia|lia|].
      assert (RX : -4 <= IZR x <= 4) by (split; apply IZR_le; lia). assert (RY : -4 <= IZR y <= 4) by (split; apply IZR_le; lia).
      split; [exact F1|]. intros [| |]; unfold at4, strip_point; cbn [vx vy vz].
      - split; [exact Fx|]. rewrite Ex. change (bpow radix2 (-5)) with (/ IZR 32). cbn [Z.add]. apply Rabs_le. lra.
      - split; [exact Fy|]. rewrite Ey. apply Rabs_le. lra.
      - split; [exact F0|]. rewrite E0, Rabs_R0. lra. }
    intros q Hq. repeat (destruct Hq as [<-|Hq]; [apply G; lia|]). destruct Hq.
  - split; [apply Rle_trans with (bpow radix2 2); [apply bpow_le; lia|right; reflexivity]|].
    apply Rle_trans with (bpow radix2 2); [right; reflexivity|apply bpow_le; lia].
Qed.

(** On the strip near the origin this solver meets the demand of C73_normals, in any order. *)
Example C73_near_solver : forall pts, Permutation (strip_points 0) pts ->
  forall W : m3 Ffld, (forall a b, finite (at33 W a b) /\
      Rabs (B2R (at33 W a b) - covariance a b (map real4 pts)) <= 24 * INR (length pts) * u64 * (4 * 4)) ->
    least_direction 1e-6 W (c0 (strip_eig W)).
Proof.
  intros pts P W H. rewrite <- (Permutation_length P) in H. change (length (strip_points 0)) with 5%nat in H.
  set (E := 24 * INR 5 * u64 * (4 * 4)) in *. assert (E6 : E <= 1e-7).
  { unfold E. pose proof u64_tiny. replace (INR 5) with 5 by (cbn; lra). lra. }
  assert (C : forall a b, covariance a b (map real4 pts) = covariance a b (map real4 (strip_points 0))).
  { intros a b. apply covariance_perm. apply Permutation_map, Permutation_sym. exact P. }
  assert (NEl : map real4 (strip_points 0) <> []) by discriminate.
  assert (VX : covariance AX AX (map real4 (strip_points 0)) = / 400).
  { unfold covariance, mean_of. change (length (map real4 (strip_points 0))) with 5%nat. rewrite strip_reals. unfold sumR. cbn [fold_right at4 vx]. replace (INR 5) with 5 by (cbn; lra). lra. }
  assert (VZ : variance_along e_z (map real4 (strip_points 0)) = 0).
  { rewrite strip_reals. unfold variance_along, mean_along, sumR, along, dot3, e_z, head. cbn [fold_right p0 p1 p2 vx vy vz nadd nmul fbase Rfld Rnum length]. replace (INR 5) with 5 by (cbn; lra). lra. }
  assert (LT : f64_lt (at33 W AX AX) (B754_zero false) = false).
  { destruct (H AX AX) as [Fx Bx]. rewrite C, VX in Bx. apply Rabs_le_inv in Bx.
    apply f64_lt_val_false; [apply finite_notnan; exact Fx|reflexivity|]. rewrite !finite_val by (exact Fx || reflexivity). cbn [B2R]. lra. }
  assert (CL : forall u : v3 Rfld, Rabs (lower_form W u - variance_along u (map real4 (strip_points 0))) <= 3 * E * dot3 u u).
  { intros u. apply form_close; [exact NEl|]. intros a b. rewrite <- C. apply H. }
  unfold strip_eig. cbv zeta. rewrite LT. destruct (f64_of_int 1) as [F1 E1]; [lia|]. destruct (f64_of_int 0) as [F0 E0]; [lia|].
  split; [intros [| |]; cbn; auto|].
  assert (EZ : real3 (c0 (M3 (D := Ffld) (P3 (D := Ffld) (B754_zero false) (f64_of 1 0) (B754_zero false)) (P3 (D := Ffld) (B754_zero false) (B754_zero false) (f64_of 1 0)) (P3 (D := Ffld) (f64_of 1 0) (B754_zero false) (B754_zero false)))) = e_z).
  { unfold real3, c0, e_z. cbn [p0 p1 p2 r0 r1 r2]. f_equal; req; exact E1. }
  rewrite EZ. assert (D1 : dot3 e_z e_z = 1) by (unfold dot3, e_z; cbn [p0 p1 p2 nadd nmul fbase Rfld Rnum]; req; ring).
  split. { rewrite D1. rewrite (Rminus_diag_eq 1 1 eq_refl), Rabs_R0. pose proof u64_pos. lra. }
  intros u Hu. pose proof (CL e_z) as C1. pose proof (CL u) as C2. rewrite Hu in C2. rewrite D1, VZ in C1. apply Rabs_le_inv in C1, C2.
  pose proof (variance_nonneg u _ NEl). lra.
Qed.

Print Assumptions C73_covariance.
Print Assumptions C73_normals.
Print Assumptions C73_anywhere_refuted.
