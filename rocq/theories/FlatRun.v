(** Clouds for the estimation properties in doubles, and what is computed on them. *)
From Coq Require Import Reals Lra Psatz Permutation Floats.SpecFloat.
From Flocq Require Import Core IEEE754.BinarySingleNaN.
From Verif Require Import Base BaseProofs Num Vec RNum F64 F64Proofs FloorProofs F64Err Lin LinSpec LinProofs FactorModel EstModel EstSpec EstProofs
  FlatSpec ScatterF64 FlatProofs.
Open Scope nat_scope.

(** The normal a successful estimation leaves at a point, in any arithmetic. *)
Lemma estimated_normal {D : fld} knn eig of_nat milli st jp jn jc k (c c' : cloud D) :
  estimate knn eig of_nat milli st jp jn jc k c = Ok c' -> has_normals st = true ->
  forall i p, nth_error (cl_points c) i = Some p -> exists found, knn p k = Ok found /\
    (5 <= length found -> exists pts, neighbourhood knn k c i p found pts /\
       nth_error (cl_normals c') i = Some (normal_of (eig (scatter of_nat pts)) p)).
Proof.
  intros H S i p E. destruct (estimate_writes knn eig of_nat milli st jp jn jc k c c' H) as (P & LN & LC & KN & KC & WS).
  assert (L : i < length (cl_points c)) by (apply nth_error_Some; congruence). destruct (WS i L) as (ws & LW & In_ws).
  unfold local_writes in LW. rewrite (proj2 (get_Ok _ _ _) E) in LW. cbn [bind] in LW.
  destruct (knn p k) as [found| | |] eqn:EK; cbn [bind] in LW; try discriminate. exists found. split; [reflexivity|]. intros F.
  destruct (Nat.ltb_spec (length found) 5) as [F'|_]; [lia|].
  destruct (mapM (fun j => get (cl_points c) j) found) as [pts| | |] eqn:EM; cbn [bind] in LW; try discriminate.
  injection LW as <-. exists pts. split.
  - split; [exact E|]. split; [exact EK|]. clear -EM. revert pts EM. induction found as [|j l IH]; intros pts EM; cbn [mapM] in EM; [injection EM as <-; constructor|].
    destruct (get (cl_points c) j) as [q| | |] eqn:G; cbn [bind] in EM; try discriminate.
    destruct (mapM (fun j => get (cl_points c) j) l) as [qs| | |] eqn:M; cbn [bind] in EM; try discriminate. injection EM as <-.
    constructor; [apply get_Ok; exact G|apply IH; reflexivity].
  - destruct st; cbn [has_normals valid_writes In] in *; try discriminate.
    + apply (In_ws (WNormal i (normal_of (eig (scatter of_nat pts)) p))); auto.
    + apply (In_ws (WNormal i (normal_of (eig (scatter of_nat pts)) p))); auto.
Qed.

(** All orders of a list. *)
Fixpoint insertions {A : Type} (x : A) (l : list A) : list (list A) :=
  (x :: l) :: match l with [] => [] | y :: r => map (cons y) (insertions x r) end.
Fixpoint orders {A : Type} (l : list A) : list (list A) :=
  match l with [] => [[]] | x :: r => flat_map (insertions x) (orders r) end.
Lemma insertions_in {A : Type} (x : A) a b : In (a ++ x :: b) (insertions x (a ++ b)).
Proof.
  induction a as [|y a IH]; cbn [app].
  - destruct b; left; reflexivity.
  - cbn [insertions]. right. apply in_map. exact IH.
Qed.
Lemma orders_in {A : Type} (l : list A) : forall l', Permutation l l' -> In l' (orders l).
Proof.
  induction l as [|x l IH]; intros l' P.
  - apply Permutation_nil in P. subst. left. reflexivity.
  - destruct (in_split x l' (Permutation_in x P (or_introl eq_refl))) as (a & b & ->).
    apply Permutation_cons_app_inv in P. cbn [orders]. apply in_flat_map. exists (a ++ b). split; [apply IH; exact P|apply insertions_in].
Qed.

(** Five points of a flat strip, 4 m long and an eighth of a metre wide, whose middle is at x = [base]
    (in 32nds of a metre). *)
Definition strip_point (base x y : Z) : vec4 Ffld := V4 (D := Ffld) (f64_of (base + x) (-5)) (f64_of y 0) (f64_of 0 0) (f64_of 1 0).
Definition strip_points (base : Z) : list (vec4 Ffld) :=
  [strip_point base (-1) 1; strip_point base (-1) (-1); strip_point base (-1) 2; strip_point base (-1) (-2); strip_point base 3 0].
Definition strip (base : Z) : cloud Ffld := mkCloud (strip_points base) [] [].
(** 4 500 000 m: northing of a place in southern Europe. *)
Definition far : Z := (4500000 * 32)%Z.

Definition exact_count (n : nat) : f64 := f64_of (Z.of_nat n) 0.
Lemma exact_count_counts : counts exact_count.
Proof. intros n H. destruct (f64_of_int (Z.of_nat n)) as [F E]; [lia|]. split; [exact F|]. rewrite INR_IZR_INZ. exact E. Qed.

Definition pick (l : list (vec4 Ffld)) (found : list nat) : list (vec4 Ffld) := map (fun j => nth j l vzero) found.
Definition is_zero (x : f64) : bool := match x with B754_zero _ => true | _ => false end.
(** A matrix with a negative first diagonal entry and otherwise diag(., 2, 0). *)
Definition between (a x b : f64) : bool := (is_finite x && f64_lt a x && f64_lt x b)%bool.
Definition shaped (a b : f64) (W : m3 Ffld) : bool :=
  (between a (at33 W AX AX) b && between (f64_of 1 0) (at33 W AY AY) (f64_of 3 0) &&
   is_zero (at33 W AZ AZ) && is_zero (at33 W AY AX) && is_zero (at33 W AZ AX) && is_zero (at33 W AZ AY))%bool.
Definition far_shape : m3 Ffld -> bool := shaped (f64_of (-1) (-8)) (f64_of (-1) (-9)).
Definition near_shape : m3 Ffld -> bool := shaped (f64_of 1 (-9)) (f64_of 1 (-8)).

Lemma far_check : forallb (fun found => far_shape (scatter (D := Ffld) exact_count (pick (strip_points far) found))) (orders (seq 0 5)) = true.
Proof. vm_compute. reflexivity. Qed.
Lemma near_check : forallb (fun found => near_shape (scatter (D := Ffld) exact_count (pick (strip_points 0) found))) (orders (seq 0 5)) = true.
Proof. vm_compute. reflexivity. Qed.

Lemma picked (l : list (vec4 Ffld)) found (pts : list (vec4 Ffld)) : Forall2 (fun j q => nth_error l j = Some q) found pts -> pts = pick l found.
Proof. induction 1 as [|j q f ps H _ IH]; cbn; [reflexivity|]. f_equal; [symmetry; apply nth_error_nth; exact H|exact IH]. Qed.

Open Scope R_scope.
Lemma is_zero_real x : is_zero x = true -> B2R x = 0.
Proof. destruct x; try discriminate. reflexivity. Qed.
Lemma between_real a x b : finite a -> finite b -> between a x b = true -> finite x /\ B2R a < B2R x < B2R b.
Proof.
  intros Fa Fb H. apply andb_prop in H as [H H3]. apply andb_prop in H as [H1 H2]. split; [exact H1|].
  pose proof (finite_notnan _ Fa). pose proof (finite_notnan _ Fb). pose proof (finite_notnan x H1).
  apply f64_lt_val in H2; auto. apply f64_lt_val in H3; auto. rewrite !finite_val in H2, H3 by (exact Fa || exact Fb || exact H1). auto.
Qed.
(** The form of such a matrix. *)
Lemma shaped_form a b W : finite a -> finite b -> shaped a b W = true -> exists x y, B2R a < x < B2R b /\ 1 < y < 3 /\
  forall u : v3 Rfld, lower_form W u = x * (p0 u * p0 u) + y * (p1 u * p1 u).
Proof.
  intros Fa Fb H. unfold shaped in H. do 5 (apply andb_prop in H as [H ?H]).
  apply is_zero_real in H0, H1, H2, H3. apply between_real in H as [_ Hx]; auto.
  assert (F1 : finite (f64_of 1 0)) by (vm_compute; reflexivity). assert (F3 : finite (f64_of 3 0)) by (vm_compute; reflexivity).
  apply between_real in H4 as [_ Hy]; auto.
  assert (E1 : B2R (f64_of 1 0) = 1) by (apply (f64_of_int 1); lia). assert (E3 : B2R (f64_of 3 0) = 3) by (apply (f64_of_int 3); lia).
  rewrite E1, E3 in Hy. exists (B2R (at33 W AX AX)), (B2R (at33 W AY AY)). split; [exact Hx|]. split; [exact Hy|].
  intros u. unfold lower_form. rewrite H0, H1, H2, H3. ring.
Qed.

Definition e_x : v3 Rfld := P3 (D := Rfld) 1 0 0.
Definition e_z : v3 Rfld := P3 (D := Rfld) 0 0 1.
Lemma lit9 : finite (f64_of 1 (-9)) /\ B2R (f64_of 1 (-9)) = / 512.
Proof. split; [vm_compute; reflexivity|]. rewrite <- (SF2R_B2SF 53 1024). replace (B2SF (f64_of 1 (-9))) with (S754_finite false 4503599627370496 (-61)) by (vm_compute; reflexivity).
  unfold SF2R, F2R. cbn [Defs.Fnum Defs.Fexp cond_Zopp]. change (bpow radix2 (-61)) with (/ IZR 2305843009213693952). lra. Qed.
Lemma lit9m : finite (f64_of (-1) (-9)) /\ B2R (f64_of (-1) (-9)) = - / 512.
Proof. split; [vm_compute; reflexivity|]. rewrite <- (SF2R_B2SF 53 1024). replace (B2SF (f64_of (-1) (-9))) with (S754_finite true 4503599627370496 (-61)) by (vm_compute; reflexivity).
  unfold SF2R, F2R. cbn [Defs.Fnum Defs.Fexp cond_Zopp Z.opp]. change (bpow radix2 (-61)) with (/ IZR 2305843009213693952). lra. Qed.

Lemma sq_abs_ge t b : 0 <= b -> b * b <= t * t -> b <= Rabs t.
Proof. intros Hb H. apply Rnot_lt_le. intros L. pose proof (Rabs_pos t). rewrite <- (Rabs_pos_eq (t * t)) in H by apply Rle_0_sqr. rewrite Rabs_mult in H. nra. Qed.

(** What a correct solver returns for the two shapes. *)
Lemma far_direction eps W v : eps <= 1e-6 -> far_shape W = true -> least_direction eps W v -> 0.999 <= Rabs (B2R (p0 v)).
Proof.
  intros He H (_ & L & Min). destruct lit9m as [F9 E9]. assert (F8 : finite (f64_of (-1) (-8))) by (vm_compute; reflexivity).
  destruct (shaped_form _ _ _ F8 F9 H) as (x & y & [_ Hx] & [Hy _] & Form). rewrite E9 in Hx.
  specialize (Min e_x). rewrite !Form in Min. unfold e_x, dot3, real3 in Min. cbn [p0 p1 p2 nadd nmul fbase Rfld Rnum] in Min.
  assert (M : x * (B2R (p0 v) * B2R (p0 v)) + y * (B2R (p1 v) * B2R (p1 v)) <= x * (1 * 1) + y * (0 * 0) + eps) by (apply Min; req; ring).
  pose proof (Rle_0_sqr (B2R (p1 v))) as S1. unfold Rsqr in S1. assert (0 <= y * (B2R (p1 v) * B2R (p1 v))) by (apply Rmult_le_pos; lra).
  apply sq_abs_ge; [lra|]. set (t := B2R (p0 v) * B2R (p0 v)) in *. apply Rnot_lt_le. intros LT. nra.
Qed.
Lemma near_direction eps W v : eps <= 1e-6 -> near_shape W = true -> least_direction eps W v -> 0.999 <= Rabs (B2R (p2 v)).
Proof.
  intros He H (_ & L & Min). destruct lit9 as [F9 E9]. assert (F8 : finite (f64_of 1 (-8))) by (vm_compute; reflexivity).
  destruct (shaped_form _ _ _ F9 F8 H) as (x & y & [Hx _] & [Hy _] & Form). rewrite E9 in Hx.
  specialize (Min e_z). rewrite !Form in Min. unfold e_z, dot3, real3 in Min. cbn [p0 p1 p2 nadd nmul fbase Rfld Rnum] in Min.
  assert (M : x * (B2R (p0 v) * B2R (p0 v)) + y * (B2R (p1 v) * B2R (p1 v)) <= x * (0 * 0) + y * (0 * 0) + eps) by (apply Min; req; ring).
  unfold dot3, real3 in L. cbn [p0 p1 p2 nadd nmul fbase Rfld Rnum] in L. apply Rabs_le_inv in L.
  pose proof (Rle_0_sqr (B2R (p0 v))) as S0. pose proof (Rle_0_sqr (B2R (p1 v))) as S1. unfold Rsqr in S0, S1.
  set (a := B2R (p0 v) * B2R (p0 v)) in *. set (b := B2R (p1 v) * B2R (p1 v)) in *.
  assert (/ 512 * a <= x * a) by (apply Rmult_le_compat_r; lra). assert (1 * b <= y * b) by (apply Rmult_le_compat_r; lra).
  pose proof u64_small. apply sq_abs_ge; [lra|]. lra.
Qed.

Lemma component_kept (n v : R) b : almost n v -> b + 1e-3 <= Rabs v -> b <= Rabs n.
Proof. intros (H & _ & _) B. pose proof u64_small. pose proof (Rabs_triang_inv v n). rewrite <- Rabs_Ropp in H. replace (- (n - v)) with (v - n) in H by ring. lra. Qed.
Lemma normal_abs (V : m3 Ffld) p : Rabs (B2R (vx (normal_of V p))) = Rabs (B2R (p0 (normalized (c0 V)))) /\
  Rabs (B2R (vz (normal_of V p))) = Rabs (B2R (p2 (normalized (c0 V)))).
Proof.
  unfold normal_of. cbv zeta. destruct (nlt nzero _); unfold vopp; cbn [vx vz]; [|auto]. change (fopp (f := Ffld)) with (@Bopp 53 1024).
  rewrite !opp_real, !Rabs_Ropp. auto.
Qed.
Lemma normal_kept eps W V p : least_direction eps W (c0 V) ->
  (0.999 <= Rabs (B2R (p0 (c0 V))) -> 0.99 <= Rabs (B2R (vx (normal_of V p)))) /\
  (0.999 <= Rabs (B2R (p2 (c0 V))) -> 0.99 <= Rabs (B2R (vz (normal_of V p)))).
Proof.
  intros (Fv & Lv & _). pose proof (unit_components _ Lv) as Cv. pose proof (normalized_near _ Fv Lv) as Nv.
  destruct (near_almost _ _ (Nv AX) (Cv AX)) as [_ Ax]. destruct (near_almost _ _ (Nv AZ) (Cv AZ)) as [_ Az]. cbn [at3] in *.
  destruct (normal_abs V p) as [E1 E2]. split; intros H.
  - rewrite E1. eapply component_kept; [exact Ax|lra].
  - rewrite E2. eapply component_kept; [exact Az|lra].
Qed.

(** Dyadic coordinates are exact. *)
Lemma f64_of_dyadic m e : (Z.abs m < 2 ^ 53)%Z -> (-1000 <= e <= 900)%Z ->
  finite (f64_of m e) /\ B2R (f64_of m e) = IZR m * bpow radix2 e.
Proof.
  intros Hm He. unfold f64_of. pose proof (binary_normalize_correct 53 1024 _ _ mode_NE m e false) as C. cbn [round_mode] in C.
  assert (G : generic_format radix2 (SpecFloat.fexp 53 1024) (F2R (Float radix2 m e))).
  { apply generic_format_FLT. exists (Float radix2 m e); [reflexivity|exact Hm|]. cbn. unfold SpecFloat.emin. lia. }
  assert (L : Rabs (F2R (Float radix2 m e)) < bpow radix2 1024).
  { unfold F2R. cbn [Defs.Fnum Defs.Fexp]. rewrite Rabs_mult, (Rabs_pos_eq (bpow radix2 e)) by apply bpow_ge_0. rewrite <- abs_IZR.
    apply Rlt_le_trans with (bpow radix2 53 * bpow radix2 e).
    - apply Rmult_lt_compat_r; [apply bpow_gt_0|]. change (bpow radix2 53) with (IZR (2 ^ 53)). apply IZR_lt. exact Hm.
    - rewrite <- bpow_plus. apply bpow_le. lia. }
  rewrite round_generic in C; [|typeclasses eauto|exact G]. rewrite Rlt_bool_true in C by exact L. destruct C as (C1 & C2 & _).
  split; [exact C2|]. rewrite C1. reflexivity.
Qed.
Lemma strip_real base x y : (Z.abs (base + x) < 2 ^ 53)%Z -> (Z.abs y < 2 ^ 53)%Z ->
  real4 (strip_point base x y) = V4 (D := Rfld) (IZR (base + x) / 32) (IZR y) 0 1.
Proof.
  intros H1 H2. unfold real4, strip_point. cbn [vx vy vz vw].
  destruct (f64_of_dyadic (base + x) (-5)) as [_ E1]; [exact H1|lia|]. destruct (f64_of_int y) as [_ E2]; [lia|].
  destruct (f64_of_int 0) as [_ E3]; [lia|]. destruct (f64_of_int 1) as [_ E4]; [lia|].
  change (bpow radix2 (-5)) with (/ IZR 32) in E1. f_equal; req; first [exact E1|exact E2|exact E3|exact E4].
Qed.
Lemma strip_moved : forall i p q, nth_error (strip_points 0) i = Some p -> nth_error (strip_points far) i = Some q ->
  real4 q = V4 (D := Rfld) (B2R (vx p) + 4500000) (B2R (vy p)) (B2R (vz p)) (B2R (vw p)) /\ B2R (vz p) = 0.
Proof.
  assert (G : forall x y, (-4 <= x <= 4)%Z -> (-4 <= y <= 4)%Z -> let p := strip_point 0 x y in
    real4 (strip_point far x y) = V4 (D := Rfld) (B2R (vx p) + 4500000) (B2R (vy p)) (B2R (vz p)) (B2R (vw p)) /\ B2R (vz p) = 0).
  { intros x y Hx Hy p. pose proof (strip_real far x y) as E1. rewrite E1 by (unfold far; lia).
    pose proof (strip_real 0 x y) as E2. assert (E3 : real4 p = V4 (D := Rfld) (IZR (0 + x) / 32) (IZR y) 0 1) by (apply E2; lia).
    pose proof (f_equal (fun v => vx v) E3) as A1. pose proof (f_equal (fun v => vy v) E3) as A2. pose proof (f_equal (fun v => vz v) E3) as A3. pose proof (f_equal (fun v => vw v) E3) as A4.
    unfold real4 in A1, A2, A3, A4. cbn [vx vy vz vw] in A1, A2, A3, A4.
    assert (B1 : B2R (vx p) = IZR (0 + x) / 32) by exact A1. assert (B2 : B2R (vy p) = IZR y) by exact A2.
    assert (B3 : B2R (vz p) = 0) by exact A3. assert (B4 : B2R (vw p) = 1) by exact A4. rewrite B1, B2, B3, B4. split; [|reflexivity].
    f_equal. req. unfold far. rewrite plus_IZR, mult_IZR. cbn [Z.add]. lra. }
  intros i p q H1 H2.
  do 5 (destruct i as [|i]; [injection H1 as <-; injection H2 as <-; apply G; lia|]). destruct i; discriminate.
Qed.
Lemma Forall2_len {A B : Type} (P : A -> B -> Prop) l m : Forall2 P l m -> length l = length m.
Proof. induction 1; cbn; congruence. Qed.

Lemma u64_tiny : u64 <= 1e-12.
Proof. unfold u64. change (bpow radix2 (-53)) with (/ IZR 9007199254740992). lra. Qed.
Lemma sumR_perm {A : Type} (f : A -> R) l m : Permutation l m -> sumR f l = sumR f m.
Proof. unfold sumR. induction 1; cbn [fold_right]; lra. Qed.
Lemma covariance_perm a b l m : Permutation l m -> covariance a b l = covariance a b m.
Proof.
  intros P. unfold covariance. assert (EM : forall x, mean_of x l = mean_of x m).
  { intros x. unfold mean_of. rewrite (sumR_perm _ _ _ P), (Permutation_length P). reflexivity. }
  rewrite !EM, (sumR_perm _ _ _ P), (Permutation_length P). reflexivity.
Qed.
Lemma strip_reals : map real4 (strip_points 0) =
  [V4 (D := Rfld) (-1 / 32) 1 0 1; V4 (D := Rfld) (-1 / 32) (-1) 0 1; V4 (D := Rfld) (-1 / 32) 2 0 1; V4 (D := Rfld) (-1 / 32) (-2) 0 1; V4 (D := Rfld) (3 / 32) 0 0 1].
Proof. unfold strip_points. cbn [map]. rewrite !strip_real by lia. reflexivity. Qed.
