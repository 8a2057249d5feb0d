(** C33, C34: estimated normals and covariances; the parallel estimation loops. *)
From Coq Require Import Reals Lra.
From Verif Require Import Base BaseProofs Num Vec RNum Lin LinSpec LinProofs FactorModel EstModel EstSpec EstProofs EstReal.
Open Scope nat_scope.

(** * C33 *)
(** Every value a successful estimation leaves in the cloud. *)
Theorem C33_estimated_values : forall knn eig st jp jn jc k (c c' : cloud Rfld),
  estimate (D := Rfld) knn eig INR (1e-3)%R st jp jn jc k c = Ok c' ->
  let n := length (cl_points c) in
  cl_points c' = cl_points c /\ length (cl_normals c') = n /\ length (cl_covs c') = n /\
  (has_normals st = false -> forall i v, i < n -> nth_error (cl_normals c) i = Some v -> nth_error (cl_normals c') i = Some v) /\
  (has_covs st = false -> forall i m, i < n -> nth_error (cl_covs c) i = Some m -> nth_error (cl_covs c') i = Some m) /\
  forall i p, nth_error (cl_points c) i = Some p -> exists found, knn p k = Ok found /\
    (length found < 5 ->
       (has_normals st = true -> nth_error (cl_normals c') i = Some (V4 (0 : car Rfld) 0 0 0)%R) /\
       (has_covs st = true -> nth_error (cl_covs c') i = Some (B4 id3 zero3 zero3 (0%R : car Rfld)))) /\
    (5 <= length found -> exists pts, neighbourhood knn k c i p found pts /\
       (solves eig pts -> exists normal cov, good_normal p normal pts /\ plane_cov cov (head normal) /\
          (has_normals st = true -> nth_error (cl_normals c') i = Some normal) /\
          (has_covs st = true -> nth_error (cl_covs c') i = Some cov))).
Proof.
  intros knn eig st jp jn jc k c c' H n. destruct (estimate_writes knn eig INR (1e-3)%R st jp jn jc k c c' H) as (P & LN & LC & KN & KC & WS).
  fold n in LN, LC, KN, KC, WS. split; [exact P|]. split; [exact LN|]. split; [exact LC|]. split; [|split].
  - intros S i v L E. rewrite (KN S). apply resize_nth; assumption.
  - intros S i v L E. rewrite (KC S). apply resize_nth; assumption.
  - intros i p E. assert (L : i < n) by (apply nth_error_Some; congruence). destruct (WS i L) as (ws & LW & In_ws).
    unfold local_writes in LW. rewrite (proj2 (get_Ok _ _ _) E) in LW. cbn [bind] in LW.
    destruct (knn p k) as [found| | |] eqn:EK; cbn [bind] in LW; try discriminate. exists found. split; [reflexivity|].
    destruct (Nat.ltb_spec (length found) 5) as [F|F].
    + injection LW as <-. split; [intros _|intros F'; lia].
      destruct st; cbn [has_normals has_covs invalid_writes In] in *; (split; intros; [|]; try discriminate).
      * apply (In_ws (WNormal i normal_invalid)); auto.
      * apply (In_ws (WCov i cov_invalid)); auto.
      * apply (In_ws (WNormal i normal_invalid)); auto.
      * apply (In_ws (WCov i cov_invalid)); auto.
    + split; [intros F'; lia|intros _].
      destruct (mapM (fun j => get (cl_points c) j) found) as [pts| | |] eqn:EM; cbn [bind] in LW; try discriminate.
      injection LW as <-.
      assert (FA : Forall2 (fun j q => nth_error (cl_points c) j = Some q) found pts).
      { clear -EM. revert pts EM. induction found as [|j l IH]; intros pts EM; cbn [mapM] in EM; [injection EM as <-; constructor|].
        destruct (get (cl_points c) j) as [q| | |] eqn:G; cbn [bind] in EM; try discriminate.
        destruct (mapM (fun j => get (cl_points c) j) l) as [qs| | |] eqn:M; cbn [bind] in EM; try discriminate. injection EM as <-.
        constructor; [apply get_Ok; exact G|apply IH; reflexivity]. }
      exists pts. split; [split; [exact E|split; [exact EK|exact FA]]|]. intros SV.
      assert (NE : pts <> []). { intros ->. inversion FA; subst. cbn in F. lia. }
      set (W := scatter (D := Rfld) INR pts) in *.
      assert (EC : eig_correct W (eig W)).
      { apply SV; [apply scatter_sym|]. intros u. apply scatter_variance. exact NE. }
      exists (normal_of (eig W) p), (cov_of (D := Rfld) (1e-3)%R (eig W)).
      split; [apply normal_of_good; assumption|]. split; [apply cov_of_good; apply EC|].
      destruct st; cbn [has_normals has_covs valid_writes In] in *; (split; intros; [|]; try discriminate).
      * apply (In_ws (WNormal i (normal_of (eig W) p))); auto.
      * apply (In_ws (WCov i (cov_of (D := Rfld) (1e-3)%R (eig W)))); auto.
      * apply (In_ws (WNormal i (normal_of (eig W) p))); auto.
      * apply (In_ws (WCov i (cov_of (D := Rfld) (1e-3)%R (eig W)))); auto.
Qed.
(** Estimation succeeds, in any arithmetic, whenever the search returns indices of the cloud. *)
Theorem C33_total : forall (D : fld) knn eig of_nat milli st jp jn jc k (c : cloud D),
  (forall p, In p (cl_points c) -> exists found, knn p k = Ok found /\ Forall (fun j => j < length (cl_points c)) found) ->
  exists c', estimate knn eig of_nat milli st jp jn jc k c = Ok c'.
Proof. intros. apply estimate_total. assumption. Qed.

(** A flat cross at height 2 above the origin. *)
Section Cross.
Open Scope R_scope.
Notation pt x y z := (V4 (x : car Rfld) (y : car Rfld) (z : car Rfld) (1 : car Rfld)).
Definition cross_pts : list (vec4 Rfld) := [pt 1 0 2; pt (-1) 0 2; pt 0 1 2; pt 0 (-1) 2; pt 0 0 2].
Definition cross : cloud Rfld := mkCloud cross_pts [] [].
Definition cross_knn : vec4 Rfld -> nat -> outcome (list nat) := fun _ _ => Ok [0; 1; 2; 3; 4]%nat.
Definition cross_eig : m3 Rfld -> m3 Rfld := fun _ =>
  M3 (P3 (0 : car Rfld) 1 0) (P3 (0 : car Rfld) 0 1) (P3 (1 : car Rfld) 0 0).
Lemma cross_variance (a b c : R) : variance_along (P3 (a : car Rfld) b c) cross_pts = 2 / 5 * (a * a) + 2 / 5 * (b * b).
Proof.
  unfold variance_along, mean_along. cbn [cross_pts length INR sumR fold_right along head dot3 p0 p1 p2 vx vy vz vw nadd nmul Rfld fbase Rnum].
  field.
Qed.
Lemma cross_solves : solves cross_eig cross_pts.
Proof.
  intros W S Q. destruct W as [[a b c] [d e f] [g h i]]. unfold sym3 in S. cbn in S. injection S. intros.
  pose proof (Q (P3 (1 : car Rfld) 0 0)) as Q1. pose proof (Q (P3 (0 : car Rfld) 1 0)) as Q2. pose proof (Q (P3 (0 : car Rfld) 0 1)) as Q3.
  pose proof (Q (P3 (1 : car Rfld) 1 0)) as Q4. pose proof (Q (P3 (1 : car Rfld) 0 1)) as Q5. pose proof (Q (P3 (0 : car Rfld) 1 1)) as Q6.
  rewrite cross_variance in *. cbn in *. change (car (fbase Rfld)) with R in *. change (car Rfld) with R in *. change (car Rnum) with R in *.
  assert (E1 : a = 2 / 5) by lra. assert (E2 : e = 2 / 5) by lra. assert (E3 : i = 0) by lra.
  assert (E4 : b = 0) by lra. assert (E5 : c = 0) by lra. assert (E6 : f = 0) by lra.
  assert (E7 : d = 0) by lra. assert (E8 : g = 0) by lra. assert (E9 : h = 0) by lra. clear - E1 E2 E3 E4 E5 E6 E7 E8 E9. subst.
  split; [unfold cross_eig; apply M3_eq; apply P3_eq; cbn; req; ring|].
  exists (P3 (0 : car Rfld) (2 / 5) (2 / 5)). cbn [p0 p1 p2]. split; [|lra].
  unfold cross_eig. apply M3_eq; apply P3_eq; cbn; req; field.
Qed.
End Cross.
Example C33_cross : exists c', estimate (D := Rfld) cross_knn cross_eig INR (1e-3)%R Both vzero vzero cov_invalid 5 cross = Ok c' /\
  forall i p, nth_error cross_pts i = Some p -> exists normal cov, nth_error (cl_normals c') i = Some normal /\
    nth_error (cl_covs c') i = Some cov /\ good_normal p normal cross_pts /\ plane_cov cov (head normal).
Proof.
  destruct (C33_total Rfld cross_knn cross_eig INR (1e-3)%R Both vzero vzero cov_invalid 5 cross) as (c' & E).
  - intros p _. eexists. split; [reflexivity|]. repeat constructor; cbn; lia.
  - exists c'. split; [exact E|]. intros i p Ep.
    destruct (C33_estimated_values _ _ _ _ _ _ _ _ _ E) as (_ & _ & _ & _ & _ & V). destruct (V i p Ep) as (found & K & _ & B).
    injection K as <-. destruct (B ltac:(cbn; lia)) as (pts & (_ & _ & F) & G).
    assert (pts = cross_pts).
    { unfold cross, cross_pts in F. cbn [cl_points] in F.
      repeat match goal with H : Forall2 _ (_ :: _) _ |- _ => inversion H; clear H; subst | H : Forall2 _ [] _ |- _ => inversion H; clear H; subst end.
      repeat match goal with H : nth_error _ _ = Some _ |- _ => cbn [nth_error] in H; injection H as H end. subst. reflexivity. }
    subst. destruct (G cross_solves) as (nn & cc & A1 & A2 & A3 & A4). exists nn, cc. auto.
Qed.

(** * C34 *)
(** If the serial loop succeeds, no schedule of the parallel loop fails; a finished schedule
    leaves exactly the serial result; from every reachable state the loop can finish; and in
    every reachable state the points are as given and no two writes of started iterations
    touch the same memory. *)
Theorem C34_parallel_estimation : forall (D : fld) knn eig of_nat milli st jp jn jc k (c c' : cloud D),
  estimate knn eig of_nat milli st jp jn jc k c = Ok c' ->
  forall o, par_runs knn eig of_nat milli st k (par_init jp jn jc c) o ->
  exists s, o = Ok s /\
    (par_finished s -> s_cloud s = c') /\
    cl_points (s_cloud s) = cl_points c /\
    NoDup (map slot (concat (s_active s))) /\
    exists s', par_runs knn eig of_nat milli st k s (Ok s') /\ par_finished s' /\ s_cloud s' = c'.
Proof.
  intros D knn eig of_nat milli st jp jn jc k c c' H o R. unfold estimate in H. set (n := length (cl_points c)) in *.
  assert (P0 : cl_points (cloud_resize jp jn jc c n) = cl_points c) by (cbn [cloud_resize cl_points]; apply resize_same).
  destruct (serial_writes D knn eig of_nat milli st k (seq 0 n) c _ c' P0 H) as [L F].
  destruct (slots_flat D knn eig of_nat milli st c k (seq 0 n) L (seq_NoDup n 0)) as [ND _].
  assert (I0 : par_inv D knn eig of_nat milli st c c' k (par_init jp jn jc c)).
  { unfold par_init, par_inv, pending. fold n. cbn [s_cloud s_todo s_active concat app]. auto. }
  destruct (par_runs_inv D knn eig of_nat milli st c c' k _ _ I0 R) as (s & -> & I). exists s. split; [reflexivity|].
  split; [intros Fi; eapply par_finished_cloud; eauto|]. split; [apply I|]. split.
  - destruct I as (_ & _ & N & _). unfold pending in N. rewrite map_app in N. revert N. generalize (map slot (concat (s_active s))). intros l. induction l as [|x l IH]; intros N; [constructor|].
    inversion N as [|? ? N1 N2]; subst. constructor; [intros I'; apply N1, in_or_app; auto|auto].
  - destruct (par_completes D knn eig of_nat milli st c c' k s I) as (s' & R' & Fi). exists s'. split; [exact R'|]. split; [exact Fi|].
    destruct (par_runs_inv D knn eig of_nat milli st c c' k _ _ I R') as (s2 & E & I2). injection E as <-.
    eapply par_finished_cloud; eauto.
Qed.

(** A run on the cross that starts iteration 3 and 1, finishes 1 first, and is still going. *)
Example C34_interleaved : exists s, par_runs (D := Rfld) cross_knn cross_eig INR (1e-3)%R Normals 5
    (par_init vzero vzero cov_invalid cross) (Ok s) /\ s_todo s = [0; 2; 4] /\ length (concat (s_active s)) = 1.
Proof.
  unfold par_init. cbn [cross cl_points cross_pts length seq]. set (c0 := cloud_resize _ _ _ _ _).
  set (V := cross_eig (scatter (D := Rfld) INR cross_pts)).
  set (v3 := normal_of V (V4 (0 : car Rfld) (-1) 2 1)%R). set (v1 := normal_of V (V4 (-1 : car Rfld) 0 2 1)%R).
  set (c1 := mkCloud cross_pts (upd (cl_normals c0) 1 v1) (cl_covs c0)).
  exists (mkPar c1 [0; 2; 4] [[]; [WNormal 3 v3]]). split; [|split; reflexivity].
  eapply ParMore; [exact (ParStart Rfld cross_knn cross_eig INR (1e-3)%R Normals 5 c0 [0; 1; 2] 3 [4] [])|].
  cbn [app]. eapply ParMore; [exact (ParStart Rfld cross_knn cross_eig INR (1e-3)%R Normals 5 c0 [0] 1 [2; 4] [[WNormal 3 v3]])|].
  cbn [app]. eapply ParMore; [exact (ParWrite Rfld cross_knn cross_eig INR (1e-3)%R Normals 5 c0 [0; 2; 4] [] (WNormal 1 v1) [] [[WNormal 3 v3]])|].
  cbn [app]. apply ParHere.
Qed.

Print Assumptions C33_estimated_values.
Print Assumptions C33_total.
Print Assumptions C34_parallel_estimation.
