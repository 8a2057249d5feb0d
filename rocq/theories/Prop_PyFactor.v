(** C65: registration written in Python with the per-point factors. *)
From Coq Require Import Reals ZArith Lra Psatz.
From Flocq Require Import Core.
From Verif Require Import Base BaseProofs Num Vec F64 RNum Lin FactorModel FactorProofs ReduceModel ReduceProofs OptModel OptSpec OptProofs PyFactorModel Prop_Opt.
Open Scope nat_scope.

(** What an outcome gives, dropping the object it changed. *)
Definition value {A B} (o : outcome (A * B)) : outcome B := let* x := o in Ok (snd x).

Section Any.
Context (D : fld) (nn : vec4 D -> outcome (option (N * car D))) (reject : pose D -> N -> nat -> car D -> bool)
  (target : view D N) (source : view D nat).
Lemma linearize_value k T i f f' :
  value (linearize nn reject target source k T i f) = value (linearize nn reject target source k T i f').
Proof.
  unfold linearize. destruct (at_point source i) as [p| | |]; cbn [bind value]; auto. destruct (nn (pose_pt T p)) as [[[ti d]|]| | |]; cbn [bind value]; auto.
  destruct (reject T ti i d); [reflexivity|]. unfold linearize_at. destruct (residual target source T ti i) as [r| | |]; cbn [bind]; auto.
  destruct (at_point source i) as [p'| | |]; cbn [bind]; auto. destruct k; cbn [bind].
  - reflexivity.
  - destruct (at_normal target ti); reflexivity.
  - destruct (at_cov target ti); cbn [bind]; [destruct (at_cov source i)|..]; reflexivity.
Qed.
Lemma py_linearize_value k f T i : value (py_linearize nn target source reject k f T i) =
  let* r := value (linearize nn reject target source k T i f) in
  Ok (match r with Some s => (true, sH s, sb s, se s) | None => (false, mzero6, zero6, nzero) end).
Proof. unfold py_linearize. destruct (linearize nn reject target source k T i f) as [[f' [s|]]| | |]; reflexivity. Qed.
Lemma loops_agree k T n : forall j (fs : list (factor D)) f (s : sys D), length fs = j + n ->
  value (foldM (fun st i =>
    let '(f, (sum_H, sum_b, sum_e)) := st in
    let* (f', r) := py_linearize nn target source reject k f T i in
    let '(succ, H, b, e) := r in
    Ok (f', if succ : bool then (madd6 sum_H H, add6 sum_b b, nadd sum_e e) else (sum_H, sum_b, sum_e)))
    (seq j n) (f, (sH s, sb s, se s))) =
  let* s' := value (foldM (fun st i => visit sys_add (linearize nn reject target source k T) i st) (seq j n) (fs, s)) in
  Ok (sH s', sb s', se s').
Proof.
  induction n as [|n IH]; intros j fs f s L; [reflexivity|]. cbn [seq foldM].
  destruct (get_lt fs j) as (fj & E); [lia|].
  assert (V2 : visit sys_add (linearize nn reject target source k T) j (fs, s) =
    let* (f', r) := linearize nn reject target source k T j fj in
    let* fs := set fs j f' in Ok (fs, match r with None => s | Some s' => sys_add s s' end)) by (cbn [visit]; rewrite E; reflexivity).
  rewrite V2. clear V2. pose proof (linearize_value k T j f fj) as V. unfold value in V.
  assert (P : py_linearize nn target source reject k f T j =
    let* (f', r) := linearize nn reject target source k T j f in
    match r with Some s => Ok (f', (true, sH s, sb s, se s)) | None => Ok (f', (false, mzero6, zero6, nzero)) end) by reflexivity.
  rewrite P. clear P.
  destruct (linearize nn reject target source k T j f) as [[f1 r1]| | |]; destruct (linearize nn reject target source k T j fj) as [[f2 r2]| | |]; cbn [bind snd] in *; try discriminate; try reflexivity.
  injection V as ->. rewrite set_Ok by lia. cbn [bind]. destruct r2 as [s2|]; cbn [bind].
  - rewrite <- (IH (S j) (upd fs j f2) f1 (sys_add s s2)) by (rewrite upd_length; lia). reflexivity.
  - rewrite <- (IH (S j) (upd fs j f2) f1 s) by (rewrite upd_length; lia). reflexivity.
Qed.
End Any.

(** What linearize returns does not depend on what the factor object was used for before. *)
Theorem C65_history : forall (D : fld) nn target source reject k (f f' : factor D) T i,
  value (py_linearize nn target source reject k f T i) = value (py_linearize nn target source reject k f' T i).
Proof. intros. rewrite !py_linearize_value. rewrite (linearize_value D nn reject target source k T i f f'). reflexivity. Qed.
(** The loop over all source points gives exactly the system the library's serial reduction
    works with, in any arithmetic (bit for bit in double precision), whatever state the factor
    object and the library's factors are in; and it fails exactly when the library does. *)
Theorem C65_same_as_library : forall (D : fld) nn target source reject k (f : factor D) T (fs : list (factor D)),
  value (py_sum nn target source reject k f T (length fs)) =
  let* s := value (reg_lin D nn reject target source k T fs) in Ok (sH s, sb s, se s).
Proof. intros. apply (loops_agree D nn reject target source k T (length fs) 0 fs f sys_zero). reflexivity. Qed.
(** Success means a neighbour within the limit; without it nothing is contributed. *)
Theorem C65_rejected : forall (D : fld) nn target source reject k (f : factor D) T i f' succ H b e,
  py_linearize nn target source reject k f T i = Ok (f', (succ, H, b, e)) -> exists p found,
  at_point source i = Ok p /\ nn (pose_pt T p) = Ok found /\
  (succ = true <-> exists ti d, found = Some (ti, d) /\ reject T ti i d = false) /\
  (succ = false -> H = mzero6 /\ b = zero6 /\ e = nzero).
Proof.
  intros D nn target source reject k f T i f' succ H b e E. unfold py_linearize, linearize in E.
  destruct (at_point source i) as [p| | |]; cbn [bind] in E; try discriminate. destruct (nn (pose_pt T p)) as [found| | |] eqn:EN; cbn [bind] in E; try discriminate.
  exists p, found. split; [reflexivity|]. split; [exact EN|]. destruct found as [[ti d]|]; cbn [bind] in E.
  - destruct (reject T ti i d) eqn:R; cbn [bind] in E.
    + injection E as <- <- <- <- <-. split; [|auto]. split; [discriminate|]. intros (ti' & d' & [= <- <-] & R'). congruence.
    + destruct (linearize_at target source k T ti i f) as [[f1 s]| | |]; cbn [bind] in E; try discriminate. injection E as <- <- <- <- <-.
      split; [|discriminate]. split; eauto.
  - injection E as <- <- <- <- <-. split; [|auto]. split; [discriminate|]. intros (ti' & d' & [=] & _).
Qed.
(** The limit is a distance: beyond it is rejected, on it is not; its sign does not matter. *)
Theorem C65_max_distance : forall (limit dist : R) T ti si,
  set_max_distance (D := Rfld) limit T ti si (dist * dist)%R = true <-> (Rabs limit < Rabs dist)%R.
Proof.
  intros limit dist T ti si. unfold set_max_distance, distance_rejector. change (Rlt_bool (limit * limit)%R (dist * dist)%R = true <-> (Rabs limit < Rabs dist)%R).
  pose proof (Rabs_pos limit). pose proof (Rabs_pos dist). rewrite <- (Rabs_pos_eq (limit * limit)%R), <- (Rabs_pos_eq (dist * dist)%R) by apply Rle_0_sqr. rewrite !Rabs_mult.
  set (a := Rabs limit) in *. set (b := Rabs dist) in *. destruct (Rlt_bool (a * a)%R (b * b)%R) eqn:E.
  - split; [|reflexivity]. intros _. apply Rlt_bool_iff in E. nra.
  - split; [discriminate|]. intros L. exfalso. assert (a * a < b * b)%R by nra. apply Rlt_bool_iff in H1. congruence.
Qed.
(** An index beyond the source cloud is not refused. *)
Theorem C65_index_refuted : forall (D : fld) nn reject k (f : factor D) target (source : cloud D) T i, length (cl_points source) <= i ->
  py_linearize nn target (cloud_view source) reject k f T i = UB.
Proof.
  intros D nn reject k f target source T i L. unfold py_linearize, linearize. cbn [at_point cloud_view]. unfold get. rewrite (proj2 (nth_error_None _ _) L). reflexivity.
Qed.

(** What the registration reports is what the Python loop gives: at the pose of the last
    linearisation.  Levenberg-Marquardt with no accepted step: the returned pose itself. *)
Section Report.
Context (D : fld) (nn : vec4 D -> outcome (option (N * car D))) (reject : pose D -> N -> nat -> car D -> bool)
  (target : view D N) (source : view D nat) (k : kind).
Context (solve : m6 D -> v6 D -> v6 D) (exp6 : v6 D -> pose D) (crit : criteria D).
Notation lin := (reg_lin D nn reject target source k).
Notation err := (reg_err D target source k).
Lemma lm_loop_system c n : forall i r lambda fs rf fsf log,
  lm_loop lin err null_factor solve exp6 crit c n i r lambda fs = Ok (rf, fsf, log) -> log = [] \/
  exists T fs0 fs1 s, length fs0 = length fs /\ lin T fs0 = Ok (fs1, s) /\ r_H rf = sH s /\ r_b rf = sb s /\
    (r_T rf = T \/ exists delta, r_T rf = pose_mul T (exp6 delta)).
Proof.
  induction n as [|n IH]; intros i r lambda fs rf fsf log H; cbn [lm_loop] in H.
  - inversion H; subst. auto.
  - destruct (r_converged r) eqn:Ec; [inversion H; subst; auto|]. right.
    destruct (lin (r_T r) fs) as [[fs1 s]| | |] eqn:EL; cbn [bind] in H; try discriminate. cbn [upd_sys null_factor] in H.
    destruct (lm_inner err null_factor solve exp6 crit (lm_factor c) (Z.to_nat (lm_max_inner c)) (r_T r) fs1 s (se s) lambda) as [[tr log1]| | |] eqn:EI;
      cbn [bind] in H; try discriminate.
    pose proof EI as SH. apply (lm_inner_shape D (factor D) lin) in SH. destruct SH as (_ & _ & _ & _ & M).
    destruct (i_step tr) as [[T' conv]|] eqn:ES.
    + destruct M as (log' & l & d & e1 & _ & _ & _ & ET' & _).
      match type of H with context [lm_loop _ _ _ _ _ _ ?a ?b ?c ?d ?e ?f] =>
        destruct (lm_loop lin err null_factor solve exp6 crit a b c d e f) as [[[rf1 fsf1] log2]| | |] eqn:E2 end; cbn [bind] in H; try discriminate.
      inversion H; subst rf1 fsf1 log. clear H. destruct (IH _ _ _ _ _ _ _ E2) as [Z|(T & fs0 & fs2 & s2 & L & Q)].
      * subst log2. pose proof E2 as SH. apply lm_loop_shape in SH. destruct SH as (_ & _ & _ & _ & _ & Q & _). destruct (Q eq_refl) as (-> & _).
        exists (r_T r), fs, fs1, s. repeat split; auto. right. exists d. exact ET'.
      * exists T, fs0, fs2, s2. split; auto. rewrite L. apply serial_fold in EL. destruct EL as (rs & (LL & _) & _). exact LL.
    + inversion H; subst rf fsf log. exists (r_T r), fs, fs1, s. cbn. repeat split; auto.
Qed.
Lemma gn_loop_system lambda n : forall i r fs rf fsf log,
  gn_loop lin null_factor solve exp6 crit lambda n i r fs = Ok (rf, fsf, log) -> log = [] \/
  exists T fs0 fs1 s, length fs0 = length fs /\ lin T fs0 = Ok (fs1, s) /\ r_H rf = sH s /\ r_b rf = sb s /\ r_error rf = se s /\
    exists delta, r_T rf = pose_mul T (exp6 delta).
Proof.
  induction n as [|n IH]; intros i r fs rf fsf log H; cbn [gn_loop] in H.
  - inversion H; subst. auto.
  - destruct (r_converged r) eqn:Ec; [inversion H; subst; auto|]. right.
    destruct (lin (r_T r) fs) as [[fs1 s]| | |] eqn:EL; cbn [bind] in H; try discriminate. cbn [upd_sys null_factor] in H.
    match type of H with context [gn_loop _ _ _ _ _ ?a ?b ?c ?d ?e] =>
      destruct (gn_loop lin null_factor solve exp6 crit a b c d e) as [[[rf1 fsf1] log2]| | |] eqn:E2 end; cbn [bind] in H; try discriminate.
    inversion H; subst rf1 fsf1 log. clear H. destruct (IH _ _ _ _ _ _ E2) as [Z|(T & fs0 & fs2 & s2 & L & Q)].
    + subst log2. pose proof E2 as SH. apply gn_loop_shape in SH. destruct SH as (_ & _ & _ & _ & Q & _). destruct (Q eq_refl) as (-> & _).
      exists (r_T r), fs, fs1, s. repeat split; auto. eexists. reflexivity.
    + exists T, fs0, fs2, s2. split; auto. rewrite L. apply serial_fold in EL. destruct EL as (rs & (LL & _) & _). exact LL.
Qed.
End Report.

Theorem C65_reported_lm : forall (D : fld) nn reject target source k solve exp6 (crit : criteria D) c T fs r log (f : factor D),
  levenberg_marquardt (reg_lin D nn reject target source k) (reg_err D target source k) null_factor solve exp6 inlier crit c T fs = Ok (r, log) ->
  0 < linearizations log -> exists T1 e,
  value (py_sum nn target source reject k f T1 (length fs)) = Ok (r_H r, r_b r, e) /\
  (r_T r = T1 \/ exists delta, r_T r = pose_mul T1 (exp6 delta)).
Proof.
  intros D nn reject target source k solve exp6 crit c T fs r log f H P. unfold levenberg_marquardt in H.
  match type of H with context [lm_loop _ _ _ _ _ _ ?a ?b ?c ?d ?e ?f] =>
    destruct (lm_loop (reg_lin D nn reject target source k) (reg_err D target source k) null_factor solve exp6 crit a b c d e f) as [[[rf fsf] lg]| | |] eqn:E end; cbn [bind] in H; try discriminate.
  inversion H; subst. clear H. apply lm_loop_system in E. destruct E as [->|(T1 & fs0 & fs1 & s & L & EL & Q1 & Q2 & Q3)]; [cbn in P; lia|].
  exists T1, (se s). rewrite <- L, C65_same_as_library, EL. cbn [set_inliers fst r_H r_b r_T value bind snd]. rewrite Q1, Q2. auto.
Qed.
Theorem C65_reported_gn : forall (D : fld) nn reject target source k solve exp6 (crit : criteria D) lambda m T fs r log (f : factor D),
  gauss_newton (reg_lin D nn reject target source k) null_factor solve exp6 inlier crit lambda m T fs = Ok (r, log) ->
  0 < linearizations log -> exists T1 delta,
  value (py_sum nn target source reject k f T1 (length fs)) = Ok (r_H r, r_b r, r_error r) /\ r_T r = pose_mul T1 (exp6 delta).
Proof.
  intros D nn reject target source k solve exp6 crit lambda m T fs r log f H P. unfold gauss_newton in H.
  match type of H with context [gn_loop _ _ _ _ _ ?a ?b ?c ?d ?e] =>
    destruct (gn_loop (reg_lin D nn reject target source k) null_factor solve exp6 crit a b c d e) as [[[rf fsf] lg]| | |] eqn:E end; cbn [bind] in H; try discriminate.
  inversion H; subst. clear H. apply gn_loop_system in E. destruct E as [->|(T1 & fs0 & fs1 & s & L & EL & Q1 & Q2 & Q4 & d & Q3)]; [cbn in P; lia|].
  exists T1, d. rewrite <- L, C65_same_as_library, EL. cbn [set_inliers fst r_H r_b r_T r_error value bind snd]. rewrite Q1, Q2, Q4. auto.
Qed.

(** But not at the returned pose: one Gauss-Newton step on one point, in double precision. *)
Definition demo_target := cloud_viewN (one_cloud 1).
Definition demo_source := cloud_view (one_cloud 0).
Definition demo_sum T := value (py_sum nn0 demo_target demo_source null_rejector ICP factor_init T 1).
Definition b_differs (a b : car Ffld) : bool := negb (nle a b && nle b a).
Theorem C65_reported_refuted : exists r log H b e, gn_run = Ok (r, log) /\ demo_sum (r_T r) = Ok (H, b, e) /\
  b_differs (p0 (tv b)) (p0 (tv (r_b r))) = true.
Proof.
  assert (C : match gn_run with Ok (r, _) => match demo_sum (r_T r) with Ok (_, b, _) => b_differs (p0 (tv b)) (p0 (tv (r_b r))) | _ => false end | _ => false end = true)
    by (vm_compute; reflexivity).
  destruct gn_run as [[r log]| | |]; try discriminate C. destruct (demo_sum (r_T r)) as [[[H b] e]| | |] eqn:E; try discriminate C.
  exists r, log, H, b, e. auto.
Qed.
(** The hypotheses hold: both optimisers linearise, the loop succeeds with a nonzero system, a
    limit below the distance rejects, and three factors in different states agree. *)
Definition ok_and {A} (o : outcome A) (p : A -> bool) : bool := match o with Ok a => p a | _ => false end.
Example C65_example_gn : ok_and gn_run (fun r => Nat.eqb (linearizations (snd r)) 1) = true.
Proof. vm_compute. reflexivity. Qed.
Example C65_example_lm : ok_and (demo_run null_factor) (fun r => Nat.eqb (linearizations (snd r)) 1) = true.
Proof. vm_compute. reflexivity. Qed.
Example C65_example_sum : ok_and (demo_sum pose_id) (fun r => let '(H, b, e) := r in
  nlt (fl 0 0) (p0 (r0 (btt H))) && nlt (p0 (tv b)) (fl 0 0) && nlt (fl 0 0) e) = true.
Proof. vm_compute. reflexivity. Qed.
Definition far : vec4 Ffld -> outcome (option (N * car Ffld)) := fun _ => Ok (Some (0%N, fl 1 0)).
Example C65_example_rejected : ok_and (py_linearize far demo_target demo_source (set_max_distance (D := Ffld) (fl 1 (-1))) ICP factor_init pose_id 0)
  (fun r => negb (fst (fst (fst (snd r))))) = true.
Proof. vm_compute. reflexivity. Qed.
Example C65_example_accepted : ok_and (py_linearize far demo_target demo_source (set_max_distance (D := Ffld) (fl (-1) 0)) ICP factor_init pose_id 0)
  (fun r => fst (fst (fst (snd r)))) = true.
Proof. vm_compute. reflexivity. Qed.
Example C65_example_index : length (cl_points (one_cloud 0)) <= 1.
Proof. simpl. lia. Qed.

Print Assumptions C65_history.
Print Assumptions C65_same_as_library.
Print Assumptions C65_rejected.
Print Assumptions C65_max_distance.
Print Assumptions C65_index_refuted.
Print Assumptions C65_reported_lm.
Print Assumptions C65_reported_gn.
Print Assumptions C65_reported_refuted.
