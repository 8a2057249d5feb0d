(** Facts about the factors that hold in every number system. *)
From Verif Require Import Base BaseProofs Num Vec Lin FactorModel ReduceModel ReduceSpec ReduceProofs OptModel OptSpec.

Section Generic.
Context (D : fld).
Notation K := (car D).
Context (nn : vec4 D -> outcome (option (N * K))) (reject : pose D -> N -> nat -> K -> bool).
Context (target : view D N) (source : view D nat).
Notation linearize := (linearize nn reject target source).
Notation error := (error target source).

Lemma linearize_cases k T si f f' r : linearize k T si f = Ok (f', r) ->
  exists p found, at_point source si = Ok p /\ nn (pose_pt T p) = Ok found /\
  match r with
  | None => f' = mkFactor None si (f_maha f) /\
      (found = None \/ exists ti d, found = Some (ti, d) /\ reject T ti si d = true)
  | Some s => exists ti d, found = Some (ti, d) /\ reject T ti si d = false /\
      linearize_at target source k T ti si f = Ok (f', s) /\ f_target f' = Some ti /\ f_source f' = si
  end.
Proof.
  unfold FactorModel.linearize. intros H.
  destruct (at_point source si) as [p| | |] eqn:Ep; cbn [bind] in H; try discriminate.
  destruct (nn (pose_pt T p)) as [found| | |] eqn:En; cbn [bind] in H; try discriminate.
  exists p, found. split; auto. split; auto.
  destruct found as [[ti d]|]; [|inversion H; subst; auto].
  destruct (reject T ti si d) eqn:ER.
  - inversion H; subst. split; auto. right. eauto.
  - destruct (linearize_at target source k T ti si f) as [[f1 s]| | |] eqn:EL; cbn [bind] in H; try discriminate.
    inversion H; subst. exists ti, d. split; auto. split; auto. split; auto.
    unfold linearize_at in EL. destruct (residual target source T ti si); cbn [bind] in EL; try discriminate.
    rewrite Ep in EL. cbn [bind] in EL. destruct k.
    + inversion EL; auto.
    + destruct (at_normal target ti); cbn [bind] in EL; try discriminate. inversion EL; auto.
    + destruct (at_cov target ti); cbn [bind] in EL; try discriminate.
      destruct (at_cov source si); cbn [bind] in EL; try discriminate. inversion EL; auto.
Qed.

Lemma error_after_linearize k T si f f' r : linearize k T si f = Ok (f', r) ->
  error k T f' = Ok (match r with Some s => se s | None => nzero end) /\
  inlier f' = match r with Some _ => true | None => false end.
Proof.
  intros H. destruct (linearize_cases _ _ _ _ _ _ H) as (p & found & Ep & En & M).
  destruct r as [s|].
  - destruct M as (ti & d & _ & _ & EL & Et & Es). unfold inlier, FactorModel.error. rewrite Et, Es. split; auto.
    unfold linearize_at in EL.
    destruct (residual target source T ti si) as [rs| | |] eqn:Er; cbn [bind] in *; try discriminate.
    rewrite Ep in EL. cbn [bind] in EL. destruct k.
    + inversion EL; subst; reflexivity.
    + destruct (at_normal target ti); cbn [bind] in *; try discriminate. inversion EL; subst; reflexivity.
    + destruct (at_cov target ti); cbn [bind] in EL; try discriminate.
      destruct (at_cov source si); cbn [bind] in EL; try discriminate. inversion EL; subst; reflexivity.
  - destruct M as (-> & _). auto.
Qed.

Context (mul_comm : forall a b : K, nmul a b = nmul b a) (weight : K -> K).

Lemma error_after_linearize_robust k T si f f' r :
  linearize_robust nn reject target source weight k T si f = Ok (f', r) ->
  error_robust target source weight k T f' =
    Ok (match r with Some s => se s | None => nmul (weight (fsqrt nzero)) nzero end) /\
  inlier f' = match r with Some _ => true | None => false end.
Proof.
  unfold linearize_robust, error_robust. intros H.
  destruct (linearize k T si f) as [[f1 r1]| | |] eqn:EL; cbn [bind] in H; try discriminate.
  destruct (error_after_linearize _ _ _ _ _ _ EL) as (E & I).
  destruct r1 as [s|]; inversion H; subst; rewrite E; cbn [bind]; split; auto.
  cbn [scale_sys se]. f_equal. apply mul_comm.
Qed.

(** The serial reduction over these factors. *)
Definition reg_lin k T := serial (sys_zero (D := D)) sys_add (linearize k T).
Definition reg_err k T := serial_error (nzero (n := D)) nadd (error k T).
Definition reg_lin_robust k T := serial (sys_zero (D := D)) sys_add (linearize_robust nn reject target source weight k T).
Definition reg_err_robust k T := serial_error (nzero (n := D)) nadd (error_robust target source weight k T).

(** Adding zero changes no partial sum. *)
Definition zero_absorbed (ok : K -> Prop) : Prop :=
  ok nzero /\ (forall a b, ok a -> ok (nadd a b)) /\ (forall a, ok a -> nadd a nzero = a).

Lemma serial_errors_agree ok k : zero_absorbed ok -> errors_agree (reg_err k) (reg_lin k).
Proof.
  intros (O1 & O2 & O3) T fs fs' s H. unfold reg_lin in H.
  destruct (serial_fold _ _ _ _ _ _ _ _ H) as (rs & LO & ->).
  apply (serial_error_fold _ _ sys_zero sys_add (linearize k T) K se nzero nadd (error k T) ok) with (fs := fs); auto.
  intros i f f' r E. apply (error_after_linearize _ _ _ _ _ _ E).
Qed.
Lemma serial_errors_agree_robust ok k : zero_absorbed ok -> nmul (weight (fsqrt nzero)) nzero = nzero ->
  errors_agree (reg_err_robust k) (reg_lin_robust k).
Proof.
  intros (O1 & O2 & O3) WZ T fs fs' s H. unfold reg_lin_robust in H.
  destruct (serial_fold _ _ _ _ _ _ _ _ H) as (rs & LO & ->).
  apply (serial_error_fold _ _ sys_zero sys_add (linearize_robust nn reject target source weight k T) K se nzero nadd
           (error_robust target source weight k T) ok) with (fs := fs); auto.
  intros i f f' r E. rewrite (proj1 (error_after_linearize_robust _ _ _ _ _ _ E)). destruct r; auto. f_equal. exact WZ.
Qed.

(** Inliers after a linearisation are exactly the contributing factors. *)
Lemma inliers_counted (lin : nat -> factor D -> outcome (factor D * option (sys D))) fs fs' rs :
  (forall i f f' r, lin i f = Ok (f', r) -> inlier f' = match r with Some _ => true | None => false end) ->
  linearized_once lin fs fs' rs -> count_inliers inlier fs' = length (accepted rs).
Proof.
  intros E (L1 & L2 & L3).
  assert (P : forall i f' r, nth_error fs' i = Some f' -> nth_error rs i = Some r ->
             inlier f' = match r with Some _ => true | None => false end).
  { intros i f' r Ef Er. assert (Li : i < length fs) by (rewrite <- L1; apply nth_error_Some; congruence).
    destruct (nth_error fs i) as [f|] eqn:Ef0; [|apply nth_error_None in Ef0; lia].
    destruct (L3 i f Ef0) as (g & q & A1 & A2 & A3). rewrite Ef in A2. rewrite Er in A3.
    inversion A2; inversion A3; subst. eapply E. eauto. }
  assert (L : length fs' = length rs) by lia. clear - P L. unfold count_inliers. revert rs L P.
  induction fs' as [|f fs' IH]; intros [|r rs] L P; simpl in L; try discriminate; auto.
  pose proof (P 0 f r eq_refl eq_refl) as P0. specialize (IH rs ltac:(lia) (fun i => P (S i))).
  cbn [filter accepted flat_map]. rewrite P0. rewrite app_length. destruct r; simpl; rewrite IH; reflexivity.
Qed.
End Generic.
