(** With point-to-point factors, Levenberg-Marquardt never increases the misfit. *)
From Coq Require Import Reals Lra Psatz List.
From Verif Require Import Base BaseProofs Num Vec RNum Lin LinSpec LinProofs FactorModel ReduceModel ReduceSpec ReduceProofs
  OptModel OptSpec OptProofs FactorProofs MoveSpec MoveProofs MoveFactor FitSpec.
Open Scope R_scope.

(** * The capped distance *)
Lemma capped_le_far far l q : capped far l q <= far.
Proof. induction l as [|p l IH]; cbn [capped fold_right]; [lra|]. eapply Rle_trans; [apply Rmin_r|exact IH]. Qed.
Lemma capped_le far l q p : In p l -> capped far l q <= sq_gap p q.
Proof.
  induction l as [|x l IH]; cbn [In capped fold_right]; intros I; [destruct I|]. destruct I as [->|I]; [apply Rmin_l|].
  eapply Rle_trans; [apply Rmin_r|apply IH; exact I].
Qed.
Lemma capped_ge far l q m : m <= far -> (forall p, In p l -> m <= sq_gap p q) -> m <= capped far l q.
Proof.
  intros F. induction l as [|x l IH]; intros H; cbn [capped fold_right]; [exact F|].
  apply Rmin_glb; [apply H; left; reflexivity|]. apply IH. intros p I. apply H. right. exact I.
Qed.

Fixpoint total (l : list R) : R := match l with nil => 0 | x :: l => x + total l end.

Section Fit.
Context (target source : cloud Rfld) (nn : vec4 Rfld -> outcome (option (N * car Rfld))) (X : exact_search (cloud_viewN target) nn).
Context (limit : R) (reject : pose Rfld -> N -> nat -> car Rfld -> bool) (RJ : rejects_beyond limit reject).
Definition far : R := Rmin limit (nmaxv (n := Rnum)).
Notation tpts := (cl_points target).
Notation spts := (cl_points source).
Notation lin1 := (linearize nn reject (cloud_viewN target) (cloud_view source) ICP).
Notation err1 := (error (cloud_viewN target) (cloud_view source) ICP).
Notation lin := (reg_lin Rfld nn reject (cloud_viewN target) (cloud_view source) ICP).
Notation err := (reg_err Rfld (cloud_viewN target) (cloud_view source) ICP).

(** What a factor without a correspondence counts for. *)
Definition missing (f : factor Rfld) : R := if inlier f then 0 else far.
Definition at_source (f : factor Rfld) (p : vec4 Rfld) : Prop := nth_error spts (f_source f) = Some p.

Lemma target_in i q : at_point (cloud_viewN target) i = Ok q -> In q tpts.
Proof using. clear. cbn [cloud_viewN at_point]. intros E. apply get_Ok in E. eapply nth_error_In; eauto. Qed.
Lemma in_target q : In q tpts -> exists i, at_point (cloud_viewN target) i = Ok q.
Proof using.
  clear. intros I. apply In_nth_error in I. destruct I as (n & E). exists (N.of_nat n). cbn [cloud_viewN at_point].
  rewrite Nnat.Nat2N.id. apply get_Ok. exact E.
Qed.

(** The error of a factor, whatever its correspondence, bounds the distance of its point. *)
Lemma error_bounds T f e p : at_source f p -> err1 T f = Ok e -> capped far tpts (pose_pt T p) <= 2 * e + missing f.
Proof using.
  clear. unfold error, missing, inlier, at_source. intros S. destruct (f_target f) as [ti|].
  - unfold residual. cbn [cloud_view at_point]. apply get_Ok in S.
    destruct (at_point (cloud_viewN target) ti) as [q| | |] eqn:Eq; cbn [bind]; try discriminate.
    rewrite S. cbn [bind]. intros [= <-]. pose proof (capped_le far tpts (pose_pt T p) q (target_in _ _ Eq)) as L.
    rewrite sqnorm_gap. cbn [nmul Rnum fhalf Rfld]. change (@nmul (fbase Rfld)) with Rmult. lra.
  - intros [= <-]. pose proof (capped_le_far far tpts (pose_pt T p)). change (nzero (n := fbase Rfld)) with 0. lra.
Qed.

(** Right after linearisation the two agree. *)
Lemma linearized_exact T si f f' r : lin1 T si f = Ok (f', r) ->
  f_source f' = si /\ exists p e, at_source f' p /\ err1 T f' = Ok e /\ capped far tpts (pose_pt T p) = 2 * e + missing f'.
Proof using X RJ.
  intros H. pose proof (error_after_linearize _ _ _ _ _ _ _ _ _ _ _ H) as (E & I).
  destruct (linearize_cases _ _ _ _ _ _ _ _ _ _ _ H) as (p & found & Ep & En & M).
  cbn [cloud_view at_point] in Ep. pose proof (proj1 (get_Ok _ _ _) Ep) as Np.
  destruct (X (pose_pt T p)) as (o & Eo & S). rewrite En in Eo. injection Eo as <-.
  destruct r as [s|].
  - destruct M as (ti & d & -> & ER & EL & Et & Es). split; [exact Es|].
    destruct S as (Near & Ld & q & Eq & Dq). exists p, (se s). split; [unfold at_source; rewrite Es; exact Np|]. split; [exact E|].
    assert (V : se s = (/ 2 * d : R)).
    { unfold linearize_at, residual in EL. rewrite Eq in EL. cbn [bind cloud_view at_point] in EL. rewrite Ep in EL. cbn [bind] in EL.
      injection EL as _ <-. cbn [se]. rewrite sqnorm_gap, Dq. reflexivity. }
    unfold missing. rewrite I, V. replace (2 * (/ 2 * d) + 0)%R with (d : R) by lra.
    assert (LE : (d : R) <= limit).
    { destruct (Rle_or_lt d limit) as [L|L]; [exact L|]. apply (RJ T ti si d Ld) in L. congruence. }
    assert (IQ : In q tpts) by (eapply target_in; eauto).
    apply Rle_antisym; [rewrite Dq; apply capped_le; exact IQ|]. apply capped_ge; [unfold far; apply Rmin_glb; lra|].
    intros x Ix. destruct (in_target _ Ix) as (j & Ej). destruct Near as (q' & Eq' & MN). specialize (MN _ _ Ej). rewrite Eq in Eq'. injection Eq' as <-. rewrite Dq. exact MN.
  - destruct M as (-> & C). split; [reflexivity|]. exists p, 0. split; [exact Np|]. split; [exact E|].
    unfold missing. rewrite I. replace (2 * 0 + far)%R with far by lra.
    apply Rle_antisym; [apply capped_le_far|]. apply capped_ge; [lra|]. intros x Ix. destruct (in_target _ Ix) as (j & Ej).
    destruct C as [->|(ti & d & -> & ER)].
    + eapply Rle_trans; [apply Rmin_r|]. eapply S. exact Ej.
    + destruct S as (Near & Ld & q & Eq & Dq). apply (RJ T ti si d Ld) in ER.
      destruct Near as (q' & Eq' & MN). specialize (MN _ _ Ej). rewrite Eq in Eq'. injection Eq' as <-. rewrite <- Dq in MN.
      eapply Rle_trans; [apply Rmin_l|]. lra.
Qed.

(** * Sums over all factors *)
Lemma errors_sum T fs : forall a e, foldM (fun sum f => let* x := err1 T f in Ok (nadd (n := Rfld) sum x)) fs a = Ok e ->
  exists es, Forall2 (fun f x => err1 T f = Ok x) fs es /\ e = (a + total es : R).
Proof using.
  clear. induction fs as [|f fs IH]; intros a e H; cbn [foldM] in H.
  - injection H as <-. exists nil. split; [constructor|]. cbn [total]. symmetry. apply Rplus_0_r.
  - destruct (err1 T f) as [x| | |] eqn:E; cbn [bind] in H; try discriminate.
    destruct (IH _ _ H) as (es & F & ->). exists (x :: es). split; [constructor; assumption|]. cbn [total].
    change (@nadd (fbase Rfld)) with Rplus. apply Rplus_assoc.
Qed.

(** Factor number i belongs to source point i. *)
Definition attached (fs : list (factor Rfld)) : Prop := Forall2 at_source fs spts.
Lemma attached_intro fs : length fs = length spts -> (forall i f, nth_error fs i = Some f -> f_source f = i) -> attached fs.
Proof using.
  clear. unfold attached, at_source. intros L S.
  assert (P : forall i f p, nth_error fs i = Some f -> nth_error spts i = Some p -> nth_error spts (f_source f) = Some p).
  { intros i f p Ef Ep. rewrite (S _ _ Ef). exact Ep. }
  clear S. cut (forall l, length fs = length l ->
    (forall i f p, nth_error fs i = Some f -> nth_error l i = Some p -> nth_error spts (f_source f) = Some p) ->
    Forall2 (fun f p => nth_error spts (f_source f) = Some p) fs l); [intros C; apply C; assumption|]. clear L P.
  induction fs as [|f fs IH]; intros [|p l] L P; try discriminate L; constructor.
  - apply (P 0%nat); reflexivity.
  - apply IH; [injection L; auto|]. intros i. exact (P (S i)).
Qed.
Lemma count_missing fs : total (map missing fs) = far * INR (length fs - count_inliers inlier fs).
Proof using.
  clear. unfold count_inliers. induction fs as [|f fs IH]; cbn [map total length filter]; [cbn; lra|]. rewrite IH. unfold missing at 1.
  assert (L : (length (filter inlier fs) <= length fs)%nat) by (clear; induction fs as [|f fs IH]; cbn [filter length]; [lia|destruct (inlier f); cbn [length]; lia]).
  destruct (inlier f); cbn [length].
  - replace (S (length fs) - S (length (filter inlier fs)))%nat with (length fs - length (filter inlier fs))%nat by lia. lra.
  - replace (S (length fs) - length (filter inlier fs))%nat with (S (length fs - length (filter inlier fs))) by lia. rewrite S_INR. lra.
Qed.

(** An upper bound for the misfit that the program knows: its error and its inlier count. *)
Definition known (e : R) (fs : list (factor Rfld)) : R := 2 * e + far * INR (length fs - count_inliers inlier fs).
Lemma misfit_known T fs e : attached fs -> err T fs = Ok e -> misfit far tpts spts T <= known e fs.
Proof using.
  clear. unfold attached, reg_err, serial_error, known, misfit. intros A H. destruct (errors_sum _ _ _ _ H) as (es & F & ->).
  rewrite <- count_missing. change (nzero (n := fbase Rfld)) with 0. rewrite Rplus_0_l. clear H.
  revert es F. cut (forall l, Forall2 at_source fs l -> forall es, Forall2 (fun f x => err1 T f = Ok x) fs es ->
    fold_right (fun p s => capped far tpts (pose_pt T p) + s) 0 l <= 2 * total es + total (map missing fs)); [intros C; exact (C _ A)|]. clear A.
  induction fs as [|f fs IH]; intros l A es F; inversion A; subst; inversion F; subst; cbn [fold_right map total]; [lra|].
  specialize (IH _ H3 _ H5). pose proof (error_bounds T f y0 y H1 H2). lra.
Qed.
Lemma misfit_linearized T fs fs' s : length fs = length spts -> lin T fs = Ok (fs', s) ->
  attached fs' /\ length fs' = length spts /\ err T fs' = Ok (se s) /\ misfit far tpts spts T = known (se s) fs'.
Proof using X RJ.
  intros L H. assert (EA : err T fs' = Ok (se s)).
  { eapply (serial_errors_agree Rfld nn reject (cloud_viewN target) (cloud_view source) (fun _ => True)); [|exact H].
    split; [exact I|]. split; [auto|]. intros a _. apply Rplus_0_r. }
  unfold reg_lin in H. destruct (serial_fold _ _ _ _ _ _ _ _ H) as (rs & (L1 & L2 & L3) & _).
  assert (FR : forall i f', nth_error fs' i = Some f' -> exists f r, lin1 T i f = Ok (f', r)).
  { intros i f' E. assert (Li : (i < length fs)%nat) by (rewrite <- L1; apply nth_error_Some; congruence).
    destruct (nth_error fs i) as [f|] eqn:Ef; [|apply nth_error_None in Ef; lia].
    destruct (L3 _ _ Ef) as (f1 & r & El & Ef1 & _). rewrite E in Ef1. injection Ef1 as <-. eauto. }
  assert (A : attached fs').
  { apply attached_intro; [lia|]. intros i f' E. destruct (FR _ _ E) as (f & r & El). apply (linearized_exact _ _ _ _ _ El). }
  split; [exact A|]. split; [lia|]. split; [exact EA|].
  unfold known. rewrite <- count_missing. unfold reg_err, serial_error in EA. destruct (errors_sum _ _ _ _ EA) as (es & F & ->).
  change (nzero (n := fbase Rfld)) with 0. rewrite Rplus_0_l.
  assert (Q : Forall (fun f' => exists p e, at_source f' p /\ err1 T f' = Ok e /\ capped far tpts (pose_pt T p) = 2 * e + missing f') fs').
  { apply Forall_forall. intros f' If. apply In_nth_error in If. destruct If as (i & E). destruct (FR _ _ E) as (f & r & El). apply (linearized_exact _ _ _ _ _ El). }
  unfold misfit, attached in *. clear - A F Q. cut (forall l, Forall2 at_source fs' l -> forall es, Forall2 (fun f x => err1 T f = Ok x) fs' es ->
    Forall (fun f' => exists p e, at_source f' p /\ err1 T f' = Ok e /\ capped far tpts (pose_pt T p) = 2 * e + missing f') fs' ->
    fold_right (fun p s => capped far tpts (pose_pt T p) + s) 0 l = 2 * total es + total (map missing fs')); [intros C; exact (C _ A _ F Q)|]. clear A F Q es.
  induction fs' as [|f fs IH]; intros l A es F Q; inversion A as [|? y ? l' SA RA]; subst; inversion F as [|? x ? es' SF RF]; subst; cbn [fold_right map total]; [lra|].
  apply Forall_cons_iff in Q. destruct Q as (Q1 & Q2).
  rewrite (IH _ RA _ RF Q2). destruct Q1 as (p & e & S & Ee & C). unfold at_source in *.
  assert (p = y) as -> by congruence. assert (e = x) as -> by congruence. rewrite C. lra.
Qed.

(** * The optimizer *)
Context (g : general Rfld) (NE : no_error g) (solve : m6 Rfld -> v6 Rfld -> v6 Rfld) (exp6 : v6 Rfld -> pose Rfld) (crit : criteria Rfld).

Lemma inner_descends factor n : forall T fs s e lambda r log,
  lm_inner err g solve exp6 crit factor n T fs s e lambda = Ok (r, log) ->
  (i_e r : R) <= e /\ match i_step r with Some (T', _) => err T' fs = Ok (i_e r) | None => i_e r = e end.
Proof using NE.
  destruct NE as (NE1 & _). induction n as [|n IH]; intros T fs s e lambda r log H; cbn [lm_inner] in H.
  - injection H as <- <-. cbn [i_e i_step]. split; [apply Rle_refl|reflexivity].
  - cbv zeta in H. match type of H with context [err ?T2 fs] => destruct (err T2 fs) as [ne| | |] eqn:E; cbn [bind] in H; try discriminate end.
    rewrite !NE1 in H. destruct (nle ne e) eqn:C.
    + injection H as <- <-. cbn [i_e i_step]. split; [|exact E]. cbn [nle Rnum] in C. change (@nle (fbase Rfld)) with (Raux.Rle_bool) in C.
      destruct (Raux.Rle_bool_spec ne e); [assumption|discriminate].
    + destruct (lm_inner err g solve exp6 crit factor n T fs s e (nmul lambda factor)) as [[r1 lg]| | |] eqn:E1; cbn [bind] in H; try discriminate.
      injection H as <- <-. eapply IH. exact E1.
Qed.

(** Every run after its first linearisation ends with what it reports, and this is no more than
    the misfit it started from. *)
Lemma loop_descends c n : forall i r lambda fs rf fsf log, length fs = length spts ->
  lm_loop lin err g solve exp6 crit c (S n) i r lambda fs = Ok (rf, fsf, log) -> r_converged r = false ->
  misfit far tpts spts (r_T rf) <= known (r_error rf) fsf /\ known (r_error rf) fsf <= misfit far tpts spts (r_T r) /\ length fsf = length spts.
Proof using X RJ NE.
  induction n as [|n IH]; intros i r lambda fs rf fsf log L H NC.
  - cbn [lm_loop] in H. rewrite NC in H. destruct (lin (r_T r) fs) as [[fs1 s]| | |] eqn:E; cbn [bind] in H; try discriminate. cbv zeta in H.
    destruct (misfit_linearized _ _ _ _ L E) as (A & L1 & EA & EQ). rewrite (proj2 NE) in H.
    match type of H with context [lm_inner err g solve exp6 crit ?a ?b ?c2 fs1 ?d ?e2 lambda] =>
      destruct (lm_inner err g solve exp6 crit a b c2 fs1 d e2 lambda) as [[tr lg1]| | |] eqn:E1; cbn [bind] in H; try discriminate end.
    destruct (inner_descends _ _ _ _ _ _ _ _ _ E1) as (LE & M).
    destruct (i_step tr) as [[T1 cv]|]; cbn [lm_loop bind] in H; injection H as <- <- <-; cbn [r_T r_error].
    + split; [eapply misfit_known; eauto|]. split; [|exact L1]. rewrite EQ. unfold known. change (car (fbase Rfld)) with R in *. lra.
    + rewrite M. split; [eapply misfit_known; eauto|]. split; [|exact L1]. rewrite EQ. apply Rle_refl.
  - cbn [lm_loop] in H. rewrite NC in H. destruct (lin (r_T r) fs) as [[fs1 s]| | |] eqn:E; cbn [bind] in H; try discriminate. cbv zeta in H.
    destruct (misfit_linearized _ _ _ _ L E) as (A & L1 & EA & EQ). rewrite (proj2 NE) in H.
    match type of H with context [lm_inner err g solve exp6 crit ?a ?b ?c2 fs1 ?d ?e2 lambda] =>
      destruct (lm_inner err g solve exp6 crit a b c2 fs1 d e2 lambda) as [[tr lg1]| | |] eqn:E1; cbn [bind] in H; try discriminate end.
    destruct (inner_descends _ _ _ _ _ _ _ _ _ E1) as (LE & M).
    destruct (i_step tr) as [[T1 cv]|].
    + match type of H with context [mkResult ?a ?b ?c2 ?d ?e ?f ?h] => set (r1 := mkResult a b c2 d e f h) in * end.
      assert (K1 : misfit far tpts spts T1 <= known (i_e tr) fs1) by (eapply misfit_known; eauto).
      assert (K2 : known (i_e tr) fs1 <= misfit far tpts spts (r_T r)) by (rewrite EQ; unfold known; change (car (fbase Rfld)) with R in *; lra).
      destruct cv.
      * cbn [r_converged r1] in H. injection H as <- <- <-. cbn [r_T r_error r1]. auto.
      * match type of H with context [match r_converged r1 with true => ?a | false => ?b end] =>
          change (match r_converged r1 with true => a | false => b end) with (lm_loop lin err g solve exp6 crit c (S n) (i + 1) r1 (i_lambda tr) fs1) in H end.
        destruct (lm_loop lin err g solve exp6 crit c (S n) (i + 1) r1 (i_lambda tr) fs1) as [[[rf1 fsf1] lg]| | |] eqn:E2; cbn [bind] in H; try discriminate.
        injection H as <- <- <-. destruct (IH _ _ _ _ _ _ _ L1 E2 eq_refl) as (R1 & R2 & R3). split; [exact R1|]. split; [|exact R3].
        eapply Rle_trans; [exact R2|]. eapply Rle_trans; [|exact K2]. exact K1.
    + injection H as <- <- <-. cbn [r_T r_error]. rewrite M. split; [eapply misfit_known; eauto|]. split; [|exact L1]. rewrite EQ. apply Rle_refl.
Qed.
End Fit.
