(** Registration commutes with rigid motions of the target. *)
From Coq Require Import Reals Lra Psatz.
From Verif Require Import Base BaseProofs Num Vec RNum Lin LinSpec LinProofs FactorModel ReduceModel ReduceSpec ReduceProofs
  OptModel OptSpec FactorProofs MoveSpec.
Open Scope nat_scope.

(** * Optimizers over related problems *)
Lemma count_related {F : Type} (inl : F -> bool) (rel : F -> F -> Prop) : (forall f f', rel f f' -> inl f = inl f') ->
  forall fs fs', Forall2 rel fs fs' -> count_inliers inl fs = count_inliers inl fs'.
Proof. intros INL. unfold count_inliers. induction 1 as [|f f' l l' R _ IH]; auto. cbn [filter]. rewrite <- (INL _ _ R). destruct (inl f); cbn [length]; congruence. Qed.
Section Opt.
Context (F : Type) (G : pose Rfld) (Rel : list F -> list F -> Prop).
Context (lin lin' : pose Rfld -> list F -> outcome (list F * sys Rfld)) (err err' : pose Rfld -> list F -> outcome (car Rfld)).
Context (g : general Rfld) (solve : m6 Rfld -> v6 Rfld -> v6 Rfld) (exp6 : v6 Rfld -> pose Rfld) (inl : F -> bool).
Context (crit : criteria Rfld) (good : pose Rfld -> Prop).
Context (LIN : forall T fs fs1 s fs', good T -> lin T fs = Ok (fs1, s) -> Rel fs fs' ->
  exists fs1', lin' (pose_mul G T) fs' = Ok (fs1', s) /\ Rel fs1 fs1').
Context (ERR : forall T fs e fs', err T fs = Ok e -> Rel fs fs' -> err' (pose_mul G T) fs' = Ok e).
Context (GF : forall T s, upd_sys g (pose_mul G T) s = upd_sys g T s) (GE : forall T e, upd_err g (pose_mul G T) e = upd_err g T e).
Context (CNT : forall fs fs', Rel fs fs' -> count_inliers inl fs = count_inliers inl fs').

Lemma pose_mul_assoc (A B C : pose Rfld) : pose_mul (pose_mul A B) C = pose_mul A (pose_mul B C).
Proof using. clear. unfold pose_mul. cbn [rot tra]. f_equal; [symmetry; apply mm3_assoc|]. rewrite mv3_mm3, mv3_add, <- add3_assoc. reflexivity. Qed.

Lemma gn_moved lambda n : forall i r fs rf fsf log fs',
  gn_loop lin g solve exp6 crit lambda n i r fs = Ok (rf, fsf, log) -> (forall T, linearized_at log T -> good T) -> Rel fs fs' ->
  exists fsf' log', gn_loop lin' g solve exp6 crit lambda n i (moved_result G r) fs' = Ok (moved_result G rf, fsf', log') /\ Rel fsf fsf'.
Proof using LIN GF.
  induction n as [|n IH]; intros i r fs rf fsf log fs' H V R; cbn [gn_loop] in *.
  - injection H as <- <- <-. eauto.
  - change (r_converged (moved_result G r)) with (r_converged r). destruct (r_converged r); [injection H as <- <- <-; eauto|].
    destruct (lin (r_T r) fs) as [[fs1 s]| | |] eqn:E; cbn [bind] in H; try discriminate. cbv zeta in H.
    match type of H with context [gn_loop _ _ _ _ _ _ n (i + 1) ?rr fs1] =>
      destruct (gn_loop lin g solve exp6 crit lambda n (i + 1) rr fs1) as [[[rf1 fsf1] lg]| | |] eqn:E1; cbn [bind] in H; try discriminate end.
    injection H as <- <- <-.
    destruct (LIN (r_T r) fs fs1 s fs') as (fs1' & E' & R1); auto. { apply V. do 2 eexists. left. reflexivity. }
    change (r_T (moved_result G r)) with (pose_mul G (r_T r)). rewrite E'. cbn [bind]. cbv zeta. rewrite !GF, pose_mul_assoc.
    destruct (IH _ _ _ _ _ _ fs1' E1) as (fsf' & log' & E2 & R2); auto.
    { intros T (a & b & I). apply V. exists a, b. right. right. exact I. }
    unfold moved_result in E2 at 1. cbn [r_T r_converged r_iterations r_inliers r_H r_b r_error] in E2.
    change (r_inliers (moved_result G r)) with (r_inliers r). rewrite E2. cbn [bind]. eauto.
Qed.

Lemma lm_inner_moved factor n : forall T fs fs' s e lambda r log,
  lm_inner err g solve exp6 crit factor n T fs s e lambda = Ok (r, log) -> Rel fs fs' ->
  exists log', lm_inner err' g solve exp6 crit factor n (pose_mul G T) fs' s e lambda =
    Ok (mkInner (match i_step r with Some (T', c) => Some (pose_mul G T', c) | None => None end) (i_e r) (i_lambda r), log').
Proof using ERR GE.
  induction n as [|n IH]; intros T fs fs' s e lambda r log H R; cbn [lm_inner] in *.
  - injection H as <- <-. cbn [i_step i_e i_lambda]. eauto.
  - cbv zeta in *. destruct (err (pose_mul T (exp6 (solve (damped (sH s) lambda) (opp6 (sb s))))) fs) as [ne| | |] eqn:E;
      cbn [bind] in H; try discriminate.
    rewrite pose_mul_assoc, (ERR _ _ _ _ E R). cbn [bind]. rewrite GE.
    match type of H with context [if nle ?a ?b then _ else _] => destruct (nle a b) end.
    + injection H as <- <-. cbn [i_step i_e i_lambda]. eauto.
    + match type of H with context [lm_inner err g solve exp6 crit factor n T fs s ?e2 ?l2] =>
        destruct (lm_inner err g solve exp6 crit factor n T fs s e2 l2) as [[r1 lg]| | |] eqn:E1; cbn [bind] in H; try discriminate end.
      injection H as <- <-. destruct (IH _ _ _ _ _ _ _ _ E1 R) as (log' & ->). cbn [bind]. eauto.
Qed.

Lemma lm_moved c n : forall i r lambda fs rf fsf log fs',
  lm_loop lin err g solve exp6 crit c n i r lambda fs = Ok (rf, fsf, log) -> (forall T, linearized_at log T -> good T) -> Rel fs fs' ->
  exists fsf' log', lm_loop lin' err' g solve exp6 crit c n i (moved_result G r) lambda fs' = Ok (moved_result G rf, fsf', log') /\ Rel fsf fsf'.
Proof using LIN ERR GF GE.
  induction n as [|n IH]; intros i r lambda fs rf fsf log fs' H V R; cbn [lm_loop] in *.
  - injection H as <- <- <-. eauto.
  - change (r_converged (moved_result G r)) with (r_converged r). destruct (r_converged r); [injection H as <- <- <-; eauto|].
    destruct (lin (r_T r) fs) as [[fs1 s]| | |] eqn:E; cbn [bind] in H; try discriminate. cbv zeta in H.
    match type of H with context [lm_inner err g solve exp6 crit ?a ?b ?c2 fs1 ?d ?e2 lambda] =>
      destruct (lm_inner err g solve exp6 crit a b c2 fs1 d e2 lambda) as [[tr lg1]| | |] eqn:E1; cbn [bind] in H; try discriminate end.
    change (r_T (moved_result G r)) with (pose_mul G (r_T r)).
    assert (VT : good (r_T r)).
    { apply V. exists fs1, (upd_sys g (r_T r) s). destruct (i_step tr) as [[T1 cv]|].
      - match type of H with context [lm_loop _ _ _ _ _ _ c n ?a ?b ?d fs1] =>
          destruct (lm_loop lin err g solve exp6 crit c n a b d fs1) as [[[x y] z]| | |]; cbn [bind] in H; try discriminate end.
        injection H as <- <- <-. left. reflexivity.
      - injection H as <- <- <-. left. reflexivity. }
    destruct (LIN (r_T r) fs fs1 s fs' VT E R) as (fs1' & E' & R1). rewrite E'. cbn [bind]. cbv zeta. rewrite !GF.
    destruct (lm_inner_moved _ _ _ _ fs1' _ _ _ _ _ E1 R1) as (lg1' & ->). cbn [bind i_step i_e i_lambda].
    destruct (i_step tr) as [[T1 cv]|].
    + match type of H with context [lm_loop _ _ _ _ _ _ c n ?a ?b ?d fs1] =>
          destruct (lm_loop lin err g solve exp6 crit c n a b d fs1) as [[[x y] z]| | |] eqn:E2; cbn [bind] in H; try discriminate end.
      injection H as <- <- <-. destruct (IH _ _ _ _ _ _ _ fs1' E2) as (fsf' & log' & E3 & R2); auto.
      { intros T (a & b & I). apply V. exists a, b. right. apply in_or_app. right. exact I. }
      unfold moved_result in E3 at 1. cbn [r_T r_converged r_iterations r_inliers r_H r_b r_error] in E3.
      change (r_inliers (moved_result G r)) with (r_inliers r). rewrite E3. cbn [bind]. eauto.
    + injection H as <- <- <-. do 2 eexists. split; [reflexivity|exact R1].
Qed.

Lemma gauss_newton_moved lambda n T fs r log fs' :
  gauss_newton lin g solve exp6 inl crit lambda n T fs = Ok (r, log) -> (forall T, linearized_at log T -> good T) -> Rel fs fs' ->
  exists log', gauss_newton lin' g solve exp6 inl crit lambda n (pose_mul G T) fs' = Ok (moved_result G r, log').
Proof using LIN GF CNT.
  unfold gauss_newton. intros H V R.
  destruct (gn_loop lin g solve exp6 crit lambda (Z.to_nat n) 0 (result_init T) fs) as [[[rf fsf] lg]| | |] eqn:E; cbn [bind] in H; try discriminate.
  injection H as <- <-. destruct (gn_moved _ _ _ _ _ _ _ _ fs' E V R) as (fsf' & log' & E' & R').
  change (moved_result G (result_init T)) with (result_init (pose_mul G T)) in E'. rewrite E'. cbn [bind fst snd].
  rewrite (CNT _ _ R'). eauto.
Qed.
Lemma levenberg_moved c T fs r log fs' :
  levenberg_marquardt lin err g solve exp6 inl crit c T fs = Ok (r, log) -> (forall T, linearized_at log T -> good T) -> Rel fs fs' ->
  exists log', levenberg_marquardt lin' err' g solve exp6 inl crit c (pose_mul G T) fs' = Ok (moved_result G r, log').
Proof using LIN ERR GF GE CNT.
  unfold levenberg_marquardt. intros H V R.
  match type of H with context [lm_loop lin err g solve exp6 crit ?a ?b ?c2 ?d ?e ?f] =>
    destruct (lm_loop lin err g solve exp6 crit a b c2 d e f) as [[[rf fsf] lg]| | |] eqn:E; cbn [bind] in H; try discriminate end.
  injection H as <- <-. destruct (lm_moved _ _ _ _ _ _ _ _ _ fs' E V R) as (fsf' & log' & E' & R').
  change (moved_result G (result_init T)) with (result_init (pose_mul G T)) in E'. rewrite E'. cbn [bind fst snd].
  rewrite (CNT _ _ R'). eauto.
Qed.
End Opt.

(** * Reductions over related factors *)
Section Reduce.
Context (F S : Type) (zero : S) (plus : S -> S -> S) (rel : F -> F -> Prop).
Context (lin lin' : nat -> F -> outcome (F * option S)).
Context (LIN : forall i f f1 r f', lin i f = Ok (f1, r) -> rel f f' -> exists f1', lin' i f' = Ok (f1', r) /\ rel f1 f1').

Lemma get_related fs fs' i f : Forall2 rel fs fs' -> get fs i = Ok f -> exists f', get fs' i = Ok f' /\ rel f f'.
Proof using.
  clear. intros R. revert i. induction R as [|x y l l' Rx _ IH]; intros [|i] E; try discriminate E.
  - injection E as ->. eexists. split; [reflexivity|exact Rx].
  - apply (IH i). exact E.
Qed.
Lemma upd_related fs fs' i f f' : Forall2 rel fs fs' -> rel f f' -> Forall2 rel (upd fs i f) (upd fs' i f').
Proof using.
  clear. intros R Rf. revert i. induction R as [|x y l l' Rx R IH]; intros [|i]; cbn [upd]; auto.
Qed.
Lemma related_length fs fs' : Forall2 rel fs fs' -> length fs = length fs'.
Proof using. clear. induction 1; cbn [length]; auto. Qed.
Lemma set_related fs fs' i f f' fs1 : Forall2 rel fs fs' -> rel f f' -> set fs i f = Ok fs1 -> exists fs1', set fs' i f' = Ok fs1' /\ Forall2 rel fs1 fs1'.
Proof using.
  clear. intros R Rf E. apply set_Ok_inv in E. destruct E as (L & ->). rewrite (related_length _ _ R) in L.
  exists (upd fs' i f'). split; [apply set_Ok; exact L|]. apply upd_related; assumption.
Qed.
Lemma visits_related l : forall fs fs' acc fs1 acc1, foldM (fun st i => visit plus lin i st) l (fs, acc) = Ok (fs1, acc1) -> Forall2 rel fs fs' ->
  exists fs1', foldM (fun st i => visit plus lin' i st) l (fs', acc) = Ok (fs1', acc1) /\ Forall2 rel fs1 fs1'.
Proof using LIN.
  induction l as [|i l IH]; intros fs fs' acc fs1 acc1 H R; cbn [foldM] in *; [injection H as <- <-; eauto|].
  unfold visit at 1 in H. unfold visit at 1.
  destruct (get fs i) as [f| | |] eqn:Eg; cbn [bind] in H; try discriminate.
  destruct (get_related _ _ _ _ R Eg) as (f' & -> & Rf). cbn [bind].
  destruct (lin i f) as [[f1 r]| | |] eqn:El; cbn [bind] in H; try discriminate.
  destruct (LIN _ _ _ _ _ El Rf) as (f1' & -> & Rf1). cbn [bind].
  destruct (set fs i f1) as [fs2| | |] eqn:Es; cbn [bind] in H; try discriminate.
  destruct (set_related _ _ _ _ _ _ R Rf1 Es) as (fs2' & -> & R2). cbn [bind].
  exact (IH _ _ _ _ _ H R2).
Qed.
Lemma serial_related fs fs' fs1 acc : serial zero plus lin fs = Ok (fs1, acc) -> Forall2 rel fs fs' ->
  exists fs1', serial zero plus lin' fs' = Ok (fs1', acc) /\ Forall2 rel fs1 fs1'.
Proof using LIN. unfold serial. intros H R. rewrite <- (related_length _ _ R). exact (visits_related _ _ _ _ _ _ H R). Qed.
Lemma serial_error_related (ef ef' : F -> outcome S) : (forall f f' e, ef f = Ok e -> rel f f' -> ef' f' = Ok e) ->
  forall fs fs' e, serial_error zero plus ef fs = Ok e -> Forall2 rel fs fs' -> serial_error zero plus ef' fs' = Ok e.
Proof using.
  clear. intros EF fs fs' e. unfold serial_error. generalize zero as z. revert fs'.
  induction fs as [|f fs IH]; intros fs' z H R; inversion R; subst; cbn [foldM] in *; auto.
  destruct (ef f) as [x| | |] eqn:E; cbn [bind] in H; try discriminate. rewrite (EF _ _ _ E H2). cbn [bind]. apply (IH _ _ H H4).
Qed.
End Reduce.
