From Verif Require Import Base BaseProofs Num Vec Lin FactorModel OptModel OptSpec.

Section Proofs.
Context (D : fld) (F : Type).
Notation K := (car D).
Context (lin : pose D -> list F -> outcome (list F * sys D)) (err : pose D -> list F -> outcome K).
Context (g : general D) (solve : m6 D -> v6 D -> v6 D) (exp6 : v6 D -> pose D) (inl : F -> bool).
Context (crit : criteria D).

Notation lm_inner := (lm_inner err g solve exp6 crit).
Notation lm_loop := (lm_loop lin err g solve exp6 crit).
Notation gn_loop := (gn_loop lin g solve exp6 crit).

(** Shape of the inner loop's log: rejected trials, then possibly one accepted. *)
Definition rejected (ev : event D F) : Prop := match ev with Tried _ _ _ _ _ false => True | _ => False end.

Lemma lm_inner_shape factor n : forall T fs s e lambda r log,
  lm_inner factor n T fs s e lambda = Ok (r, log) ->
  linearizations log = 0 /\ trials log = length log /\ length log <= n /\ final_factors fs log = fs /\
  match i_step r with
  | None => Forall rejected log /\ length log = n /\ final_pose T log = T
  | Some (T', conv) => exists log' l delta e1, log = log' ++ [Tried l delta T' e1 (i_e r) true] /\
      Forall rejected log' /\ conv = converged crit delta /\ T' = pose_mul T (exp6 delta) /\
      nle (i_e r) e1 = true /\ err T' fs = Ok (i_e r) /\ final_pose T log = T'
  end.
Proof.
  induction n as [|n IH]; intros T fs s e lambda r log H; cbn [OptModel.lm_inner] in H.
  - inversion H; subst. simpl. repeat split; auto.
  - set (delta := solve _ _) in *. set (T' := pose_mul T (exp6 delta)) in *.
    destruct (err T' fs) as [ne| | |] eqn:Ee; cbn [bind] in H; try discriminate.
    destruct (nle ne (upd_err g T' e)) eqn:EN.
    + inversion H; subst r log. cbn [i_step i_e]. repeat split; simpl; auto; try lia.
      exists [], lambda, delta, (upd_err g T' e). repeat split; auto.
    + destruct (lm_inner factor n T fs s (upd_err g T' e) (nmul lambda factor)) as [[r1 log1]| | |] eqn:E1;
        cbn [bind] in H; try discriminate.
      inversion H; subst r log. destruct (IH _ _ _ _ _ _ _ E1) as (A & B & C & FF & M).
      unfold linearizations, trials in *. cbn [filter is_lin is_try length]. split; auto. split; [lia|].
      split; [lia|]. split; [exact FF|]. destruct (i_step r1) as [[T1 conv]|].
      * destruct M as (log' & l & d & e1 & -> & R & Q). exists (Tried lambda delta T' (upd_err g T' e) ne false :: log'), l, d, e1.
        split; auto. split; [constructor; simpl; auto|]. exact Q.
      * destruct M as (R & L & P). split; [constructor; simpl; auto|]. split; [lia|]. exact P.
Qed.

Lemma linearizations_app (a b : list (event D F)) : linearizations (a ++ b) = linearizations a + linearizations b.
Proof using D F. unfold linearizations. rewrite filter_app, app_length. reflexivity. Qed.
Lemma trials_app (a b : list (event D F)) : trials (a ++ b) = trials a + trials b.
Proof using D F. unfold trials. rewrite filter_app, app_length. reflexivity. Qed.
Lemma final_pose_app T (a b : list (event D F)) : final_pose T (a ++ b) = final_pose (final_pose T a) b.
Proof using D F. apply fold_left_app. Qed.
Lemma final_factors_app fs (a b : list (event D F)) : final_factors fs (a ++ b) = final_factors (final_factors fs a) b.
Proof using D F. apply fold_left_app. Qed.

(** The last accepted step of a log. *)
Definition ends_accepted (log : list (event D F)) (T : pose D) : Prop :=
  exists log' l delta e e', log = log' ++ [Tried l delta T e e' true] /\ converged crit delta = true.
(** The log ends with [n] rejected trials after a linearisation. *)
Definition ends_rejected (log : list (event D F)) (n : nat) : Prop :=
  exists log' T fs s rej, log = log' ++ Linearized T fs s :: rej /\ Forall rejected rej /\ length rej = n.

Lemma lm_loop_shape c n : forall i r lambda fs rf fsf log,
  lm_loop c n i r lambda fs = Ok (rf, fsf, log) ->
  let k := linearizations log in
  k <= n /\ trials log <= k * Z.to_nat (lm_max_inner c) /\
  r_T rf = final_pose (r_T r) log /\ fsf = final_factors fs log /\ r_inliers rf = r_inliers r /\
  (k = 0 -> rf = r /\ log = [] /\ (n = 0 \/ r_converged r = true)) /\
  (0 < k -> r_converged r = false /\ r_iterations rf + 1 = i + k /\
     (r_converged rf = true -> ends_accepted log (r_T rf)) /\
     (r_converged rf = true \/ k = n \/ ends_rejected log (Z.to_nat (lm_max_inner c)))).
Proof.
  induction n as [|n IH]; intros i r lambda fs rf fsf log H k; subst k; cbn [OptModel.lm_loop] in H.
  - inversion H; subst. unfold linearizations, trials. simpl. repeat split; auto; try lia.
  - destruct (r_converged r) eqn:Ec.
    { inversion H; subst. unfold linearizations, trials. simpl. repeat split; auto; try lia. }
    destruct (lin (r_T r) fs) as [[fs1 s0]| | |] eqn:EL; cbn [bind] in H; try discriminate.
    set (s := upd_sys g (r_T r) s0) in *.
    destruct (lm_inner (lm_factor c) (Z.to_nat (lm_max_inner c)) (r_T r) fs1 s (se s) lambda) as [[tr log1]| | |] eqn:EI;
      cbn [bind] in H; try discriminate.
    destruct (lm_inner_shape _ _ _ _ _ _ _ _ _ EI) as (A & B & C & FF & M).
    destruct (i_step tr) as [[T' conv]|] eqn:ES.
    + destruct M as (log' & l & d & e1 & El & RJ & Econv & ET' & _ & _ & FP).
      set (r' := mkResult T' conv i (r_inliers r) (sH s) (sb s) (i_e tr)) in *.
      destruct (lm_loop c n (i + 1) r' (i_lambda tr) fs1) as [[[rf1 fsf1] log2]| | |] eqn:E2; cbn [bind] in H; try discriminate.
      inversion H; subst rf1 fsf1 log. clear H.
      destruct (IH _ _ _ _ _ _ _ E2) as (I1 & I2 & I3 & I4 & I5 & I6 & I7).
      rewrite app_comm_cons, linearizations_app, trials_app, final_pose_app, final_factors_app.
      assert (L1 : linearizations (Linearized (r_T r) fs1 s :: log1) = 1) by (unfold linearizations in *; simpl; lia).
      assert (T1 : trials (Linearized (r_T r) fs1 s :: log1) = length log1) by (unfold trials in *; simpl; lia).
      rewrite L1, T1. cbn [r_T r_inliers r_converged r'] in *.
      split; [lia|]. split; [nia|].
      split. { rewrite I3. f_equal. exact (eq_sym FP). }
      split. { rewrite I4. f_equal. simpl. exact (eq_sym FF). }
      split; [exact I5|]. split; [lia|]. intros _. split; auto.
      destruct (Nat.eq_dec (linearizations log2) 0) as [Z|NZ].
      * destruct (I6 Z) as (-> & -> & Q). rewrite Z. cbn [r_iterations r_converged r_T r'].
        split; [lia|]. rewrite !app_nil_r. split.
        -- intros ->. exists (Linearized (r_T r) fs1 s :: log'), l, d, e1, (i_e tr). rewrite El. split; auto.
        -- destruct Q as [->|Q]; [right; left; lia|left; auto].
      * destruct (I7 ltac:(lia)) as (J1 & J2 & J3 & J4). split; [lia|]. split.
        -- intros E. destruct (J3 E) as (lg & l2 & d2 & ea & eb & -> & Q).
           exists ((Linearized (r_T r) fs1 s :: log1) ++ lg), l2, d2, ea, eb. rewrite app_assoc. auto.
        -- destruct J4 as [J4|[J4|(lg & T2 & f2 & s2 & rej & -> & Q)]]; [auto|right; left; lia|right; right].
           exists ((Linearized (r_T r) fs1 s :: log1) ++ lg), T2, f2, s2, rej. rewrite app_assoc. auto.
    + inversion H; subst rf fsf log. clear H. destruct M as (RJ & LN & FP).
      cbn [r_T r_inliers r_converged r_iterations].
      assert (L1 : linearizations (Linearized (r_T r) fs1 s :: log1) = 1) by (unfold linearizations in *; simpl; lia).
      assert (T1 : trials (Linearized (r_T r) fs1 s :: log1) = length log1) by (unfold trials in *; simpl; lia).
      rewrite L1, T1. split; [lia|]. split; [lia|]. split; [exact (eq_sym FP)|]. split; [exact (eq_sym FF)|].
      split; auto. split; [lia|]. intros _. split; auto. split; [lia|]. split; [congruence|].
      right; right. exists [], (r_T r), fs1, s, log1. auto.
Qed.

Lemma gn_loop_shape lambda n : forall i r fs rf fsf log,
  gn_loop lambda n i r fs = Ok (rf, fsf, log) ->
  let k := linearizations log in
  k <= n /\ r_T rf = final_pose (r_T r) log /\ fsf = final_factors fs log /\ r_inliers rf = r_inliers r /\
  (k = 0 -> rf = r /\ log = [] /\ (n = 0 \/ r_converged r = true)) /\
  (0 < k -> r_converged r = false /\ r_iterations rf + 1 = i + k /\
     (exists log' T fs' s delta, log = log' ++ [Linearized T fs' s; Stepped delta (r_T rf)] /\
        r_T rf = pose_mul T (exp6 delta) /\ r_converged rf = converged crit delta /\
        r_H rf = sH s /\ r_b rf = sb s /\ r_error rf = se s /\ delta = solve (damped (sH s) lambda) (opp6 (sb s))) /\
     (r_converged rf = true \/ k = n)).
Proof using lin g solve exp6 crit.
  clear err.
  induction n as [|n IH]; intros i r fs rf fsf log H k; subst k; cbn [OptModel.gn_loop] in H.
  - inversion H; subst. unfold linearizations. simpl. repeat split; auto; try lia.
  - destruct (r_converged r) eqn:Ec.
    { inversion H; subst. unfold linearizations. simpl. repeat split; auto; try lia. }
    destruct (lin (r_T r) fs) as [[fs1 s0]| | |] eqn:EL; cbn [bind] in H; try discriminate.
    set (s := upd_sys g (r_T r) s0) in *. set (delta := solve _ _) in *. set (T' := pose_mul (r_T r) (exp6 delta)) in *.
    set (r' := mkResult T' (converged crit delta) i (r_inliers r) (sH s) (sb s) (se s)) in *.
    destruct (gn_loop lambda n (i + 1) r' fs1) as [[[rf1 fsf1] log2]| | |] eqn:E2; cbn [bind] in H; try discriminate.
    inversion H; subst rf1 fsf1 log. clear H.
    destruct (IH _ _ _ _ _ _ E2) as (I1 & I3 & I4 & I5 & I6 & I7).
    change (Linearized (r_T r) fs1 s :: Stepped delta T' :: log2)
      with ([Linearized (r_T r) fs1 s; Stepped delta T'] ++ log2).
    rewrite linearizations_app, final_pose_app, final_factors_app.
    change (linearizations [Linearized (r_T r) fs1 s; Stepped delta T']) with 1.
    cbn [r_T r_inliers r_converged r'] in *.
    split; [lia|]. split; [exact I3|]. split; [exact I4|]. split; [exact I5|]. split; [lia|]. intros _. split; auto.
    destruct (Nat.eq_dec (linearizations log2) 0) as [Z|NZ].
    + destruct (I6 Z) as (-> & -> & Q). rewrite Z. cbn [r_iterations r_converged r_T r_H r_b r_error r'].
      split; [lia|]. split.
      * exists [], (r_T r), fs1, s, delta. repeat split; auto.
      * destruct Q as [->|Q]; [right; lia|left; auto].
    + destruct (I7 ltac:(lia)) as (J1 & J2 & J3 & J4). split; [lia|]. split.
      * destruct J3 as (lg & T2 & f2 & s2 & d2 & -> & Q).
        exists ([Linearized (r_T r) fs1 s; Stepped delta T'] ++ lg), T2, f2, s2, d2. rewrite app_assoc. auto.
      * destruct J4; [auto|right; lia].
Qed.

(** Every logged linearisation is a call of reduction.linearize. *)
Definition from_lin (ev : event D F) : Prop :=
  match ev with Linearized T fs s => exists fsp s0, lin T fsp = Ok (fs, s0) /\ s = upd_sys g T s0 | _ => True end.

Lemma lm_inner_from factor n : forall T fs s e lambda r log,
  lm_inner factor n T fs s e lambda = Ok (r, log) -> Forall from_lin log.
Proof.
  induction n as [|n IH]; intros T fs s e lambda r log H; cbn [OptModel.lm_inner] in H.
  - inversion H; subst. constructor.
  - destruct (err _ fs) as [ne| | |]; cbn [bind] in H; try discriminate.
    destruct (nle ne _).
    + inversion H; subst. repeat constructor.
    + match type of H with context [OptModel.lm_inner _ _ _ _ _ ?a ?b ?c ?d ?e ?f ?h] =>
        destruct (lm_inner a b c d e f h) as [[r1 log1]| | |] eqn:E1 end; cbn [bind] in H; try discriminate.
      inversion H; subst. constructor; [exact I|]. eapply IH. exact E1.
Qed.
Lemma lm_loop_from c n : forall i r lambda fs rf fsf log,
  lm_loop c n i r lambda fs = Ok (rf, fsf, log) -> Forall from_lin log.
Proof.
  induction n as [|n IH]; intros i r lambda fs rf fsf log H; cbn [OptModel.lm_loop] in H.
  - inversion H; subst. constructor.
  - destruct (r_converged r) eqn:Ec; [inversion H; subst; constructor|].
    destruct (lin (r_T r) fs) as [[fs1 s0]| | |] eqn:EL; cbn [bind] in H; try discriminate.
    set (s := upd_sys g (r_T r) s0) in *.
    destruct (lm_inner (lm_factor c) (Z.to_nat (lm_max_inner c)) (r_T r) fs1 s (se s) lambda) as [[tr log1]| | |] eqn:EI;
      cbn [bind] in H; try discriminate.
    assert (FL : Forall from_lin (Linearized (r_T r) fs1 s :: log1)).
    { constructor; [exists fs, s0; auto|]. eapply lm_inner_from. exact EI. }
    destruct (i_step tr) as [[T' conv]|] eqn:ES.
    + destruct (lm_loop c n (i + 1) (mkResult T' conv i (r_inliers r) (sH s) (sb s) (i_e tr)) (i_lambda tr) fs1)
        as [[[rf1 fsf1] log2]| | |] eqn:E2; cbn [bind] in H; try discriminate.
      inversion H; subst. rewrite app_comm_cons. apply Forall_app. split; auto. eapply IH. exact E2.
    + inversion H; subst. exact FL.
Qed.
Lemma gn_loop_from lambda n : forall i r fs rf fsf log,
  gn_loop lambda n i r fs = Ok (rf, fsf, log) -> Forall from_lin log.
Proof.
  induction n as [|n IH]; intros i r fs rf fsf log H; cbn [OptModel.gn_loop] in H.
  - inversion H; subst. constructor.
  - destruct (r_converged r) eqn:Ec; [inversion H; subst; constructor|].
    destruct (lin (r_T r) fs) as [[fs1 s0]| | |] eqn:EL; cbn [bind] in H; try discriminate.
    match type of H with context [OptModel.gn_loop _ _ _ _ _ ?a ?b ?c ?d ?e] =>
      destruct (gn_loop a b c d e) as [[[rf1 fsf1] log2]| | |] eqn:E2 end; cbn [bind] in H; try discriminate.
    inversion H; subst. constructor; [exists fs, s0; auto|]. constructor; [exact I|]. eapply IH. exact E2.
Qed.

(** The last linearisation of a log. *)
Lemma last_linearization (log : list (event D F)) : 0 < linearizations log ->
  exists log1 T fs s log2, log = log1 ++ Linearized T fs s :: log2 /\ linearizations log2 = 0 /\
    forall fs0, final_factors fs0 log = fs.
Proof using D F.
  clear lin err g solve exp6 inl crit.
  induction log as [|ev log IH] using rev_ind; [unfold linearizations; simpl; lia|]. intros H.
  destruct ev as [T fs s|l d T' e e' a|d T'].
  - exists log, T, fs, s, []. split; auto. split; auto. intros fs0. rewrite final_factors_app. reflexivity.
  - rewrite linearizations_app in H. change (linearizations [Tried l d T' e e' a]) with 0 in H.
    destruct IH as (log1 & T & fs & s & log2 & -> & Z & Q); [lia|].
    exists log1, T, fs, s, (log2 ++ [Tried l d T' e e' a]). rewrite <- app_assoc. split; auto. split.
    + rewrite linearizations_app, Z. reflexivity.
    + intros fs0. rewrite app_assoc, final_factors_app. apply Q.
  - rewrite linearizations_app in H. change (linearizations [Stepped d T' : event D F]) with 0 in H.
    destruct IH as (log1 & T & fs & s & log2 & -> & Z & Q); [lia|].
    exists log1, T, fs, s, (log2 ++ [Stepped d T']). rewrite <- app_assoc. split; auto. split.
    + rewrite linearizations_app, Z. reflexivity.
    + intros fs0. rewrite app_assoc, final_factors_app. apply Q.
Qed.
Lemma no_linearization (log : list (event D F)) fs : linearizations log = 0 -> final_factors fs log = fs.
Proof using D F.
  induction log as [|ev log IH]; simpl; auto. destruct ev; unfold linearizations; simpl; try discriminate; auto.
Qed.

(** Definedness. *)
Section Total.
Context (P : list F -> Prop).
Context (lin_total : forall T fs, P fs -> exists fs' s, lin T fs = Ok (fs', s) /\ P fs').
Context (err_total : forall T fs, P fs -> exists e, err T fs = Ok e).
Lemma lm_inner_total factor n : forall T fs s e lambda, P fs -> exists r, lm_inner factor n T fs s e lambda = Ok r.
Proof.
  induction n as [|n IH]; intros T fs s e lambda H; cbn [OptModel.lm_inner]; [eauto|].
  match goal with |- context [err ?T' fs] => destruct (err_total T' fs H) as (ne & ->) end. cbn [bind].
  destruct (nle ne _); [eauto|].
  match goal with |- context [OptModel.lm_inner _ _ _ _ _ ?a ?b ?c ?d ?e ?f ?h] =>
    destruct (IH c d e f h H) as ([r log] & ->) end. cbn [bind]. eauto.
Qed.
Lemma lm_loop_total c n : forall i r lambda fs, P fs -> exists o, lm_loop c n i r lambda fs = Ok o.
Proof.
  induction n as [|n IH]; intros i r lambda fs H; cbn [OptModel.lm_loop]; [eauto|].
  destruct (r_converged r); [eauto|].
  destruct (lin_total (r_T r) fs H) as (fs' & s & -> & H'). cbn [bind].
  match goal with |- context [OptModel.lm_inner _ _ _ _ _ ?a ?b ?c ?d ?e ?f ?h] =>
    destruct (lm_inner_total a b c d e f h H') as ([tr log1] & ->) end. cbn [bind].
  destruct (i_step tr) as [[T' conv]|]; [|eauto].
  match goal with |- context [OptModel.lm_loop _ _ _ _ _ _ ?a ?b ?c ?d ?e ?f] =>
    destruct (IH c d e f H') as ([[rf fsf] log] & ->) end. cbn [bind]. eauto.
Qed.
Lemma gn_loop_total lambda n : forall i r fs, P fs -> exists o, gn_loop lambda n i r fs = Ok o.
Proof.
  induction n as [|n IH]; intros i r fs H; cbn [OptModel.gn_loop]; [eauto|].
  destruct (r_converged r); [eauto|].
  destruct (lin_total (r_T r) fs H) as (fs' & s & -> & H'). cbn [bind].
  match goal with |- context [OptModel.gn_loop _ _ _ _ _ ?a ?b ?c ?d ?e] =>
    destruct (IH c d e H') as ([[rf fsf] log] & ->) end. cbn [bind]. eauto.
Qed.
End Total.

(** Monotone logs. *)
Lemma monotone_log_app T fs (a b : list (event D F)) :
  monotone_log err exp6 T fs (a ++ b) <->
  monotone_log err exp6 T fs a /\ monotone_log err exp6 (final_pose T a) (final_factors fs a) b.
Proof using err exp6.
  clear lin solve g inl crit.
  revert T fs. induction a as [|ev a IH]; intros T fs; simpl; [tauto|].
  destruct ev as [T1 fs1 s|l d T' e e' [|]|d T']; simpl; rewrite IH; tauto.
Qed.

Context (EA : errors_agree err lin) (NE : no_error g).

Lemma lm_inner_monotone factor n : forall T fs s e lambda r log,
  err T fs = Ok e ->
  lm_inner factor n T fs s e lambda = Ok (r, log) ->
  monotone_log err exp6 T fs log /\
  err (match i_step r with Some (T', _) => T' | None => T end) fs = Ok (i_e r).
Proof.
  induction n as [|n IH]; intros T fs s e lambda r log EE H; cbn [OptModel.lm_inner] in H.
  - inversion H; subst. simpl. auto.
  - set (delta := solve _ _) in *. set (T' := pose_mul T (exp6 delta)) in *.
    destruct (err T' fs) as [ne| | |] eqn:Ee; cbn [bind] in H; try discriminate.
    rewrite (proj1 NE) in H.
    destruct (nle ne e) eqn:EN.
    + inversion H; subst r log. cbn [monotone_log i_step i_e]. split; auto. split; auto. split; auto.
      exists e, ne. auto.
    + destruct (lm_inner factor n T fs s e (nmul lambda factor)) as [[r1 log1]| | |] eqn:E1; cbn [bind] in H; try discriminate.
      inversion H; subst r log. destruct (IH _ _ _ _ _ _ _ EE E1) as [A B]. cbn [monotone_log]. split; auto.
      split; auto. split; auto. exists e, ne. auto.
Qed.

Lemma lm_loop_monotone c n : forall i r lambda fs rf fsf log,
  lm_loop c n i r lambda fs = Ok (rf, fsf, log) ->
  monotone_log err exp6 (r_T r) fs log /\
  (0 < linearizations log -> err (r_T rf) fsf = Ok (r_error rf)).
Proof.
  induction n as [|n IH]; intros i r lambda fs rf fsf log H; cbn [OptModel.lm_loop] in H.
  - inversion H; subst. unfold linearizations. simpl. split; auto. lia.
  - destruct (r_converged r) eqn:Ec.
    { inversion H; subst. unfold linearizations. simpl. split; auto. lia. }
    destruct (lin (r_T r) fs) as [[fs1 s0]| | |] eqn:EL; cbn [bind] in H; try discriminate.
    set (s := upd_sys g (r_T r) s0) in *.
    destruct (lm_inner (lm_factor c) (Z.to_nat (lm_max_inner c)) (r_T r) fs1 s (se s) lambda) as [[tr log1]| | |] eqn:EI;
      cbn [bind] in H; try discriminate.
    assert (Ese : err (r_T r) fs1 = Ok (se s)).
    { unfold s. rewrite (proj2 NE). eapply EA. exact EL. }
    destruct (lm_inner_monotone _ _ _ _ _ _ _ _ _ Ese EI) as (A & B).
    pose proof (lm_inner_shape _ _ _ _ _ _ _ _ _ EI) as (_ & _ & _ & FF & M).
    destruct (i_step tr) as [[T' conv]|] eqn:ES.
    + destruct M as (_ & _ & _ & _ & _ & _ & _ & _ & _ & _ & FP).
      destruct (lm_loop c n (i + 1) (mkResult T' conv i (r_inliers r) (sH s) (sb s) (i_e tr)) (i_lambda tr) fs1)
        as [[[rf1 fsf1] log2]| | |] eqn:E2; cbn [bind] in H; try discriminate.
      inversion H; subst rf1 fsf1 log. clear H. destruct (IH _ _ _ _ _ _ _ E2) as (I1 & I2). split.
      * rewrite app_comm_cons. apply monotone_log_app. split; [split; auto|].
        change (final_pose (r_T r) (Linearized (r_T r) fs1 s :: log1)) with (final_pose (r_T r) log1).
        change (final_factors fs (Linearized (r_T r) fs1 s :: log1)) with (final_factors fs1 log1).
        rewrite FP, FF. exact I1.
      * intros _. destruct (Nat.eq_dec (linearizations log2) 0) as [Z|NZ]; [|apply I2; lia].
        destruct (lm_loop_shape _ _ _ _ _ _ _ _ _ E2) as (_ & _ & _ & S4 & _ & S6 & _).
        destruct (S6 Z) as (-> & -> & _). cbn [r_T r_error]. simpl in S4. rewrite S4. exact B.
    + inversion H; subst rf fsf log. clear H. cbn [r_T r_error]. split; [split; auto|]. auto.
Qed.
End Proofs.
