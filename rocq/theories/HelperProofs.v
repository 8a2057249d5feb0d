(** Proofs about the convenience interface. *)
From Coq Require Import ZArith Reals.
From Verif Require Import Base BaseProofs Num Vec RNum Lin LinProofs FactorModel FactorProofs ReduceModel ReduceSpec ReduceProofs
  OptModel OptSpec OptProofs HelperModel HelperSpec.
Open Scope nat_scope.

(** ** Any schedule of the OpenMP loop linearises every factor once. *)
Section Shape.
Context (F Q : Type) (zero : Q) (plus : Q -> Q -> Q) (lin : nat -> F -> outcome (F * option Q)) (fs0 : list F).
Definition partly (todo : list nat) (fs : list F) : Prop :=
  length fs = length fs0 /\ NoDup todo /\
  forall i f, nth_error fs0 i = Some f ->
    (In i todo -> nth_error fs i = Some f) /\
    (~ In i todo -> exists f' r, lin i f = Ok (f', r) /\ nth_error fs i = Some f').

Lemma NoDup_remove_mid {A} (l1 : list A) i l2 : NoDup (l1 ++ i :: l2) ->
  NoDup (l1 ++ l2) /\ ~ In i (l1 ++ l2).
Proof. intros H. split; [eapply NoDup_remove_1|eapply NoDup_remove_2]; eauto. Qed.

Lemma omp_step_partly threads st st' : partly (o_todo st) (o_factors st) ->
  omp_step plus lin threads st (Ok st') -> partly (o_todo st') (o_factors st').
Proof.
  intros (L & ND & P) H. inversion H as [fs accs l1 i l2 t Ht E1 E2]; subst. cbn [o_todo o_factors] in *.
  apply bind_Ok in E2. destruct E2 as (a & Ea & E2).
  apply bind_Ok in E2. destruct E2 as ([fs' a'] & Ev & E2).
  apply bind_Ok in E2. destruct E2 as (accs' & _ & E2). inversion E2; subst. cbn [o_todo o_factors].
  unfold visit in Ev. apply bind_Ok in Ev. destruct Ev as (f & Ef & Ev).
  apply bind_Ok in Ev. destruct Ev as ([f' r] & El & Ev).
  apply bind_Ok in Ev. destruct Ev as (fs1 & Es & Ev). inversion Ev; subst. clear Ev.
  apply set_Ok_inv in Es. destruct Es as [Li ->]. apply get_Ok in Ef.
  destruct (NoDup_remove_mid l1 i l2 ND) as [ND' NI].
  split; [rewrite upd_length; auto|]. split; auto.
  intros j g Ej. destruct (P j g Ej) as [P1 P2]. destruct (Nat.eq_dec j i) as [->|NE].
  - split; [intros Hin; contradiction|]. intros _.
    assert (Eg : nth_error fs i = Some g) by (apply P1; apply in_or_app; right; left; reflexivity).
    assert (g = f) by congruence. subst g. exists f', r. split; auto. apply upd_nth_error_same. exact Li.
  - rewrite upd_nth_error_other by auto. split.
    + intros Hin. apply P1. apply in_app_or in Hin. apply in_or_app. destruct Hin; [left|right; right]; auto.
    + intros Hn. apply P2. intros Hin. apply Hn. apply in_app_or in Hin. apply in_or_app.
      destruct Hin as [Hin|[Hin|Hin]]; [left; auto|congruence|right; auto].
Qed.
Lemma omp_runs_partly threads st o : omp_runs plus lin threads st o -> partly (o_todo st) (o_factors st) ->
  forall st', o = Ok st' -> partly (o_todo st') (o_factors st').
Proof.
  induction 1 as [st|st st1 o H1 H2 IH|st o H1 N]; intros P st' E.
  - inversion E; subst. exact P.
  - apply IH; auto. eapply omp_step_partly; eauto.
  - subst o. destruct (N st'). reflexivity.
Qed.
Lemma partly_init threads : partly (o_todo (omp_init zero threads fs0)) (o_factors (omp_init zero threads fs0)).
Proof.
  cbn. split; auto. split; [apply seq_NoDup|]. intros i f E. split; auto.
  intros H. destruct H. apply in_seq. split; [lia|]. apply nth_error_Some. congruence.
Qed.
Lemma omp_linearized_shape threads fs' s : omp_linearized zero plus threads lin fs0 (Ok (fs', s)) ->
  length fs' = length fs0 /\
  forall i f, nth_error fs0 i = Some f -> exists f' r, lin i f = Ok (f', r) /\ nth_error fs' i = Some f'.
Proof.
  intros (e & R & C & E). destruct e as [st| | |]; try discriminate. cbn [bind] in E.
  symmetry in E. apply bind_Ok in E. destruct E as (s1 & _ & E). inversion E; subst.
  destruct (omp_runs_partly _ _ _ R (partly_init threads) st eq_refl) as (L & _ & P).
  rewrite (C st eq_refl) in P. split; auto. intros i f Ef. apply (P i f Ef). simpl. auto.
Qed.

(** One schedule that exists: thread 0 takes every iteration, in order. *)
Definition omp_inorder (threads : nat) (fs : list F) : outcome (list F * Q) :=
  let* (fs', a) := foldM (fun st i => visit plus lin i st) (seq 0 (length fs)) (fs, zero) in
  Ok (fs', fold_left plus (repeat zero (threads - 1)) a).
Lemma inorder_runs threads rest : 0 < threads -> forall todo fs a,
  omp_runs plus lin threads (mkOmp fs (a :: rest) todo)
    (let* (fs', a') := foldM (fun st i => visit plus lin i st) todo (fs, a) in Ok (mkOmp fs' (a' :: rest) [])).
Proof.
  intros T. induction todo as [|i todo IH]; intros fs a; cbn [foldM bind]; [apply OmpHere|].
  pose proof (OmpStep F Q plus lin threads fs (a :: rest) [] i todo 0 T) as H.
  cbn [app get nth_error bind] in H.
  destruct (visit plus lin i (fs, a)) as [[fs' a']| | |] eqn:E; cbn [bind] in *.
  - eapply OmpMore; [exact H|]. apply IH.
  - apply OmpFail; [exact H|discriminate].
  - apply OmpFail; [exact H|discriminate].
  - apply OmpFail; [exact H|discriminate].
Qed.
Lemma inorder_possible threads : 0 < threads ->
  omp_linearized zero plus threads lin fs0 (omp_inorder threads fs0).
Proof.
  intros T. pose proof (inorder_runs threads (repeat zero (threads - 1)) T (seq 0 (length fs0)) fs0 zero) as H.
  eexists. split.
  - unfold omp_init. replace threads with (S (threads - 1)) at 2 by lia. cbn [repeat]. exact H.
  - unfold omp_inorder. destruct (foldM _ _ _) as [[fs' a']| | |]; cbn [bind]; split; try discriminate; auto.
    + intros st E. inversion E. reflexivity.
Qed.
End Shape.

Lemma inorder_summed {F Q} (zero : Q) plus (err : F -> outcome Q) threads fs : 0 < threads ->
  omp_summed zero plus threads err fs
    (let* (_, a) := foldM (fun st i => visit plus (fun _ f => let* x := err f in Ok (f, Some x)) i st) (seq 0 (length fs)) (fs, zero) in
     Ok (fold_left plus (a :: repeat zero (threads - 1)) zero)).
Proof.
  intros T. pose proof (inorder_runs F Q plus (fun _ f => let* x := err f in Ok (f, Some x)) threads (repeat zero (threads - 1)) T (seq 0 (length fs)) fs zero) as H.
  eexists. split.
  - unfold omp_init. replace threads with (S (threads - 1)) at 2 by lia. cbn [repeat]. exact H.
  - destruct (foldM _ _ _) as [[fs' a']| | |]; cbn [bind]; split; try discriminate; auto.
    + intros st E. inversion E. reflexivity.
    + eexists. split; [|reflexivity]. intros st E. inversion E; subst. cbn [o_accs].
      eexists. split; [apply Permutation_refl|reflexivity].
    + exists zero. split; [discriminate|reflexivity].
    + exists zero. split; [discriminate|reflexivity].
    + exists zero. split; [discriminate|reflexivity].
Qed.

(** ** The optimizer's log, with an invariant of the factors. *)
Section Log.
Context (D : fld) (F : Type).
Context (lin : pose D -> list F -> outcome (list F * sys D)) (err : pose D -> list F -> outcome (car D)).
Context (g : general D) (solve : m6 D -> v6 D -> v6 D) (exp6 : v6 D -> pose D) (crit : criteria D).
Context (P : list F -> Prop) (Q : pose D -> list F -> Prop).
Context (PQ : forall T fs fs' s, P fs -> lin T fs = Ok (fs', s) -> P fs' /\ Q T fs').
Definition lin_ok (ev : event D F) : Prop := match ev with Linearized T fs _ => Q T fs | _ => True end.

Lemma lm_inner_lin_ok factor n : forall T fs s e lambda r log,
  lm_inner err g solve exp6 crit factor n T fs s e lambda = Ok (r, log) -> Forall lin_ok log.
Proof.
  induction n as [|n IH]; intros T fs s e lambda r log H; cbn [lm_inner] in H.
  - inversion H; subst. constructor.
  - destruct (err _ fs) as [ne| | |]; cbn [bind] in H; try discriminate.
    destruct (nle ne _).
    + inversion H; subst. repeat constructor.
    + match type of H with context [OptModel.lm_inner _ _ _ _ _ ?a ?b ?c ?d ?e ?f ?h] =>
        destruct (lm_inner err g solve exp6 crit a b c d e f h) as [[r1 log1]| | |] eqn:E1 end; cbn [bind] in H; try discriminate.
      inversion H; subst. constructor; [exact I|]. eapply IH. exact E1.
Qed.
Lemma lm_loop_lin_ok c n : forall i r lambda fs rf fsf log, P fs ->
  lm_loop lin err g solve exp6 crit c n i r lambda fs = Ok (rf, fsf, log) ->
  Forall lin_ok log /\ match log with [] => rf = r | ev :: _ => exists fs s, ev = Linearized (r_T r) fs s end.
Proof.
  induction n as [|n IH]; intros i r lambda fs rf fsf log HP H; cbn [lm_loop] in H.
  - inversion H; subst. auto.
  - destruct (r_converged r) eqn:Ec; [inversion H; subst; auto|].
    destruct (lin (r_T r) fs) as [[fs1 s0]| | |] eqn:EL; cbn [bind] in H; try discriminate.
    destruct (PQ _ _ _ _ HP EL) as [HP1 HQ1].
    set (s := upd_sys g (r_T r) s0) in *.
    destruct (lm_inner err g solve exp6 crit (lm_factor c) (Z.to_nat (lm_max_inner c)) (r_T r) fs1 s (se s) lambda) as [[tr log1]| | |] eqn:EI;
      cbn [bind] in H; try discriminate.
    assert (FL : Forall lin_ok (Linearized (r_T r) fs1 s :: log1)).
    { constructor; [exact HQ1|]. eapply lm_inner_lin_ok. exact EI. }
    destruct (i_step tr) as [[T' conv]|] eqn:ES.
    + destruct (lm_loop lin err g solve exp6 crit c n (i + 1) (mkResult T' conv i (r_inliers r) (sH s) (sb s) (i_e tr)) (i_lambda tr) fs1)
        as [[[rf1 fsf1] log2]| | |] eqn:E2; cbn [bind] in H; try discriminate.
      inversion H; subst. rewrite app_comm_cons. split; [|simpl; eauto].
      apply Forall_app. split; auto. destruct (IH _ _ _ _ _ _ _ HP1 E2). auto.
    + inversion H; subst. split; [exact FL|eauto].
Qed.
End Log.

(** Every event of a run comes from the two reductions. *)
Section Replay.
Context (D : fld).
Notation F := (factor D).
Context (lin : pose D -> list F -> outcome (list F * sys D)) (err : pose D -> list F -> outcome (car D)).
Context (solve : m6 D -> v6 D -> v6 D) (exp6 : v6 D -> pose D) (crit : criteria D).
Context (k : kind) (threads : nat) (nn : search D) (limit_sq : car D) (target : view D N) (source : cloud D).
Context (HL : forall T fs, omp_linearized sys_zero sys_add threads (linearize nn (distance_rejector limit_sq) target (cloud_view source) k T) fs (lin T fs)).
Context (HE : forall T fs, omp_summed nzero nadd threads (error target (cloud_view source) k T) fs (err T fs)).
Notation replayed := (replayed k threads nn limit_sq target source).
Lemma replayed_app a : forall fs b, replayed fs a -> replayed (final_factors fs a) b -> replayed fs (a ++ b).
Proof.
  induction a as [|[T fs' s|l d T' e e' acc|] a IH]; intros fs b Ha Hb; cbn [app HelperSpec.replayed] in *; auto; destruct Ha; split; auto.
Qed.
Lemma lm_inner_replayed factor n : forall T fs s e lambda r log,
  lm_inner err null_factor solve exp6 crit factor n T fs s e lambda = Ok (r, log) ->
  replayed fs log /\ final_factors fs log = fs.
Proof.
  induction n as [|n IH]; intros T fs s e lambda r log H; cbn [lm_inner] in H.
  - inversion H; subst. split; [exact I|reflexivity].
  - match type of H with context [err ?T ?f] => pose proof (HE T f) as HE1; destruct (err T f) as [ne| | |] end; cbn [bind] in H; try discriminate.
    destruct (nle ne _).
    + inversion H; subst. cbn. auto.
    + match type of H with context [OptModel.lm_inner _ _ _ _ _ ?a ?b ?c ?d ?e ?f ?h] =>
        destruct (lm_inner err null_factor solve exp6 crit a b c d e f h) as [[r1 log1]| | |] eqn:E1 end; cbn [bind] in H; try discriminate.
      inversion H; subst. destruct (IH _ _ _ _ _ _ _ E1) as [A B]. cbn [HelperSpec.replayed]. split; [split; auto|exact B].
Qed.
Lemma lm_loop_replayed c n : forall i r lambda fs rf fsf log,
  lm_loop lin err null_factor solve exp6 crit c n i r lambda fs = Ok (rf, fsf, log) -> replayed fs log.
Proof.
  induction n as [|n IH]; intros i r lambda fs rf fsf log H; cbn [lm_loop] in H.
  - inversion H; subst. exact I.
  - destruct (r_converged r) eqn:Ec; [inversion H; subst; exact I|].
    pose proof (HL (r_T r) fs) as HL1.
    destruct (lin (r_T r) fs) as [[fs1 s]| | |] eqn:EL; cbn [bind] in H; try discriminate.
    cbn [null_factor upd_sys] in H.
    destruct (lm_inner err null_factor solve exp6 crit (lm_factor c) (Z.to_nat (lm_max_inner c)) (r_T r) fs1 s (se s) lambda) as [[tr log1]| | |] eqn:EI;
      cbn [bind] in H; try discriminate.
    destruct (lm_inner_replayed _ _ _ _ _ _ _ _ _ EI) as [A B].
    destruct (i_step tr) as [[T' conv]|] eqn:ES.
    + destruct (lm_loop lin err null_factor solve exp6 crit c n (i + 1) (mkResult T' conv i (r_inliers r) (sH s) (sb s) (i_e tr)) (i_lambda tr) fs1)
        as [[[rf1 fsf1] log2]| | |] eqn:E2; cbn [bind] in H; try discriminate.
      inversion H; subst. cbn [app HelperSpec.replayed]. split; [exact HL1|].
      apply replayed_app; [exact A|]. rewrite B. eapply IH. exact E2.
    + inversion H; subst. cbn [HelperSpec.replayed]. split; [exact HL1|exact A].
Qed.
End Replay.

(** Two reductions with the same results give the same run. *)
Section Ext.
Context (D : fld) (F : Type) (P : list F -> Prop).
Context (lin1 lin2 : pose D -> list F -> outcome (list F * sys D)) (err1 err2 : pose D -> list F -> outcome (car D)).
Context (g : general D) (solve : m6 D -> v6 D -> v6 D) (exp6 : v6 D -> pose D) (crit : criteria D).
Context (HL : forall T fs, P fs -> lin1 T fs = lin2 T fs).
Context (HE : forall T fs, P fs -> err1 T fs = err2 T fs).
Context (HP : forall T fs fs' s, P fs -> lin2 T fs = Ok (fs', s) -> P fs').
Lemma lm_inner_ext factor n : forall T fs s e lambda, P fs ->
  lm_inner err1 g solve exp6 crit factor n T fs s e lambda = lm_inner err2 g solve exp6 crit factor n T fs s e lambda.
Proof.
  induction n as [|n IH]; intros T fs s e lambda H; cbn [lm_inner]; auto.
  rewrite HE by exact H. apply bind_ext. intros ne. destruct (nle ne _); auto. rewrite IH by exact H. reflexivity.
Qed.
Lemma lm_loop_ext c n : forall i r lambda fs, P fs ->
  lm_loop lin1 err1 g solve exp6 crit c n i r lambda fs = lm_loop lin2 err2 g solve exp6 crit c n i r lambda fs.
Proof.
  induction n as [|n IH]; intros i r lambda fs H; cbn [lm_loop]; auto.
  destruct (r_converged r); auto. rewrite HL by exact H.
  destruct (lin2 (r_T r) fs) as [[fs1 s]| | |] eqn:E; cbn [bind]; auto.
  pose proof (HP _ _ _ _ H E) as H1. rewrite lm_inner_ext by exact H1.
  apply bind_ext. intros [tr log1]. destruct (i_step tr) as [[T' conv]|]; auto.
  rewrite IH by exact H1. reflexivity.
Qed.
End Ext.

(** ** Registration::align honours its members. *)
Section Align.
Context {D : fld}.
Context (solve : m6 D -> v6 D -> v6 D) (exp6 : v6 D -> pose D).
Context (omp_lin : nat -> (nat -> factor D -> outcome (factor D * option (sys D))) ->
                   list (factor D) -> outcome (list (factor D) * sys D)).
Context (omp_err : nat -> (factor D -> outcome (car D)) -> list (factor D) -> outcome (car D)).
Context (OL : forall threads lin fs, 0 < threads -> omp_linearized sys_zero sys_add threads lin fs (omp_lin threads lin fs)).
Context (OE : forall threads err fs, 0 < threads -> omp_summed nzero nadd threads err fs (omp_err threads err fs)).

Lemma lin_within nn limit target source k T threads fs fs' s : 0 < threads ->
  length fs = length (cl_points source) ->
  omp_lin threads (linearize nn (distance_rejector limit) target (cloud_view source) k T) fs = Ok (fs', s) ->
  within_limit nn source limit T fs'.
Proof.
  intros Th L E. pose proof (OL threads (linearize nn (distance_rejector limit) target (cloud_view source) k T) fs Th) as P. rewrite E in P.
  destruct (omp_linearized_shape _ _ _ _ _ _ _ _ _ P) as [L' H]. split; [congruence|].
  intros i f' E'. assert (Li : i < length fs) by (rewrite <- L'; apply nth_error_Some; congruence).
  destruct (nth_error fs i) as [f|] eqn:Ef; [|apply nth_error_None in Ef; lia].
  destruct (H i f Ef) as (f1 & r & El & E1). assert (f1 = f') by congruence. subst f1.
  destruct (linearize_cases _ _ _ _ _ _ _ _ _ _ _ El) as (p & found & Ep & En & M).
  cbn [cloud_view at_point] in Ep. apply get_Ok in Ep. exists p, found. split; auto. split; auto.
  destruct r as [s1|].
  - destruct M as (ti & d & -> & Rj & M). unfold distance_rejector in Rj. rewrite Rj.
    destruct M as (_ & M & _).
    pose proof (error_after_linearize _ _ _ _ _ _ _ _ _ _ _ El) as (_ & I). split; [exact I|]. exact M.
  - destruct M as (-> & [-> |(ti & d & -> & Rj)]); [reflexivity|]. unfold distance_rejector in Rj. rewrite Rj. reflexivity.
Qed.

Lemma align_honoured k r target source nn init_T res log : (1 <= reg_num_threads r)%Z -> lm_max_inner (reg_optimizer r) = 10%Z ->
  registration_align solve exp6 omp_lin omp_err k r target source nn init_T = Ok (res, log) ->
  honoured k (reg_num_threads r) target nn source (reg_max_dist_sq r) (rotation_eps (reg_criteria r)) (translation_eps (reg_criteria r))
    (lm_max_iterations (reg_optimizer r)) init_T res log.
Proof.
  intros Th Inner H. unfold registration_align, levenberg_marquardt in H.
  set (threads := Z.to_nat (reg_num_threads r)) in *. assert (Tp : 0 < threads) by lia.
  set (lin := fun T => omp_lin threads (linearize nn (distance_rejector (reg_max_dist_sq r)) target (cloud_view source) k T)) in *.
  match type of H with context [lm_loop _ _ _ _ _ _ ?a ?b ?c ?d ?e ?f] =>
    destruct (lm_loop lin (fun T => omp_err threads (error target (cloud_view source) k T)) null_factor solve exp6 (reg_criteria r) a b c d e f)
      as [[[rf fsf] lg]| | |] eqn:E end; cbn [bind] in H; try discriminate.
  inversion H; subst lg res. clear H.
  assert (PQ : forall T fs fs' s, length fs = length (cl_points source) -> lin T fs = Ok (fs', s) ->
                 length fs' = length (cl_points source) /\ within_limit nn source (reg_max_dist_sq r) T fs').
  { intros T fs fs' s L EL. pose proof (lin_within _ _ _ _ _ _ _ _ _ _ Tp L EL) as W. split; [apply W|exact W]. }
  assert (L0 : length (initial_factors (D := D) (length (cl_points source))) = length (cl_points source)) by apply repeat_length.
  destruct (lm_loop_lin_ok D (factor D) lin _ _ _ _ _ (fun fs => length fs = length (cl_points source)) _ PQ _ _ _ _ _ _ _ _ _ L0 E) as [FL ST].
  destruct (lm_loop_shape D (factor D) lin _ _ _ _ _ _ _ _ _ _ _ _ _ _ E) as (A & _ & C & FF & _ & Z & Pz).
  cbn [set_inliers fst snd].
  split; cbn [r_T r_converged r_iterations r_inliers].
  - destruct log as [|ev log]; [rewrite ST; reflexivity|exact ST].
  - intros T fs s Hin. rewrite Forall_forall in FL. apply (FL _ Hin).
  - exact A.
  - exact C.
  - intros Cv. destruct (Nat.eq_dec (linearizations log) 0) as [K|K].
    + destruct (Z K) as (-> & _). discriminate.
    + destruct (Pz ltac:(lia)) as (_ & _ & P3 & _).
      destruct (P3 Cv) as (lg' & l & d & e & e' & -> & Qc). exists lg', l, d, e, e'. split; auto.
      unfold converged in Qc. apply Bool.andb_true_iff in Qc. exact Qc.
  - intros log1 T fs s log2 EL K. subst fsf log. unfold count_inliers. f_equal. f_equal.
    rewrite final_factors_app. change (Linearized T fs s :: log2) with ([Linearized T fs s] ++ log2).
    rewrite final_factors_app, no_linearization by exact K. reflexivity.
  - destruct (Nat.eq_dec (linearizations log) 0) as [K|K].
    + destruct (Z K) as (_ & -> & [Q|Q]); [|discriminate]. right. left. rewrite Q. reflexivity.
    + destruct (Pz ltac:(lia)) as (_ & _ & _ & [P4|[P4|(lg' & T1 & fs1 & s1 & rej & -> & R1 & R2)]]); auto. right; right.
      exists lg', T1, fs1, s1, rej. split; auto. rewrite R2, Inner. split; auto. eapply Forall_impl; [|exact R1].
      intros [| l d T' e e' [|] |] Q; simpl in Q; try contradiction. eauto 10.
  - eapply lm_loop_replayed; [| |exact E].
    + intros T fs. apply OL. exact Tp.
    + intros T fs. apply OE. exact Tp.
Qed.
End Align.

(** ** With exact addition the schedule and the number of threads do not matter. *)
Section Exact.
Context (F Q : Type) (zero : Q) (plus : Q -> Q -> Q) (CM : comm_monoid zero plus).

Lemma omp_exact (lin : nat -> F -> outcome (F * option Q)) fs threads o : all_defined lin fs -> 0 < threads ->
  omp_linearized zero plus threads lin fs o -> o = serial zero plus lin fs.
Proof.
  intros OK T (e & R & Dn & ->).
  destruct (omp_runs_inv F Q zero plus lin CM fs OK threads _ _ (omp_inv_init F Q zero plus lin CM fs threads) R) as (st & -> & I).
  destruct (omp_final F Q zero plus lin CM fs threads st T I (Dn st eq_refl)) as (E & S1 & _).
  destruct (serial_spec F Q zero plus lin CM fs OK) as (fs' & -> & S2).
  cbn [bind]. rewrite E. cbn [bind]. f_equal. f_equal.
  destruct S1 as [L1 H1], S2 as [L2 H2]. apply nth_error_ext_eq; [congruence|].
  intros i x Ex. assert (Li : i < length fs) by (rewrite <- L2; apply nth_error_Some; congruence).
  destruct (nth_error fs i) as [f|] eqn:Ef; [|apply nth_error_None in Ef; lia].
  destruct (H1 i f Ef) as [_ B1], (H2 i f Ef) as [_ B2]. rewrite B1 by tauto. rewrite B2 in Ex by tauto. exact Ex.
Qed.

Lemma omp_error_exact (err : F -> outcome Q) fs threads o : (forall f, In f fs -> exists x, err f = Ok x) -> 0 < threads ->
  omp_summed zero plus threads err fs o -> o = serial_error zero plus err fs.
Proof.
  intros OK T (e & R & Dn & s & HS & ->).
  set (lin := fun (_ : nat) (f : F) => let* x := err f in Ok (f, Some x)) in *.
  assert (AD : all_defined lin fs).
  { intros i f Ef. destruct (OK f (nth_error_In _ _ Ef)) as [x Ex]. exists f, (Some x). unfold lin. rewrite Ex. reflexivity. }
  destruct (omp_runs_inv F Q zero plus lin CM fs AD threads _ _ (omp_inv_init F Q zero plus lin CM fs threads) R) as (st & -> & I).
  destruct (omp_final F Q zero plus lin CM fs threads st T I (Dn st eq_refl)) as (_ & _ & HE).
  rewrite (HE s (HS st eq_refl)). cbn [bind]. symmetry. unfold serial_error.
  set (val := fun f => match err f with Ok x => x | _ => zero end).
  assert (S : forall l a, (forall f, In f l -> exists x, err f = Ok x) ->
    foldM (fun sum f => let* e := err f in Ok (plus sum e)) l a = Ok (plus a (sum_all zero plus (map val l)))).
  { induction l as [|f l IH]; intros a Hl; cbn [foldM map].
    - simpl. rewrite (cm_comm _ _ CM), (cm_zero _ _ CM). reflexivity.
    - destruct (Hl f (or_introl eq_refl)) as [x Ex]. rewrite Ex. cbn [bind].
      rewrite IH by (intros; apply Hl; right; auto). unfold sum_all. cbn [fold_right].
      unfold val at 2. rewrite Ex. rewrite (cm_assoc _ _ CM). reflexivity. }
  rewrite S by exact OK. rewrite (cm_zero _ _ CM). f_equal. unfold total. f_equal.
  assert (M : forall f i, nth_error fs i = Some f -> contrib F Q zero lin fs i = val f).
  { intros f i Ef. unfold contrib, ret. rewrite Ef. unfold out, lin, val.
    destruct (OK f (nth_error_In _ _ Ef)) as [x ->]. reflexivity. }
  revert M. generalize (contrib F Q zero lin fs). clear. intros c M.
  assert (G : forall k, (forall f i, nth_error fs i = Some f -> c (k + i) = val f) -> map val fs = map c (seq k (length fs))).
  { clear M. induction fs as [|f fs IH]; intros k M; simpl; auto. f_equal.
    - rewrite <- (M f 0 eq_refl). f_equal. lia.
    - apply IH. intros g i Eg. rewrite <- (M g (S i) Eg). f_equal. lia. }
  apply G. exact M.
Qed.
End Exact.

Section Usable.
Context (D : fld) (k : kind) (nn : search D) (target : view D N) (source : cloud D) (U : usable k nn target source).
Context (reject : pose D -> N -> nat -> car D -> bool).

(** Factors an optimizer can hold. *)
Definition factors_ok (fs : list (factor D)) : Prop :=
  length fs = length (cl_points source) /\
  forall f, In f fs -> match f_target f with
    | None => True
    | Some ti => f_source f < length (cl_points source) /\ (exists p, at_point target ti = Ok p) /\
        (k = PlaneICP -> exists n, at_normal target ti = Ok n)
    end.

Lemma factors_ok_init : factors_ok (initial_factors (length (cl_points source))).
Proof.
  split; [apply repeat_length|]. intros f H. apply repeat_spec in H. subst. exact I.
Qed.
Lemma lin_defined T fs : factors_ok fs -> all_defined (linearize nn reject target (cloud_view source) k T) fs.
Proof.
  intros [L _] i f Ef. assert (Li : i < length (cl_points source)) by (rewrite <- L; apply nth_error_Some; congruence).
  destruct U as [UC UN]. unfold linearize. cbn [cloud_view at_point].
  destruct (nth_error (cl_points source) i) as [p|] eqn:Ep; [|apply nth_error_None in Ep; lia].
  rewrite (proj2 (get_Ok _ _ _) Ep). cbn [bind]. destruct (UN (pose_pt T p)) as (found & -> & M). cbn [bind].
  destruct found as [[ti d]|]; [|eauto]. destruct (reject T ti i d); [eauto|].
  destruct M as ((q & Eq) & EN & EC). unfold linearize_at, residual. cbn [cloud_view at_point at_cov].
  rewrite Eq, (proj2 (get_Ok _ _ _) Ep). cbn [bind]. destruct k.
  - cbn [bind]; eauto.
  - destruct (EN eq_refl) as [n ->]. cbn [bind]. eauto.
  - destruct (EC eq_refl) as [c ->]. cbn [bind]. specialize (UC eq_refl).
    destruct (nth_error (cl_covs source) i) as [cs|] eqn:Es; [|apply nth_error_None in Es; lia].
    rewrite (proj2 (get_Ok _ _ _) Es). cbn [bind]. eauto.
Qed.
Lemma err_defined T fs : factors_ok fs -> forall f, In f fs -> exists x, error target (cloud_view source) k T f = Ok x.
Proof using.
  clear U reject nn. intros [L H] f Hin. specialize (H f Hin). unfold error. destruct (f_target f) as [ti|]; [|eauto].
  destruct H as (Ls & (q & Eq) & EN). unfold residual. cbn [cloud_view at_point]. rewrite Eq. cbn [bind].
  destruct (nth_error (cl_points source) (f_source f)) as [p|] eqn:Ep; [|apply nth_error_None in Ep; lia].
  rewrite (proj2 (get_Ok _ _ _) Ep). cbn [bind]. destruct k; eauto. destruct (EN eq_refl) as [n ->]. cbn [bind]. eauto.
Qed.
Lemma serial_factors_ok zero plus T fs fs' s : comm_monoid zero plus -> factors_ok fs ->
  serial zero plus (linearize nn reject target (cloud_view source) k T) fs = Ok (fs', s) -> factors_ok fs'.
Proof.
  intros CM Hok E. pose proof (lin_defined T fs Hok) as AD.
  destruct (serial_spec _ _ zero plus _ CM fs AD) as (fs1 & E1 & Sh). rewrite E in E1. inversion E1; subst fs1.
  pose proof (shape_done _ _ _ _ AD _ Sh) as (L1 & _ & H). destruct Hok as [L _]. split; [congruence|].
  intros f' Hin. apply In_nth_error in Hin. destruct Hin as [i E'].
  assert (Li : i < length fs) by (rewrite <- L1; apply nth_error_Some; congruence).
  destruct (nth_error fs i) as [f|] eqn:Ef; [|apply nth_error_None in Ef; lia].
  destruct (H i f Ef) as (f1 & r & El & Eq & _). assert (f1 = f') by congruence. subst f1.
  destruct (linearize_cases _ _ _ _ _ _ _ _ _ _ _ El) as (p & found & Ep & En & M).
  destruct r as [s1|]; [|destruct M as (-> & _); exact I].
  destruct M as (ti & d & -> & _ & _ & -> & ->). destruct U as [_ UN].
  destruct (UN (pose_pt T p)) as (found & En2 & M). rewrite En in En2. inversion En2; subst found.
  destruct M as (A & B & _). split; [lia|]. split; auto.
Qed.
End Usable.

Section ExactAlign.
Context (D : fld) (CMs : comm_monoid (sys_zero (D := D)) sys_add) (CMk : comm_monoid (nzero (n := D)) nadd).
Context (solve : m6 D -> v6 D -> v6 D) (exp6 : v6 D -> pose D).
Context (omp_lin : nat -> (nat -> factor D -> outcome (factor D * option (sys D))) -> list (factor D) -> outcome (list (factor D) * sys D)).
Context (omp_err : nat -> (factor D -> outcome (car D)) -> list (factor D) -> outcome (car D)).
Context (OL : forall threads lin fs, 0 < threads -> omp_linearized sys_zero sys_add threads lin fs (omp_lin threads lin fs)).
Context (OE : forall threads err fs, 0 < threads -> omp_summed nzero nadd threads err fs (omp_err threads err fs)).

Lemma align_exact k r target source nn init_T : (1 <= reg_num_threads r)%Z -> usable k nn target source ->
  registration_align solve exp6 omp_lin omp_err k r target source nn init_T =
  registration_align solve exp6 (fun _ => serial sys_zero sys_add) (fun _ => serial_error nzero nadd) k r target source nn init_T.
Proof.
  intros Th U. unfold registration_align, levenberg_marquardt. assert (Tp : 0 < Z.to_nat (reg_num_threads r)) by lia.
  rewrite (lm_loop_ext D (factor D) (factors_ok D k target source) _
    (fun T => serial sys_zero sys_add (linearize nn (distance_rejector (reg_max_dist_sq r)) target (cloud_view source) k T))
    _ (fun T => serial_error nzero nadd (error target (cloud_view source) k T))).
  - reflexivity.
  - intros T fs Hok. apply (omp_exact _ _ _ _ CMs _ _ (Z.to_nat (reg_num_threads r))); auto. apply lin_defined; auto.
  - intros T fs Hok. apply (omp_error_exact _ _ _ _ CMk _ _ (Z.to_nat (reg_num_threads r))); auto. eapply err_defined. exact Hok.
  - intros T fs fs' s Hok E. eapply serial_factors_ok; eauto.
  - apply factors_ok_init.
Qed.
End ExactAlign.
