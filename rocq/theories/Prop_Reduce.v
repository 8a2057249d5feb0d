(** C25: the serial, OpenMP and TBB reductions compute the same sum. *)
From Coq Require Import Reals ZArith.
From Verif Require Import Base BaseProofs Num Vec F64 RNum Lin LinProofs FactorModel ReduceModel ReduceSpec ReduceProofs.
Open Scope nat_scope.

(** k steps of a small-step relation. *)
Inductive steps {St} (step : St -> outcome St -> Prop) : nat -> St -> St -> Prop :=
| Steps0 : forall s, steps step 0 s s
| StepsS : forall k s s1 s2, step s (Ok s1) -> steps step k s1 s2 -> steps step (1 + k) s s2.

(** SerialReduction: never undefined, linearises every factor once, returns the sum. *)
Theorem C25_serial : forall F Q (zero : Q) plus lin (fs : list F),
  comm_monoid zero plus -> all_defined lin fs ->
  exists fs' rs, serial zero plus lin fs = Ok (fs', sum_all zero plus (accepted rs)) /\
    linearized_once lin fs fs' rs.
Proof.
  intros F Q zero plus lin fs CM OK.
  destruct (serial_spec F Q zero plus lin CM fs OK) as (fs' & E & SH).
  exists fs', (rets F Q lin fs). rewrite E. rewrite (total_eq F Q zero plus lin CM). split; auto.
  eapply shape_done; eauto.
Qed.

(** ParallelReductionOMP with at least one thread, for every assignment of iterations to
    threads and every interleaving: no step is undefined, an unfinished loop can go on, it
    stops after exactly one step per factor, and a finished loop returns the sum with every
    factor linearised once. *)
Theorem C25_omp : forall F Q (zero : Q) plus lin (fs : list F) threads,
  comm_monoid zero plus -> all_defined lin fs -> 0 < threads ->
  (forall o, omp_runs plus lin threads (omp_init zero threads fs) o -> exists st, o = Ok st) /\
  (forall st, omp_runs plus lin threads (omp_init zero threads fs) (Ok st) -> o_todo st <> [] ->
     exists o, omp_step plus lin threads st o) /\
  (forall k st, steps (omp_step plus lin threads) k (omp_init zero threads fs) st ->
     k + length (o_todo st) = length fs) /\
  (forall st, omp_runs plus lin threads (omp_init zero threads fs) (Ok st) -> o_todo st = [] ->
     exists rs, omp_result plus (o_accs st) = Ok (sum_all zero plus (accepted rs)) /\
       linearized_once lin fs (o_factors st) rs).
Proof.
  intros F Q zero plus lin fs threads CM OK T.
  pose proof (omp_inv_init F Q zero plus lin CM fs threads) as I0.
  split; [|split; [|split]].
  - intros o H. destruct (omp_runs_inv F Q zero plus lin CM fs OK threads _ o I0 H) as (st & E & _). eauto.
  - intros st H NE. destruct (omp_runs_inv F Q zero plus lin CM fs OK threads _ _ I0 H) as (st' & E & I).
    inversion E; subst st'. eapply omp_progress; eauto.
  - intros k st H. replace (length fs) with (length (o_todo (omp_init zero threads fs))).
    2:{ simpl. apply seq_length. }
    revert I0 H. generalize (omp_init zero threads fs). intros s I0 H. induction H as [|k s s1 s2 H1 H2 IH]; auto.
    destruct (omp_step_inv F Q zero plus lin CM fs OK threads _ _ I0 H1) as (s' & E & I' & L). inversion E; subst s'.
    specialize (IH I'). lia.
  - intros st H E0. destruct (omp_runs_inv F Q zero plus lin CM fs OK threads _ _ I0 H) as (st' & E & I).
    inversion E; subst st'. destruct (omp_final F Q zero plus lin CM fs threads st T I E0) as (R & SH & _).
    exists (rets F Q lin fs). rewrite R, (total_eq F Q zero plus lin CM). split; auto. eapply shape_done; eauto.
Qed.

(** The same loop with the reduction clause of ParallelReductionOMP::error: whatever order the
    runtime adds the private copies in. *)
Theorem C25_omp_error : forall F Q (zero : Q) plus (err : F -> outcome Q) (fs : list F) threads es,
  comm_monoid zero plus -> 0 < threads -> Forall2 (fun f e => err f = Ok e) fs es ->
  let lin := fun (_ : nat) f => let* e := err f in Ok (f, Some e) in
  forall st s, omp_runs plus lin threads (omp_init zero threads fs) (Ok st) -> o_todo st = [] ->
    omp_error_result zero plus (o_accs st) s -> s = sum_all zero plus es /\ o_factors st = fs.
Proof.
  intros F Q zero plus err fs threads es CM T FA lin st s H E0 HR.
  assert (nthFA : forall i f, nth_error fs i = Some f -> exists e, nth_error es i = Some e /\ err f = Ok e).
  { clear - FA. induction FA as [|f e fs es E FA IH]; intros [|i] g Hg; simpl in *; try discriminate.
    - inversion Hg; subst. eauto.
    - eauto. }
  assert (OK : all_defined lin fs).
  { intros i f Ef. destruct (nthFA i f Ef) as (e & _ & E). exists f, (Some e). unfold lin. rewrite E. reflexivity. }
  pose proof (omp_inv_init F Q zero plus lin CM fs threads) as I0.
  destruct (omp_runs_inv F Q zero plus lin CM fs OK threads _ _ I0 H) as (st' & E & I). inversion E; subst st'.
  destruct (omp_final F Q zero plus lin CM fs threads st T I E0) as (_ & SH & HE).
  rewrite (HE s HR). pose proof (shape_done F Q lin fs OK _ SH) as (L1 & L2 & L3).
  assert (Les : length es = length fs) by (clear - FA; induction FA; simpl; auto).
  split.
  - rewrite (total_eq F Q zero plus lin CM).
    assert (R : rets F Q lin fs = map Some es).
    { apply nth_ext with (d := None) (d' := None); [rewrite L2, map_length; auto|].
      intros i Li. rewrite L2 in Li.
      destruct (nth_error fs i) as [f|] eqn:Ef; [|apply nth_error_None in Ef; lia].
      destruct (L3 i f Ef) as (f' & r & E1 & _ & E3). destruct (nthFA i f Ef) as (e & Ee & E2).
      unfold lin in E1. rewrite E2 in E1. cbn [bind] in E1. inversion E1; subst.
      rewrite (nth_error_nth _ _ _ E3). symmetry. apply nth_error_nth. rewrite nth_error_map, Ee. reflexivity. }
    rewrite R. f_equal. clear. induction es as [|e es IH]; simpl; auto. f_equal. exact IH.
  - apply nth_error_ext_eq with (1 := L1). intros i f Ef. destruct (L3 i f Ef) as (f' & r & E1 & E2 & _).
    destruct (nthFA i f Ef) as (e & _ & E3). unfold lin in E1. rewrite E3 in E1. cbn [bind] in E1.
    inversion E1; subst. auto.
Qed.

(** tbb::parallel_reduce: for every splitting of the range, every choice between splitting
    off a new body and continuing, and every interleaving. *)
Theorem C25_tbb : forall F Q (zero : Q) plus lin (fs : list F),
  comm_monoid zero plus -> all_defined lin fs ->
  (forall o, tbb_runs zero plus lin (tbb_init zero fs) o -> exists st, o = Ok st) /\
  (forall fs' t, tbb_runs zero plus lin (tbb_init zero fs) (Ok (fs', t)) ->
     (exists acc, t = TDone acc) \/ exists o, tbb_step zero plus lin (fs', t) o) /\
  (forall k st, steps (tbb_step zero plus lin) k (tbb_init zero fs) st -> k <= 4 * length fs + 1) /\
  (forall fs' acc, tbb_runs zero plus lin (tbb_init zero fs) (Ok (fs', TDone acc)) ->
     exists rs, acc = sum_all zero plus (accepted rs) /\ linearized_once lin fs fs' rs).
Proof.
  intros F Q zero plus lin fs CM OK.
  pose proof (tbb_inv_init F Q zero plus lin CM fs) as I0.
  split; [|split; [|split]].
  - intros o H. destruct (tbb_runs_inv F Q zero plus lin CM fs OK _ o I0 H) as (st & E & _). eauto.
  - intros fs' t H. destruct (tbb_runs_inv F Q zero plus lin CM fs OK _ _ I0 H) as (st' & E & I).
    inversion E; subst st'. apply tbb_progress. apply (ti_wf _ _ _ _ _ _ _ I).
  - intros k st H.
    assert (W : k + t_weight Q (snd st) <= t_weight Q (snd (tbb_init zero fs))).
    { revert I0 H. generalize (tbb_init zero fs). intros s I0 H. induction H as [|k s s1 s2 H1 H2 IH]; [lia|].
      destruct (tbb_step_inv F Q zero plus lin CM fs OK _ _ I0 H1) as (s' & E & I' & L). inversion E; subst s'.
      specialize (IH I'). lia. }
    simpl in W. rewrite Nat.sub_0_r in W. unfold weight in W. destruct (length fs); lia.
  - intros fs' acc H. destruct (tbb_runs_inv F Q zero plus lin CM fs OK _ _ I0 H) as (st' & E & I).
    inversion E; subst st'. destruct (tbb_final F Q zero plus lin CM fs fs' acc I) as (-> & SH).
    exists (rets F Q lin fs). rewrite (total_eq F Q zero plus lin CM). split; auto. eapply shape_done; eauto.
Qed.

(** All three agree, on the result and on the factors left behind. *)
Theorem C25_reductions_agree : forall F Q (zero : Q) plus lin (fs : list F) threads st fs' acc,
  comm_monoid zero plus -> all_defined lin fs -> 0 < threads ->
  omp_runs plus lin threads (omp_init zero threads fs) (Ok st) -> o_todo st = [] ->
  tbb_runs zero plus lin (tbb_init zero fs) (Ok (fs', TDone acc)) ->
  serial zero plus lin fs = Ok (fs', acc) /\
  omp_result plus (o_accs st) = Ok acc /\ o_factors st = fs'.
Proof.
  intros F Q zero plus lin fs threads st fs' acc CM OK T H1 E1 H2.
  destruct (C25_serial F Q zero plus lin fs CM OK) as (fsS & rsS & ES & LS).
  destruct (C25_omp F Q zero plus lin fs threads CM OK T) as (_ & _ & _ & HO).
  destruct (HO st H1 E1) as (rsO & EO & LO).
  destruct (C25_tbb F Q zero plus lin fs CM OK) as (_ & _ & _ & HT).
  destruct (HT fs' acc H2) as (rsT & ET & LT).
  assert (U : forall a ra b rb, linearized_once lin fs a ra -> linearized_once lin fs b rb -> a = b /\ ra = rb).
  { intros a ra b rb (La1 & La2 & La3) (Lb1 & Lb2 & Lb3). split.
    - apply nth_error_ext_eq; [congruence|]. intros i x Ex.
      assert (Li : i < length fs) by (rewrite <- Lb1; apply nth_error_Some; congruence).
      destruct (nth_error fs i) as [f|] eqn:Ef; [|apply nth_error_None in Ef; lia].
      destruct (La3 i f Ef) as (x1 & r1 & A1 & A2 & A3). destruct (Lb3 i f Ef) as (x2 & r2 & B1 & B2 & B3).
      congruence.
    - apply nth_error_ext_eq; [congruence|]. intros i x Ex.
      assert (Li : i < length fs) by (rewrite <- Lb2; apply nth_error_Some; congruence).
      destruct (nth_error fs i) as [f|] eqn:Ef; [|apply nth_error_None in Ef; lia].
      destruct (La3 i f Ef) as (x1 & r1 & A1 & A2 & A3). destruct (Lb3 i f Ef) as (x2 & r2 & B1 & B2 & B3).
      congruence. }
  destruct (U _ _ _ _ LS LT) as [-> ->]. destruct (U _ _ _ _ LO LT) as [-> ->]. subst acc. auto.
Qed.

(** With num_threads = 0 the vectors Hs, bs, es are empty and reading Hs[0] is out of range. *)
Theorem C25_omp_zero_threads_refuted : forall F Q (zero : Q) plus (fs : list F),
  omp_result plus (o_accs (omp_init zero 0 fs)) = UB.
Proof. reflexivity. Qed.

(** In real arithmetic (H, b, e) with entrywise addition is such a monoid. *)
Theorem C25_sys_monoid : comm_monoid (sys_zero (D := Rfld)) sys_add.
Proof.
  assert (E : forall x y : sys Rfld, sH x = sH y -> sb x = sb y -> se x = se y -> x = y)
    by (intros [] []; simpl; congruence).
  split; intros; repeat match goal with s : sys Rfld |- _ => destruct s end; apply E; lring.
Qed.

(** Hence for the registration factors themselves. *)
Theorem C25_registration : forall nn reject (target : view Rfld N) source k T (fs : list (factor Rfld)) threads st fs' acc,
  let lin := linearize nn reject target source k T in
  all_defined lin fs -> 0 < threads ->
  omp_runs sys_add lin threads (omp_init sys_zero threads fs) (Ok st) -> o_todo st = [] ->
  tbb_runs sys_zero sys_add lin (tbb_init sys_zero fs) (Ok (fs', TDone acc)) ->
  serial sys_zero sys_add lin fs = Ok (fs', acc) /\
  omp_result sys_add (o_accs st) = Ok acc /\ o_factors st = fs'.
Proof.
  intros nn reject target source k T fs threads st fs' acc lin OK Th H1 H2 H3.
  exact (C25_reductions_agree _ _ _ _ lin fs threads st fs' acc C25_sys_monoid OK Th H1 H2 H3).
Qed.

Lemma tbb_more F Q zero plus lin (st st1 : list F * task Q) o o' :
  tbb_step zero plus lin st o -> o = Ok st1 -> tbb_runs zero plus lin st1 o' -> tbb_runs zero plus lin st o'.
Proof. intros H ->. apply TbbMore. exact H. Qed.
Lemma omp_more F Q plus lin t (st st1 : omp_state F Q) o o' :
  omp_step plus lin t st o -> o = Ok st1 -> omp_runs plus lin t st1 o' -> omp_runs plus lin t st o'.
Proof. intros H ->. apply OmpMore. exact H. Qed.

(** In double precision addition is not associative: the TBB reduction of three errors
    (1, 2^-53, 2^-53) split after the first differs from the serial sum. *)
Theorem C25_f64_bitwise_refuted :
  let lin := fun (_ : nat) (f : f64) => Ok (f, Some f) in
  let fs := [f64_of 1 0; f64_of 1 (-53); f64_of 1 (-53)] in
  exists fs' a b, serial (nzero (n := Fnum)) nadd lin fs = Ok (fs', a) /\
    tbb_runs (nzero (n := Fnum)) nadd lin (tbb_init (nzero (n := Fnum)) fs) (Ok (fs', TDone b)) /\
    nlt (n := Fnum) a b = true.
Proof.
  intros lin fs. exists fs.
  exists (nadd (n := Fnum) (nadd (n := Fnum) (nadd (n := Fnum) nzero (f64_of 1 0)) (f64_of 1 (-53))) (f64_of 1 (-53))).
  exists (nadd (n := Fnum) (nadd (n := Fnum) nzero (f64_of 1 0))
            (nadd (n := Fnum) (nadd (n := Fnum) nzero (f64_of 1 (-53))) (f64_of 1 (-53)))).
  split; [reflexivity|]. split; [|vm_compute; reflexivity].
  unfold tbb_init. change (length fs) with 3.
  eapply tbb_more; [apply (TbbSplit _ _ _ _ _ fs 0 1 3); lia|reflexivity|].
  eapply tbb_more; [eapply TbbSplitL; apply TbbIter; lia|reflexivity|].
  eapply tbb_more; [eapply TbbSplitL; apply TbbEnd|reflexivity|].
  eapply tbb_more; [eapply TbbSplitR; apply TbbIter; lia|reflexivity|].
  eapply tbb_more; [eapply TbbSplitR; apply TbbIter; lia|reflexivity|].
  eapply tbb_more; [eapply TbbSplitR; apply TbbEnd|reflexivity|].
  eapply tbb_more; [apply TbbJoin|reflexivity|].
  apply TbbHere.
Qed.

(** A concrete run: five factors over Z, the third rejected; two threads, out of order. *)
Definition demo_lin (i : nat) (f : nat) : outcome (nat * option nat) :=
  Ok (f + 100, if i =? 2 then None else Some (10 * f)).
Example C25_omp_run :
  comm_monoid 0 Nat.add /\ all_defined demo_lin [1; 2; 3; 4] /\
  exists st, omp_runs Nat.add demo_lin 2 (omp_init 0 2 [1; 2; 3; 4]) (Ok st) /\
    o_todo st = [] /\ o_accs st = [50; 20] /\ o_factors st = [101; 102; 103; 104] /\
    omp_result Nat.add (o_accs st) = Ok 70.
Proof.
  split; [split; intros; lia|]. split; [intros i f E; unfold demo_lin; eauto|].
  exists (mkOmp [101; 102; 103; 104] [50; 20] []).
  split; [|repeat split].
  eapply omp_more; [apply (OmpStep _ _ Nat.add demo_lin 2 [1;2;3;4] [0;0] [0;1;2] 3 [] 0); lia|reflexivity|].
  eapply omp_more; [apply (OmpStep _ _ Nat.add demo_lin 2 _ _ [0] 1 [2] 1); lia|reflexivity|].
  eapply omp_more; [apply (OmpStep _ _ Nat.add demo_lin 2 _ _ [0] 2 [] 0); lia|reflexivity|].
  eapply omp_more; [apply (OmpStep _ _ Nat.add demo_lin 2 _ _ [] 0 [] 0); lia|reflexivity|].
  apply OmpHere.
Qed.
Example C25_tbb_run :
  tbb_runs 0 Nat.add demo_lin (tbb_init 0 [1; 2; 3; 4]) (Ok ([101; 102; 103; 104], TDone 70)).
Proof.
  unfold tbb_init. change (length [1; 2; 3; 4]) with 4.
  eapply tbb_more; [apply TbbIter; lia|reflexivity|].
  eapply tbb_more; [apply (TbbSplit _ _ _ _ _ _ 1 3 4); lia|reflexivity|].
  eapply tbb_more; [eapply TbbSplitR; apply TbbIter; lia|reflexivity|].
  eapply tbb_more; [eapply TbbSplitL; apply (TbbCont _ _ _ _ _ _ 1 2 3); lia|reflexivity|].
  eapply tbb_more; [eapply TbbSplitL; eapply TbbSeqL; apply TbbIter; lia|reflexivity|].
  eapply tbb_more; [eapply TbbSplitL; eapply TbbSeqL; apply TbbEnd|reflexivity|].
  eapply tbb_more; [eapply TbbSplitL; apply TbbNext|reflexivity|].
  eapply tbb_more; [eapply TbbSplitR; apply TbbEnd|reflexivity|].
  eapply tbb_more; [eapply TbbSplitL; apply TbbIter; lia|reflexivity|].
  eapply tbb_more; [eapply TbbSplitL; apply TbbEnd|reflexivity|].
  eapply tbb_more; [apply TbbJoin|reflexivity|].
  apply TbbHere.
Qed.

Print Assumptions C25_serial.
Print Assumptions C25_omp.
Print Assumptions C25_omp_error.
Print Assumptions C25_tbb.
Print Assumptions C25_reductions_agree.
Print Assumptions C25_omp_zero_threads_refuted.
Print Assumptions C25_registration.
Print Assumptions C25_f64_bitwise_refuted.
