(** A registration whose inputs have what its error type reads always returns, in every number
    system, whatever the solver and the schedule do. *)
From Coq Require Import ZArith.
From Verif Require Import Base BaseProofs Num Vec Lin FactorModel FactorProofs ReduceModel ReduceSpec ReduceProofs
  OptModel OptSpec OptProofs HelperModel HelperSpec HelperProofs.
Open Scope nat_scope.

Section Omp.
Context (F Q : Type) (zero : Q) (plus : Q -> Q -> Q) (lin : nat -> F -> outcome (F * option Q)) (fs0 : list F).
Hypothesis AD : all_defined lin fs0.
Definition going (threads : nat) (st : omp_state F Q) : Prop :=
  partly F Q lin fs0 (o_todo st) (o_factors st) /\ length (o_accs st) = threads /\
  (forall i, In i (o_todo st) -> i < length fs0).

Lemma going_step threads st o : going threads st -> omp_step plus lin threads st o -> exists st', o = Ok st' /\ going threads st'.
Proof.
  intros (P & LA & B) H. assert (X : exists st', o = Ok st' /\ length (o_accs st') = threads /\ forall i, In i (o_todo st') -> i < length fs0).
  { inversion H as [fs accs l1 i l2 t Ht E1 E2]; subst. clear H. cbn [o_todo o_factors o_accs] in *.
    destruct (get_lt accs t Ht) as [a Ea]. rewrite Ea. cbn [bind].
    assert (Li : i < length fs0) by (apply B; apply in_or_app; right; left; reflexivity).
    destruct (nth_error fs0 i) as [f|] eqn:Ef; [|apply nth_error_None in Ef; lia].
    destruct P as (L & _ & P). destruct (P i f Ef) as [P1 _].
    assert (Eg : nth_error fs i = Some f) by (apply P1; apply in_or_app; right; left; reflexivity).
    destruct (AD i f Ef) as (f' & r & El).
    unfold visit. rewrite (proj2 (get_Ok _ _ _) Eg). cbn [bind]. rewrite El. cbn [bind].
    rewrite set_Ok by lia. cbn [bind]. rewrite set_Ok by exact Ht. cbn [bind].
    eexists. split; [reflexivity|]. cbn [o_accs o_todo]. rewrite upd_length. split; auto.
    intros j Hj. apply B. apply in_app_or in Hj. apply in_or_app. destruct Hj; [left|right; right]; auto. }
  destruct X as (st' & -> & A & C). exists st'. split; auto. split; [|auto]. eapply omp_step_partly; eauto.
Qed.
Lemma going_runs threads st o : omp_runs plus lin threads st o -> going threads st -> exists st', o = Ok st' /\ going threads st'.
Proof.
  induction 1 as [st|st st1 o H1 H2 IH|st o H1 N]; intros G.
  - eauto.
  - destruct (going_step _ _ _ G H1) as (st' & E & G'). inversion E; subst. auto.
  - destruct (going_step _ _ _ G H1) as (st' & E & G'). subst. destruct (N st'). reflexivity.
Qed.
Lemma going_init threads : going threads (omp_init zero threads fs0).
Proof.
  unfold going. split; [apply (partly_init F Q zero plus lin fs0 threads)|]. split; [cbn; apply repeat_length|]. cbn. intros i Hi. apply in_seq in Hi. lia.
Qed.
Lemma omp_total threads o : 0 < threads -> omp_linearized zero plus threads lin fs0 o -> exists fs' s, o = Ok (fs', s).
Proof.
  intros T (e & R & C & ->). destruct (going_runs _ _ _ R (going_init threads)) as (st & -> & _ & LA & _).
  cbn [bind]. unfold omp_result. destruct (get_lt (o_accs st) 0) as [a ->]; [lia|]. cbn [bind]. eauto.
Qed.
End Omp.

Lemma omp_sum_total {F Q} (zero : Q) plus (err : F -> outcome Q) fs threads o :
  (forall f, In f fs -> exists x, err f = Ok x) -> omp_summed zero plus threads err fs o -> exists s, o = Ok s.
Proof.
  intros OK (e & R & C & s & HS & ->). set (lin := fun (_ : nat) f => let* x := err f in Ok (f, Some x)) in *.
  assert (AD : all_defined lin fs).
  { intros i f Ef. unfold lin. destruct (OK f (nth_error_In _ _ Ef)) as [x ->]. cbn [bind]. eauto. }
  assert (G : going F Q lin fs threads (omp_init zero threads fs)) by (apply going_init; auto).
  destruct (going_runs F Q plus lin fs AD _ _ _ R G) as (st & -> & _). cbn [bind]. eauto.
Qed.

Section Loop.
Context (D : fld) (F : Type).
Context (lin : pose D -> list F -> outcome (list F * sys D)) (err : pose D -> list F -> outcome (car D)).
Context (g : general D) (solve : m6 D -> v6 D -> v6 D) (exp6 : v6 D -> pose D) (crit : criteria D).
Context (P : list F -> Prop).
Context (HL : forall T fs, P fs -> exists fs' s, lin T fs = Ok (fs', s) /\ P fs').
Context (HE : forall T fs, P fs -> exists e, err T fs = Ok e).
Lemma lm_inner_total factor n : forall T fs s e lambda, P fs ->
  exists r log, lm_inner err g solve exp6 crit factor n T fs s e lambda = Ok (r, log).
Proof.
  induction n as [|n IH]; intros T fs s e lambda H; cbn [lm_inner]; [eauto|].
  match goal with |- context [err ?T ?f] => destruct (HE T f H) as [ne ->] end. cbn [bind].
  destruct (nle ne _); [eauto|].
  match goal with |- context [OptModel.lm_inner _ _ _ _ _ _ _ ?b ?c ?d ?e ?f] => destruct (IH b c d e f H) as (r & log & ->) end.
  cbn [bind]. eauto.
Qed.
Lemma lm_loop_total c n : forall i r lambda fs, P fs ->
  exists rf fsf log, lm_loop lin err g solve exp6 crit c n i r lambda fs = Ok (rf, fsf, log).
Proof.
  induction n as [|n IH]; intros i r lambda fs H; cbn [lm_loop]; [eauto|].
  destruct (r_converged r); [eauto|].
  destruct (HL (r_T r) fs H) as (fs1 & s & -> & H1). cbn [bind].
  match goal with |- context [OptModel.lm_inner _ _ _ _ _ ?a ?n ?b ?c ?d ?e ?f] => destruct (lm_inner_total a n b c d e f H1) as (tr & log & ->) end.
  cbn [bind]. destruct (i_step tr) as [[T' conv]|]; [|eauto].
  match goal with |- context [OptModel.lm_loop _ _ _ _ _ _ _ _ ?b ?c ?d ?e] => destruct (IH b c d e H1) as (rf & fsf & log2 & ->) end.
  cbn [bind]. eauto.
Qed.
End Loop.

Section Align.
Context {D : fld}.
Context (solve : m6 D -> v6 D -> v6 D) (exp6 : v6 D -> pose D).
Context (omp_lin : nat -> (nat -> factor D -> outcome (factor D * option (sys D))) ->
                   list (factor D) -> outcome (list (factor D) * sys D)).
Context (omp_err : nat -> (factor D -> outcome (car D)) -> list (factor D) -> outcome (car D)).
Context (OL : forall threads lin fs, 0 < threads -> omp_linearized sys_zero sys_add threads lin fs (omp_lin threads lin fs)).
Context (OE : forall threads err fs, 0 < threads -> omp_summed nzero nadd threads err fs (omp_err threads err fs)).

Lemma align_total k r target source nn init_T : (1 <= reg_num_threads r)%Z -> usable k nn target source ->
  exists res log, registration_align solve exp6 omp_lin omp_err k r target source nn init_T = Ok (res, log).
Proof.
  intros Th U. unfold registration_align, levenberg_marquardt.
  set (threads := Z.to_nat (reg_num_threads r)). assert (Tp : 0 < threads) by lia.
  match goal with |- context [lm_loop ?l ?e _ _ _ ?cr ?x1 ?x2 ?x3 ?x4 ?x5 ?x6] =>
    destruct (lm_loop_total D (factor D) l e null_factor solve exp6 cr (factors_ok D k target source)) with (c := x1) (n := x2) (i := x3) (r := x4) (lambda := x5) (fs := x6)
      as (rf & fsf & log & ->) end.
  - intros T fs Hok. pose proof (lin_defined D k nn target source U (distance_rejector (reg_max_dist_sq r)) T fs Hok) as AD.
    pose proof (OL threads (linearize nn (distance_rejector (reg_max_dist_sq r)) target (cloud_view source) k T) fs Tp) as H.
    destruct (omp_total _ _ _ _ _ _ AD threads _ Tp H) as (fs' & s & E). exists fs', s. split; [exact E|].
    rewrite E in H. destruct (omp_linearized_shape _ _ _ _ _ _ _ _ _ H) as [L' Sh]. destruct Hok as [L _].
    split; [congruence|]. intros f' Hin. apply In_nth_error in Hin. destruct Hin as [i E'].
    assert (Li : i < length fs) by (rewrite <- L'; apply nth_error_Some; congruence).
    destruct (nth_error fs i) as [f|] eqn:Ef; [|apply nth_error_None in Ef; lia].
    destruct (Sh i f Ef) as (f1 & r1 & El & Eq). assert (f1 = f') by congruence. subst f1.
    destruct (linearize_cases _ _ _ _ _ _ _ _ _ _ _ El) as (p & found & Ep & En & M).
    destruct r1 as [s1|]; [|destruct M as (-> & _); exact I].
    destruct M as (ti & d & -> & _ & _ & -> & ->). destruct U as [_ UN].
    destruct (UN (pose_pt T p)) as (found & En2 & M). rewrite En in En2. inversion En2; subst found.
    destruct M as (A & B & _). split; [lia|]. split; auto.
  - intros T fs Hok. eapply omp_sum_total; [|apply OE; exact Tp]. apply (err_defined D k target source T fs Hok).
  - apply factors_ok_init.
  - cbn [bind]. eauto.
Qed.
End Align.
