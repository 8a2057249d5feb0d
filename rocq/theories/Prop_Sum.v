(** C78: the number of threads and the schedule change the sums by rounding only. *)
From Coq Require Import Reals Lra Psatz.
From Flocq Require Import Core BinarySingleNaN.
From Verif Require Import Base BaseProofs Num Vec F64 F64Proofs F64Err Lin FactorModel ReduceModel ReduceSpec ReduceProofs SumSpec SumProofs Prop_Reduce.
Open Scope nat_scope.

(** Whatever addition does, each reduction adds up every accepted contribution exactly once:
    the three differ in order and bracketing only, and leave the same factors behind. *)
Theorem C78_same_summands : forall F Q (zero : Q) plus lin (fs : list F), all_defined lin fs ->
  exists fs' rs, linearized_once lin fs fs' rs /\
    (exists s, serial zero plus lin fs = Ok (fs', s) /\ sums zero plus (accepted rs) s) /\
    (forall threads st, 0 < threads -> omp_runs plus lin threads (omp_init zero threads fs) (Ok st) -> o_todo st = [] ->
       o_factors st = fs' /\ exists s, omp_result plus (o_accs st) = Ok s /\ sums zero plus (accepted rs) s) /\
    (forall fs'' s, tbb_runs zero plus lin (tbb_init zero fs) (Ok (fs'', TDone s)) ->
       fs'' = fs' /\ sums zero plus (accepted rs) s).
Proof.
  intros F Q zero plus lin fs OK.
  destruct (serial_any F Q zero plus lin fs OK) as (fs' & s & ES).
  destruct (serial_fold F Q zero plus lin fs fs' s ES) as (rs & L & E).
  exists fs', rs. split; [exact L|]. split; [|split].
  - exists s. split; [exact ES|]. rewrite E. apply (sums_fold_one Q zero plus (accepted rs) [] zero). constructor.
  - intros threads st T H E0.
    destruct (omp_any_runs F Q zero plus lin fs OK threads _ _ (omp_any_init F Q zero plus lin fs threads) H) as (st' & Q1 & I).
    injection Q1 as <-. destruct (omp_any_final F Q zero plus lin fs threads st T I E0) as ((x & R & SX) & SH & _).
    destruct (once_unique _ _ _ _ _ _ _ _ (shape_done F Q lin fs OK _ SH) L) as (-> & ER). split; [reflexivity|].
    exists x. split; [exact R|]. rewrite <- ER. exact SX.
  - intros fs'' x H.
    destruct (tbb_any_runs F Q zero plus lin fs OK _ _ (tbb_any_init F Q zero plus lin fs) H) as (st' & Q1 & I).
    injection Q1 as <-. destruct (tbb_any_final F Q zero plus lin fs _ _ I) as (SX & SH).
    destruct (once_unique _ _ _ _ _ _ _ _ (shape_done F Q lin fs OK _ SH) L) as (-> & ER). split; [reflexivity|].
    rewrite <- ER. exact SX.
Qed.

(** Adding up doubles in any order: finite, and off by at most 2^-52 per summand of the sum of
    the magnitudes. *)
Theorem C78_rounding : forall l s, sums (nzero (n := Fnum)) f64_add l s -> rounded_sum l s.
Proof. exact sums_rounded. Qed.

Lemma two_sums l x y : sums (nzero (n := Fnum)) f64_add l x -> sums (nzero (n := Fnum)) f64_add l y -> agree_up_to_rounding l x y.
Proof.
  intros X Y LN FL BD. destruct (sums_rounded l x X LN FL BD) as (FX & EX). destruct (sums_rounded l y Y LN FL BD) as (FY & EY).
  split; [exact FX|]. split; [exact FY|]. change (-51)%Z with (1 + -52)%Z. rewrite bpow_plus. change (bpow radix2 1) with 2%R.
  replace (B2R x - B2R y)%R with ((B2R x - sum_val l) - (B2R y - sum_val l))%R by ring.
  eapply Rle_trans; [apply Rabs_triang|]. rewrite Rabs_Ropp. lra.
Qed.

(** The registration in doubles: with any two of the three reductions, any numbers of threads and
    any schedules, the linearised systems agree up to rounding in each of the 43 entries of H, b
    and e, and the factors are left the same. *)
Definition reduced (lin : nat -> factor Ffld -> outcome (factor Ffld * option (sys Ffld))) fs (fs' : list (factor Ffld)) (s : sys Ffld) : Prop :=
  serial sys_zero sys_add lin fs = Ok (fs', s) \/
  (exists threads st, 0 < threads /\ omp_runs sys_add lin threads (omp_init sys_zero threads fs) (Ok st) /\ o_todo st = [] /\
     o_factors st = fs' /\ omp_result sys_add (o_accs st) = Ok s) \/
  tbb_runs sys_zero sys_add lin (tbb_init sys_zero fs) (Ok (fs', TDone s)).
Theorem C78_registration : forall nn reject (target : view Ffld N) source k T (fs : list (factor Ffld)),
  let lin := linearize nn reject target source k T in
  all_defined lin fs ->
  exists fs' rs, linearized_once lin fs fs' rs /\
    (forall f s, reduced lin fs f s -> f = fs' /\ forall n, rounded_sum (map (entry n) (accepted rs)) (entry n s)) /\
    (forall f1 s1 f2 s2, reduced lin fs f1 s1 -> reduced lin fs f2 s2 ->
       forall n, agree_up_to_rounding (map (entry n) (accepted rs)) (entry n s1) (entry n s2)).
Proof.
  intros nn reject target source k T fs lin OK.
  destruct (C78_same_summands _ _ sys_zero sys_add lin fs OK) as (fs' & rs & L & (s0 & E0 & S0) & HO & HT).
  assert (A : forall f s, reduced lin fs f s -> f = fs' /\ sums sys_zero sys_add (accepted rs) s).
  { intros f s [H|[(threads & st & Th & H & E & EF & ER)|H]].
    - rewrite E0 in H. injection H as <- <-. auto.
    - destruct (HO threads st Th H E) as (F' & x & Ex & Sx). rewrite ER in Ex. injection Ex as <-. split; [congruence|exact Sx].
    - apply HT. exact H. }
  exists fs', rs. split; [exact L|]. split.
  - intros f s H. destruct (A f s H) as (Ef & Sf). split; [exact Ef|]. intros n. apply sums_rounded.
    eapply sums_map; [apply entry_zero|intros; apply entry_add|exact Sf].
  - intros f1 s1 f2 s2 H1 H2 n. destruct (A _ _ H1) as (_ & A1). destruct (A _ _ H2) as (_ & A2).
    apply two_sums; (eapply sums_map; [apply entry_zero|intros; apply entry_add|eassumption]).
Qed.

(** The summed error (Levenberg-Marquardt's trial steps) likewise: serial, OpenMP with the private
    copies added in any order, TBB. *)
Theorem C78_error : forall F (err : F -> outcome f64) (fs : list F) es, Forall2 (fun f e => err f = Ok e) fs es ->
  let lin := fun (_ : nat) f => let* e := err f in Ok (f, Some e) in
  let zero := nzero (n := Fnum) in
  (exists s, serial_error zero f64_add err fs = Ok s /\ rounded_sum es s) /\
  (forall threads st s, 0 < threads -> omp_runs f64_add lin threads (omp_init zero threads fs) (Ok st) -> o_todo st = [] ->
     omp_error_result zero f64_add (o_accs st) s -> rounded_sum es s) /\
  (forall fs' s, tbb_runs zero f64_add lin (tbb_init zero fs) (Ok (fs', TDone s)) -> rounded_sum es s).
Proof.
  intros F err fs es FA lin zero.
  assert (nthFA : forall i f, nth_error fs i = Some f -> exists e, nth_error es i = Some e /\ err f = Ok e).
  { clear - FA. induction FA as [|f e fs es E FA IH]; intros [|i] g Hg; simpl in *; try discriminate.
    - inversion Hg; subst. eauto.
    - eauto. }
  assert (OK : all_defined lin fs).
  { intros i f Ef. destruct (nthFA i f Ef) as (e & _ & E). exists f, (Some e). unfold lin. rewrite E. reflexivity. }
  assert (Les : length es = length fs) by (clear - FA; induction FA; simpl; auto).
  assert (AE : forall fs', shape F f64 lin fs (fun _ => False) fs' -> all F f64 lin fs = es).
  { intros fs' SH. destruct (shape_done F f64 lin fs OK _ SH) as (L1 & L2 & L3). unfold all.
    assert (R : rets F f64 lin fs = map Some es).
    { apply nth_ext with (d := None) (d' := None); [rewrite L2, map_length; auto|].
      intros i Li. rewrite L2 in Li.
      destruct (nth_error fs i) as [f|] eqn:Ef; [|apply nth_error_None in Ef; lia].
      destruct (L3 i f Ef) as (f' & r & E1 & _ & E3). destruct (nthFA i f Ef) as (e & Ee & E2).
      unfold lin in E1. rewrite E2 in E1. cbn [bind] in E1. injection E1 as <- <-.
      rewrite (nth_error_nth _ _ _ E3). symmetry. apply nth_error_nth. rewrite nth_error_map, Ee. reflexivity. }
    rewrite R. clear. induction es as [|e es IH]; simpl; auto. f_equal. exact IH. }
  split; [|split].
  - exists (fold_left f64_add es zero). split.
    + unfold serial_error. generalize zero. clear - FA. induction FA as [|f e fs es E FA IH]; intros z; cbn [foldM fold_left]; [reflexivity|].
      rewrite E. cbn [bind]. apply IH.
    + apply sums_rounded. apply (sums_fold_one f64 zero f64_add es [] zero). constructor.
  - intros threads st s T H E0 HR.
    destruct (omp_any_runs F f64 zero f64_add lin fs OK threads _ _ (omp_any_init F f64 zero f64_add lin fs threads) H) as (st' & Q1 & I).
    injection Q1 as <-. destruct (omp_any_final F f64 zero f64_add lin fs threads st T I E0) as (_ & SH & HE).
    rewrite <- (AE _ SH). apply sums_rounded, HE, HR.
  - intros fs' s H.
    destruct (tbb_any_runs F f64 zero f64_add lin fs OK _ _ (tbb_any_init F f64 zero f64_add lin fs) H) as (st' & Q1 & I).
    injection Q1 as <-. destruct (tbb_any_final F f64 zero f64_add lin fs _ _ I) as (SX & SH).
    rewrite <- (AE _ SH). apply sums_rounded, SX.
Qed.

(** The bound's hypotheses are met, and the order does matter: 1, 2^-53, 2^-53 added from the left
    and from the right give different doubles (the runs are C25_f64_bitwise_refuted's). *)
Example C78_three : let l := [f64_of 1 0; f64_of 1 (-53); f64_of 1 (-53)] in
  let a := f64_add (f64_add (f64_of 1 0) (f64_of 1 (-53))) (f64_of 1 (-53)) in
  let b := f64_add (f64_of 1 0) (f64_add (f64_of 1 (-53)) (f64_of 1 (-53))) in
  (Z.of_nat (length l) <= 2 ^ 52)%Z /\ (forall y, In y l -> finite y) /\ (sum_abs l <= bpow radix2 1022)%R /\
  sums (nzero (n := Fnum)) f64_add l a /\ sums (nzero (n := Fnum)) f64_add l b /\ f64_lt a b = true.
Proof.
  intros l a b. split; [cbn; lia|]. split; [intros y [<-|[<-|[<-|[]]]]; reflexivity|]. split.
  { unfold sum_abs, Rsuml, l. cbn [map fold_right].
    assert (E1 : B2R (f64_of 1 0) = bpow radix2 0) by (vm_compute; lra).
    assert (E2 : B2R (f64_of 1 (-53)) = bpow radix2 (-53)) by (vm_compute; lra).
    rewrite E1, E2, !Rabs_pos_eq by apply bpow_ge_0.
    assert (bpow radix2 (-53) <= bpow radix2 0)%R by (apply bpow_le; lia).
    assert (bpow radix2 2 <= bpow radix2 1022)%R by (apply bpow_le; lia).
    change (bpow radix2 0) with 1%R in *. change (bpow radix2 2) with 4%R in *. lra. }
  split; [|split; [|vm_compute; reflexivity]].
  - apply (SumPlus _ _ [f64_of 1 0; f64_of 1 (-53)] [f64_of 1 (-53)]); [|constructor].
    apply (SumPlus _ _ [f64_of 1 0] [f64_of 1 (-53)]); constructor.
  - apply (SumPlus _ _ [f64_of 1 0] [f64_of 1 (-53); f64_of 1 (-53)]); [constructor|].
    apply (SumPlus _ _ [f64_of 1 (-53)] [f64_of 1 (-53)]); constructor.
Qed.

Print Assumptions C78_same_summands.
Print Assumptions C78_rounding.
Print Assumptions C78_registration.
Print Assumptions C78_error.
