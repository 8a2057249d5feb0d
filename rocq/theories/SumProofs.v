From Coq Require Import Reals Lra Psatz.
From Flocq Require Import Core BinarySingleNaN.
From Verif Require Import Base BaseProofs Num Vec F64 F64Proofs F64Err Lin FactorModel ReduceModel ReduceSpec ReduceProofs SumSpec.
Open Scope nat_scope.

Lemma Forall2_upd {A B} (R : A -> B -> Prop) ls ms : Forall2 R ls ms -> forall t a b, R a b -> Forall2 R (upd ls t a) (upd ms t b).
Proof. induction 1 as [|x y ls ms H H2 IH]; intros [|t] a b R0; cbn; constructor; auto. Qed.
Lemma Forall2_at {A B} (R : A -> B -> Prop) ls ms : Forall2 R ls ms -> forall t b, nth_error ms t = Some b -> exists a, nth_error ls t = Some a /\ R a b.
Proof. induction 1 as [|x y ls ms H _ IH]; intros [|t] b E; cbn in *; try discriminate; [injection E as <-; eauto|eauto]. Qed.
Lemma Permutation_concat' {A} (l l' : list (list A)) : Permutation l l' -> Permutation (concat l) (concat l').
Proof.
  induction 1 as [|x l l' _ IH|x y l|l1 l2 l3 _ IH1 _ IH2]; cbn [concat]; [reflexivity|apply Permutation_app_head, IH| |etransitivity; eauto].
  rewrite !app_assoc. apply Permutation_app_tail, Permutation_app_comm.
Qed.
Lemma Forall2_swap {A B} (R : A -> B -> Prop) l m : Forall2 R l m -> Forall2 (fun b a => R a b) m l.
Proof. induction 1; constructor; auto. Qed.

Section Any.
Context (F S : Type) (zero : S) (plus : S -> S -> S) (lin : nat -> F -> outcome (F * option S)).
Context (fs0 : list F) (OK : all_defined lin fs0).
Notation sums := (sums zero plus).
Notation ret := (ret F S lin fs0).
Notation shape := (shape F S lin fs0).
Definition opt (r : option S) : list S := match r with Some s => [s] | None => [] end.
Definition adds (a : S) (r : option S) : S := match r with Some s => plus a s | None => a end.

Lemma sums_adds l a r : sums l a -> sums (l ++ opt r) (adds a r).
Proof. intros H. destruct r as [s|]; cbn [opt adds]; [apply SumPlus; [exact H|constructor]|rewrite app_nil_r; exact H]. Qed.
Lemma sums_fold ls accs : Forall2 sums ls accs -> forall l a, sums l a -> sums (l ++ concat ls) (fold_left plus accs a).
Proof.
  induction 1 as [|l0 a0 ls accs H _ IH]; intros l a A; cbn [concat fold_left]; [rewrite app_nil_r; exact A|].
  rewrite app_assoc. apply IH. apply SumPlus; assumption.
Qed.
Lemma sums_fold_one l : forall l0 a, sums l0 a -> sums (l0 ++ l) (fold_left plus l a).
Proof.
  intros l0 a A. replace l with (concat (map (fun x => [x]) l)) at 1 by (induction l; cbn; congruence).
  apply sums_fold; [|exact A]. induction l; constructor; [constructor|assumption].
Qed.

Lemma visit_any (todo : nat -> Prop) fs acc i : shape todo fs -> i < length fs0 -> todo i ->
  exists fs', visit plus lin i (fs, acc) = Ok (fs', adds acc (ret i)) /\ shape (fun j => todo j /\ j <> i) fs'.
Proof using OK zero plus.
  intros [L SH] Li Ti.
  destruct (nth_error fs0 i) as [f|] eqn:Ef; [|apply nth_error_None in Ef; lia].
  destruct (OK i f Ef) as (f' & r & El). destruct (SH i f Ef) as [SH1 _].
  exists (upd fs i f'). split.
  - unfold visit. rewrite (proj2 (get_Ok _ _ _) (SH1 Ti)). cbn [bind]. rewrite El. cbn [bind].
    rewrite set_Ok by lia. cbn [bind]. unfold ReduceProofs.ret. rewrite Ef. unfold out. rewrite El. reflexivity.
  - split; [rewrite upd_length; auto|].
    intros j g Ej. destruct (Nat.eq_dec j i) as [->|NE].
    + split; [tauto|]. intros _. rewrite upd_nth_error_same by lia. rewrite Ef in Ej. inversion Ej; subst g.
      unfold out. rewrite El. reflexivity.
    + destruct (SH j g Ej) as [A B]. rewrite upd_nth_error_other by auto. split; [tauto|]. intros H. apply B. tauto.
Qed.

Definition all : list S := accepted (rets F S lin fs0).
Lemma accepted_app (l1 l2 : list (option S)) : accepted (l1 ++ l2) = accepted l1 ++ accepted l2.
Proof. apply flat_map_app. Qed.
Lemma accepted_cons r (l : list (option S)) : accepted (r :: l) = opt r ++ accepted l.
Proof. destruct r; reflexivity. Qed.

(** * OpenMP *)
Record omp_any (threads : nat) (st : omp_state F S) : Prop := mkOmpAny {
  oa_accs : length (o_accs st) = threads;
  oa_nodup : NoDup (o_todo st);
  oa_in : forall i, In i (o_todo st) -> i < length fs0;
  oa_shape : shape (fun i => In i (o_todo st)) (o_factors st);
  oa_sums : exists ls, Forall2 sums ls (o_accs st) /\ Permutation (concat ls ++ accepted (map ret (o_todo st))) all
}.
Lemma omp_any_init threads : omp_any threads (omp_init zero threads fs0).
Proof.
  split; cbn [omp_init o_accs o_todo o_factors].
  - apply repeat_length.
  - apply seq_NoDup.
  - intros i I. apply in_seq in I. lia.
  - eapply (shape_ext F S lin fs0); [|apply shape_init]. intros i. cbn. rewrite in_seq. lia.
  - exists (repeat [] threads). split; [induction threads; constructor; [constructor|assumption]|].
    assert (Z : concat (repeat (@nil S) threads) = []) by (induction threads; auto). rewrite Z. reflexivity.
Qed.
Lemma concat_upd (ls : list (list S)) : forall t l x, nth_error ls t = Some l -> Permutation (concat (upd ls t (l ++ x))) (concat ls ++ x).
Proof.
  induction ls as [|l0 ls IH]; intros [|t] l x E; cbn in E |- *; try discriminate.
  - injection E as ->. rewrite <- !app_assoc. apply Permutation_app_head, Permutation_app_comm.
  - rewrite (IH t l x E), app_assoc. reflexivity.
Qed.
Lemma omp_any_step threads st o : omp_any threads st -> omp_step plus lin threads st o -> exists st', o = Ok st' /\ omp_any threads st'.
Proof using OK zero plus.
  intros [A N I SH (ls & F2 & P)] H. inversion H; subst. cbn [o_accs o_todo o_factors] in *.
  destruct (nth_error accs t) as [a|] eqn:Ea; [|apply nth_error_None in Ea; lia].
  assert (Li : i < length fs0) by (apply I; apply in_app_iff; simpl; auto).
  destruct (visit_any _ fs a i SH Li ltac:(apply in_app_iff; simpl; auto)) as (fs' & E1 & SH').
  exists (mkOmp fs' (upd accs t (adds a (ret i))) (l1 ++ l2)). split.
  - rewrite (proj2 (get_Ok _ _ _) Ea). cbn [bind]. rewrite E1. cbn [bind]. rewrite set_Ok by lia. reflexivity.
  - destruct (Forall2_at _ _ _ F2 t a Ea) as (l & El & Sl). split; cbn [o_accs o_todo o_factors].
    + rewrite upd_length. auto.
    + eapply NoDup_remove_1. exact N.
    + intros j J. apply I. apply in_app_iff in J. apply in_app_iff. simpl. tauto.
    + eapply (shape_ext F S lin fs0); [|exact SH']. intros j. simpl. apply NoDup_remove_2 in N.
      rewrite !in_app_iff in *. simpl. split.
      * intros [[J|[J|J]] NE]; auto. congruence.
      * intros J. split; [tauto|]. intros ->. tauto.
    + exists (upd ls t (l ++ opt (ret i))). split; [apply Forall2_upd; [exact F2|apply sums_adds; exact Sl]|].
      rewrite (concat_upd _ _ _ _ El). rewrite <- P, !map_app, !accepted_app. cbn [map]. rewrite accepted_cons, <- !app_assoc.
      apply Permutation_app_head. rewrite !app_assoc. apply Permutation_app_tail, Permutation_app_comm.
Qed.
Lemma omp_any_runs threads st o : omp_any threads st -> omp_runs plus lin threads st o -> exists st', o = Ok st' /\ omp_any threads st'.
Proof using OK zero plus.
  intros I H. revert I. induction H as [st|st st1 o H R IH|st o H N]; intros I.
  - eauto.
  - destruct (omp_any_step _ _ _ I H) as (st' & E & I'). inversion E; subst. auto.
  - destruct (omp_any_step _ _ _ I H) as (st' & E & I'). exfalso. eapply N. eauto.
Qed.
Lemma omp_any_final threads st : 0 < threads -> omp_any threads st -> o_todo st = [] ->
  (exists s, omp_result plus (o_accs st) = Ok s /\ sums all s) /\ shape (fun _ => False) (o_factors st) /\
  forall s, omp_error_result zero plus (o_accs st) s -> sums all s.
Proof.
  intros T [A N I SH (ls & F2 & P)] E. rewrite E in *. cbn [map accepted flat_map] in P. rewrite app_nil_r in P. split; [|split].
  - destruct F2 as [|l a ls accs H F2]; [cbn in A; lia|]. exists (fold_left plus accs a). split; [reflexivity|].
    eapply SumPerm; [exact P|]. cbn [concat]. apply sums_fold; assumption.
  - eapply (shape_ext F S lin fs0); [|exact SH]. intros i. simpl. tauto.
  - intros s (accs' & Q & ->). apply Forall2_swap in F2. destruct (Permutation_Forall2 Q F2) as (ls' & Q2 & F3). apply Forall2_swap in F3.
    eapply SumPerm; [rewrite <- P; apply Permutation_concat'; symmetry; exact Q2|]. apply (sums_fold ls' accs' F3 [] zero). constructor.
Qed.

(** * TBB *)
Fixpoint t_has (t : task S) (l : list S) : Prop :=
  match t with
  | TRun _ _ a | TDone a => sums l a
  | TSeq x _ _ => t_has x l
  | TSplit x y => exists l1 l2, t_has x l1 /\ t_has y l2 /\ Permutation l (l1 ++ l2)
  end.
Lemma t_has_perm t : forall l l', Permutation l l' -> t_has t l -> t_has t l'.
Proof.
  induction t as [lo hi a|x IH mid hi|x IHx y IHy|a]; cbn [t_has]; intros l l' P H; [eapply SumPerm; eauto|eauto| |eapply SumPerm; eauto].
  destruct H as (l1 & l2 & A & B & C). exists l1, l2. split; [exact A|]. split; [exact B|]. rewrite <- P. exact C.
Qed.
Notation t_todo := (t_todo S).
Notation t_wf := (t_wf S).
Lemma tbb_any_spec : forall st o, tbb_step zero plus lin st o ->
  forall (todo : nat -> Prop), t_wf (snd st) -> shape todo (fst st) -> NoDup (t_todo (snd st)) ->
  (forall i, In i (t_todo (snd st)) -> i < length fs0 /\ todo i) ->
  exists fs' t', o = Ok (fs', t') /\ t_wf t' /\
    ((fs' = fst st /\ t_todo t' = t_todo (snd st) /\ forall l, t_has (snd st) l -> t_has t' l) \/
     exists l1 i l2, t_todo (snd st) = l1 ++ i :: l2 /\ t_todo t' = l1 ++ l2 /\
       (forall l, t_has (snd st) l -> t_has t' (l ++ opt (ret i))) /\
       shape (fun j => todo j /\ j <> i) fs').
Proof using OK zero plus.
  intros st o H. induction H as [fs lo hi acc LH|fs lo acc|fs lo mid hi acc LH|fs lo mid hi acc LH|fs acc mid hi|fs a b
      |fs l o mid hi H IH|fs l r o H IH|fs l r o H IH]; intros todo WF SH ND IN; cbn [fst snd ReduceProofs.t_wf ReduceProofs.t_todo] in *.
  - destruct (IN lo) as [L T]; [apply in_seq; lia|].
    destruct (visit_any todo fs acc lo SH L T) as (fs' & E & SH').
    exists fs', (TRun (lo + 1) hi (adds acc (ret lo))). rewrite E. cbn [bind]. split; auto.
    cbn [ReduceProofs.t_wf ReduceProofs.t_todo t_has]. split; [lia|].
    right. exists [], lo, (seq (lo + 1) (hi - (lo + 1))).
    replace (hi - lo) with (Datatypes.S (hi - (lo + 1))) by lia. cbn [seq app]. rewrite Nat.add_1_r. split; [reflexivity|]. split; [reflexivity|].
    split; [intros l Hl; apply sums_adds; exact Hl|exact SH'].
  - exists fs, (TDone acc). cbn [ReduceProofs.t_wf ReduceProofs.t_todo t_has]. rewrite Nat.sub_diag. split; [reflexivity|]. split; [exact I|]. left. auto.
  - exists fs, (TSplit (TRun lo mid acc) (TRun mid hi zero)). cbn [ReduceProofs.t_wf ReduceProofs.t_todo t_has].
    split; auto. split; [lia|]. left. split; auto. split.
    + replace (hi - lo) with ((mid - lo) + (hi - mid)) by lia. rewrite seq_app. repeat f_equal. lia.
    + intros l Hl. exists l, []. split; [exact Hl|]. split; [constructor|]. rewrite app_nil_r. reflexivity.
  - exists fs, (TSeq (TRun lo mid acc) mid hi). cbn [ReduceProofs.t_wf ReduceProofs.t_todo t_has].
    split; auto. split; [lia|]. left. split; auto. split; auto.
    replace (hi - lo) with ((mid - lo) + (hi - mid)) by lia. rewrite seq_app. repeat f_equal. lia.
  - exists fs, (TRun mid hi acc). cbn [ReduceProofs.t_wf ReduceProofs.t_todo t_has]. split; [reflexivity|]. split; [tauto|]. left. auto.
  - exists fs, (TDone (plus a b)). cbn [ReduceProofs.t_wf ReduceProofs.t_todo t_has]. split; [reflexivity|]. split; [exact I|]. left. split; auto. split; auto.
    intros l (l1 & l2 & A & B & C). eapply SumPerm; [symmetry; exact C|]. apply SumPlus; assumption.
  - destruct (IH todo) as (fs' & l' & -> & WF' & C).
    + tauto.
    + auto.
    + apply NoDup_app_inv in ND. tauto.
    + intros i I. apply IN. apply in_app_iff. auto.
    + exists fs', (TSeq l' mid hi). cbn [bind ReduceProofs.t_wf ReduceProofs.t_todo t_has]. split; auto. split; [tauto|].
      destruct C as [(-> & -> & C)|(l1 & i & l2 & E1 & E2 & E3 & E4)]; [left; auto|right].
      exists l1, i, (l2 ++ seq mid (hi - mid)). rewrite E1, E2, <- !app_assoc. auto.
  - destruct (IH todo) as (fs' & l' & -> & WF' & C).
    + tauto.
    + auto.
    + apply NoDup_app_inv in ND. tauto.
    + intros i I. apply IN. apply in_app_iff. auto.
    + exists fs', (TSplit l' r). cbn [bind ReduceProofs.t_wf ReduceProofs.t_todo t_has]. split; auto. split; [tauto|].
      destruct C as [(-> & -> & C)|(l1 & i & l2 & E1 & E2 & E3 & E4)].
      * left. split; auto. split; auto. intros m (m1 & m2 & A & B & P). exists m1, m2. auto.
      * right. exists l1, i, (l2 ++ t_todo r). rewrite E1, E2, <- !app_assoc. split; auto. split; auto. split; auto.
        intros m (m1 & m2 & A & B & P). exists (m1 ++ opt (ret i)), m2. split; auto. split; auto.
        rewrite P, <- !app_assoc. apply Permutation_app_head, Permutation_app_comm.
  - destruct (IH todo) as (fs' & l' & -> & WF' & C).
    + tauto.
    + auto.
    + apply NoDup_app_inv in ND. tauto.
    + intros i I. apply IN. apply in_app_iff. auto.
    + exists fs', (TSplit l l'). cbn [bind ReduceProofs.t_wf ReduceProofs.t_todo t_has]. split; auto. split; [tauto|].
      destruct C as [(-> & -> & C)|(l1 & i & l2 & E1 & E2 & E3 & E4)].
      * left. split; auto. split; auto. intros m (m1 & m2 & A & B & P). exists m1, m2. auto.
      * right. exists (t_todo l ++ l1), i, l2. rewrite E1, E2, <- !app_assoc. split; auto. split; auto. split; auto.
        intros m (m1 & m2 & A & B & P). exists m1, (m2 ++ opt (ret i)). split; auto. split; auto.
        rewrite P, <- !app_assoc. reflexivity.
Qed.
Record tbb_any (st : list F * task S) : Prop := mkTbbAny {
  ta_wf : t_wf (snd st);
  ta_nodup : NoDup (t_todo (snd st));
  ta_in : forall i, In i (t_todo (snd st)) -> i < length fs0;
  ta_shape : shape (fun i => In i (t_todo (snd st))) (fst st);
  ta_sums : exists l, t_has (snd st) l /\ Permutation (l ++ accepted (map ret (t_todo (snd st)))) all
}.
Lemma tbb_any_init : tbb_any (tbb_init zero fs0).
Proof.
  split; cbn [tbb_init fst snd ReduceProofs.t_wf ReduceProofs.t_todo t_has]; rewrite ?Nat.sub_0_r.
  - lia.
  - apply seq_NoDup.
  - intros i I. apply in_seq in I. lia.
  - eapply (shape_ext F S lin fs0); [|apply shape_init]. intros i. cbn. rewrite in_seq. lia.
  - exists []. split; [constructor|]. reflexivity.
Qed.
Lemma tbb_any_step st o : tbb_any st -> tbb_step zero plus lin st o -> exists st', o = Ok st' /\ tbb_any st'.
Proof using OK zero plus.
  intros [WF ND IN SH (l & Hl & P)] H.
  destruct (tbb_any_spec st o H (fun i => In i (t_todo (snd st))) WF SH ND) as (fs' & t' & -> & WF' & C).
  { intros i I. auto. }
  exists (fs', t'). split; auto.
  destruct C as [(-> & E1 & E2)|(l1 & i & l2 & E1 & E2 & E3 & E4)]; split; cbn [fst snd]; auto.
  - rewrite E1. auto.
  - rewrite E1. auto.
  - rewrite E1. auto.
  - exists l. rewrite E1. auto.
  - rewrite E2. rewrite E1 in ND. eapply NoDup_remove_1. exact ND.
  - intros j J. apply IN. rewrite E1. rewrite E2 in J. apply in_app_iff in J. apply in_app_iff. simpl. tauto.
  - eapply (shape_ext F S lin fs0); [|exact E4]. intros j. simpl. rewrite E1, E2. rewrite E1 in ND. apply NoDup_remove_2 in ND.
    rewrite !in_app_iff in *. simpl. split.
    + intros [[J|[J|J]] NE]; auto. congruence.
    + intros J. split; [tauto|]. intros ->. tauto.
  - exists (l ++ opt (ret i)). split; [apply E3, Hl|]. rewrite <- P, E1, E2, !map_app, !accepted_app. cbn [map].
    rewrite accepted_cons, <- !app_assoc. apply Permutation_app_head. rewrite !app_assoc. apply Permutation_app_tail, Permutation_app_comm.
Qed.
Lemma tbb_any_runs st o : tbb_any st -> tbb_runs zero plus lin st o -> exists st', o = Ok st' /\ tbb_any st'.
Proof using OK zero plus.
  intros I H. revert I. induction H as [st|st st1 o H R IH|st o H N]; intros I.
  - eauto.
  - destruct (tbb_any_step _ _ I H) as (st' & E & I'). inversion E; subst. auto.
  - destruct (tbb_any_step _ _ I H) as (st' & E & I'). exfalso. eapply N. eauto.
Qed.
Lemma tbb_any_final fs acc : tbb_any (fs, TDone acc) -> sums all acc /\ shape (fun _ => False) fs.
Proof.
  intros [_ _ _ SH (l & Hl & P)]. cbn [fst snd ReduceProofs.t_todo t_has map accepted flat_map] in *. rewrite app_nil_r in P.
  split; [eapply SumPerm; eauto|exact SH].
Qed.
End Any.

(** * Rounding *)
Section Rounding.
Open Scope R_scope.
Notation sumsF := (@sums f64 (nzero (n := Fnum)) f64_add).

Lemma sum_abs_app l1 l2 : sum_abs (l1 ++ l2) = sum_abs l1 + sum_abs l2.
Proof. induction l1 as [|x l IH]; unfold sum_abs, Rsuml in *; cbn [app map fold_right]; [ring|]. rewrite IH. ring. Qed.
Lemma sum_val_app l1 l2 : sum_val (l1 ++ l2) = sum_val l1 + sum_val l2.
Proof. induction l1 as [|x l IH]; unfold sum_val, Rsuml in *; cbn [app map fold_right]; [ring|]. rewrite IH. ring. Qed.
Lemma Rsuml_perm l l' : Permutation l l' -> Rsuml l = Rsuml l'.
Proof. unfold Rsuml. induction 1; cbn [fold_right]; lra. Qed.
Lemma sum_abs_perm l l' : Permutation l l' -> sum_abs l = sum_abs l'.
Proof. intros P. apply Rsuml_perm, Permutation_map, P. Qed.
Lemma sum_val_perm l l' : Permutation l l' -> sum_val l = sum_val l'.
Proof. intros P. apply Rsuml_perm, Permutation_map, P. Qed.

Lemma sums_err l s : sumsF l s -> (forall y, In y l -> finite y) -> (1 + u64) ^ length l * sum_abs l <= bpow radix2 1023 ->
  finite s /\ Rabs (B2R s - sum_val l) <= ((1 + u64) ^ length l - 1) * sum_abs l /\ (l = [] -> B2R s = 0).
Proof.
  pose proof u64_pos as U.
  induction 1 as [|x|l1 l2 a b H1 IH1 H2 IH2|l l' a P H IH]; intros FL BD.
  - split; [reflexivity|]. split; [|reflexivity]. replace (sum_val []) with 0 by reflexivity. change (sum_abs []) with 0. cbn [B2R nzero Fnum].
    rewrite Rminus_0_r, Rabs_R0, Rmult_0_r. lra.
  - split; [apply FL; left; reflexivity|]. split; [|discriminate]. unfold sum_val, sum_abs. cbn -[u64]. rewrite !Rplus_0_r, Rminus_eq_0, Rabs_R0.
    pose proof (Rabs_pos (B2R x)). nra.
  - rewrite app_length, sum_abs_app in BD.
    pose proof (sum_abs_pos l1) as P1. pose proof (sum_abs_pos l2) as P2.
    pose proof (pow1u_ge1 (length l1)) as G1. pose proof (pow1u_ge1 (length l2)) as G2.
    set (n := (length l1 + length l2)%nat) in *. pose proof (pow1u_ge1 n) as G.
    assert (Q1 : (1 + u64) ^ length l1 <= (1 + u64) ^ n) by (apply Rle_pow; [lra|unfold n; lia]).
    assert (Q2 : (1 + u64) ^ length l2 <= (1 + u64) ^ n) by (apply Rle_pow; [lra|unfold n; lia]).
    destruct IH1 as (Fa & Ea & Za); [intros y Y; apply FL, in_app_iff; auto|eapply Rle_trans; [|exact BD]; apply Rmult_le_compat; lra|].
    destruct IH2 as (Fb & Eb & Zb); [intros y Y; apply FL, in_app_iff; auto|eapply Rle_trans; [|exact BD]; apply Rmult_le_compat; lra|].
    pose proof (sum_val_abs l1) as V1. pose proof (sum_val_abs l2) as V2.
    set (g1 := (1 + u64) ^ length l1) in *. set (g2 := (1 + u64) ^ length l2) in *. set (g := (1 + u64) ^ n) in *.
    assert (A1 : Rabs (B2R a) <= g1 * sum_abs l1).
    { replace (B2R a) with ((B2R a - sum_val l1) + sum_val l1) by ring. eapply Rle_trans; [apply Rabs_triang|]. lra. }
    assert (A2 : Rabs (B2R b) <= g2 * sum_abs l2).
    { replace (B2R b) with ((B2R b - sum_val l2) + sum_val l2) by ring. eapply Rle_trans; [apply Rabs_triang|]. lra. }
    assert (AB : Rabs (B2R a + B2R b) <= g1 * sum_abs l1 + g2 * sum_abs l2) by (eapply Rle_trans; [apply Rabs_triang|lra]).
    destruct (add_finite a b 1023 Fa Fb) as (Fs & Es); [lia|eapply Rle_trans; [exact AB|]; nra|].
    split; [exact Fs|]. rewrite sum_val_app, sum_abs_app, app_length. fold n g. split.
    2:{ intros E. apply app_eq_nil in E. destruct E as (-> & ->). rewrite Es, (Za eq_refl), (Zb eq_refl), Rplus_0_r. apply round_0. typeclasses eauto. }
    destruct l1 as [|x1 l1].
    { rewrite Es, (Za eq_refl), Rplus_0_l. unfold rnd. rewrite round_generic by (try typeclasses eauto; apply generic_format_B2R).
      unfold sum_val at 1, sum_abs at 1. unfold Rsuml at 1 2. cbn [map fold_right]. rewrite !Rplus_0_l. eapply Rle_trans; [exact Eb|]. apply Rmult_le_compat_r; lra. }
    destruct l2 as [|x2 l2].
    { rewrite Es, (Zb eq_refl), Rplus_0_r. unfold rnd. rewrite round_generic by (try typeclasses eauto; apply generic_format_B2R).
      replace (sum_val (@nil f64)) with 0 by reflexivity. replace (sum_abs (@nil f64)) with 0 by reflexivity. rewrite !Rplus_0_r.
      eapply Rle_trans; [exact Ea|]. apply Rmult_le_compat_r; lra. }
    assert (K1 : (1 + u64) * g1 <= g) by (unfold g1, g; rewrite tech_pow_Rmult; apply Rle_pow; [lra|unfold n; cbn [length]; lia]).
    assert (K2 : (1 + u64) * g2 <= g) by (unfold g2, g; rewrite tech_pow_Rmult; apply Rle_pow; [lra|unfold n; cbn [length]; lia]).
    rewrite Es. pose proof (rnd_add_err a b Fa Fb) as R.
    set (m1 := sum_abs (x1 :: l1)) in *. set (m2 := sum_abs (x2 :: l2)) in *. set (w1 := sum_val (x1 :: l1)) in *. set (w2 := sum_val (x2 :: l2)) in *.
    replace (rnd (B2R a + B2R b) - (w1 + w2)) with ((rnd (B2R a + B2R b) - (B2R a + B2R b)) + ((B2R a - w1) + (B2R b - w2))) by ring.
    eapply Rle_trans; [apply Rabs_triang|]. pose proof (Rabs_triang (B2R a - w1) (B2R b - w2)) as T.
    assert (u64 * Rabs (B2R a + B2R b) <= u64 * (g1 * m1 + g2 * m2)) by (apply Rmult_le_compat_l; lra).
    assert ((1 + u64) * g1 * m1 <= g * m1) by (apply Rmult_le_compat_r; lra).
    assert ((1 + u64) * g2 * m2 <= g * m2) by (apply Rmult_le_compat_r; lra).
    lra.
  - rewrite <- (Permutation_length P), <- (sum_abs_perm _ _ P) in *. rewrite <- (sum_val_perm _ _ P).
    destruct IH as (A & B & C); [intros y Y; apply FL; eapply Permutation_in; eauto|exact BD|]. split; [exact A|]. split; [exact B|].
    intros ->. apply C. apply Permutation_nil. symmetry. exact P.
Qed.

Lemma pow1u_linear n : INR n * u64 <= / 2 -> (1 + u64) ^ n <= 1 + 2 * (INR n * u64).
Proof.
  intros H. pose proof u64_pos as U. pose proof (pos_INR n) as N.
  assert (Q : (1 - INR n * u64) * (1 + u64) ^ n <= 1).
  { clear H N. induction n as [|n IH]; [cbn; lra|]. rewrite S_INR, <- tech_pow_Rmult.
    pose proof (pow1u_ge1 n). pose proof (pos_INR n).
    assert (0 <= (INR n + 1) * (u64 * u64) * (1 + u64) ^ n) by (repeat apply Rmult_le_pos; lra). lra. }
  pose proof (pow1u_ge1 n) as G. set (x := INR n * u64) in *. assert (0 <= x) by (apply Rmult_le_pos; lra). nra.
Qed.

Lemma sums_rounded l s : sumsF l s -> rounded_sum l s.
Proof.
  intros H LN FL BD. pose proof u64_pos as U. pose proof (sum_abs_pos l) as P.
  assert (X : INR (length l) * u64 <= / 2).
  { rewrite INR_IZR_INZ. apply IZR_le in LN. change (IZR (2 ^ 52)) with (bpow radix2 52) in LN.
    apply (Rmult_le_compat_r u64) in LN; [|lra]. unfold u64 in LN at 2. rewrite <- bpow_plus in LN. cbn [Z.add Z.opp] in LN.
    change (bpow radix2 (52 + -53)) with (/ 2) in LN. exact LN. }
  pose proof (pow1u_linear _ X) as L.
  destruct (sums_err l s H FL) as (F & E & _).
  { apply Rle_trans with (2 * sum_abs l); [apply Rmult_le_compat_r; lra|]. change 1023%Z with (1 + 1022)%Z. rewrite bpow_plus.
    change (bpow radix2 1) with 2. lra. }
  split; [exact F|]. eapply Rle_trans; [exact E|]. apply Rmult_le_compat_r; [exact P|].
  replace (bpow radix2 (-52)) with (2 * u64); [lra|]. unfold u64. change (-52)%Z with (1 + -53)%Z. rewrite bpow_plus. reflexivity.
Qed.
End Rounding.

(** * Projections *)
Lemma sums_map {S T} (zero : S) plus (zero' : T) plus' (pi : S -> T) : pi zero = zero' -> (forall a b, pi (plus a b) = plus' (pi a) (pi b)) ->
  forall l s, sums zero plus l s -> sums zero' plus' (map pi l) (pi s).
Proof.
  intros H0 H1 l s H. induction H as [|x|l1 l2 a b A IHa B IHb|l l' a P A IH].
  - rewrite H0. constructor.
  - constructor.
  - rewrite map_app, H1. constructor; assumption.
  - eapply SumPerm; [apply Permutation_map; exact P|exact IH].
Qed.
Lemma entry_zero n : entry n (sys_zero (D := Ffld)) = nzero.
Proof. unfold entry. do 43 (destruct n as [|n]; [reflexivity|]). destruct n; reflexivity. Qed.
Lemma entry_add n (a b : sys Ffld) : entry n (sys_add a b) = f64_add (entry n a) (entry n b).
Proof.
  unfold entry. do 43 (destruct n as [|n]; [reflexivity|]).
  rewrite !nth_overflow by (cbn; lia). vm_compute. reflexivity.
Qed.

(** * Serial loop, uniqueness of the linearisation *)
Lemma serial_any F Q (zero : Q) plus (lin : nat -> F -> outcome (F * option Q)) fs0 : all_defined lin fs0 ->
  exists fs' s, serial zero plus lin fs0 = Ok (fs', s).
Proof.
  intros OK. unfold serial.
  assert (G : forall n lo fs acc, lo + n = length fs0 -> shape F Q lin fs0 (fun j => lo <= j < length fs0) fs ->
    exists fs' s, foldM (fun st i => visit plus lin i st) (seq lo n) (fs, acc) = Ok (fs', s)).
  { induction n as [|n IH]; intros lo fs acc E SH; cbn [seq foldM]; [eauto|].
    destruct (visit_any F Q zero plus lin fs0 OK (fun j => lo <= j < length fs0) fs acc lo SH ltac:(lia) ltac:(cbn; lia)) as (fs' & -> & SH'). cbn [bind].
    apply IH; [lia|]. eapply (shape_ext F Q lin fs0); [|exact SH']. intros j. cbn. lia. }
  apply G; [lia|]. eapply (shape_ext F Q lin fs0); [|apply shape_init]. intros j. cbn. lia.
Qed.
Lemma once_unique F Q (lin : nat -> F -> outcome (F * option Q)) fs a ra b rb :
  linearized_once lin fs a ra -> linearized_once lin fs b rb -> a = b /\ ra = rb.
Proof.
  intros (La1 & La2 & La3) (Lb1 & Lb2 & Lb3). split.
  - apply nth_error_ext_eq; [congruence|]. intros i x Ex.
    assert (Li : i < length fs) by (rewrite <- Lb1; apply nth_error_Some; congruence).
    destruct (nth_error fs i) as [f|] eqn:Ef; [|apply nth_error_None in Ef; lia].
    destruct (La3 i f Ef) as (x1 & r1 & A1 & A2 & A3). destruct (Lb3 i f Ef) as (x2 & r2 & B1 & B2 & B3). congruence.
  - apply nth_error_ext_eq; [congruence|]. intros i x Ex.
    assert (Li : i < length fs) by (rewrite <- Lb2; apply nth_error_Some; congruence).
    destruct (nth_error fs i) as [f|] eqn:Ef; [|apply nth_error_None in Ef; lia].
    destruct (La3 i f Ef) as (x1 & r1 & A1 & A2 & A3). destruct (Lb3 i f Ef) as (x2 & r2 & B1 & B2 & B3). congruence.
Qed.
