From Verif Require Import Base BaseProofs ReduceModel ReduceSpec.

Lemma NoDup_app_inv {A} (a b : list A) : NoDup (a ++ b) -> NoDup a /\ NoDup b.
Proof.
  induction a as [|x a IH]; simpl; intros H; [split; [constructor|auto]|].
  inversion H; subst. destruct IH as [Ha Hb]; auto. split; auto. constructor; auto.
  intros I. apply H2. apply in_app_iff. auto.
Qed.

Lemma nth_error_ext_eq {A} (a b : list A) : length a = length b ->
  (forall i x, nth_error b i = Some x -> nth_error a i = Some x) -> a = b.
Proof.
  revert b. induction a as [|x a IH]; intros [|y b] L H; simpl in *; try discriminate; auto.
  pose proof (H 0 y eq_refl) as H0. simpl in H0. inversion H0; subst. f_equal. apply IH; [lia|].
  intros i z. exact (H (S i) z).
Qed.

Section Proofs.
Context (F S : Type) (zero : S) (plus : S -> S -> S) (lin : nat -> F -> outcome (F * option S)).
Context (CM : comm_monoid zero plus).
Context (fs0 : list F) (OK : all_defined lin fs0).

Notation visit := (visit plus lin).

Definition out (i : nat) (f : F) : F * option S :=
  match lin i f with Ok p => p | _ => (f, None) end.
Definition ret (i : nat) : option S :=
  match nth_error fs0 i with Some f => snd (out i f) | None => None end.
Definition contrib (i : nat) : S := match ret i with Some s => s | None => zero end.
Definition total : S := sum_all zero plus (map contrib (seq 0 (length fs0))).
Definition rets : list (option S) := map ret (seq 0 (length fs0)).

Lemma zero_r a : plus a zero = a.
Proof. rewrite (cm_comm _ _ CM). apply (cm_zero _ _ CM). Qed.

Lemma sum_app l1 l2 : sum_all zero plus (l1 ++ l2) = plus (sum_all zero plus l1) (sum_all zero plus l2).
Proof.
  induction l1 as [|a l1 IH]; simpl; [symmetry; apply (cm_zero _ _ CM)|].
  rewrite IH. apply (cm_assoc _ _ CM).
Qed.
Lemma sum_perm l1 l2 : Permutation l1 l2 -> sum_all zero plus l1 = sum_all zero plus l2.
Proof.
  induction 1; simpl; auto; try congruence.
  rewrite (cm_assoc _ _ CM), (cm_comm _ _ CM y x), <- (cm_assoc _ _ CM). reflexivity.
Qed.
Lemma fold_left_sum l : forall a, fold_left plus l a = plus a (sum_all zero plus l).
Proof.
  induction l as [|x l IH]; intros a; simpl; [symmetry; apply zero_r|].
  rewrite IH. symmetry. apply (cm_assoc _ _ CM).
Qed.
Lemma sum_accepted rs :
  sum_all zero plus (accepted rs) = sum_all zero plus (map (fun r => match r with Some s => s | None => zero end) rs).
Proof.
  induction rs as [|[s|] rs IH]; simpl; auto.
  - fold (accepted rs). rewrite IH. reflexivity.
  - fold (accepted rs). rewrite IH. symmetry. apply (cm_zero _ _ CM).
Qed.
Lemma total_eq : total = sum_all zero plus (accepted rets).
Proof. rewrite sum_accepted. unfold total, rets. rewrite map_map. reflexivity. Qed.

(** Factors during a run: untouched where still to do, linearised elsewhere. *)
Definition shape (todo : nat -> Prop) (fs : list F) : Prop :=
  length fs = length fs0 /\
  forall i f, nth_error fs0 i = Some f ->
    (todo i -> nth_error fs i = Some f) /\ (~ todo i -> nth_error fs i = Some (fst (out i f))).

Lemma visit_spec (todo : nat -> Prop) fs acc i : shape todo fs -> i < length fs0 -> todo i ->
  exists fs', visit i (fs, acc) = Ok (fs', plus acc (contrib i)) /\
    shape (fun j => todo j /\ j <> i) fs'.
Proof.
  intros [L SH] Li Ti.
  destruct (nth_error fs0 i) as [f|] eqn:Ef; [|apply nth_error_None in Ef; lia].
  destruct (OK i f Ef) as (f' & r & El). destruct (SH i f Ef) as [SH1 _].
  assert (Hset : set fs i f' = Ok (upd fs i f')) by (apply set_Ok; lia).
  exists (upd fs i f'). split.
  - unfold ReduceModel.visit. rewrite (proj2 (get_Ok _ _ _) (SH1 Ti)). cbn [bind]. rewrite El. cbn [bind].
    rewrite Hset. cbn [bind]. f_equal. f_equal. unfold contrib, ret. rewrite Ef. unfold out. rewrite El.
    cbn [snd]. destruct r; [reflexivity|]. symmetry. apply zero_r.
  - split; [rewrite upd_length; auto|].
    intros j g Ej. destruct (Nat.eq_dec j i) as [->|NE].
    + split; [tauto|]. intros _. rewrite upd_nth_error_same by lia. rewrite Ef in Ej. inversion Ej; subst g.
      unfold out. rewrite El. reflexivity.
    + destruct (SH j g Ej) as [A B]. rewrite upd_nth_error_other by auto. split; [tauto|].
      intros H. apply B. tauto.
Qed.

Lemma shape_init : shape (fun i => i < length fs0) fs0.
Proof.
  split; auto. intros i f E. split; auto. intros H. exfalso. apply H. apply nth_error_Some. congruence.
Qed.

Lemma shape_ext (t1 t2 : nat -> Prop) fs : (forall i, t1 i <-> t2 i) -> shape t1 fs -> shape t2 fs.
Proof.
  intros E [L SH]. split; auto. intros i f Ef. destruct (SH i f Ef) as [A B]. specialize (E i).
  split; intros; [apply A|apply B]; tauto.
Qed.

Lemma shape_done fs : shape (fun _ => False) fs -> linearized_once lin fs0 fs rets.
Proof.
  intros [L SH]. split; [auto|]. split; [unfold rets; rewrite map_length, seq_length; auto|].
  intros i f Ef. destruct (OK i f Ef) as (f' & r & El). exists f', r. split; auto.
  destruct (SH i f Ef) as [_ B]. split.
  - rewrite B by auto. unfold out. rewrite El. reflexivity.
  - unfold rets. assert (Li : i < length fs0) by (apply nth_error_Some; congruence).
    rewrite nth_error_map. rewrite nth_error_nth' with (d := 0) by (rewrite seq_length; auto).
    rewrite seq_nth by auto. simpl. unfold ret. rewrite Ef. unfold out. rewrite El. reflexivity.
Qed.

(** Serial *)
Lemma serial_spec : exists fs', serial zero plus lin fs0 = Ok (fs', total) /\ shape (fun _ => False) fs'.
Proof.
  unfold serial.
  assert (H : forall n lo fs acc, lo + n = length fs0 -> shape (fun i => lo <= i < length fs0) fs ->
    exists fs', foldM (fun st i => visit i st) (seq lo n) (fs, acc)
       = Ok (fs', plus acc (sum_all zero plus (map contrib (seq lo n)))) /\ shape (fun _ => False) fs').
  { induction n as [|n IH]; intros lo fs acc E SH.
    - exists fs. split; [simpl; rewrite zero_r; reflexivity|]. eapply shape_ext; [|exact SH]. intros i. simpl. lia.
    - destruct (visit_spec _ fs acc lo SH ltac:(lia) ltac:(simpl; lia)) as (fs1 & E1 & SH1).
      destruct (IH (Datatypes.S lo) fs1 (plus acc (contrib lo)) ltac:(lia)) as (fs2 & E2 & SH2).
      { eapply shape_ext; [|exact SH1]. intros i. simpl. lia. }
      exists fs2. split; auto. cbn [seq foldM]. rewrite E1. cbn [bind]. rewrite E2. simpl.
      rewrite (cm_assoc _ _ CM). reflexivity. }
  destruct (H (length fs0) 0 fs0 zero ltac:(lia)) as (fs' & E & SH).
  { eapply shape_ext; [|exact shape_init]. intros i. simpl. lia. }
  exists fs'. split; auto. etransitivity; [exact E|]. rewrite (cm_zero _ _ CM). reflexivity.
Qed.

(** OpenMP *)
Record omp_inv (threads : nat) (st : omp_state F S) : Prop := mkOmpInv {
  oi_accs : length (o_accs st) = threads;
  oi_nodup : NoDup (o_todo st);
  oi_in : forall i, In i (o_todo st) -> i < length fs0;
  oi_shape : shape (fun i => In i (o_todo st)) (o_factors st);
  oi_sum : plus (sum_all zero plus (o_accs st)) (sum_all zero plus (map contrib (o_todo st))) = total
}.

Lemma omp_inv_init threads : omp_inv threads (omp_init zero threads fs0).
Proof.
  split; cbn [omp_init o_accs o_todo o_factors].
  - apply repeat_length.
  - apply seq_NoDup.
  - intros i I. apply in_seq in I. lia.
  - eapply shape_ext; [|exact shape_init]. intros i. simpl. rewrite in_seq. lia.
  - assert (Z : sum_all zero plus (repeat zero threads) = zero).
    { induction threads as [|n IH]; simpl; auto. rewrite IH. apply (cm_zero _ _ CM). }
    rewrite Z. apply (cm_zero _ _ CM).
Qed.

Lemma sum_upd accs t a x : nth_error accs t = Some a ->
  sum_all zero plus (upd accs t (plus a x)) = plus (sum_all zero plus accs) x.
Proof.
  revert t. induction accs as [|b accs IH]; intros [|t] E; simpl in *; try discriminate.
  - inversion E; subst b. rewrite <- !(cm_assoc _ _ CM). f_equal. apply (cm_comm _ _ CM).
  - rewrite IH by auto. apply (cm_assoc _ _ CM).
Qed.

Lemma omp_step_inv threads st o : omp_inv threads st -> omp_step plus lin threads st o ->
  exists st', o = Ok st' /\ omp_inv threads st' /\ length (o_todo st') + 1 = length (o_todo st).
Proof.
  intros [A N I SH SU] H. inversion H; subst. cbn [o_accs o_todo o_factors] in *.
  destruct (nth_error accs t) as [a|] eqn:Ea; [|apply nth_error_None in Ea; lia].
  assert (Li : i < length fs0) by (apply I; apply in_app_iff; simpl; auto).
  destruct (visit_spec _ fs a i SH Li ltac:(apply in_app_iff; simpl; auto)) as (fs' & E1 & SH').
  assert (Hset : set accs t (plus a (contrib i)) = Ok (upd accs t (plus a (contrib i)))).
  { apply set_Ok. lia. }
  exists (mkOmp fs' (upd accs t (plus a (contrib i))) (l1 ++ l2)). split; [|split].
  - rewrite (proj2 (get_Ok _ _ _) Ea). cbn [bind]. rewrite E1. cbn [bind]. rewrite Hset. reflexivity.
  - split; cbn [o_accs o_todo o_factors].
    + rewrite upd_length. auto.
    + eapply NoDup_remove_1. exact N.
    + intros j J. apply I. apply in_app_iff in J. apply in_app_iff. simpl. tauto.
    + eapply shape_ext; [|exact SH']. intros j. simpl. apply NoDup_remove_2 in N.
      rewrite !in_app_iff in *. simpl. split.
      * intros [[J|[J|J]] NE]; auto. congruence.
      * intros J. split; [tauto|]. intros ->. tauto.
    + rewrite (sum_upd _ _ _ _ Ea). rewrite <- (cm_assoc _ _ CM).
      rewrite <- SU. f_equal. rewrite !map_app. simpl. rewrite !sum_app. simpl.
      rewrite (cm_assoc _ _ CM), (cm_comm _ _ CM (contrib i)), <- (cm_assoc _ _ CM). reflexivity.
  - cbn [o_todo]. rewrite !app_length. simpl. lia.
Qed.

Lemma omp_runs_inv threads st o : omp_inv threads st -> omp_runs plus lin threads st o ->
  exists st', o = Ok st' /\ omp_inv threads st'.
Proof.
  intros I H. revert I. induction H; intros I.
  - eauto.
  - destruct (omp_step_inv _ _ _ I H) as (st' & E & I' & _). inversion E; subst. auto.
  - destruct (omp_step_inv _ _ _ I H) as (st' & E & I' & _). exfalso. eapply H0. eauto.
Qed.

Lemma omp_final threads st : 0 < threads -> omp_inv threads st -> o_todo st = [] ->
  omp_result plus (o_accs st) = Ok total /\ shape (fun _ => False) (o_factors st) /\
  forall s, omp_error_result zero plus (o_accs st) s -> s = total.
Proof.
  intros T [A N I SH SU] E. rewrite E in *. simpl in SU. rewrite zero_r in SU. split; [|split].
  - destruct (o_accs st) as [|a accs] eqn:EA; [simpl in A; lia|]. unfold omp_result. cbn [get bind nth_error tl].
    rewrite fold_left_sum. simpl in SU. rewrite SU. reflexivity.
  - eapply shape_ext; [|exact SH]. intros i. simpl. tauto.
  - intros s (accs' & P & ->). rewrite fold_left_sum, (cm_zero _ _ CM), <- (sum_perm _ _ P). exact SU.
Qed.

Lemma omp_progress threads st : 0 < threads -> omp_inv threads st -> o_todo st <> [] ->
  exists o, omp_step plus lin threads st o.
Proof.
  intros T I NE. destruct st as [fs accs [|i l]]; [cbn in NE; congruence|].
  eexists. apply (OmpStep _ _ plus lin threads fs accs [] i l 0 T).
Qed.

(** TBB *)
Fixpoint t_todo (t : task S) : list nat :=
  match t with
  | TRun lo hi _ => seq lo (hi - lo)
  | TSeq l mid hi => t_todo l ++ seq mid (hi - mid)
  | TSplit l r => t_todo l ++ t_todo r
  | TDone _ => []
  end.
Fixpoint t_sum (t : task S) : S :=
  match t with
  | TRun _ _ a | TDone a => a
  | TSeq l _ _ => t_sum l
  | TSplit l r => plus (t_sum l) (t_sum r)
  end.
Fixpoint t_wf (t : task S) : Prop :=
  match t with
  | TRun lo hi _ => lo <= hi
  | TSeq l mid hi => t_wf l /\ mid <= hi
  | TSplit l r => t_wf l /\ t_wf r
  | TDone _ => True
  end.
Definition weight (n : nat) : nat := match n with 0 => 1 | Datatypes.S _ => 4 * n - 2 end.
Fixpoint t_weight (t : task S) : nat :=
  match t with
  | TRun lo hi _ => weight (hi - lo)
  | TSeq l mid hi => 1 + t_weight l + weight (hi - mid)
  | TSplit l r => 1 + t_weight l + t_weight r
  | TDone _ => 0
  end.
Record tbb_inv (st : list F * task S) : Prop := mkTbbInv {
  ti_wf : t_wf (snd st);
  ti_nodup : NoDup (t_todo (snd st));
  ti_in : forall i, In i (t_todo (snd st)) -> i < length fs0;
  ti_shape : shape (fun i => In i (t_todo (snd st))) (fst st);
  ti_sum : plus (t_sum (snd st)) (sum_all zero plus (map contrib (t_todo (snd st)))) = total
}.

(** What one step of a task does: either it consumes one index, or none. *)
Lemma tbb_step_spec : forall st o, tbb_step zero plus lin st o ->
  forall (todo : nat -> Prop), t_wf (snd st) -> shape todo (fst st) -> NoDup (t_todo (snd st)) ->
  (forall i, In i (t_todo (snd st)) -> i < length fs0 /\ todo i) ->
  exists fs' t', o = Ok (fs', t') /\ t_wf t' /\ t_weight t' < t_weight (snd st) /\
    ((fs' = fst st /\ t_todo t' = t_todo (snd st) /\ t_sum t' = t_sum (snd st)) \/
     exists l1 i l2, t_todo (snd st) = l1 ++ i :: l2 /\ t_todo t' = l1 ++ l2 /\
       t_sum t' = plus (t_sum (snd st)) (contrib i) /\
       shape (fun j => todo j /\ j <> i) fs').
Proof.
  intros st o H. induction H; intros todo WF SH ND IN; cbn [fst snd t_wf t_todo t_sum t_weight] in *.
  - destruct (IN lo) as [L T]; [apply in_seq; lia|].
    destruct (visit_spec todo fs acc lo SH L T) as (fs' & E & SH').
    exists fs', (TRun (lo + 1) hi (plus acc (contrib lo))). rewrite E. cbn [bind]. split; auto.
    cbn [t_wf t_weight t_todo t_sum]. split; [lia|]. split.
    { unfold weight. destruct (hi - lo) eqn:E1, (hi - (lo + 1)) eqn:E2; lia. }
    right. exists [], lo, (seq (lo + 1) (hi - (lo + 1))). simpl.
    replace (hi - lo) with (Datatypes.S (hi - (lo + 1))) by lia. simpl. rewrite Nat.add_1_r. auto.
  - exists fs, (TDone acc). cbn [t_wf t_weight t_todo t_sum]. rewrite Nat.sub_diag.
    repeat apply conj; auto.
  - exists fs, (TSplit (TRun lo mid acc) (TRun mid hi zero)). cbn [t_wf t_weight t_todo t_sum].
    split; auto. split; [lia|]. split.
    { unfold weight. destruct (hi - lo) eqn:E1, (mid - lo) eqn:E2, (hi - mid) eqn:E3; lia. }
    left. split; auto. split; [|apply zero_r].
    replace (hi - lo) with ((mid - lo) + (hi - mid)) by lia. rewrite seq_app. repeat f_equal. lia.
  - exists fs, (TSeq (TRun lo mid acc) mid hi). cbn [t_wf t_weight t_todo t_sum].
    split; auto. split; [lia|]. split.
    { unfold weight. destruct (hi - lo) eqn:E1, (mid - lo) eqn:E2, (hi - mid) eqn:E3; lia. }
    left. split; auto. split; auto.
    replace (hi - lo) with ((mid - lo) + (hi - mid)) by lia. rewrite seq_app. repeat f_equal. lia.
  - exists fs, (TRun mid hi acc). cbn [t_wf t_weight t_todo t_sum]. split; [reflexivity|]. split; [tauto|]. split; [lia|]. left. auto.
  - exists fs, (TDone (plus a b)). cbn [t_wf t_weight t_todo t_sum]. split; [reflexivity|]. split; [exact I|]. split; [lia|]. left. auto.
  - destruct (IHtbb_step todo) as (fs' & l' & -> & WF' & LT & C).
    + tauto.
    + auto.
    + apply NoDup_app_inv in ND. tauto.
    + intros i I. apply IN. apply in_app_iff. auto.
    + exists fs', (TSeq l' mid hi). cbn [bind t_wf t_weight t_todo t_sum]. split; auto. split; [tauto|]. split; [lia|].
      destruct C as [(-> & -> & ->)|(l1 & i & l2 & E1 & E2 & E3 & E4)]; [left; auto|right].
      exists l1, i, (l2 ++ seq mid (hi - mid)). rewrite E1, E2, <- !app_assoc. auto.
  - destruct (IHtbb_step todo) as (fs' & l' & -> & WF' & LT & C).
    + tauto.
    + auto.
    + apply NoDup_app_inv in ND. tauto.
    + intros i I. apply IN. apply in_app_iff. auto.
    + exists fs', (TSplit l' r). cbn [bind t_wf t_weight t_todo t_sum]. split; auto. split; [tauto|]. split; [lia|].
      destruct C as [(-> & -> & ->)|(l1 & i & l2 & E1 & E2 & E3 & E4)]; [left; auto|right].
      exists l1, i, (l2 ++ t_todo r). rewrite E1, E2, E3, <- !app_assoc. split; auto. split; auto. split; auto.
      rewrite <- !(cm_assoc _ _ CM). f_equal. apply (cm_comm _ _ CM).
  - destruct (IHtbb_step todo) as (fs' & l' & -> & WF' & LT & C).
    + tauto.
    + auto.
    + apply NoDup_app_inv in ND. tauto.
    + intros i I. apply IN. apply in_app_iff. auto.
    + exists fs', (TSplit l l'). cbn [bind t_wf t_weight t_todo t_sum]. split; auto. split; [tauto|]. split; [lia|].
      destruct C as [(-> & -> & ->)|(l1 & i & l2 & E1 & E2 & E3 & E4)]; [left; auto|right].
      exists (t_todo l ++ l1), i, l2. rewrite E1, E2, E3, <- !app_assoc. split; auto. split; auto. split; auto.
      apply (cm_assoc _ _ CM).
Qed.

Lemma tbb_inv_init : tbb_inv (tbb_init zero fs0).
Proof.
  split; cbn [tbb_init fst snd t_wf t_todo t_sum]; rewrite ?Nat.sub_0_r.
  - lia.
  - apply seq_NoDup.
  - intros i I. apply in_seq in I. lia.
  - eapply shape_ext; [|exact shape_init]. intros i. simpl. rewrite in_seq. lia.
  - apply (cm_zero _ _ CM).
Qed.

Lemma tbb_step_inv st o : tbb_inv st -> tbb_step zero plus lin st o ->
  exists st', o = Ok st' /\ tbb_inv st' /\ t_weight (snd st') < t_weight (snd st).
Proof.
  intros [WF ND IN SH SU] H.
  destruct (tbb_step_spec st o H (fun i => In i (t_todo (snd st))) WF SH ND) as (fs' & t' & -> & WF' & LT & C).
  { intros i I. auto. }
  exists (fs', t'). split; auto. split; auto.
  destruct C as [(-> & E1 & E2)|(l1 & i & l2 & E1 & E2 & E3 & E4)]; split; cbn [fst snd]; auto.
  - rewrite E1. auto.
  - rewrite E1. auto.
  - rewrite E1. auto.
  - rewrite E1, E2. auto.
  - rewrite E2. rewrite E1 in ND. eapply NoDup_remove_1. exact ND.
  - intros j J. apply IN. rewrite E1. rewrite E2 in J. apply in_app_iff in J. apply in_app_iff. simpl. tauto.
  - eapply shape_ext; [|exact E4]. intros j. simpl. rewrite E1, E2. rewrite E1 in ND. apply NoDup_remove_2 in ND.
    rewrite !in_app_iff in *. simpl. split.
    + intros [[J|[J|J]] NE]; auto. congruence.
    + intros J. split; [tauto|]. intros ->. tauto.
  - rewrite <- SU, E1, E2, E3. rewrite <- (cm_assoc _ _ CM). f_equal. rewrite !map_app. simpl. rewrite !sum_app. simpl.
    rewrite (cm_assoc _ _ CM), (cm_comm _ _ CM (contrib i)), <- (cm_assoc _ _ CM). reflexivity.
Qed.

Lemma tbb_runs_inv st o : tbb_inv st -> tbb_runs zero plus lin st o -> exists st', o = Ok st' /\ tbb_inv st'.
Proof.
  intros I H. revert I. induction H; intros I.
  - eauto.
  - destruct (tbb_step_inv _ _ I H) as (st' & E & I' & _). inversion E; subst. auto.
  - destruct (tbb_step_inv _ _ I H) as (st' & E & I' & _). exfalso. eapply H0. eauto.
Qed.

Lemma tbb_final fs acc : tbb_inv (fs, TDone acc) -> acc = total /\ shape (fun _ => False) fs.
Proof.
  intros [_ _ _ SH SU]. cbn [fst snd t_todo t_sum map] in *. simpl in SU. rewrite zero_r in SU. auto.
Qed.

Lemma tbb_progress fs t : t_wf t -> (exists acc, t = TDone acc) \/ exists o, tbb_step zero plus lin (fs, t) o.
Proof.
  induction t as [lo hi acc|l IH mid hi|l IHl r IHr|acc]; cbn [t_wf]; intros WF.
  - right. destruct (Nat.eq_dec lo hi) as [->|NE]; eexists; [apply TbbEnd|apply TbbIter; lia].
  - right. destruct (IH (proj1 WF)) as [[acc ->]|[o H]]; eexists; [apply TbbNext|apply TbbSeqL; exact H].
  - right. destruct (IHl (proj1 WF)) as [[a ->]|[o H]]; [|eexists; apply TbbSplitL; exact H].
    destruct (IHr (proj2 WF)) as [[b ->]|[o H]]; eexists; [apply TbbJoin|apply TbbSplitR; exact H].
  - left. eauto.
Qed.

End Proofs.

(** The serial reduction without algebraic laws (rounding included): a left fold. *)
Section SerialFold.
Context (F S : Type) (zero : S) (plus : S -> S -> S) (lin : nat -> F -> outcome (F * option S)).

Lemma visit_range n : forall lo fs acc fs' acc', lo + n <= length fs ->
  foldM (fun st i => visit plus lin i st) (seq lo n) (fs, acc) = Ok (fs', acc') ->
  length fs' = length fs /\ (forall i, i < lo \/ lo + n <= i -> nth_error fs' i = nth_error fs i) /\
  exists rs, length rs = n /\ acc' = fold_left plus (accepted rs) acc /\
    forall i, i < n -> exists f f' r, nth_error fs (lo + i) = Some f /\ lin (lo + i) f = Ok (f', r) /\
      nth_error fs' (lo + i) = Some f' /\ nth_error rs i = Some r.
Proof.
  induction n as [|n IH]; intros lo fs acc fs' acc' L H.
  - simpl in H. inversion H; subst. split; auto. split; auto. exists []. split; auto. split; auto. intros i Hi. lia.
  - cbn [seq foldM] in H. unfold visit at 1 in H.
    destruct (get fs lo) as [f| | |] eqn:Eg; cbn [bind] in H; try discriminate. apply get_Ok in Eg.
    destruct (lin lo f) as [[f' r]| | |] eqn:El; cbn [bind] in H; try discriminate.
    rewrite set_Ok in H by lia. cbn [bind] in H.
    apply IH in H; [|rewrite upd_length; lia]. destruct H as (A & B & rs & C1 & C2 & C3).
    rewrite upd_length in A. split; auto. split.
    { intros i Hi. rewrite B by lia. apply upd_nth_error_other. lia. }
    exists (r :: rs). split; [simpl; lia|]. split.
    { rewrite C2. destruct r; reflexivity. }
    intros [|i] Hi.
    + exists f, f', r. rewrite Nat.add_0_r. split; auto. split; auto. split; auto.
      rewrite B by lia. apply upd_nth_error_same. lia.
    + destruct (C3 i ltac:(lia)) as (g & g' & r' & D1 & D2 & D3 & D4).
      exists g, g', r'. rewrite upd_nth_error_other in D1 by lia.
      replace (lo + Datatypes.S i) with (Datatypes.S lo + i) by lia. auto.
Qed.

Lemma serial_fold fs fs' acc : serial zero plus lin fs = Ok (fs', acc) ->
  exists rs, linearized_once lin fs fs' rs /\ acc = fold_left plus (accepted rs) zero.
Proof.
  intros H. unfold serial in H.
  apply visit_range in H; [|lia]. destruct H as (A & _ & rs & C1 & C2 & C3).
  exists rs. split; auto. split; auto. split; auto. intros i f Ef.
  assert (Li : i < length fs) by (apply nth_error_Some; congruence).
  destruct (C3 i Li) as (g & f' & r & D1 & D2 & D3 & D4). simpl in *. rewrite Ef in D1. inversion D1; subst g.
  exists f', r. auto.
Qed.

(** If every factor's error is what its linearisation added (nothing for a rejected one), the
    two loops agree, provided adding [zero] changes no sum that can occur. *)
Lemma serial_error_fold (Q : Type) (val : S -> Q) (qzero : Q) (qplus : Q -> Q -> Q) (ef : F -> outcome Q)
      (ok : Q -> Prop) : val zero = qzero -> (forall a b, val (plus a b) = qplus (val a) (val b)) ->
  ok qzero -> (forall a b, ok a -> ok (qplus a b)) -> (forall a, ok a -> qplus a qzero = a) ->
  forall fs fs' rs, linearized_once lin fs fs' rs ->
  (forall i f f' r, lin i f = Ok (f', r) -> ef f' = Ok (match r with Some s => val s | None => qzero end)) ->
  serial_error qzero qplus ef fs' = Ok (val (fold_left plus (accepted rs) zero)).
Proof.
  intros V0 Vp O0 Op Oz fs fs' rs (L1 & L2 & L3) E.
  assert (FA : Forall2 (fun f' r => ef f' = Ok (match r with Some s => val s | None => qzero end)) fs' rs).
  { assert (P : forall i f' r, nth_error fs' i = Some f' -> nth_error rs i = Some r ->
             ef f' = Ok (match r with Some s => val s | None => qzero end)).
    { intros i f' r Ef Er. assert (Li : i < length fs) by (rewrite <- L1; apply nth_error_Some; congruence).
      destruct (nth_error fs i) as [f|] eqn:Ef0; [|apply nth_error_None in Ef0; lia].
      destruct (L3 i f Ef0) as (g & q & A1 & A2 & A3). rewrite Ef in A2. rewrite Er in A3.
      inversion A2; inversion A3; subst. eapply E. eauto. }
    assert (L : length fs' = length rs) by lia. clear - P L. revert rs L P.
    induction fs' as [|f fs' IH]; intros [|r rs] L P; simpl in L; try discriminate; constructor.
    - apply (P 0); reflexivity.
    - apply IH; [lia|]. intros i. exact (P (Datatypes.S i)). }
  unfold serial_error. rewrite <- V0.
  assert (O1 : ok (val zero)) by (rewrite V0; auto). revert O1. generalize zero.
  clear - FA V0 Vp Op Oz.
  induction FA as [|f r fs' rs H FA IH]; intros a Oa; [reflexivity|].
  cbn [foldM]. rewrite H. cbn [bind]. destruct r as [s|].
  - cbn [accepted flat_map app fold_left]. rewrite <- Vp. apply IH. rewrite Vp. auto.
  - rewrite Oz by auto. apply IH. auto.
Qed.
End SerialFold.
