(** Proofs about the task-parallel sorts (SortModel.v). *)
From Coq Require Import ZArith ZifyBool ZifyNat ZifyN.
From Verif Require Import Base BaseProofs KdSpec SortSpec NthElement SortModel.
Ltac Zify.zify_post_hook ::= Z.div_mod_to_equations.

(** Two half-open ranges do not overlap. *)
Definition apart (a b : nat * nat) : Prop := snd a <= fst b \/ snd b <= fst a.

Fixpoint all_apart (l : list (nat * nat)) : Prop :=
  match l with
  | [] => True
  | r :: t => Forall (apart r) t /\ all_apart t
  end.

Lemma apart_sym a b : apart a b -> apart b a.
Proof. unfold apart. tauto. Qed.

Lemma all_apart_app a b :
  all_apart (a ++ b) <-> all_apart a /\ all_apart b /\ (forall x y, In x a -> In y b -> apart x y).
Proof.
  induction a as [|r a IH]; simpl.
  - split; [intros H; repeat split; auto; intros x y []|tauto].
  - rewrite IH, Forall_app, !Forall_forall. split.
    + intros ((H1 & H2) & H3 & H4 & H5). repeat split; auto.
      intros x y [<-|Hx] Hy; auto.
    + intros ((H1 & H2) & H3 & H5). repeat split; auto.
Qed.

Lemma all_apart_nth l : all_apart l <->
  forall i j a b, i < j -> nth_error l i = Some a -> nth_error l j = Some b -> apart a b.
Proof.
  induction l as [|r l IH]; simpl.
  - split; auto. intros _ [|i] j a b _ H; discriminate.
  - rewrite IH, Forall_forall. split.
    + intros (H1 & H2) [|i] [|j] a b Hij Ha Hb; simpl in *; try lia.
      * inversion Ha; subst. apply H1. eapply nth_error_In; eauto.
      * eapply (H2 i j); eauto. lia.
    + intros H. split.
      * intros x Hx. destruct (In_nth_error _ _ Hx) as (n & Hn).
        apply (H 0 (S n)); auto. lia.
      * intros i j a b Hij Ha Hb. apply (H (S i) (S j)); auto. lia.
Qed.

Lemma sorted_by_nth {A} (lt : A -> A -> bool) l :
  sorted_by lt l <->
  forall i j x y, i < j -> nth_error l i = Some x -> nth_error l j = Some y -> lt y x = false.
Proof.
  unfold sorted_by. split.
  - induction 1 as [|a l HS IH HF]; intros i j x y Hij Hx Hy.
    + destruct i; discriminate.
    + destruct j as [|j]; [lia|]. destruct i as [|i]; simpl in *.
      * inversion Hx; subst. rewrite Forall_forall in HF. apply HF. eapply nth_error_In; eauto.
      * eapply (IH i j); eauto. lia.
  - induction l as [|a l IH]; intros H; constructor.
    + apply IH. intros i j x y Hij Hx Hy. apply (H (S i) (S j)); auto. lia.
    + apply Forall_forall. intros y Hy. destruct (In_nth_error _ _ Hy) as (n & Hn).
      apply (H 0 (S n)); auto. lia.
Qed.

Lemma put_slice_Permutation {A} (l : list A) f e s :
  f <= e -> e <= length l -> Permutation (slice l f e) s -> Permutation l (put_slice l f s).
Proof.
  intros H1 H2 P. pose proof (Permutation_length P) as L. rewrite slice_length in L by auto.
  unfold put_slice. rewrite <- L. replace (f + (e - f)) with e by lia.
  rewrite <- P. rewrite <- (firstn_skipn f l) at 1. apply Permutation_app_head.
  rewrite <- (firstn_skipn (e - f) (skipn f l)) at 1. rewrite skipn_skipn.
  replace (e - f + f) with e by lia. reflexivity.
Qed.

Lemma in_slice {A} (l : list A) f e x :
  In x (slice l f e) <-> exists i, f <= i < e /\ nth_error l i = Some x.
Proof.
  split.
  - intros H. destruct (In_nth_error _ _ H) as (i & Hi). rewrite nth_error_slice in Hi.
    destruct (i <? e - f) eqn:E; [|discriminate]. exists (f + i). split; [lia|auto].
  - intros (i & Hi & E). apply (nth_error_In _ (i - f)). rewrite nth_error_slice.
    replace (i - f <? e - f) with true by lia. replace (f + (i - f)) with i by lia. auto.
Qed.

Section Sorts.
Context (A : Type) (comp : A -> A -> bool).
Context (sort : (A -> A -> bool) -> list A -> list A).
Context (part : (A -> bool) -> list A -> list A * nat).
Context (HS : sort_contract_at sort).

Lemma median3_in a b c : In (median3 comp a b c) [a; b; c].
Proof.
  unfold median3. destruct (comp a b), (comp b c), (comp a c); simpl; tauto.
Qed.

Lemma choose_pivot_spec arr f l :
  f <= l -> l <= length arr -> small (l - f) = false ->
  (N.of_nat ((l - f) / 8 * 7) <= INT_MAX)%N ->
  exists pv, choose_pivot comp arr f l = Ok pv /\ In pv (slice arr f l).
Proof.
  intros H1 H2 H3 H4. unfold small in H3. unfold choose_pivot.
  replace (INT_MAX <? N.of_nat ((l - f) / 8 * 7))%N with false by lia.
  remember ((l - f) / 8) as o eqn:Ho.
  assert (G : forall i, f <= i < l -> exists x, get arr i = Ok x /\ In x (slice arr f l)).
  { intros i Hi. destruct (get_lt arr i ltac:(lia)) as (x & E). exists x. split; auto.
    apply in_slice. exists i. split; auto. apply get_Ok; auto. }
  destruct (G f ltac:(lia)) as (x0 & -> & I0).
  destruct (G (f + o) ltac:(lia)) as (x1 & -> & I1).
  destruct (G (f + o * 2) ltac:(lia)) as (x2 & -> & I2).
  destruct (G (f + o * 3) ltac:(lia)) as (x3 & -> & I3).
  destruct (G (f + o * 4) ltac:(lia)) as (x4 & -> & I4).
  destruct (G (f + o * 5) ltac:(lia)) as (x5 & -> & I5).
  destruct (G (f + o * 6) ltac:(lia)) as (x6 & -> & I6).
  destruct (G (f + o * 7) ltac:(lia)) as (x7 & -> & I7).
  destruct (G (l - 1) ltac:(lia)) as (x8 & -> & I8).
  cbn [bind]. eexists. split; [reflexivity|].
  assert (M : forall a b c, In a (slice arr f l) -> In b (slice arr f l) -> In c (slice arr f l) ->
    In (median3 comp a b c) (slice arr f l)).
  { intros a b c Ha Hb Hc. pose proof (median3_in a b c) as H.
    destruct H as [<-|[<-|[<-|[]]]]; auto. }
  apply M; apply M; auto.
Qed.

(** What one task body does to its own range. *)
Definition inner_order (s : list A) (f : nat) (sp : list (nat * nat)) : Prop :=
  forall i j x y, i < j -> nth_error s i = Some x -> nth_error s j = Some y ->
    comp y x = false \/ exists r, In r sp /\ fst r <= f + i /\ f + j < snd r.

Definition qcost (sp : list (nat * nat)) : nat :=
  list_sum (map (fun r => 2 * (snd r - fst r) + 1) sp).

Definition inside (f l : nat) (r : nat * nat) : Prop := f <= fst r /\ fst r <= snd r /\ snd r <= l.

Lemma quick_body_spec (HP : partition_contract part) arr f l :
  f <= l -> l <= length arr -> swo_on comp arr ->
  (N.of_nat ((l - f) / 8 * 7) <= INT_MAX)%N ->
  exists s sp,
    quick_body comp sort part arr f l = Ok (put_slice arr f s, sp) /\
    Permutation (slice arr f l) s /\ Forall (inside f l) sp /\ all_apart sp /\
    qcost sp < 2 * (l - f) + 1 /\ inner_order s f sp.
Proof.
  intros H1 H2 HW H4. unfold quick_body. destruct (small (l - f)) eqn:SM.
  - exists (sort comp (slice arr f l)), [].
    assert (HW' : swo_on comp (slice arr f l)).
    { eapply swo_sub; eauto. intros x Hx. apply in_slice in Hx. destruct Hx as (i & _ & E).
      eapply nth_error_In; eauto. }
    destruct (HS comp _ HW') as (P & S1).
    split; [reflexivity|]. split; [exact P|]. split; [constructor|]. split; [exact I|].
    split; [unfold qcost; simpl; lia|].
    intros i j x y Hij Hx Hy. left. exact (proj1 (sorted_by_nth _ _) S1 i j x y Hij Hx Hy).
  - destruct (choose_pivot_spec arr f l H1 H2 SM H4) as (pv & -> & IP). cbn [bind].
    set (s0 := slice arr f l) in *.
    assert (L0 : length s0 = l - f) by (apply slice_length; auto).
    destruct (part (fun val => comp val pv) s0) as [s1 k1] eqn:E1.
    destruct (HP _ _ _ _ E1) as (P1 & K1 & F1 & G1).
    assert (L1 : length s1 = l - f) by (rewrite <- (Permutation_length P1); auto).
    set (arr1 := put_slice arr f s1).
    assert (LA1 : length arr1 = length arr) by (apply put_slice_length; lia).
    assert (SL1 : slice arr1 f l = s1).
    { replace l with (f + length s1) by lia. apply slice_put_slice_same. lia. }
    assert (SM1 : slice arr1 (f + k1) l = skipn k1 s1).
    { rewrite (slice_skipn arr1 f l (f + k1)) by lia. rewrite SL1. f_equal. lia. }
    destruct (part (fun val => negb (comp pv val)) (slice arr1 (f + k1) l)) as [s2 k2] eqn:E2.
    destruct (HP _ _ _ _ E2) as (P2 & K2 & F2 & G2). rewrite SM1 in P2.
    assert (L2 : length s2 = l - f - k1).
    { rewrite <- (Permutation_length P2), skipn_length. lia. }
    set (s := firstn k1 s1 ++ s2).
    assert (Ps : Permutation s0 s).
    { unfold s. rewrite P1. rewrite <- (firstn_skipn k1 s1) at 1.
      apply Permutation_app_head. exact P2. }
    assert (Ls : length s = l - f) by (rewrite <- (Permutation_length Ps); auto).
    assert (Lf : length (firstn k1 s1) = k1) by (rewrite firstn_length; lia).
    exists s, [(f, f + k1); (f + k1 + k2, l)].
    assert (Hin : forall x, In x s -> In x arr).
    { intros x Hx. apply (Permutation_in x (Permutation_sym Ps)) in Hx.
      apply in_slice in Hx. destruct Hx as (i & _ & E). eapply nth_error_In; eauto. }
    assert (IPa : In pv arr).
    { apply in_slice in IP. destruct IP as (i & _ & E). eapply nth_error_In; eauto. }
    destruct HW as (W1 & W2 & W3).
    assert (Hmid : 0 < k2).
    { assert (Hpv : In pv s1) by (apply (Permutation_in pv P1); auto).
      rewrite <- (firstn_skipn k1 s1) in Hpv. apply in_app_iff in Hpv.
      destruct Hpv as [Hpv|Hpv].
      - rewrite Forall_forall in F1. apply F1 in Hpv. rewrite W1 in Hpv by auto. discriminate.
      - apply (Permutation_in pv P2) in Hpv. rewrite <- (firstn_skipn k2 s2) in Hpv.
        apply in_app_iff in Hpv. destruct Hpv as [Hpv|Hpv].
        + destruct k2; [destruct Hpv|lia].
        + rewrite Forall_forall in G2. apply G2 in Hpv. rewrite W1 in Hpv by auto. discriminate. }
    split.
    { f_equal. f_equal. apply nth_error_ext. intros i.
      rewrite nth_error_put_slice by lia. unfold arr1 at 1 2.
      rewrite !nth_error_put_slice by lia. unfold s.
      destruct (i <? f + k1) eqn:A1.
      - destruct (i <? f) eqn:A2; [reflexivity|].
        replace (i <? f + length s1) with true by lia.
        replace (i <? f + length (firstn k1 s1 ++ s2)) with true by (fold s; lia).
        rewrite nth_error_app1 by lia. rewrite nth_error_firstn.
        replace (i - f <? k1) with true by lia. reflexivity.
      - replace (i <? f) with false by lia.
        destruct (i <? f + k1 + length s2) eqn:A2.
        + replace (i <? f + length (firstn k1 s1 ++ s2)) with true by (fold s; lia).
          rewrite nth_error_app2 by lia. f_equal. lia.
        + replace (i <? f + length s1) with false by lia.
          replace (i <? f + length (firstn k1 s1 ++ s2)) with false by (fold s; lia).
          reflexivity. }
    split; [exact Ps|].
    split; [repeat constructor; simpl; lia|].
    split; [simpl; split; [repeat constructor; unfold apart; simpl; lia|split; [constructor|exact I]]|].
    split; [unfold qcost; simpl; lia|].
    intros i j x y Hij Hx Hy.
    assert (Lx : i < l - f) by (rewrite <- Ls; apply nth_error_Some; congruence).
    assert (Ly : j < l - f) by (rewrite <- Ls; apply nth_error_Some; congruence).
    assert (Ix : In x arr) by (apply Hin; eapply nth_error_In; eauto).
    assert (Iy : In y arr) by (apply Hin; eapply nth_error_In; eauto).
    (* classification of a position *)
    assert (C1 : forall i x, i < k1 -> nth_error s i = Some x -> comp x pv = true).
    { intros i' x' Hi Hx'. unfold s in Hx'. rewrite nth_error_app1 in Hx' by lia.
      rewrite Forall_forall in F1. apply F1. eapply nth_error_In; eauto. }
    assert (C2 : forall i x, k1 <= i -> nth_error s i = Some x -> comp x pv = false).
    { intros i' x' Hi Hx'. unfold s in Hx'. rewrite nth_error_app2 in Hx' by lia.
      rewrite Forall_forall in G1. apply G1.
      apply (Permutation_in x' (Permutation_sym P2)). eapply nth_error_In; eauto. }
    assert (C3 : forall i x, k1 <= i < k1 + k2 -> nth_error s i = Some x -> comp pv x = false).
    { intros i' x' Hi Hx'. unfold s in Hx'. rewrite nth_error_app2 in Hx' by lia.
      rewrite Forall_forall in F2. apply negb_true_iff. apply F2.
      apply (nth_error_In _ (i' - k1)). rewrite nth_error_firstn.
      replace (i' - k1 <? k2) with true by lia.
      rewrite Lf in Hx'. auto. }
    assert (C4 : forall i x, k1 + k2 <= i -> nth_error s i = Some x -> comp pv x = true).
    { intros i' x' Hi Hx'. unfold s in Hx'. rewrite nth_error_app2 in Hx' by lia.
      rewrite Forall_forall in G2. apply negb_false_iff. apply G2.
      apply (nth_error_In _ (i' - k1 - k2)). rewrite nth_error_skipn.
      rewrite Lf in Hx'. rewrite <- Hx'. f_equal. lia. }
    destruct (Nat.lt_ge_cases j k1) as [Hj|Hj].
    { right. exists (f, f + k1). simpl. split; [auto|lia]. }
    destruct (Nat.lt_ge_cases i (k1 + k2)) as [Hi|Hi].
    + left. pose proof (C2 _ _ Hj Hy) as Y1.
      destruct (Nat.lt_ge_cases i k1) as [Hi'|Hi'].
      * pose proof (C1 _ _ Hi' Hx) as X1.
        destruct (comp y x) eqn:Eyx; auto.
        rewrite (W2 y x pv) in Y1; auto.
      * pose proof (C3 _ _ (conj Hi' Hi) Hx) as X1. apply (W3 y pv x); auto.
    + right. exists (f + k1 + k2, l). simpl. split; [auto|lia].
Qed.

(** Invariant of the quick sort pool. *)
Definition qinv (l0 : list A) (c : qconf A) : Prop :=
  let (arr, pend) := c in
  Permutation l0 arr /\ Forall (inside 0 (length arr)) pend /\ all_apart pend /\
  (forall i j x y, i < j -> nth_error arr i = Some x -> nth_error arr j = Some y ->
     comp y x = false \/ exists r, In r pend /\ fst r <= i /\ j < snd r).

Lemma qinv_init l : qinv l (qinit l).
Proof.
  unfold qinv, qinit. split; [reflexivity|]. split; [repeat constructor; simpl; lia|].
  split; [simpl; auto|]. intros i j x y Hij Hx Hy. right. exists (0, length l). simpl.
  assert (j < length l) by (apply nth_error_Some; congruence). split; [auto|lia].
Qed.

Lemma qcost_app a b : qcost (a ++ b) = qcost a + qcost b.
Proof. unfold qcost. rewrite map_app, list_sum_app. reflexivity. Qed.

Lemma qinv_step (HP : partition_contract part) l0 c i :
  swo_on comp l0 -> (N.of_nat (length l0 / 8 * 7) <= INT_MAX)%N ->
  qinv l0 c -> i < length (snd c) ->
  exists f l arr' pend',
    nth_error (snd c) i = Some (f, l) /\
    qstep comp sort part c i = Some (Ok (arr', pend')) /\ qinv l0 (arr', pend') /\
    qcost pend' < qcost (snd c) /\
    length arr' = length (fst c) /\
    (forall j, ~ (f <= j < l) -> nth_error arr' j = nth_error (fst c) j).
Proof.
  destruct c as [arr pend]. intros HW HM (P & FI & AA & ORD) Hi. cbn [fst snd] in *.
  destruct (nth_error pend i) as [[f l]|] eqn:En; [|apply nth_error_None in En; lia].
  destruct (nth_error_split _ _ En) as (pre & post & Epend & Lpre).
  assert (Hr : inside 0 (length arr) (f, l)).
  { rewrite Forall_forall in FI. apply FI. eapply nth_error_In; eauto. }
  destruct Hr as (_ & Hfl & Hl). cbn [fst snd] in Hfl, Hl.
  assert (HWa : swo_on comp arr).
  { eapply swo_sub; eauto. intros x Hx. apply (Permutation_in x (Permutation_sym P)); auto. }
  assert (LP : length l0 = length arr) by (apply Permutation_length; auto).
  destruct (quick_body_spec HP arr f l Hfl Hl HWa) as (s & sp & E & Ps & FS & AS & CS & IO).
  { lia. }
  assert (Ls : length s = l - f).
  { rewrite <- (Permutation_length Ps). apply slice_length; auto. }
  exists f, l, (put_slice arr f s), (pre ++ post ++ sp).
  split; [reflexivity|].
  split.
  { unfold qstep. cbn [fst snd]. rewrite En. f_equal. rewrite E. cbn [bind].
    assert (X : firstn i pend = pre) by (rewrite Epend, <- Lpre;
      rewrite firstn_app, Nat.sub_diag, firstn_all; simpl; apply app_nil_r).
    assert (Y : skipn (S i) pend = post).
    { rewrite Epend, <- Lpre. change (pre ++ (f, l) :: post) with (pre ++ [(f, l)] ++ post).
      rewrite app_assoc. replace (S (length pre)) with (length (pre ++ [(f, l)])) by (rewrite app_length; simpl; lia).
      rewrite skipn_app, Nat.sub_diag, skipn_all. reflexivity. }
    rewrite X, Y. reflexivity. }
  assert (Larr : length (put_slice arr f s) = length arr) by (apply put_slice_length; lia).
  assert (Hout : forall j, ~ (f <= j < l) -> nth_error (put_slice arr f s) j = nth_error arr j).
  { intros j Hj. rewrite nth_error_put_slice by lia.
    destruct (j <? f) eqn:E1; auto. replace (j <? f + length s) with false by lia. auto. }
  assert (Hin : forall j, f <= j < l -> nth_error (put_slice arr f s) j = nth_error s (j - f)).
  { intros j Hj. rewrite nth_error_put_slice by lia.
    replace (j <? f) with false by lia. replace (j <? f + length s) with true by lia. auto. }
  rewrite Epend in AA, FI. rewrite all_apart_app in AA. destruct AA as (A1 & A2 & A3).
  simpl in A2. destruct A2 as (A2 & A4). rewrite Forall_forall in A2.
  rewrite Forall_app in FI. destruct FI as (FI1 & FI2).
  assert (FI3 : Forall (inside 0 (length arr)) post) by (inversion FI2; auto).
  assert (OTH : forall r, In r (pre ++ post) -> apart (f, l) r).
  { intros r Hr. apply in_app_iff in Hr. destruct Hr as [Hr|Hr]; auto.
    apply apart_sym. apply A3; simpl; auto. }
  split; [|split; [|split; [exact Larr|exact Hout]]].
  2:{ rewrite Epend. rewrite !qcost_app. change ((f, l) :: post) with ([(f, l)] ++ post).
      rewrite qcost_app. assert (Q1 : qcost [(f, l)] = 2 * (l - f) + 1) by (unfold qcost; simpl; lia).
      lia. }
  unfold qinv. split; [|split; [|split]].
  - rewrite P. apply put_slice_Permutation with (e := l); auto.
  - rewrite Larr. rewrite !Forall_app. repeat split; auto.
    eapply Forall_impl; [|exact FS]. unfold inside. intros r; lia.
  - rewrite all_apart_app, all_apart_app. rewrite Forall_forall in FS.
    assert (OS : forall r x, In r (pre ++ post) -> In x sp -> apart r x).
    { intros r x Hr Hx. specialize (OTH r Hr). specialize (FS x Hx).
      unfold apart, inside in *. simpl in *. lia. }
    repeat split; auto.
    + intros x y Hx Hy. apply OS; auto. apply in_app_iff; auto.
    + intros x y Hx Hy. apply in_app_iff in Hy. destruct Hy as [Hy|Hy].
      * apply A3; simpl; auto.
      * apply OS; auto. apply in_app_iff; auto.
  - intros i' j x y Hij Hx Hy.
    (* an element of the range sits at some old position of the range *)
    assert (OLD : forall p z, f <= p < l -> nth_error (put_slice arr f s) p = Some z ->
      exists p0, f <= p0 < l /\ nth_error arr p0 = Some z).
    { intros p z Hp Hz. rewrite Hin in Hz by auto. apply nth_error_In in Hz.
      apply (Permutation_in z (Permutation_sym Ps)) in Hz. apply in_slice in Hz. auto. }
    assert (RES : forall i0 j0, i0 < j0 -> nth_error arr i0 = Some x -> nth_error arr j0 = Some y ->
       (~ (f <= i0 < l) \/ ~ (f <= j0 < l)) ->
       comp y x = false \/ exists r, In r (pre ++ post) /\ fst r <= i0 /\ j0 < snd r).
    { intros i0 j0 H0 Hx0 Hy0 Hn. destruct (ORD i0 j0 x y H0 Hx0 Hy0) as [H|(r & Hr & Hr1 & Hr2)]; auto.
      right. exists r. split; auto. rewrite Epend in Hr. apply in_app_iff in Hr. apply in_app_iff.
      destruct Hr as [Hr|[<-|Hr]]; auto. simpl in *. lia. }
    assert (LIFT : forall i0 j0, comp y x = false \/ (exists r, In r (pre ++ post) /\ fst r <= i0 /\ j0 < snd r) ->
      (forall r, In r (pre ++ post) -> fst r <= i0 -> j0 < snd r -> fst r <= i' /\ j < snd r) ->
      comp y x = false \/ exists r, In r (pre ++ post ++ sp) /\ fst r <= i' /\ j < snd r).
    { intros i0 j0 [H|(r & Hr & H1 & H2)] Hc; auto. right. exists r.
      split; [|apply Hc; auto]. rewrite app_assoc. apply in_app_iff. auto. }
    destruct (le_lt_dec f i') as [Hi1|Hi1]; [destruct (le_lt_dec l i') as [Hi2|Hi2]|].
    + (* i' >= l *) rewrite Hout in Hx, Hy by lia.
      eapply LIFT; [apply (RES i' j); auto; lia|]. auto.
    + destruct (le_lt_dec l j) as [Hj|Hj].
      * rewrite Hout in Hy by lia. destruct (OLD i' x ltac:(lia) Hx) as (i0 & Hi0 & Hx0).
        eapply LIFT; [apply (RES i0 j); auto; lia|].
        intros r Hr R1 R2. specialize (OTH r Hr). unfold apart in OTH. simpl in OTH. lia.
      * rewrite Hin in Hx, Hy by lia.
        destruct (IO (i' - f) (j - f) x y ltac:(lia) Hx Hy) as [H|(r & Hr & R1 & R2)]; auto.
        right. exists r. split; [rewrite !in_app_iff; auto|lia].
    + rewrite Hout in Hx by lia. destruct (le_lt_dec f j) as [Hj1|Hj1]; [destruct (le_lt_dec l j) as [Hj2|Hj2]|].
      * rewrite Hout in Hy by lia. eapply LIFT; [apply (RES i' j); auto; lia|]. auto.
      * destruct (OLD j y ltac:(lia) Hy) as (j0 & Hj0 & Hy0).
        eapply LIFT; [apply (RES i' j0); auto; lia|].
        intros r Hr R1 R2. specialize (OTH r Hr). unfold apart in OTH. simpl in OTH. lia.
      * rewrite Hout in Hy by lia. eapply LIFT; [apply (RES i' j); auto; lia|]. auto.
Qed.

Lemma qrun_inv (HP : partition_contract part) l0 k c :
  swo_on comp l0 -> (N.of_nat (length l0 / 8 * 7) <= INT_MAX)%N ->
  qrun comp sort part l0 k c -> qinv l0 c /\ k + qcost (snd c) <= 2 * length l0 + 1.
Proof.
  intros HW HM. induction 1 as [|k c i c' Hr (IH1 & IH2) St].
  - split; [apply qinv_init|]. unfold qinit, qcost. simpl. lia.
  - assert (Hi : i < length (snd c)).
    { unfold qstep in St. apply nth_error_Some. destruct (nth_error (snd c) i); congruence. }
    destruct (qinv_step HP l0 c i HW HM IH1 Hi) as (f & l & arr' & pend' & _ & E & V & C & _).
    rewrite E in St. inversion St; subst. split; auto. simpl. lia.
Qed.

Lemma qrun_complete (HP : partition_contract part) l0 :
  swo_on comp l0 -> (N.of_nat (length l0 / 8 * 7) <= INT_MAX)%N ->
  forall n k c, qcost (snd c) <= n -> qrun comp sort part l0 k c ->
  exists k' arr, qrun comp sort part l0 k' (arr, []).
Proof.
  intros HW HM. induction n as [|n IH]; intros k [arr pend] Hc Hr; cbn [snd] in Hc.
  - destruct pend as [|r pend]; [eauto|]. unfold qcost in Hc. simpl in Hc. lia.
  - destruct pend as [|r pend]; [eauto|].
    destruct (qrun_inv HP l0 k _ HW HM Hr) as (V & _).
    destruct (qinv_step HP l0 _ 0 HW HM V ltac:(simpl; lia)) as (f & l & arr' & pend' & _ & E & V' & C & _).
    apply (IH (S k) (arr', pend')); [cbn [snd] in *; lia|].
    eapply qrun_step; eauto.
Qed.

End Sorts.

(** * merge sort *)
Section Merge.
Context (A : Type) (comp : A -> A -> bool).
Context (sort : (A -> A -> bool) -> list A -> list A).
Context (merge : (A -> A -> bool) -> nat -> list A -> list A).
Context (HS : sort_contract_at sort).

Fixpoint minv (arr : list A) (f l : nat) (p : mproc) : Prop :=
  match p with
  | MCall f' l' => f' = f /\ l' = l
  | MWait f' c l' p q => f' = f /\ l' = l /\ f <= c <= l /\ minv arr f c p /\ minv arr c l q
  | MDone => sorted_by comp (slice arr f l)
  end.

Fixpoint mcost (p : mproc) : nat :=
  match p with
  | MCall f l => 3 * Nat.max (l - f) 1 - 2
  | MWait _ _ _ p q => 1 + mcost p + mcost q
  | MDone => 0
  end.

Lemma slice_eq (a b : list A) f l :
  (forall i, f <= i < l -> nth_error a i = nth_error b i) -> slice a f l = slice b f l.
Proof.
  intros H. apply nth_error_ext. intros i. rewrite !nth_error_slice.
  destruct (i <? l - f) eqn:E; auto. apply H. lia.
Qed.

Lemma minv_frame a b p : forall f l,
  (forall i, f <= i < l -> nth_error a i = nth_error b i) -> minv a f l p -> minv b f l p.
Proof.
  induction p as [f' l'|f' c l' p IHp q IHq|]; intros f l H; simpl; auto.
  - intros (-> & -> & Hc & H1 & H2). repeat (split; auto; try lia).
    + apply IHp; auto. intros; apply H; lia.
    + apply IHq; auto. intros; apply H; lia.
  - rewrite (slice_eq a b f l H). auto.
Qed.

Definition mgood (arr : list A) (f l : nat) (p : mproc) (o : outcome (list A * mproc))
    (r : nat * nat) : Prop :=
  exists arr' p', o = Ok (arr', p') /\ minv arr' f l p' /\ mcost p' < mcost p /\
    f <= fst r /\ snd r <= l /\
    length arr' = length arr /\
    (forall j, ~ (fst r <= j < snd r) -> nth_error arr' j = nth_error arr j) /\
    Permutation (slice arr f l) (slice arr' f l).

Lemma Forall2_map_l' {X Y Z} (R : X -> Z -> Prop) (g : Y -> X) l l' :
  Forall2 (fun y z => R (g y) z) l l' -> Forall2 R (map g l) l'.
Proof. induction 1; simpl; constructor; auto. Qed.

Lemma Forall2_impl' {X Y} (R Q : X -> Y -> Prop) l l' :
  (forall x y, R x y -> Q x y) -> Forall2 R l l' -> Forall2 Q l l'.
Proof. induction 2; constructor; auto. Qed.

Lemma in_slice_in (arr : list A) f l x : In x (slice arr f l) -> In x arr.
Proof. intros H. apply in_slice in H. destruct H as (i & _ & E). eapply nth_error_In; eauto. Qed.

(** The ranges of the two halves of a slice can be permuted independently. *)
Lemma range_perm (arr arr' : list A) f c l :
  f <= c <= l ->
  Permutation (slice arr f c) (slice arr' f c) -> Permutation (slice arr c l) (slice arr' c l) ->
  Permutation (slice arr f l) (slice arr' f l).
Proof.
  intros Hc H1 H2. rewrite !(slice_split _ f c l) by lia. apply Permutation_app; auto.
Qed.

Lemma msteps_good (HM : merge_contract merge) arr : swo_on comp arr -> forall p f l,
  f <= l -> l <= length arr -> minv arr f l p ->
  Forall2 (mgood arr f l p) (msteps comp sort merge arr p) (mtouches p) /\
  all_apart (mtouches p) /\ Forall (fun r => f <= fst r /\ snd r <= l) (mtouches p).
Proof.
  intros HW. induction p as [f' l'|f' c l' p IHp q IHq|]; intros f l Hfl Hl HI.
  - destruct HI as (-> & ->). cbn [msteps mtouches]. cbv zeta.
    split; [|split; [simpl; auto|repeat constructor; simpl; lia]].
    destruct (small (l - f)) eqn:SM.
    + constructor; [|constructor].
      assert (HW' : swo_on comp (slice arr f l)).
      { eapply swo_sub; eauto. intros x. apply in_slice_in. }
      destruct (HS comp _ HW') as (P & S1).
      assert (Ls : length (sort comp (slice arr f l)) = l - f).
      { rewrite <- (Permutation_length P). apply slice_length; auto. }
      assert (SL : slice (sort_range comp sort arr f l) f l = sort comp (slice arr f l)).
      { unfold sort_range. remember (sort comp (slice arr f l)) as s eqn:Es.
        replace l with (f + length s) by lia. apply slice_put_slice_same. lia. }
      exists (sort_range comp sort arr f l), MDone.
      split; [reflexivity|]. split; [simpl; rewrite SL; exact S1|].
      split; [simpl; lia|]. split; [simpl; lia|]. split; [simpl; lia|].
      split; [apply put_slice_length; lia|]. split.
      * intros j Hj. simpl in Hj. unfold sort_range. rewrite nth_error_put_slice by lia.
        destruct (j <? f) eqn:E1; auto. replace (j <? f + _) with false by lia. auto.
      * rewrite SL. exact P.
    + constructor; [|constructor]. unfold small in SM.
      exists arr, (MWait f (f + (l - f) / 2) l (MCall f (f + (l - f) / 2)) (MCall (f + (l - f) / 2) l)).
      remember ((l - f) / 2) as h eqn:Hh.
      split; [reflexivity|]. split; [simpl; repeat split; lia|].
      split; [simpl mcost; lia|].
      split; [simpl; lia|]. split; [simpl; lia|]. split; [reflexivity|]. split; [auto|reflexivity].
  - destruct HI as (-> & -> & Hc & H1 & H2).
    assert (CASE : (p = MDone /\ q = MDone) \/
      (msteps comp sort merge arr (MWait f c l p q) =
        map (fun o => let* (arr', p') := o in Ok (arr', MWait f c l p' q)) (msteps comp sort merge arr p) ++
        map (fun o => let* (arr', q') := o in Ok (arr', MWait f c l p q')) (msteps comp sort merge arr q) /\
       mtouches (MWait f c l p q) = mtouches p ++ mtouches q)).
    { destruct p, q; auto. }
    destruct CASE as [(-> & ->)|(-> & ->)].
    + simpl. simpl in H1, H2. split; [|split; [auto|repeat constructor; simpl; lia]].
      constructor; [|constructor].
      assert (HW' : swo_on comp (slice arr f l)).
      { eapply swo_sub; eauto. intros x. apply in_slice_in. }
      assert (Lsl : length (slice arr f l) = l - f) by (apply slice_length; auto).
      destruct (HM comp (c - f) (slice arr f l) HW') as (P & S1).
      { lia. }
      { rewrite <- (slice_firstn arr f l c) by lia. exact H1. }
      { rewrite <- (slice_skipn arr f l c) by lia. exact H2. }
      remember (merge comp (c - f) (slice arr f l)) as s eqn:Es.
      assert (Ls : length s = l - f) by (rewrite <- (Permutation_length P); auto).
      assert (SL : slice (put_slice arr f s) f l = s).
      { replace l with (f + length s) by lia. apply slice_put_slice_same. lia. }
      exists (put_slice arr f s), MDone.
      split; [reflexivity|]. split; [simpl; rewrite SL; exact S1|].
      split; [simpl; lia|]. split; [simpl; lia|]. split; [simpl; lia|].
      split; [apply put_slice_length; lia|]. split.
      * intros j Hj. simpl in Hj. rewrite nth_error_put_slice by lia.
        destruct (j <? f) eqn:E1; auto. replace (j <? f + length s) with false by lia. auto.
      * rewrite SL. exact P.
    + destruct (IHp f c ltac:(lia) ltac:(lia) H1) as (A1 & A2 & A3).
      destruct (IHq c l ltac:(lia) ltac:(lia) H2) as (B1 & B2 & B3).
      split; [|split].
      * apply Forall2_app; apply Forall2_map_l'.
        -- eapply Forall2_impl'; [|exact A1]. intros o r (arr' & p' & -> & V & C & R1 & R2 & L & FR & P).
           exists arr', (MWait f c l p' q). split; [reflexivity|]. split.
           { simpl. repeat (split; auto; try lia). apply minv_frame with (a := arr); auto.
             intros j Hj. symmetry. apply FR. lia. }
           split; [simpl; lia|]. split; [lia|]. split; [lia|]. split; [exact L|].
           split; [exact FR|]. apply range_perm with (c := c); auto.
           rewrite (slice_eq arr arr' c l); [reflexivity|]. intros j Hj. symmetry. apply FR. lia.
        -- eapply Forall2_impl'; [|exact B1]. intros o r (arr' & q' & -> & V & C & R1 & R2 & L & FR & P).
           exists arr', (MWait f c l p q'). split; [reflexivity|]. split.
           { simpl. repeat (split; auto; try lia). apply minv_frame with (a := arr); auto.
             intros j Hj. symmetry. apply FR. lia. }
           split; [simpl; lia|]. split; [lia|]. split; [lia|]. split; [exact L|].
           split; [exact FR|]. apply range_perm with (c := c); auto.
           rewrite (slice_eq arr arr' f c); [reflexivity|]. intros j Hj. symmetry. apply FR. lia.
      * apply all_apart_app. repeat split; auto. rewrite Forall_forall in A3, B3.
        intros x y Hx Hy. specialize (A3 x Hx). specialize (B3 y Hy). unfold apart. lia.
      * apply Forall_app. split; eapply Forall_impl; try eassumption; simpl; intros; lia.
  - simpl. split; [constructor|split; [auto|constructor]].
Qed.

Lemma msteps_stuck arr p : msteps comp sort merge arr p = [] -> p = MDone.
Proof.
  induction p as [f' l'|f' c l' p IHp q IHq|]; simpl; auto.
  - destruct (small (l' - f')); discriminate.
  - assert (forall X Y : list (outcome (list A * mproc)),
      map (fun o => let* (arr', p') := o in Ok (arr', MWait f' c l' p' q)) X ++
      map (fun o => let* (arr', q') := o in Ok (arr', MWait f' c l' p q')) Y = [] -> X = [] /\ Y = []).
    { intros X Y E. apply app_eq_nil in E. destruct E as (E1 & E2).
      apply map_eq_nil in E1. apply map_eq_nil in E2. auto. }
    destruct p, q; try discriminate; intros E; try (apply H in E; destruct E as (E1 & E2));
    try (specialize (IHp E1)); try (specialize (IHq E2)); congruence.
Qed.

Lemma Forall2_in_l' {X Y} (R : X -> Y -> Prop) l l' x : Forall2 R l l' -> In x l -> exists y, In y l' /\ R x y.
Proof. induction 1; simpl; intros []; subst; eauto. destruct (IHForall2 H1) as (y' & ? & ?); eauto. Qed.

Lemma mrun_inv (HM : merge_contract merge) l0 k c :
  swo_on comp l0 -> mrun comp sort merge l0 k c ->
  Permutation l0 (fst c) /\ minv (fst c) 0 (length l0) (snd c) /\
  k + mcost (snd c) <= 3 * length l0 + 1.
Proof.
  intros HW. induction 1 as [|k [arr p] c' Hr (P & V & C) St]; cbn [fst snd] in *.
  - unfold minit. cbn [fst snd]. repeat split; auto. simpl. lia.
  - assert (HWa : swo_on comp arr).
    { eapply swo_sub; eauto. intros x Hx. apply (Permutation_in x (Permutation_sym P)); auto. }
    assert (L : length l0 = length arr) by (apply Permutation_length; auto).
    destruct (msteps_good HM arr HWa p 0 (length l0) ltac:(lia) ltac:(lia) V) as (G & _).
    destruct (Forall2_in_l' _ _ _ _ G St) as (r & _ & arr' & p' & E & V' & C' & _ & _ & L' & _ & P').
    inversion E; subst. cbn [fst snd]. split; [|split; [auto|lia]].
    rewrite P. rewrite <- (slice_all arr), <- (slice_all arr'). rewrite L in P'.
    rewrite L'. exact P'.
Qed.

Lemma mrun_complete (HM : merge_contract merge) l0 :
  swo_on comp l0 -> forall n k c, mcost (snd c) <= n -> mrun comp sort merge l0 k c ->
  exists k' arr, mrun comp sort merge l0 k' (arr, MDone).
Proof.
  intros HW. induction n as [|n IH]; intros k [arr p] Hc Hr;
    destruct (msteps comp sort merge arr p) as [|o os] eqn:E;
    try (apply msteps_stuck in E; subst; eauto; fail);
    destruct (mrun_inv HM l0 k _ HW Hr) as (P & V & _); cbn [fst snd] in *;
    (assert (HWa : swo_on comp arr) by
      (eapply swo_sub; eauto; intros x Hx; apply (Permutation_in x (Permutation_sym P)); auto));
    (assert (L : length l0 = length arr) by (apply Permutation_length; auto));
    destruct (msteps_good HM arr HWa p 0 (length l0) ltac:(lia) ltac:(lia) V) as (G & _);
    destruct (Forall2_in_l' _ _ _ o G ltac:(rewrite E; left; auto)) as (r & _ & arr' & p' & -> & V' & C' & _);
    [lia|].
  apply (IH (S k) (arr', p')); [cbn [snd]; lia|].
  eapply mrun_step; eauto. cbn [fst snd]. rewrite E. left; auto.
Qed.

End Merge.
