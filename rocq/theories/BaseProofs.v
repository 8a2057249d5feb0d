(** Lemmas about [Base]. *)
From Coq Require Import ZifyBool ZifyNat ZifyN.
From Verif Require Export Base.

Lemma bind_Ok {A B} (x : outcome A) (f : A -> outcome B) b :
  bind x f = Ok b -> exists a, x = Ok a /\ f a = Ok b.
Proof. destruct x; simpl; intros H; try discriminate; eauto. Qed.

Lemma bind_Ok_r {A} (x : outcome A) : bind x (fun a => Ok a) = x.
Proof. destruct x; reflexivity. Qed.

Lemma bind_assoc {A B C} (x : outcome A) (f : A -> outcome B) (g : B -> outcome C) :
  bind (bind x f) g = bind x (fun a => bind (f a) g).
Proof. destruct x; reflexivity. Qed.

Lemma bind_ext {A B} (x : outcome A) (f g : A -> outcome B) :
  (forall a, f a = g a) -> bind x f = bind x g.
Proof. intros H; destruct x; simpl; auto. Qed.

Lemma get_Ok {A} (l : list A) i a : get l i = Ok a <-> nth_error l i = Some a.
Proof.
  unfold get; destruct (nth_error l i); split; intros H; inversion H; subst; reflexivity.
Qed.

Lemma get_lt {A} (l : list A) i : i < length l -> exists a, get l i = Ok a.
Proof.
  intros H. unfold get. destruct (nth_error l i) eqn:E; eauto.
  apply nth_error_None in E; lia.
Qed.

Lemma get_Ok_lt {A} (l : list A) i a : get l i = Ok a -> i < length l.
Proof. intros H; apply get_Ok in H. apply nth_error_Some; congruence. Qed.

Lemma get_nth {A} (l : list A) i d : i < length l -> get l i = Ok (nth i l d).
Proof.
  intros H. apply get_Ok. apply nth_error_nth'. exact H.
Qed.

Lemma upd_length {A} (l : list A) i v : length (upd l i v) = length l.
Proof. revert i; induction l as [|x l IH]; intros [|i]; simpl; auto. Qed.

Lemma upd_nth_error {A} (l : list A) i j v :
  nth_error (upd l i v) j = if i =? j then (if j <? length l then Some v else None)
                            else nth_error l j.
Proof.
  revert i j; induction l as [|x l IH]; intros i j.
  - simpl. destruct j; destruct (i =? _); reflexivity.
  - destruct i as [|i], j as [|j]; simpl; auto.
    rewrite IH. destruct (i =? j) eqn:E; auto.
Qed.

Lemma upd_nth_error_same {A} (l : list A) i v :
  i < length l -> nth_error (upd l i v) i = Some v.
Proof.
  intros H. rewrite upd_nth_error, Nat.eqb_refl.
  destruct (i <? length l) eqn:E; auto. lia.
Qed.

Lemma upd_nth_error_other {A} (l : list A) i j v :
  i <> j -> nth_error (upd l i v) j = nth_error l j.
Proof. intros H. rewrite upd_nth_error. destruct (i =? j) eqn:E; auto; lia. Qed.

Lemma upd_split {A} (l : list A) i v :
  i < length l -> upd l i v = firstn i l ++ v :: skipn (S i) l.
Proof.
  revert i; induction l as [|x l IH]; intros [|i] H; simpl in *; try lia; auto.
  rewrite IH by lia. reflexivity.
Qed.

Lemma upd_app_r {A} (l1 l2 : list A) v x :
  upd (l1 ++ x :: l2) (length l1) v = l1 ++ v :: l2.
Proof. induction l1 as [|y l1 IH]; simpl; [|rewrite IH]; reflexivity. Qed.

Lemma set_Ok {A} (l : list A) i v : i < length l -> set l i v = Ok (upd l i v).
Proof. intros H. unfold set. destruct (i <? length l) eqn:E; auto; lia. Qed.

Lemma set_Ok_inv {A} (l : list A) i v l' :
  set l i v = Ok l' -> i < length l /\ l' = upd l i v.
Proof.
  unfold set; destruct (i <? length l) eqn:E; intros H; inversion H; split; auto; lia.
Qed.

Lemma set_UB {A} (l : list A) i v : length l <= i -> set l i v = UB.
Proof. intros H. unfold set. destruct (i <? length l) eqn:E; auto; lia. Qed.

Lemma foldM_app {S A} (f : S -> A -> outcome S) l1 l2 s :
  foldM f (l1 ++ l2) s = bind (foldM f l1 s) (foldM f l2).
Proof.
  revert s; induction l1 as [|x l1 IH]; intros s; simpl; auto.
  destruct (f s x); simpl; auto.
Qed.

Lemma foldM_pure {S A} (f : S -> A -> outcome S) (g : S -> A -> S) l s :
  (forall s x, In x l -> f s x = Ok (g s x)) -> foldM f l s = Ok (fold_left g l s).
Proof.
  revert s; induction l as [|x l IH]; intros s H; simpl; auto.
  rewrite H by (left; reflexivity). simpl. apply IH. intros; apply H; right; auto.
Qed.

Lemma mapM_get_Ok {A} (pts : list A) (l : list nat) d :
  (forall i, In i l -> i < length pts) -> mapM (get pts) l = Ok (map (fun i => nth i pts d) l).
Proof.
  induction l as [|i l IH]; intros H; simpl; auto.
  rewrite (get_nth pts i d) by (apply H; left; auto). simpl.
  rewrite IH by (intros; apply H; right; auto). reflexivity.
Qed.

Lemma slice_length {A} (l : list A) a b :
  a <= b -> b <= length l -> length (slice l a b) = b - a.
Proof. intros. unfold slice. rewrite firstn_length, skipn_length. lia. Qed.

Lemma slice_all {A} (l : list A) : slice l 0 (length l) = l.
Proof. unfold slice. simpl. rewrite Nat.sub_0_r. apply firstn_all. Qed.

Lemma nth_error_firstn {A} (l : list A) n i :
  nth_error (firstn n l) i = if i <? n then nth_error l i else None.
Proof.
  revert n i; induction l as [|x l IH]; intros [|n] [|i]; simpl; auto.
  - destruct (_ <? _); reflexivity.
  - rewrite IH. reflexivity.
Qed.

Lemma nth_error_skipn {A} (l : list A) n i :
  nth_error (skipn n l) i = nth_error l (n + i).
Proof.
  revert l; induction n as [|n IH]; intros [|x l]; simpl; auto. destruct i; auto.
Qed.

Lemma nth_error_slice {A} (l : list A) a b i :
  nth_error (slice l a b) i = if i <? b - a then nth_error l (a + i) else None.
Proof. unfold slice. rewrite nth_error_firstn, nth_error_skipn. reflexivity. Qed.

Lemma nth_error_ext {A} (l1 l2 : list A) :
  (forall i, nth_error l1 i = nth_error l2 i) -> l1 = l2.
Proof.
  revert l2; induction l1 as [|x l1 IH]; intros [|y l2] H; auto.
  - specialize (H 0); discriminate.
  - specialize (H 0); discriminate.
  - f_equal. specialize (H 0); simpl in H; congruence.
    apply IH. intros i; apply (H (S i)).
Qed.

Lemma put_slice_length {A} (l : list A) a s :
  a + length s <= length l -> length (put_slice l a s) = length l.
Proof.
  intros H. unfold put_slice. rewrite !app_length, firstn_length, skipn_length. lia.
Qed.

Lemma nth_error_put_slice {A} (l : list A) a s i :
  a + length s <= length l ->
  nth_error (put_slice l a s) i =
    if i <? a then nth_error l i
    else if i <? a + length s then nth_error s (i - a) else nth_error l i.
Proof.
  intros H. unfold put_slice.
  assert (La : length (firstn a l) = a) by (rewrite firstn_length; lia).
  destruct (i <? a) eqn:E1.
  - rewrite nth_error_app1 by (rewrite La; lia).
    rewrite nth_error_firstn, E1. reflexivity.
  - rewrite nth_error_app2 by (rewrite La; lia). rewrite La.
    destruct (i <? a + length s) eqn:E2.
    + rewrite nth_error_app1 by lia. reflexivity.
    + rewrite nth_error_app2 by lia. rewrite nth_error_skipn.
      f_equal. lia.
Qed.

Lemma slice_put_slice_same {A} (l : list A) a s :
  a + length s <= length l -> slice (put_slice l a s) a (a + length s) = s.
Proof.
  intros H. apply nth_error_ext. intros i.
  rewrite nth_error_slice, nth_error_put_slice by auto.
  replace (a + length s - a) with (length s) by lia.
  destruct (i <? length s) eqn:E.
  - destruct (a + i <? a) eqn:E1; [lia|].
    destruct (a + i <? a + length s) eqn:E2; [|lia].
    f_equal; lia.
  - symmetry; apply nth_error_None; lia.
Qed.

Lemma slice_put_slice_disjoint {A} (l : list A) a s b c :
  a + length s <= length l -> (c <= a \/ a + length s <= b) ->
  slice (put_slice l a s) b c = slice l b c.
Proof.
  intros H D. apply nth_error_ext. intros i.
  rewrite !nth_error_slice, nth_error_put_slice by auto.
  destruct (i <? c - b) eqn:E; auto.
  destruct (b + i <? a) eqn:E1; auto.
  destruct (b + i <? a + length s) eqn:E2; auto. lia.
Qed.

Lemma skipn_skipn {A} (l : list A) x y : skipn x (skipn y l) = skipn (x + y) l.
Proof.
  apply nth_error_ext; intros i. rewrite !nth_error_skipn. f_equal. lia.
Qed.

Lemma slice_split {A} (l : list A) a b c :
  a <= b -> b <= c -> slice l a c = slice l a b ++ slice l b c.
Proof.
  intros H1 H2. unfold slice.
  replace (c - a) with ((b - a) + (c - b)) by lia.
  rewrite <- (firstn_skipn (b - a) (firstn ((b - a) + (c - b)) (skipn a l))) at 1.
  rewrite firstn_firstn. replace (Nat.min (b - a) (b - a + (c - b))) with (b - a) by lia.
  f_equal. rewrite skipn_firstn_comm. replace (b - a + (c - b) - (b - a)) with (c - b) by lia.
  f_equal. rewrite skipn_skipn. f_equal. lia.
Qed.

Lemma slice_firstn {A} (l : list A) a b m :
  a <= m -> m <= b -> slice l a m = firstn (m - a) (slice l a b).
Proof.
  intros H1 H2. unfold slice. rewrite firstn_firstn. f_equal. lia.
Qed.

Lemma slice_skipn {A} (l : list A) a b m :
  a <= m -> m <= b -> slice l m b = skipn (m - a) (slice l a b).
Proof.
  intros H1 H2. unfold slice. rewrite skipn_firstn_comm, skipn_skipn.
  f_equal; [lia|]. f_equal; lia.
Qed.

Lemma NoDup_app_intro {A} (l1 l2 : list A) :
  NoDup l1 -> NoDup l2 -> (forall x, In x l1 -> In x l2 -> False) -> NoDup (l1 ++ l2).
Proof.
  induction 1 as [|x l1 Hx N1 IH]; simpl; intros N2 Hd; auto.
  constructor.
  - rewrite in_app_iff. intros [H|H]; [auto|]. apply (Hd x); auto.
  - apply IH; auto. intros y H1 H2. apply (Hd y); auto.
Qed.

(** Extract a witness from a computation checked by a boolean test. *)
Lemma outcome_witness {A} (o : outcome A) (f : A -> bool) :
  match o with Ok a => f a | _ => false end = true -> exists a, o = Ok a /\ f a = true.
Proof. destruct o; intros H; try discriminate. eauto. Qed.

Definition is_UB {A} (o : outcome A) : bool := match o with UB => true | _ => false end.
Lemma is_UB_eq {A} (o : outcome A) : is_UB o = true -> o = UB.
Proof. destruct o; intros H; try discriminate; reflexivity. Qed.
