(** An implementation meeting the std::nth_element contract, so the contract hypothesis
    of the kd-tree theorems is satisfiable (full insertion sort). *)
From Coq Require Import Lia.
From Verif Require Import Base BaseProofs KdSpec.

Section Sort.
Context {A : Type} (lt : A -> A -> bool).

Fixpoint insert (x : A) (l : list A) : list A :=
  match l with
  | [] => [x]
  | y :: l' => if lt y x then y :: insert x l' else x :: l
  end.
Fixpoint insertion_sort (l : list A) : list A :=
  match l with [] => [] | x :: l => insert x (insertion_sort l) end.

Lemma insert_Permutation x l : Permutation (x :: l) (insert x l).
Proof.
  induction l as [|y l IH]; simpl; auto. destruct (lt y x); auto.
  eapply perm_trans; [apply perm_swap|]. constructor; auto.
Qed.
Lemma insertion_sort_Permutation l : Permutation l (insertion_sort l).
Proof.
  induction l; simpl; auto. eapply perm_trans; [|apply insert_Permutation]. constructor; auto.
Qed.

Definition sorted (l : list A) : Prop := StronglySorted (fun a b => lt b a = false) l.

Lemma insert_sorted x l : swo_on lt (x :: l) -> sorted l -> sorted (insert x l).
Proof.
  intros (Ir & Tr & Ct). induction l as [|y l IH]; simpl; intros Hs; [repeat constructor|].
  inversion Hs as [|? ? H1 H2]; subst. destruct (lt y x) eqn:E.
  - constructor.
    + apply IH; auto.
      * intros a Ha; apply Ir; simpl in *; tauto.
      * intros a b c Ha Hb Hc; apply Tr; simpl in *; tauto.
      * intros a b c Ha Hb Hc; apply Ct; simpl in *; tauto.
    + apply Forall_forall. intros z Hz.
      apply (Permutation_in _ (Permutation_sym (insert_Permutation x l))) in Hz.
      destruct Hz as [<-|Hz].
      * destruct (lt x y) eqn:E2; auto.
        assert (lt y y = true) by (apply (Tr y x y); simpl; auto).
        rewrite Ir in H by (simpl; auto). discriminate.
      * rewrite Forall_forall in H2; auto.
  - constructor; auto. constructor; auto. rewrite Forall_forall in *. intros z Hz.
    apply (Ct z y x); simpl; auto.
Qed.

Lemma swo_sub l l' : swo_on lt l -> (forall x, In x l' -> In x l) -> swo_on lt l'.
Proof.
  intros (a & b & c) H. split; [|split].
  - intros; apply a; auto.
  - intros x y z Hx Hy Hz; apply b; auto.
  - intros x y z Hx Hy Hz; apply c; auto.
Qed.

Lemma insertion_sort_sorted l : swo_on lt l -> sorted (insertion_sort l).
Proof.
  induction l as [|x l IH]; simpl; intros H; [constructor|].
  apply insert_sorted.
  - eapply swo_sub; eauto. intros y [<-|Hy]; [left; auto|right].
    apply (Permutation_in _ (Permutation_sym (insertion_sort_Permutation l))); auto.
  - apply IH. eapply swo_sub; eauto. intros; right; auto.
Qed.

Lemma sorted_nth l : sorted l -> forall i j x y, i < j ->
  nth_error l i = Some x -> nth_error l j = Some y -> lt y x = false.
Proof.
  induction 1 as [|a l Hs IH Hf]; intros i j x y Hij Hi Hj.
  - destruct i; discriminate.
  - destruct j as [|j]; [lia|]. destruct i as [|i]; simpl in *.
    + inversion Hi; subst. rewrite Forall_forall in Hf. apply Hf. eapply nth_error_In; eauto.
    + apply (IH i j); auto. lia.
Qed.
End Sort.

(** nth_element by full sorting. *)
Definition sort_nth_element {A} (lt : A -> A -> bool) (n : nat) (l : list A) : list A :=
  insertion_sort lt l.

Theorem sort_nth_element_contract {A} : nth_element_contract (@sort_nth_element A).
Proof.
  intros lt n l Hn Hs. unfold sort_nth_element.
  pose proof (insertion_sort_sorted lt l Hs) as S.
  split; [apply insertion_sort_Permutation|]. split.
  - intros i j x y Hi Hj. apply (sorted_nth lt _ S); lia.
  - intros j x y Hj Hx Hy. destruct (Nat.eq_dec j n) as [->|].
    + rewrite Hx in Hy. inversion Hy; subst. apply (proj1 Hs).
      apply (Permutation_in _ (Permutation_sym (insertion_sort_Permutation lt l))).
      eapply nth_error_In; eauto.
    + apply (sorted_nth lt _ S n j); auto. lia.
Qed.
