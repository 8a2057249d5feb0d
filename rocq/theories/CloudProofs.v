From Coq Require Import ZifyBool ZifyNat.
From Verif Require Import Base BaseProofs CloudModel CloudSpec.

Lemma list_ext {A : Type} (l l' : list A) : (forall i, nth_error l i = nth_error l' i) -> l = l'.
Proof.
  revert l'. induction l as [|x l IH]; intros [|y l'] H; [reflexivity|specialize (H 0); discriminate|specialize (H 0); discriminate|].
  pose proof (H 0) as H0. injection H0 as ->. f_equal. apply IH. intros i. apply (H (S i)).
Qed.
Lemma nth_tab {A : Type} (f : nat -> A) n i : nth_error (map f (seq 0 n)) i = if i <? n then Some (f i) else None.
Proof.
  rewrite nth_error_map. destruct (i <? n) eqn:E; [apply Nat.ltb_lt in E|apply Nat.ltb_ge in E].
  - rewrite nth_error_nth' with (d := 0) by (rewrite seq_length; exact E). rewrite seq_nth by exact E. reflexivity.
  - rewrite (proj2 (nth_error_None _ _)); [reflexivity|rewrite seq_length; exact E].
Qed.
Lemma upd_tab {A : Type} (f : nat -> A) n j v : j < n ->
  upd (map f (seq 0 n)) j v = map (fun i => if i =? j then v else f i) (seq 0 n).
Proof.
  intros L. apply list_ext. intros i. rewrite nth_tab, upd_nth_error, nth_tab, map_length, seq_length, (Nat.eqb_sym i j).
  destruct (j =? i) eqn:E; destruct (i <? n) eqn:E2; auto.
Qed.
Lemma map_tab_ext {A : Type} (f g : nat -> A) n : (forall i, i < n -> f i = g i) -> map f (seq 0 n) = map g (seq 0 n).
Proof. intros H. apply map_ext_in. intros i Hi. apply in_seq in Hi. apply H. lia. Qed.
Lemma nth_repeat {A : Type} (x : A) n i : nth_error (repeat x n) i = if i <? n then Some x else None.
Proof. revert i. induction n as [|n IH]; intros [|i]; cbn [repeat nth_error]; auto. rewrite IH. reflexivity. Qed.
Lemma nth_firstn {A : Type} (l : list A) n i : nth_error (firstn n l) i = if i <? n then nth_error l i else None.
Proof.
  revert n i. induction l as [|x l IH]; intros [|n] [|i]; cbn [firstn nth_error]; auto.
  - destruct (S i <? S n); reflexivity.
  - rewrite IH. reflexivity.
Qed.
Lemma vresize_tab {X : Type} (f : nat -> option X) m n : (forall i, m <= i -> f i = None) ->
  vresize (map f (seq 0 m)) n = map (fun i => if i <? n then f i else None) (seq 0 n).
Proof.
  intros B. apply list_ext. intros i. unfold vresize. rewrite nth_tab, map_length, seq_length.
  destruct (i <? n) eqn:E; [apply Nat.ltb_lt in E|apply Nat.ltb_ge in E].
  - destruct (Nat.lt_ge_cases i m) as [L|L].
    + rewrite nth_error_app1 by (rewrite firstn_length, map_length, seq_length; lia). rewrite nth_firstn, nth_tab.
      destruct (i <? n) eqn:E1; [|lia]. destruct (i <? m) eqn:E2; [|lia]. reflexivity.
    + rewrite nth_error_app2 by (rewrite firstn_length, map_length, seq_length; lia).
      rewrite firstn_length, map_length, seq_length, nth_repeat. destruct (_ <? _) eqn:E1; [|lia]. rewrite B by exact L. reflexivity.
  - apply nth_error_None. rewrite app_length, firstn_length, repeat_length, map_length, seq_length. lia.
Qed.

Section Refine.
Context {V M : Type}.
Implicit Types (h : list (op V M)) (c : pcloud V M) (o : op V M).

Lemma last_set_beyond {X : Type} (sets : op V M -> option (nat * X)) h i :
  (forall o j x, sets o = Some (j, x) -> index_of o = Some j) -> in_range h -> size_of h <= i -> last_set sets h i = None.
Proof.
  intros SI. induction h as [|o h IH]; intros R L; [reflexivity|]. destruct R as [R0 R]. cbn [last_set].
  destruct o as [n|j v|j v|j v]; cbn [size_of] in L; cbn [index_of] in R0.
  - destruct (i <? n) eqn:E; [lia|reflexivity].
  - destruct (sets _) as [[j' x]|] eqn:E; [|auto]. apply SI in E. injection E as ->. destruct (i =? j') eqn:E2; [lia|auto].
  - destruct (sets _) as [[j' x]|] eqn:E; [|auto]. apply SI in E. injection E as ->. destruct (i =? j') eqn:E2; [lia|auto].
  - destruct (sets _) as [[j' x]|] eqn:E; [|auto]. apply SI in E. injection E as ->. destruct (i =? j') eqn:E2; [lia|auto].
Qed.
Lemma idx_point o j x : sets_point o = Some (j, x) -> index_of o = Some j. Proof. destruct o; cbn; congruence. Qed.
Lemma idx_normal o j x : sets_normal o = Some (j, x) -> index_of o = Some j. Proof. destruct o; cbn; congruence. Qed.
Lemma idx_cov o j x : sets_cov o = Some (j, x) -> index_of o = Some j. Proof. destruct o; cbn; congruence. Qed.

Lemma apply_spec h c o : in_range h -> represents h c ->
  match index_of o with
  | Some i => if i <? size_of h then exists c', apply c o = Ok c' /\ represents (o :: h) c' else apply c o = UB
  | None => exists c', apply c o = Ok c' /\ represents (o :: h) c'
  end.
Proof.
  intros R (E1 & E2 & E3). cbv zeta in *.
  destruct o as [n|j v|j v|j v]; cbn [index_of apply]; try (destruct (j <? size_of h) eqn:L; [apply Nat.ltb_lt in L|apply Nat.ltb_ge in L]).
  - eexists. split; [reflexivity|]. unfold represents. cbn [size_of pc_points pc_normals pc_covs last_set]. rewrite E1, E2, E3.
    split; [|split]; apply vresize_tab; intros i Hi; eapply last_set_beyond; eauto using idx_point, idx_normal, idx_cov.
  - rewrite E1, set_Ok by (rewrite map_length, seq_length; exact L). cbn [bind]. eexists. split; [reflexivity|].
    unfold represents. cbn [size_of pc_points pc_normals pc_covs last_set sets_point sets_normal sets_cov].
    split; [|split; [exact E2|exact E3]]. rewrite upd_tab by exact L. reflexivity.
  - rewrite E1, set_UB by (rewrite map_length, seq_length; exact L). reflexivity.
  - rewrite E2, set_Ok by (rewrite map_length, seq_length; exact L). cbn [bind]. eexists. split; [reflexivity|].
    unfold represents. cbn [size_of pc_points pc_normals pc_covs last_set sets_point sets_normal sets_cov].
    split; [exact E1|split; [|exact E3]]. rewrite upd_tab by exact L. reflexivity.
  - rewrite E2, set_UB by (rewrite map_length, seq_length; exact L). reflexivity.
  - rewrite E3, set_Ok by (rewrite map_length, seq_length; exact L). cbn [bind]. eexists. split; [reflexivity|].
    unfold represents. cbn [size_of pc_points pc_normals pc_covs last_set sets_point sets_normal sets_cov].
    split; [exact E1|split; [exact E2|]]. rewrite upd_tab by exact L. reflexivity.
  - rewrite E3, set_UB by (rewrite map_length, seq_length; exact L). reflexivity.
Qed.
Lemma in_range_app h h' : in_range (h ++ h') -> in_range h'.
Proof. induction h as [|o h IH]; [auto|]. cbn [app in_range]. intros [_ H]. auto. Qed.
Lemma run_spec ops : forall h c, in_range h -> represents h c ->
  (in_range (rev ops ++ h) -> exists c', run ops c = Ok c' /\ represents (rev ops ++ h) c') /\
  (~ in_range (rev ops ++ h) -> run ops c = UB).
Proof.
  induction ops as [|o ops IH]; intros h c R Re; cbn [rev app].
  - split; [intros _; exists c; split; [reflexivity|exact Re]|intros N; contradiction].
  - unfold run. cbn [foldM]. pose proof (apply_spec h c o R Re) as A. rewrite <- app_assoc. cbn [app].
    assert (G : forall c', apply c o = Ok c' -> represents (o :: h) c' -> in_range (o :: h) ->
      (in_range (rev ops ++ o :: h) -> exists c', (let* s := apply c o in foldM apply ops s) = Ok c' /\ represents (rev ops ++ o :: h) c') /\
      (~ in_range (rev ops ++ o :: h) -> (let* s := apply c o in foldM apply ops s) = UB)).
    { intros c' E Re' R'. rewrite E. cbn [bind]. apply (IH (o :: h) c' R' Re'). }
    destruct (index_of o) as [i|] eqn:Ei.
    + destruct (i <? size_of h) eqn:L; [apply Nat.ltb_lt in L|apply Nat.ltb_ge in L].
      * destruct A as (c' & E & Re'). apply (G c' E Re'). split; [rewrite Ei; exact L|exact R].
      * rewrite A. split; [|reflexivity]. intros C. apply in_range_app in C. destruct C as [C _]. rewrite Ei in C. lia.
    + destruct A as (c' & E & Re'). apply (G c' E Re'). split; [rewrite Ei; exact I|exact R].
Qed.
End Refine.
