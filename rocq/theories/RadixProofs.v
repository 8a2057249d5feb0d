(** Proofs about the parallel radix sort (RadixModel.v). *)
From Coq Require Import ZArith ZifyBool ZifyNat ZifyN.
From Verif Require Import Base BaseProofs KdModel SortSpec SortModel RadixModel.
Ltac Zify.zify_post_hook ::= Z.div_mod_to_equations.

(** * Counting by digit *)
Section Count.
Context {T : Type} (d : T -> nat).

Definition cnt (b : nat) (l : list T) : nat := length (filter (fun x => d x =? b) l).

(** Number of elements with a smaller digit. *)
Fixpoint less (b : nat) (l : list T) : nat :=
  match b with
  | O => 0
  | S c => less c l + cnt c l
  end.

(** The list arranged by digit, keeping the order within each digit. *)
Definition binned (nb : nat) (l : list T) : list T :=
  flat_map (fun b => filter (fun x => d x =? b) l) (seq 0 nb).

Lemma cnt_app b l1 l2 : cnt b (l1 ++ l2) = cnt b l1 + cnt b l2.
Proof. unfold cnt. rewrite filter_app, app_length. reflexivity. Qed.

Lemma cnt_cons b x l : cnt b (x :: l) = (if d x =? b then 1 else 0) + cnt b l.
Proof. unfold cnt. simpl. destruct (d x =? b); reflexivity. Qed.

Lemma cnt_firstn_S b l i x :
  nth_error l i = Some x -> cnt b (firstn (S i) l) = cnt b (firstn i l) + (if d x =? b then 1 else 0).
Proof.
  revert i. induction l as [|y l IH]; intros [|i] H; simpl in H; try discriminate.
  - inversion H; subst. simpl. rewrite cnt_cons. unfold cnt. simpl. lia.
  - change (firstn (S (S i)) (y :: l)) with (y :: firstn (S i) l).
    change (firstn (S i) (y :: l)) with (y :: firstn i l). rewrite !cnt_cons, (IH i) by auto. lia.
Qed.

Lemma cnt_firstn_le b l i j : i <= j -> cnt b (firstn i l) <= cnt b (firstn j l).
Proof.
  intros H. rewrite <- (firstn_skipn i (firstn j l)), firstn_firstn.
  replace (Nat.min i j) with i by lia. rewrite cnt_app. lia.
Qed.

Lemma cnt_firstn_lt l i j x :
  i < j -> nth_error l i = Some x -> cnt (d x) (firstn i l) < cnt (d x) (firstn j l).
Proof.
  intros H Hx. pose proof (cnt_firstn_S (d x) l i x Hx) as E. rewrite Nat.eqb_refl in E.
  pose proof (cnt_firstn_le (d x) l (S i) j ltac:(lia)). lia.
Qed.

Lemma less_length b l : less b l = length (flat_map (fun b => filter (fun x => d x =? b) l) (seq 0 b)).
Proof.
  induction b as [|b IH]; [reflexivity|].
  rewrite seq_S, flat_map_app, app_length, <- IH. simpl. rewrite app_nil_r. reflexivity.
Qed.

Lemma less_mono a b l : a <= b -> less a l <= less b l.
Proof. induction 1; simpl; lia. Qed.

Definition pos (l : list T) (i : nat) (x : T) : nat := less (d x) l + cnt (d x) (firstn i l).

Lemma filter_nth b l i x :
  nth_error l i = Some x -> d x = b ->
  nth_error (filter (fun x => d x =? b) l) (cnt b (firstn i l)) = Some x.
Proof.
  intros H E. revert i H. induction l as [|y l IH]; intros [|i] H; simpl in H; try discriminate.
  - inversion H; subst. simpl. unfold cnt. simpl. rewrite Nat.eqb_refl. reflexivity.
  - change (firstn (S i) (y :: l)) with (y :: firstn i l). rewrite cnt_cons. simpl.
    destruct (d y =? b); simpl; apply IH; auto.
Qed.

Lemma binned_nth nb l i x :
  nth_error l i = Some x -> d x < nb -> nth_error (binned nb l) (pos l i x) = Some x.
Proof.
  intros H E. unfold binned. replace nb with (d x + S (nb - d x - 1)) by lia.
  rewrite seq_app, flat_map_app. unfold pos. rewrite less_length, nth_error_app2 by lia.
  rewrite Nat.add_sub_swap, Nat.sub_diag by lia. simpl.
  pose proof (filter_nth (d x) l i x H eq_refl) as F. rewrite nth_error_app1; auto.
  apply nth_error_Some. congruence.
Qed.

Lemma binned_length nb l : (forall x, In x l -> d x < nb) -> length (binned nb l) = length l.
Proof.
  intros H. unfold binned. rewrite <- less_length.
  induction l as [|x l IH].
  - clear. induction nb; simpl; auto. rewrite IHnb. reflexivity.
  - simpl. rewrite <- IH by (intros; apply H; right; auto).
    assert (Hx : d x < nb) by (apply H; left; auto). clear H IH.
    assert (G : forall m, less m (x :: l) = (if d x <? m then 1 else 0) + less m l).
    { induction m as [|m IH]; [reflexivity|]. simpl. rewrite IH, cnt_cons.
      destruct (d x <? m) eqn:E1, (d x =? m) eqn:E2, (d x <? S m) eqn:E3; lia. }
    rewrite G. replace (d x <? nb) with true by lia. reflexivity.
Qed.

Lemma pos_bound l i x : nth_error l i = Some x -> less (d x) l <= pos l i x < less (S (d x)) l.
Proof.
  intros H. unfold pos. simpl. split; [lia|].
  pose proof (cnt_firstn_lt l i (length l) x) as L. rewrite firstn_all in L.
  assert (i < length l) by (apply nth_error_Some; congruence). specialize (L H0 H). lia.
Qed.

Lemma pos_inj l i j x y :
  nth_error l i = Some x -> nth_error l j = Some y -> pos l i x = pos l j y -> i = j.
Proof.
  intros Hx Hy E. pose proof (pos_bound l i x Hx). pose proof (pos_bound l j y Hy).
  destruct (lt_eq_lt_dec (d x) (d y)) as [[L|L]|L].
  - pose proof (less_mono (S (d x)) (d y) l L). lia.
  - unfold pos in E. rewrite L in E. assert (E' : cnt (d y) (firstn i l) = cnt (d y) (firstn j l)) by lia.
    destruct (lt_eq_lt_dec i j) as [[I|I]|I]; auto.
    + pose proof (cnt_firstn_lt l i j x I Hx) as Q. rewrite L in Q. lia.
    + pose proof (cnt_firstn_lt l j i y I Hy) as Q. lia.
  - pose proof (less_mono (S (d y)) (d x) l L). lia.
Qed.

(** A list holding every element at its position is the binned list. *)
Lemma binned_unique nb l out :
  (forall x, In x l -> d x < nb) -> length out = length l ->
  (forall i x, nth_error l i = Some x -> nth_error out (pos l i x) = Some x) ->
  out = binned nb l.
Proof.
  intros HB HL H. pose proof (binned_length nb l HB) as LB.
  set (n := length l) in *.
  destruct l as [|x0 l0] eqn:El.
  { destruct out; [|discriminate]. unfold binned. clear. induction (seq 0 nb); simpl; auto. }
  rewrite <- El in *.
  set (p := fun i => pos l i (nth i l x0)).
  assert (NTH : forall i, i < n -> nth_error l i = Some (nth i l x0)).
  { intros i Hi. apply nth_error_nth'. subst n. rewrite El in *. auto. }
  assert (ND : NoDup (map p (seq 0 n))).
  { assert (G : forall s, NoDup s -> (forall i, In i s -> i < n) -> NoDup (map p s)).
    { induction 1 as [|a s Ha Hs IH]; simpl; intros Hlt; constructor.
      - intros Hin. apply in_map_iff in Hin. destruct Hin as (j & Ej & Hj).
        assert (j = a); [|subst; auto]. unfold p in Ej.
        eapply pos_inj; eauto.
      - apply IH. auto. }
    apply G; [apply seq_NoDup|]. intros i Hi. apply in_seq in Hi. lia. }
  assert (PB : forall i, i < n -> p i < n).
  { intros i Hi. unfold p. rewrite <- LB. apply nth_error_Some.
    rewrite (binned_nth nb l i (nth i l x0)); [discriminate|auto|].
    apply HB. apply (nth_error_In l i). auto. }
  assert (INC : incl (map p (seq 0 n)) (seq 0 n)).
  { intros q Hq. apply in_map_iff in Hq. destruct Hq as (i & <- & Hi). apply in_seq in Hi.
    apply in_seq. specialize (PB i ltac:(lia)). lia. }
  assert (SUR : forall q, q < n -> exists i, i < n /\ p i = q).
  { intros q Hq. assert (Hin : In q (map p (seq 0 n))).
    { apply (NoDup_length_incl (l' := seq 0 n) ND); auto.
      - rewrite map_length. lia.
      - apply in_seq. lia. }
    apply in_map_iff in Hin. destruct Hin as (i & E & Hi). apply in_seq in Hi. exists i. split; [lia|auto]. }
  apply nth_error_ext. intros q. destruct (Nat.lt_ge_cases q n) as [Hq|Hq].
  - destruct (SUR q Hq) as (i & Hi & <-). unfold p.
    rewrite (H i _ (NTH i Hi)). rewrite (binned_nth nb l i _ (NTH i Hi)); auto.
    apply HB. eapply nth_error_In; eauto.
  - rewrite (proj2 (nth_error_None out q)), (proj2 (nth_error_None (binned nb l) q)); auto; lia.
Qed.

End Count.

(** * Grid indices *)
Lemma grid_inj (t1 t2 b1 b2 nt : nat) :
  t1 < nt -> t2 < nt -> b1 * nt + t1 = b2 * nt + t2 -> b1 = b2 /\ t1 = t2.
Proof.
  intros H1 H2 E. assert (b1 = b2) by nia. subst. lia.
Qed.

Lemma grid_lt (t b nt nb : nat) : t < nt -> b < nb -> b * nt + t < nb * nt.
Proof. intros. nia. Qed.

Section Radix.
Context (T : Type) (key : T -> N) (width bits tile_size : nat).
Hypothesis Hts : 0 < tile_size.
Hypothesis Hbits : 0 < bits.

Notation nb := (num_bins bits).
Notation ntiles := (num_tiles tile_size).
Notation dbegin := (data_begin tile_size).
Notation dend := (data_end tile_size).
Notation digit := (digit key bits).

Lemma digit_value step x : digit step x = N.to_nat ((key x / 2 ^ N.of_nat (step * bits)) mod 2 ^ N.of_nat bits).
Proof.
  unfold RadixModel.digit. rewrite N.shiftr_div_pow2.
  replace (2 ^ N.of_nat bits - 1)%N with (N.ones (N.of_nat bits)).
  - rewrite N.land_ones. reflexivity.
  - rewrite N.ones_equiv. lia.
Qed.

Lemma nb_N : N.of_nat nb = (2 ^ N.of_nat bits)%N.
Proof. unfold num_bins. rewrite Nat2N.inj_pow. reflexivity. Qed.

Lemma nb_pos : 1 < nb.
Proof.
  unfold num_bins. destruct bits; [lia|]. simpl. pose proof (Nat.pow_nonzero 2 n). lia.
Qed.

Lemma digit_lt step x : digit step x < nb.
Proof.
  rewrite digit_value. pose proof nb_N.
  pose proof (N.mod_lt (key x / 2 ^ N.of_nat (step * bits)) (2 ^ N.of_nat bits)).
  assert (2 ^ N.of_nat bits <> 0)%N by (apply N.pow_nonzero; lia). lia.
Qed.

(** Tiles cover the input. *)
Lemma ntiles_pos n : 0 < n -> 0 < ntiles n.
Proof.
  intros H. unfold num_tiles. apply Nat.div_str_pos. lia.
Qed.

Lemma last_tile n : 0 < n -> (ntiles n - 1) * tile_size < n /\ n <= ntiles n * tile_size.
Proof.
  intros H. unfold num_tiles.
  pose proof (Nat.div_mod (n + tile_size - 1) tile_size ltac:(lia)) as E.
  pose proof (Nat.mod_upper_bound (n + tile_size - 1) tile_size ltac:(lia)).
  set (q := (n + tile_size - 1) / tile_size) in *. set (r := (n + tile_size - 1) mod tile_size) in *.
  rewrite Nat.mul_sub_distr_r. nia.
Qed.

Lemma tile_bounds n t : t < ntiles n -> dbegin t < dend n t /\ dend n t <= n.
Proof.
  intros H. unfold data_begin, data_end.
  assert (0 < n). { destruct n; [|lia]. unfold num_tiles in H. simpl in H. rewrite Nat.div_small in H; lia. }
  pose proof (last_tile n H0). nia.
Qed.

Lemma tile_of n i : i < n -> exists t, t < ntiles n /\ dbegin t <= i < dend n t.
Proof.
  intros H. exists (i / tile_size).
  pose proof (Nat.div_mod i tile_size ltac:(lia)) as E.
  pose proof (Nat.mod_upper_bound i tile_size ltac:(lia)).
  set (q := i / tile_size) in *. set (r := i mod tile_size) in *.
  pose proof (last_tile n ltac:(lia)).
  unfold data_begin, data_end. nia.
Qed.

(** Counters of the tile loops. *)
Definition counters_ok (n : nat) (c : list nat) : Prop :=
  length c = ntiles n /\
  forall t i, nth_error c t = Some i -> dbegin t <= i <= dend n t.

Lemma counters0_ok n : counters_ok n (counters0 tile_size n).
Proof.
  unfold counters0. split; [rewrite map_length, seq_length; auto|].
  intros t i H. assert (Ht : t < ntiles n).
  { rewrite <- (seq_length (ntiles n) 0), <- (map_length dbegin). apply nth_error_Some. congruence. }
  rewrite (map_nth_error dbegin t (seq 0 (ntiles n)) (d := t)) in H.
  - inversion H; subst. pose proof (tile_bounds n t Ht). lia.
  - rewrite (nth_error_nth' _ 0) by (rewrite seq_length; auto). rewrite seq_nth by auto. reflexivity.
Qed.

Lemma counters0_nth n t : t < ntiles n -> nth_error (counters0 tile_size n) t = Some (dbegin t).
Proof.
  intros Ht. unfold counters0. apply map_nth_error.
  rewrite (nth_error_nth' _ 0) by (rewrite seq_length; auto). rewrite seq_nth by auto. reflexivity.
Qed.

Lemma ended_spec n c : length c = ntiles n ->
  ended tile_size n c = true -> forall t, t < ntiles n -> nth_error c t = Some (dend n t).
Proof.
  intros L H t Ht. unfold ended in H. rewrite forallb_forall in H.
  destruct (nth_error c t) as [i|] eqn:E; [|apply nth_error_None in E; lia].
  specialize (H (t, i)). simpl in H. f_equal. apply Nat.eqb_eq. apply H.
  assert (G : forall a (c : list nat) t, nth_error c t = Some i -> In (a + t, i) (combine (seq a (length c)) c)).
  { clear. intros a c; revert a. induction c as [|x c IH]; intros a [|t] H; simpl in *; try discriminate.
    - inversion H; subst. left. f_equal. lia.
    - right. replace (a + S t) with (S a + t) by lia. apply IH; auto. }
  rewrite <- L. apply (G 0 c t E).
Qed.

Lemma ended_true n c : length c = ntiles n ->
  (forall t, t < ntiles n -> nth_error c t = Some (dend n t)) -> ended tile_size n c = true.
Proof.
  intros L H. unfold ended. apply forallb_forall. intros [t i] Hin. simpl.
  assert (G : forall a (c : list nat) t i, In (t, i) (combine (seq a (length c)) c) ->
    a <= t /\ nth_error c (t - a) = Some i).
  { clear. intros a c; revert a. induction c as [|x c IH]; intros a t i H; simpl in *; [tauto|].
    destruct H as [H|H].
    - inversion H; subst. rewrite Nat.sub_diag. auto.
    - apply IH in H. destruct H as (H1 & H2). split; [lia|].
      replace (t - a) with (S (t - S a)) by lia. auto. }
  rewrite <- L in Hin. destruct (G 0 c t i Hin) as (_ & E). rewrite Nat.sub_0_r in E.
  assert (t < ntiles n) by (rewrite <- L; apply nth_error_Some; congruence).
  rewrite H in E by auto. inversion E. lia.
Qed.

(** Advancing one counter. *)
Lemma counters_upd n c t i : counters_ok n c -> nth_error c t = Some i -> i < dend n t ->
  counters_ok n (upd c t (i + 1)).
Proof.
  intros (L & H) E Hi. split; [rewrite upd_length; auto|].
  intros t' i' E'. destruct (Nat.eq_dec t t') as [<-|N].
  - rewrite upd_nth_error_same in E' by (apply nth_error_Some; congruence). inversion E'; subst.
    specialize (H t i E). lia.
  - rewrite upd_nth_error_other in E' by auto. auto.
Qed.

Section Pass.
Context (first : list T) (step : nat).
Notation n := (length first).
Hypothesis Hn : 0 < n.
Notation d := (digit step).

(** Cell (b,t) of the bucket array. *)
Definition cells (tb : list nat) (v : nat -> nat -> nat) : Prop :=
  length tb = nb * ntiles n /\
  forall b t, b < nb -> t < ntiles n -> nth_error tb (b * ntiles n + t) = Some (v b t).

Lemma cells_get tb v b t : cells tb v -> b < nb -> t < ntiles n -> get tb (b * ntiles n + t) = Ok (v b t).
Proof. intros (_ & H) Hb Ht. apply get_Ok. auto. Qed.

Lemma cells_upd tb v b t w v' :
  cells tb v -> b < nb -> t < ntiles n ->
  v' b t = w ->
  (forall b' t', b' < nb -> t' < ntiles n -> (b' <> b \/ t' <> t) -> v' b' t' = v b' t') ->
  set tb (b * ntiles n + t) w = Ok (upd tb (b * ntiles n + t) w) /\
  cells (upd tb (b * ntiles n + t) w) v'.
Proof.
  intros (L & H) Hb Ht E1 E2. pose proof (grid_lt t b _ _ Ht Hb) as G. rewrite <- L in G.
  split; [apply set_Ok; auto|].
  split; [rewrite upd_length; auto|].
  intros b' t' Hb' Ht'. destruct (Nat.eq_dec (b * ntiles n + t) (b' * ntiles n + t')) as [E|N].
  - destruct (grid_inj _ _ _ _ _ Ht Ht' E) as (<- & <-). rewrite upd_nth_error_same by auto. congruence.
  - rewrite upd_nth_error_other by auto. rewrite H by auto. f_equal. symmetry. apply E2; auto.
    destruct (Nat.eq_dec b' b) as [->|]; auto.
Qed.

Lemma cells_zero m : m = nb * ntiles n -> cells (repeat 0 m) (fun _ _ => 0).
Proof.
  intros ->. split; [apply repeat_length|]. intros b t Hb Ht.
  pose proof (grid_lt t b _ _ Ht Hb) as G.
  assert (R : forall m k, k < m -> nth_error (repeat 0 m) k = Some 0).
  { clear. induction m as [|m IH]; intros [|k] H; simpl; try lia; auto. apply IH. lia. }
  apply R; auto.
Qed.

Lemma get_first i : i < n -> exists x, get first i = Ok x /\ nth_error first i = Some x.
Proof. intros H. destruct (get_lt first i H) as (x & E). exists x. split; auto. apply get_Ok; auto. Qed.

(** ** Histogram loop *)
Definition ccount (c : list nat) (b t : nat) : nat :=
  match nth_error c t with
  | Some i => cnt d b (slice first (dbegin t) i)
  | None => 0
  end.

Definition hinv (st : list nat * list nat) : Prop :=
  counters_ok n (snd st) /\ cells (fst st) (ccount (snd st)).

Lemma cnt_slice_S b a i x : a <= i -> nth_error first i = Some x ->
  cnt d b (slice first a (i + 1)) = cnt d b (slice first a i) + (if d x =? b then 1 else 0).
Proof.
  intros H E. unfold slice. replace (i + 1 - a) with (S (i - a)) by lia.
  apply cnt_firstn_S. rewrite nth_error_skipn. rewrite <- E. f_equal. lia.
Qed.

Lemma slice_nil a : slice first a a = [].
Proof. unfold slice. rewrite Nat.sub_diag. reflexivity. Qed.

Lemma hinv_init : hinv (repeat 0 (nb * ntiles n), counters0 tile_size n).
Proof.
  split; [apply counters0_ok|]. simpl.
  destruct (cells_zero _ eq_refl) as (L & H). split; [exact L|].
  intros b t Hb Ht. rewrite H by auto. unfold ccount. rewrite counters0_nth by auto.
  rewrite slice_nil. reflexivity.
Qed.

Lemma hist_step_inv st t : hinv st -> t < ntiles n -> (N.of_nat n <= INT_MAX)%N ->
  exists st', hist_step key bits tile_size first step st t = Ok st' /\ hinv st'.
Proof.
  destruct st as [tb c]. intros ((L & C) & H) Ht HM. unfold hist_step. cbn [fst snd] in *.
  destruct (get_lt c t ltac:(lia)) as (i & Ei). rewrite Ei. cbn [bind]. apply get_Ok in Ei.
  destruct (i <? dend n t) eqn:Elt; [|eexists; split; [reflexivity|split; [split; auto|auto]]].
  pose proof (tile_bounds n t Ht) as TB.
  destruct (get_first i ltac:(lia)) as (x & -> & Ex). cbn [bind].
  rewrite (cells_get tb _ _ t H (digit_lt step x) Ht). cbn [bind].
  specialize (C t i Ei) as Ci.
  destruct (cells_upd tb (ccount c) (d x) t (ccount c (d x) t + 1) (ccount (upd c t (i + 1))) H
    (digit_lt step x) Ht) as (-> & H').
  { unfold ccount. rewrite upd_nth_error_same by lia. rewrite Ei.
    rewrite (cnt_slice_S (d x) (dbegin t) i x) by (auto; lia). rewrite Nat.eqb_refl. reflexivity. }
  { intros b' t' Hb' Ht' Hne. unfold ccount. destruct (Nat.eq_dec t t') as [<-|Nt].
    - rewrite upd_nth_error_same by lia. rewrite Ei.
      rewrite (cnt_slice_S b' (dbegin t) i x) by (auto; lia).
      replace (d x =? b') with false by lia. lia.
    - rewrite upd_nth_error_other by auto. reflexivity. }
  cbn [bind]. replace (INT_MAX <? N.of_nat (i + 1))%N with false by lia.
  rewrite set_Ok by lia. cbn [bind]. eexists. split; [reflexivity|].
  split; [apply counters_upd with (i := i); [split|..]; auto; lia|exact H'].
Qed.

Lemma hist_run s st : hinv st -> Forall (fun t => t < ntiles n) s -> (N.of_nat n <= INT_MAX)%N ->
  exists st', foldM (hist_step key bits tile_size first step) s st = Ok st' /\ hinv st'.
Proof.
  intros H F HM. revert st H. induction F as [|t s Ht F IH]; intros st H; simpl; [eauto|].
  destruct (hist_step_inv st t H Ht HM) as (st' & -> & H'). simpl. auto.
Qed.

(** Count in a whole tile, and in all tiles before it. *)
Definition tcount (b t : nat) : nat := cnt d b (slice first (dbegin t) (dend n t)).

Lemma tile_prefix b t :
  cnt d b (firstn (dbegin t) first) + tcount b t = cnt d b (firstn (dbegin (t + 1)) first).
Proof.
  unfold tcount, slice, data_begin, data_end.
  assert (E : firstn ((t + 1) * tile_size) first =
    firstn (t * tile_size) first ++ firstn (Nat.min ((t + 1) * tile_size) n - t * tile_size) (skipn (t * tile_size) first)).
  { apply nth_error_ext. intros i. rewrite nth_error_firstn.
    destruct (Nat.lt_ge_cases i (t * tile_size)) as [Hi|Hi].
    - replace (i <? (t + 1) * tile_size) with true by nia.
      destruct (Nat.lt_ge_cases i n) as [Hin|Hin].
      + rewrite nth_error_app1 by (rewrite firstn_length; lia). rewrite nth_error_firstn.
        replace (i <? t * tile_size) with true by lia. reflexivity.
      + transitivity (@None T); [apply nth_error_None; auto|symmetry; apply nth_error_None].
        rewrite app_length, !firstn_length, skipn_length. lia.
    - destruct (Nat.lt_ge_cases i n) as [Hin|Hin].
      + rewrite nth_error_app2 by (rewrite firstn_length; lia). rewrite firstn_length.
        rewrite nth_error_firstn, nth_error_skipn.
        replace (t * tile_size + (i - Nat.min (t * tile_size) n)) with i by lia.
        destruct (i <? (t + 1) * tile_size) eqn:E1.
        * replace (i - _ <? _) with true by lia. reflexivity.
        * replace (i - _ <? _) with false by lia. reflexivity.
      + transitivity (@None T).
        { destruct (_ <? _); auto. apply nth_error_None; auto. }
        symmetry; apply nth_error_None. rewrite app_length, !firstn_length, skipn_length. lia. }
  rewrite E, cnt_app. lia.
Qed.

(** ** Saved last-tile counts *)
Lemma last_cell i : 1 <= i -> i * ntiles n - 1 = (i - 1) * ntiles n + (ntiles n - 1).
Proof. intros H. pose proof (ntiles_pos n Hn). nia. Qed.

Lemma nth_upd_fun {X} (l : list X) (v : nat -> X) i m :
  (forall j, j < m -> nth_error l j = Some (v j)) -> length l = m -> i < m ->
  forall w, set l i w = Ok (upd l i w) /\ length (upd l i w) = m /\
   forall j, j < m -> nth_error (upd l i w) j = Some (if i =? j then w else v j).
Proof.
  intros H L Hi w. split; [apply set_Ok; lia|]. split; [rewrite upd_length; auto|].
  intros j Hj. destruct (Nat.eq_dec i j) as [<-|N].
  - rewrite Nat.eqb_refl. apply upd_nth_error_same. lia.
  - rewrite upd_nth_error_other by auto. replace (i =? j) with false by lia. auto.
Qed.

Lemma repeat_nth {X} (v : X) m k : k < m -> nth_error (repeat v m) k = Some v.
Proof. revert k; induction m as [|m IH]; intros [|k] H; simpl; try lia; auto. apply IH. lia. Qed.

Lemma save_run tb v : cells tb v ->
  exists go, foldM (save_step tile_size n tb) (seq 1 (nb - 1)) (repeat 0 nb) = Ok go /\
    length go = nb /\
    forall i, i < nb -> nth_error go i = Some (if i =? 0 then 0 else v (i - 1) (ntiles n - 1)).
Proof.
  intros H. pose proof nb_pos as HB. pose proof (ntiles_pos n Hn) as HT.
  assert (G : forall k, k <= nb - 1 -> exists go,
    foldM (save_step tile_size n tb) (seq 1 k) (repeat 0 nb) = Ok go /\ length go = nb /\
    forall i, i < nb -> nth_error go i =
      Some (if (i =? 0) || (k <? i) then 0 else v (i - 1) (ntiles n - 1))).
  { induction k as [|k IH]; intros Hk.
    - exists (repeat 0 nb). split; [reflexivity|]. split; [apply repeat_length|].
      intros i Hi. rewrite repeat_nth by auto. destruct i; reflexivity.
    - destruct IH as (go & E & L & V); [lia|].
      rewrite seq_S, foldM_app, E. cbn [bind foldM]. unfold save_step.
      rewrite (last_cell (1 + k)) by lia.
      rewrite (cells_get tb v (1 + k - 1) (ntiles n - 1) H) by lia. cbn [bind].
      destruct (nth_upd_fun go _ (1 + k) nb V L ltac:(lia) (v (1 + k - 1) (ntiles n - 1))) as (-> & L' & V').
      cbn [bind]. eexists. split; [reflexivity|]. split; [exact L'|].
      intros i Hi. rewrite V' by auto. f_equal.
      destruct (1 + k =? i) eqn:E1.
      + replace ((i =? 0) || (S k <? i)) with false by lia. f_equal. lia.
      + destruct ((i =? 0) || (k <? i)) eqn:E2, ((i =? 0) || (S k <? i)) eqn:E3; auto; lia. }
  destruct (G (nb - 1) (le_n _)) as (go & E & L & V). exists go. split; [exact E|]. split; [exact L|].
  intros i Hi. rewrite V by auto. f_equal. destruct (i =? 0) eqn:E1; auto.
  replace (nb - 1 <? i) with false by lia. reflexivity.
Qed.

(** ** Per-bin prefix sums *)
Definition bcell (loc : list (nat * nat)) (b t : nat) : nat :=
  match nth_error loc b with
  | Some (k, _) => if t <? k then cnt d b (firstn (dbegin t) first) else tcount b t
  | None => 0
  end.

Definition binv (st : list nat * list (nat * nat)) : Prop :=
  length (snd st) = nb /\
  (forall b k last, nth_error (snd st) b = Some (k, last) -> k <= ntiles n /\
     (0 < k -> last = tcount b (k - 1))) /\
  cells (fst st) (bcell (snd st)).

Lemma dbegin_0 : dbegin 0 = 0. Proof. reflexivity. Qed.

Lemma bin_step_inv st b : binv st -> b < nb ->
  exists st', bin_step tile_size n st b = Ok st' /\ binv st'.
Proof.
  destruct st as [tb loc]. intros (L & V & H) Hb. cbn [fst snd] in *. unfold bin_step.
  destruct (get_lt loc b ltac:(lia)) as ([k last] & El). rewrite El. cbn [bind]. apply get_Ok in El.
  destruct (V b k last El) as (Hk & Hl).
  destruct (k <? ntiles n) eqn:Ek; [|eexists; split; [reflexivity|split; [|split]; auto]].
  rewrite (cells_get tb _ b k H Hb) by lia. cbn [bind].
  assert (B1 : bcell loc b k = tcount b k) by (unfold bcell; rewrite El; replace (k <? k) with false by lia; auto).
  set (w := if k =? 0 then 0 else cnt d b (firstn (dbegin k) first)).
  assert (EV : (if k =? 0 then Ok 0
                else let* prev := get tb (b * ntiles n + k - 1) in Ok (prev + last)) = Ok w).
  { unfold w. destruct (k =? 0) eqn:E0; auto.
    replace (b * ntiles n + k - 1) with (b * ntiles n + (k - 1)) by lia.
    rewrite (cells_get tb _ b (k - 1) H Hb) by lia. cbn [bind]. f_equal.
    unfold bcell. rewrite El. replace (k - 1 <? k) with true by lia.
    rewrite Hl by lia. rewrite tile_prefix. do 3 f_equal. lia. }
  rewrite EV. cbn [bind].
  assert (EW : w = cnt d b (firstn (dbegin k) first)).
  { unfold w. destruct (k =? 0) eqn:E0; auto. replace k with 0 by lia. rewrite dbegin_0. reflexivity. }
  destruct (cells_upd tb (bcell loc) b k w (bcell (upd loc b (k + 1, bcell loc b k))) H Hb ltac:(lia)) as (-> & H').
  { unfold bcell at 1. rewrite upd_nth_error_same by lia. replace (k <? k + 1) with true by lia. auto. }
  { intros b' t' Hb' Ht' Hne. unfold bcell at 1 3. destruct (Nat.eq_dec b b') as [<-|Nb].
    - rewrite upd_nth_error_same by lia. rewrite El.
      destruct (t' <? k + 1) eqn:E1, (t' <? k) eqn:E2; auto; lia.
    - rewrite upd_nth_error_other by auto. reflexivity. }
  cbn [bind]. rewrite set_Ok by lia. cbn [bind]. eexists. split; [reflexivity|].
  split; [simpl; rewrite upd_length; auto|]. split; [|exact H'].
  intros b' k' last' E'. cbn [snd] in E'. destruct (Nat.eq_dec b b') as [<-|Nb].
  - rewrite upd_nth_error_same in E' by lia. inversion E'; subst. split; [lia|]. intros _.
    rewrite B1. f_equal. lia.
  - rewrite upd_nth_error_other in E' by auto. apply V; auto.
Qed.

Lemma bin_run s st : binv st -> Forall (fun b => b < nb) s ->
  exists st', foldM (bin_step tile_size n) s st = Ok st' /\ binv st'.
Proof.
  intros H F. revert st H. induction F as [|t s Ht F IH]; intros st H; simpl; [eauto|].
  destruct (bin_step_inv st t H Ht) as (st' & -> & H'). simpl. auto.
Qed.

Lemma bins_ended_spec loc : bins_ended tile_size n loc = true ->
  forall b k last, nth_error loc b = Some (k, last) -> k = ntiles n.
Proof.
  intros H b k last E. unfold bins_ended in H. rewrite forallb_forall in H.
  specialize (H (k, last) (nth_error_In _ _ E)). simpl in H. lia.
Qed.

(** ** Global offsets *)
Lemma global_run tb go :
  cells tb (fun b t => cnt d b (firstn (dbegin t) first)) ->
  length go = nb ->
  (forall i, i < nb -> nth_error go i = Some (if i =? 0 then 0 else tcount (i - 1) (ntiles n - 1))) ->
  exists go', foldM (global_step tile_size n tb) (seq 1 (nb - 1)) go = Ok go' /\
    length go' = nb /\ forall b, b < nb -> nth_error go' b = Some (less d b first).
Proof.
  intros H L V. pose proof nb_pos as HB. pose proof (ntiles_pos n Hn) as HT.
  assert (G : forall k, k <= nb - 1 -> exists go',
    foldM (global_step tile_size n tb) (seq 1 k) go = Ok go' /\ length go' = nb /\
    forall i, i < nb -> nth_error go' i =
      Some (if i <=? k then less d i first else tcount (i - 1) (ntiles n - 1))).
  { induction k as [|k IH]; intros Hk.
    - exists go. split; [reflexivity|]. split; [exact L|]. intros i Hi. rewrite V by auto.
      destruct i; reflexivity.
    - destruct IH as (go' & E & L' & V'); [lia|].
      rewrite seq_S, foldM_app, E. cbn [bind foldM]. unfold global_step.
      replace (1 + k - 1) with k by lia.
      assert (G1 : get go' (1 + k) = Ok (tcount k (ntiles n - 1))).
      { apply get_Ok. rewrite V' by lia. replace (1 + k <=? k) with false by lia. do 2 f_equal. lia. }
      assert (G2 : get go' k = Ok (less d k first)).
      { apply get_Ok. rewrite V' by lia. replace (k <=? k) with true by lia. reflexivity. }
      rewrite G1, G2. cbn [bind]. rewrite (last_cell (1 + k)) by lia.
      rewrite (cells_get tb _ (1 + k - 1) (ntiles n - 1) H) by lia. cbn [bind].
      replace (1 + k - 1) with k by lia.
      assert (ES : tcount k (ntiles n - 1) + (less d k first + cnt d k (firstn (dbegin (ntiles n - 1)) first)) =
                   less d (S k) first).
      { simpl. pose proof (tile_prefix k (ntiles n - 1)) as TP.
        replace (ntiles n - 1 + 1) with (ntiles n) in TP by lia.
        pose proof (last_tile n Hn). rewrite (firstn_all2 first (n := dbegin (ntiles n))) in TP by (unfold data_begin; lia).
        lia. }
      rewrite ES.
      destruct (nth_upd_fun go' _ (1 + k) nb V' L' ltac:(lia) (less d (S k) first)) as (-> & L'' & V'').
      cbn [bind]. eexists. split; [reflexivity|]. split; [exact L''|].
      intros i Hi. rewrite V'' by auto. f_equal.
      destruct (1 + k =? i) eqn:E1.
      + replace (i <=? S k) with true by lia. f_equal. lia.
      + destruct (i <=? k) eqn:E2, (i <=? S k) eqn:E3; auto; lia. }
  destruct (G (nb - 1) (le_n _)) as (go' & E & L' & V'). exists go'. split; [exact E|]. split; [exact L'|].
  intros i Hi. rewrite V' by auto. replace (i <=? nb - 1) with true by lia. reflexivity.
Qed.

(** ** Scatter *)
Definition scell (c : list nat) (b t : nat) : nat :=
  match nth_error c t with
  | Some i => cnt d b (firstn i first)
  | None => 0
  end.

Definition sinv (st : list nat * list T * list nat) : Prop :=
  let '(tb, out, c) := st in
  counters_ok n c /\ cells tb (scell c) /\ length out = n /\
  forall t i k x, nth_error c t = Some i -> dbegin t <= k < i -> nth_error first k = Some x ->
    nth_error out (pos d first k x) = Some x.

Lemma pos_lt k x : nth_error first k = Some x -> pos d first k x < n.
Proof.
  intros H. rewrite <- (binned_length d nb first (fun x _ => digit_lt step x)).
  apply nth_error_Some. rewrite binned_nth; auto; [discriminate|apply digit_lt].
Qed.

Lemma scatter_step_inv go st t :
  (forall b, b < nb -> nth_error go b = Some (less d b first)) ->
  sinv st -> t < ntiles n ->
  exists st', scatter_step key bits tile_size first step go st t = Ok st' /\ sinv st'.
Proof.
  destruct st as [[tb out] c]. intros HG ((L & C) & H & Lo & O) Ht. unfold scatter_step.
  destruct (get_lt c t ltac:(lia)) as (i & Ei). rewrite Ei. cbn [bind]. apply get_Ok in Ei.
  destruct (i <? dend n t) eqn:Elt; [|eexists; split; [reflexivity|split; [split; auto|split; [exact H|split; [exact Lo|exact O]]]]].
  pose proof (tile_bounds n t Ht) as TB.
  destruct (get_first i ltac:(lia)) as (x & -> & Ex). cbn [bind].
  specialize (C t i Ei) as Ci.
  rewrite (cells_get tb _ _ t H (digit_lt step x) Ht). cbn [bind].
  assert (SC : scell c (d x) t = cnt d (d x) (firstn i first)) by (unfold scell; rewrite Ei; reflexivity).
  destruct (cells_upd tb (scell c) (d x) t (scell c (d x) t + 1) (scell (upd c t (i + 1))) H
    (digit_lt step x) Ht) as (-> & H').
  { unfold scell at 1. rewrite upd_nth_error_same by lia. rewrite Nat.add_1_r.
    rewrite (cnt_firstn_S d (d x) first i x Ex), Nat.eqb_refl. lia. }
  { intros b' t' Hb' Ht' Hne. unfold scell. destruct (Nat.eq_dec t t') as [<-|Nt].
    - rewrite upd_nth_error_same by lia. rewrite Ei. rewrite Nat.add_1_r.
      rewrite (cnt_firstn_S d b' first i x Ex). replace (d x =? b') with false by lia. lia.
    - rewrite upd_nth_error_other by auto. reflexivity. }
  cbn [bind].
  assert (Gg : get go (d x) = Ok (less d (d x) first)) by (apply get_Ok; apply HG; apply digit_lt).
  rewrite Gg. cbn [bind]. rewrite SC.
  change (less d (d x) first + cnt d (d x) (firstn i first)) with (pos d first i x).
  pose proof (pos_lt i x Ex) as PL.
  rewrite set_Ok by lia. cbn [bind]. rewrite set_Ok by lia. cbn [bind].
  eexists. split; [reflexivity|]. unfold sinv.
  split; [apply counters_upd with (i := i); [split|..]; auto; lia|].
  split; [rewrite SC in H'; exact H'|].
  split; [rewrite upd_length; auto|].
  intros t' i' k y E' Hk Hy.
  destruct (Nat.eq_dec k i) as [->|Nk].
  - assert (y = x) by congruence. subst. apply upd_nth_error_same. lia.
  - rewrite upd_nth_error_other.
    2:{ intros E. apply Nk. symmetry. eapply pos_inj; eauto. }
    destruct (Nat.eq_dec t t') as [<-|Nt].
    + rewrite upd_nth_error_same in E' by lia. inversion E'; subst.
      apply (O t i k y); auto. lia.
    + rewrite upd_nth_error_other in E' by auto. apply (O t' i' k y); auto.
Qed.

Lemma scatter_run go s st :
  (forall b, b < nb -> nth_error go b = Some (less d b first)) ->
  sinv st -> Forall (fun t => t < ntiles n) s ->
  exists st', foldM (scatter_step key bits tile_size first step go) s st = Ok st' /\ sinv st'.
Proof.
  intros HG H F. revert st H. induction F as [|t s Ht F IH]; intros st H; simpl; [eauto|].
  destruct (scatter_step_inv go st t HG H Ht) as (st' & -> & H'). simpl. auto.
Qed.

(** ** One pass *)
Lemma cells_ext tb v v' : (forall b t, b < nb -> t < ntiles n -> v b t = v' b t) -> cells tb v -> cells tb v'.
Proof. intros E (L & H). split; auto. intros b t Hb Ht. rewrite H by auto. f_equal. auto. Qed.

Lemma pass_spec s out : length out = n -> sched_ok bits tile_size n s -> (N.of_nat n <= INT_MAX)%N ->
  radix_pass key bits tile_size step s first out = OutOfFuel \/
  radix_pass key bits tile_size step s first out = Ok (binned d nb first).
Proof.
  intros Lo (F1 & F2 & F3) HM. unfold radix_pass.
  destruct (hist_run (s_hist s) _ hinv_init F1 HM) as ([tb c] & -> & (C1 & H1)). cbn [bind fst snd] in *.
  destruct (ended tile_size n c) eqn:E1; [|left; reflexivity]. cbn [guard bind].
  destruct C1 as (Lc & C1). pose proof (ended_spec n c Lc E1) as D1.
  assert (H2 : cells tb tcount).
  { eapply cells_ext; [|exact H1]. intros b t Hb Ht. unfold ccount. rewrite D1 by auto. reflexivity. }
  destruct (save_run tb tcount H2) as (go & -> & Lg & Vg). cbn [bind].
  destruct (bin_run (s_bins s) (tb, repeat (0, 0) nb)) as ([tb' loc] & -> & (Ll & Vl & H3)).
  { split; [apply repeat_length|]. split.
    - intros b k last E. cbn [snd] in E. assert (b < nb).
      { rewrite <- (repeat_length (0, 0) nb). apply nth_error_Some. congruence. }
      rewrite repeat_nth in E by auto. inversion E; subst. split; lia.
    - eapply cells_ext; [|exact H2]. intros b t Hb Ht. unfold bcell. cbn [snd].
      rewrite repeat_nth by auto. reflexivity. }
  { exact F2. }
  cbn [bind fst snd] in *.
  destruct (bins_ended tile_size n loc) eqn:E2; [|left; reflexivity]. cbn [guard bind].
  assert (H4 : cells tb' (fun b t => cnt d b (firstn (dbegin t) first))).
  { eapply cells_ext; [|exact H3]. intros b t Hb Ht. unfold bcell.
    destruct (nth_error loc b) as [[k last]|] eqn:El; [|apply nth_error_None in El; lia].
    rewrite (bins_ended_spec loc E2 b k last El). replace (t <? ntiles n) with true by lia. reflexivity. }
  destruct (global_run tb' go H4 Lg Vg) as (go' & -> & Lg' & Vg'). cbn [bind].
  destruct (scatter_run go' (s_scatter s) (tb', out, counters0 tile_size n) Vg') as ([[tb2 out2] c2] & -> & (C2 & H5 & Lo2 & O2)).
  { split; [apply counters0_ok|]. split; [|split; [exact Lo|]].
    - eapply cells_ext; [|exact H4]. intros b t Hb Ht. unfold scell. rewrite counters0_nth by auto. reflexivity.
    - intros t i k x E Hk. assert (Ht : t < ntiles n).
      { destruct (counters0_ok n) as (L0 & _). rewrite <- L0. apply nth_error_Some. congruence. }
      rewrite counters0_nth in E by auto. inversion E; subst. lia. }
  { exact F3. }
  cbn [bind]. destruct (ended tile_size n c2) eqn:E3; [|left; reflexivity]. cbn [guard bind].
  right. f_equal. destruct C2 as (Lc2 & C2). pose proof (ended_spec n c2 Lc2 E3) as D2.
  apply binned_unique; auto.
  - intros x _. apply digit_lt.
  - intros i x Hx. assert (Hi : i < n) by (apply nth_error_Some; congruence).
    destruct (tile_of n i Hi) as (t & Ht & Hti). apply (O2 t (dend n t) i x); auto.
Qed.

End Pass.

(** * All passes *)

Lemma filter_flat_map {X Y} (f : Y -> bool) (g : X -> list Y) l :
  filter f (flat_map g l) = flat_map (fun x => filter f (g x)) l.
Proof. induction l as [|x l IH]; simpl; auto. rewrite filter_app, IH. reflexivity. Qed.

Lemma filter_filter {X} (f g : X -> bool) l : filter f (filter g l) = filter (fun x => f x && g x) l.
Proof.
  induction l as [|x l IH]; simpl; auto. destruct (g x); simpl; rewrite ?andb_true_r, ?andb_false_r, ?IH.
  - destruct (f x); simpl; rewrite ?IH; auto.
  - auto.
Qed.

Lemma filter_ext_in' {X} (f g : X -> bool) l : (forall x, In x l -> f x = g x) -> filter f l = filter g l.
Proof. apply filter_ext_in. Qed.

Lemma filter_none {X} (f : X -> bool) l : (forall x, In x l -> f x = false) -> filter f l = [].
Proof.
  induction l as [|x l IH]; intros H; simpl; auto. rewrite H by (left; auto). apply IH. intros; apply H; right; auto.
Qed.

Lemma SS_app {X} (R : X -> X -> Prop) l1 l2 : StronglySorted R l1 -> StronglySorted R l2 ->
  (forall x y, In x l1 -> In y l2 -> R x y) -> StronglySorted R (l1 ++ l2).
Proof.
  induction 1 as [|x l1 H IH F]; intros H2 HC; simpl; auto. constructor.
  - apply IH; auto. intros; apply HC; auto. right; auto.
  - apply Forall_app. split; auto. apply Forall_forall. intros y Hy. apply HC; auto. left; auto.
Qed.

Lemma SS_filter {X} (R : X -> X -> Prop) f l : StronglySorted R l -> StronglySorted R (filter f l).
Proof.
  induction 1 as [|x l H IH F]; simpl; [constructor|]. destruct (f x); auto. constructor; auto.
  apply Forall_forall. intros y Hy. rewrite Forall_forall in F. apply F. apply filter_In in Hy. tauto.
Qed.

Definition low (k : nat) (x : T) : N := (key x mod 2 ^ N.of_nat (k * bits))%N.

Lemma low_S k x : low (S k) x = (low k x + 2 ^ N.of_nat (k * bits) * N.of_nat (digit k x))%N.
Proof.
  unfold low. rewrite digit_value, N2Nat.id.
  replace (S k * bits) with (k * bits + bits) by lia.
  rewrite Nat2N.inj_add, N.pow_add_r.
  rewrite N.mod_mul_r by (apply N.pow_nonzero; lia). reflexivity.
Qed.

Lemma low_lt k x : (low k x < 2 ^ N.of_nat (k * bits))%N.
Proof. unfold low. apply N.mod_lt. apply N.pow_nonzero; lia. Qed.

Lemma low_eqb k x v :
  (low (S k) x =? v)%N =
  (low k x =? v mod 2 ^ N.of_nat (k * bits))%N && (digit k x =? N.to_nat (v / 2 ^ N.of_nat (k * bits)))%nat.
Proof.
  rewrite low_S. pose proof (low_lt k x) as L. set (M := (2 ^ N.of_nat (k * bits))%N) in *.
  assert (MZ : M <> 0%N) by lia.
  pose proof (N.div_mod v M MZ) as E. pose proof (N.mod_lt v M MZ) as B.
  set (q := (v / M)%N) in *. set (r := (v mod M)%N) in *.
  destruct ((low k x =? r)%N && (digit k x =? N.to_nat q)) eqn:C.
  - apply andb_true_iff in C. destruct C as (C1 & C2).
    apply N.eqb_eq in C1. apply Nat.eqb_eq in C2. apply N.eqb_eq. rewrite C1, C2, N2Nat.id. lia.
  - apply N.eqb_neq. intros F.
    assert (digit k x = N.to_nat q /\ low k x = r).
    { assert (N.of_nat (digit k x) = q) by nia. split; [lia|nia]. }
    destruct H as (H1 & H2). rewrite H1, H2, N.eqb_refl, Nat.eqb_refl in C. discriminate.
Qed.

Lemma binned_stable k l0 l :
  stable_sorted_by (low k) l0 l -> stable_sorted_by (low (S k)) l0 (binned (digit k) nb l).
Proof.
  intros (HS & HF). split.
  - unfold binned.
    assert (G : forall m a, StronglySorted (fun x y => (low (S k) x <= low (S k) y)%N)
      (flat_map (fun b => filter (fun x => digit k x =? b) l) (seq a m))).
    { induction m as [|m IH]; intros a; simpl; [constructor|]. apply SS_app; auto.
      - assert (Q : forall l, StronglySorted (fun x y => (low k x <= low k y)%N) l ->
          (forall x, In x l -> digit k x = a) -> StronglySorted (fun x y => (low (S k) x <= low (S k) y)%N) l).
        { clear -Hts Hbits width. induction 1 as [|x l H IH F]; intros D; constructor.
          - apply IH. intros; apply D; right; auto.
          - apply Forall_forall. intros y Hy. rewrite Forall_forall in F. specialize (F y Hy).
            rewrite !low_S, (D x), (D y) by (simpl; auto). lia. }
        apply Q; [apply SS_filter; auto|]. intros x Hx. apply filter_In in Hx. lia.
      - intros x y Hx Hy. apply filter_In in Hx. destruct Hx as (_ & Hx).
        apply in_flat_map in Hy. destruct Hy as (b & Hb & Hy). apply in_seq in Hb.
        apply filter_In in Hy. destruct Hy as (_ & Hy).
        rewrite !low_S. pose proof (low_lt k x). pose proof (low_lt k y).
        assert (digit k x + 1 <= digit k y) by lia. nia. }
    apply G.
  - intros v. unfold binned. rewrite filter_flat_map.
    set (q := N.to_nat (v / 2 ^ N.of_nat (k * bits))). set (r := (v mod 2 ^ N.of_nat (k * bits))%N).
    assert (E : forall l, filter (fun x => (low (S k) x =? v)%N) l =
      filter (fun x => digit k x =? q) (filter (fun x => (low k x =? r)%N) l)).
    { intros l'. rewrite filter_filter. apply filter_ext. intros x. rewrite low_eqb. apply andb_comm. }
    rewrite E, <- HF, <- E.
    (* only bin q contributes *)
    assert (G : forall m a, flat_map (fun b => filter (fun x => (low (S k) x =? v)%N)
        (filter (fun x => digit k x =? b) l)) (seq a m) =
      if (a <=? q) && (q <? a + m) then filter (fun x => (low (S k) x =? v)%N) l else []).
    { induction m as [|m IH]; intros a; simpl.
      - replace (_ && _) with false by lia. reflexivity.
      - rewrite IH, filter_filter. destruct (a =? q) eqn:Ea.
        + replace ((S a <=? q) && _) with false by lia. rewrite app_nil_r.
          replace ((a <=? q) && (q <? a + S m)) with true by lia. apply filter_ext. intros x.
          rewrite low_eqb. fold q r. assert (a = q) by lia. subst a.
          destruct (digit k x =? q); rewrite ?andb_true_r, ?andb_false_r; reflexivity.
        + rewrite filter_none.
          * replace ((a <=? q) && (q <? a + S m)) with ((S a <=? q) && (q <? S a + m)) by lia. reflexivity.
          * intros x _. rewrite low_eqb. fold q r. destruct (digit k x =? q) eqn:E1; [|rewrite andb_false_r; reflexivity].
            replace (digit k x =? a) with false by lia. rewrite andb_false_r. reflexivity. }
    rewrite G. destruct (_ && _) eqn:C; auto.
    symmetry. apply filter_none. intros x _. rewrite low_eqb. fold q r.
    pose proof (digit_lt k x). replace (digit k x =? q) with false by lia. apply andb_false_r.
Qed.

Lemma stable_perm (k : T -> N) l : forall l', (forall v, filter (fun x => (k x =? v)%N) l' = filter (fun x => (k x =? v)%N) l) ->
  Permutation l l'.
Proof.
  induction l as [|x l IH]; intros l' H.
  - destruct l' as [|y l']; auto. specialize (H (k y)). simpl in H. rewrite N.eqb_refl in H. discriminate.
  - pose proof (H (k x)) as Hx. simpl in Hx. rewrite N.eqb_refl in Hx.
    assert (G : exists l1 l2, l' = l1 ++ x :: l2 /\ Forall (fun y => k y <> k x) l1).
    { clear -Hx. induction l' as [|y l' IH]; simpl in Hx; [discriminate|].
      destruct (k y =? k x)%N eqn:E.
      - inversion Hx; subst. exists [], l'. auto.
      - destruct (IH Hx) as (l1 & l2 & -> & F). exists (y :: l1), l2. split; auto. constructor; auto. lia. }
    destruct G as (l1 & l2 & -> & F). rewrite <- Permutation_middle. constructor. apply IH.
    intros v. specialize (H v). rewrite filter_app in *. simpl in H.
    destruct (k x =? v)%N eqn:E; [|exact H].
    assert (FN : filter (fun x => (k x =? v)%N) l1 = []).
    { apply filter_none. intros y Hy. rewrite Forall_forall in F. specialize (F y Hy). lia. }
    rewrite FN in H |- *. simpl in *. inversion H. auto.
Qed.

Lemma stable_unique (k : T -> N) l l1 l2 : stable_sorted_by k l l1 -> stable_sorted_by k l l2 -> l1 = l2.
Proof.
  intros (S1 & F1) (S2 & F2).
  assert (H : forall v, filter (fun x => (k x =? v)%N) l1 = filter (fun x => (k x =? v)%N) l2)
    by (intros v; rewrite F1, F2; auto).
  clear F1 F2 l. revert l2 S2 H. induction S1 as [|x l1 S1 IH Fx]; intros l2 S2 H.
  - destruct l2 as [|y l2]; auto. specialize (H (k y)). simpl in H. rewrite N.eqb_refl in H. discriminate.
  - destruct l2 as [|y l2].
    { specialize (H (k x)). simpl in H. rewrite N.eqb_refl in H. discriminate. }
    inversion S2 as [|? ? S2' Fy]; subst. rewrite Forall_forall in Fx, Fy.
    assert (IN : forall z (a b : list T), filter (fun x => (k x =? k z)%N) a = filter (fun x => (k x =? k z)%N) b ->
      In z a -> In z b).
    { intros z a b E Hz. assert (Hz' : In z (filter (fun x => (k x =? k z)%N) a)).
      { apply filter_In. split; auto. apply N.eqb_refl. }
      rewrite E in Hz'. apply filter_In in Hz'. tauto. }
    assert (k x = k y).
    { assert (Hx : In x (y :: l2)) by (eapply IN; [apply H|left; auto]).
      assert (Hy : In y (x :: l1)) by (eapply IN; [symmetry; apply H|left; auto]).
      apply N.le_antisymm.
      - destruct Hy as [->|Hy]; [lia|auto].
      - destruct Hx as [->|Hx]; [lia|auto]. }
    pose proof (H (k x)) as Hk. simpl in Hk. rewrite N.eqb_refl, <- H0, N.eqb_refl in Hk.
    inversion Hk; subst. f_equal. apply IH; auto. intros v. specialize (H v). simpl in H.
    destruct (k y =? v)%N; [inversion H; auto|auto].
Qed.

(** Number of steps covers the key. *)
Lemma steps_cover : width <= num_steps width bits * bits.
Proof.
  unfold num_steps. pose proof (Nat.div_mod (width + bits - 1) bits ltac:(lia)).
  pose proof (Nat.mod_upper_bound (width + bits - 1) bits ltac:(lia)). nia.
Qed.

Lemma radix_loop scheds l buf k :
  0 < length l -> (N.of_nat (length l) <= INT_MAX)%N -> length buf = length l ->
  (forall s, sched_ok bits tile_size (length l) (scheds s)) ->
  foldM (radix_loop_step key bits tile_size scheds) (seq 0 k) (l, buf) = OutOfFuel \/
  exists user buffer,
    foldM (radix_loop_step key bits tile_size scheds) (seq 0 k) (l, buf) = Ok (user, buffer) /\
    length user = length l /\ length buffer = length l /\
    stable_sorted_by (low k) l (if Nat.even k then user else buffer).
Proof.
  intros Hl HM HB HS. induction k as [|k IH].
  - right. exists l, buf. split; [reflexivity|]. split; [auto|]. split; [auto|].
    split; [|reflexivity]. cbn [Nat.even].
    assert (Z : forall x, low 0 x = 0%N) by (intros x; unfold low; apply N.mod_1_r).
    clear -Z. induction l as [|x l IH]; constructor; auto. apply Forall_forall. intros y _. rewrite !Z. lia.
  - rewrite seq_S, foldM_app. simpl plus. destruct IH as [R|(user & buffer & R & L1 & L2 & ST)]; rewrite R; [left; reflexivity|]. clear R.
    cbn [bind foldM]. unfold radix_loop_step. rewrite Nat.even_succ, <- Nat.negb_even.
    destruct (Nat.even k) eqn:Ev; cbn [negb].
    + destruct (pass_spec user k ltac:(lia) (scheds k) buffer) as [R|R]; try lia.
      { rewrite L1; auto. }
      { rewrite R. left; reflexivity. }
      rewrite R.
      right. exists user, (binned (digit k) nb user). split; [reflexivity|]. split; [auto|].
      split; [rewrite binned_length; auto; intros; apply digit_lt|]. apply binned_stable; auto.
    + destruct (pass_spec buffer k ltac:(lia) (scheds k) user) as [R|R]; try lia.
      { rewrite L2; auto. }
      { rewrite R. left; reflexivity. }
      rewrite R.
      right. exists (binned (digit k) nb buffer), buffer. split; [reflexivity|].
      split; [rewrite binned_length; auto; intros; apply digit_lt|]. split; [auto|]. apply binned_stable; auto.
Qed.

Lemma resize_length {X} (l : list X) m d : length (resize l m d) = m.
Proof. unfold resize. rewrite app_length, firstn_length, repeat_length. lia. Qed.

Lemma radix_sort_spec scheds old dflt l :
  (forall x, In x l -> (key x < 2 ^ N.of_nat width)%N) ->
  (N.of_nat (length l) <= INT_MAX)%N ->
  (forall s, sched_ok bits tile_size (length l) (scheds s)) ->
  radix_sort key width bits tile_size scheds old dflt l = OutOfFuel \/
  exists l', radix_sort key width bits tile_size scheds old dflt l = Ok l' /\ stable_sorted_by key l l'.
Proof.
  intros HK HM HS. destruct l as [|x0 l0] eqn:El.
  { right. exists []. split; [reflexivity|]. split; [constructor|reflexivity]. }
  rewrite <- El in *. unfold radix_sort. rewrite El. rewrite <- El.
  assert (Hl : 0 < length l) by (rewrite El; simpl; lia).
  destruct (radix_loop scheds l (resize old (length l) dflt) (num_steps width bits)
    Hl HM (resize_length _ _ _) HS) as [R|(user & buffer & R & L1 & L2 & ST)]; rewrite R; [left; reflexivity|].
  right. cbn [bind].
  assert (EV : (num_steps width bits mod 2 =? 1) = negb (Nat.even (num_steps width bits))).
  { destruct (Nat.even (num_steps width bits)) eqn:E.
    - apply Nat.even_spec in E. destruct E as (m & ->). cbn [negb]. apply Nat.eqb_neq. lia.
    - rewrite <- Nat.negb_odd in E. apply negb_false_iff in E. apply Nat.odd_spec in E. destruct E as (m & ->).
      cbn [negb]. apply Nat.eqb_eq. lia. }
  rewrite EV. eexists. split; [reflexivity|].
  set (res := if negb (Nat.even (num_steps width bits)) then buffer else user).
  assert (ER : res = if Nat.even (num_steps width bits) then user else buffer)
    by (unfold res; destruct (Nat.even _); reflexivity).
  rewrite ER. set (res' := if Nat.even (num_steps width bits) then user else buffer) in *.
  destruct ST as (S1 & S2).
  pose proof (stable_perm _ _ _ S2) as P.
  assert (LK : forall x, In x l -> low (num_steps width bits) x = key x).
  { intros x Hx. unfold low. apply N.mod_small. specialize (HK x Hx).
    eapply N.lt_le_trans; [exact HK|]. apply N.pow_le_mono_r; [lia|]. pose proof steps_cover. lia. }
  assert (LK' : forall x, In x res' -> low (num_steps width bits) x = key x).
  { intros x Hx. apply LK. apply (Permutation_in x (Permutation_sym P)); auto. }
  split.
  - clear -S1 LK'. induction S1 as [|x r S1 IH F]; constructor.
    + apply IH. intros; apply LK'; right; auto.
    + apply Forall_forall. intros y Hy. rewrite Forall_forall in F. specialize (F y Hy).
      rewrite !LK' in F by (simpl; auto). exact F.
  - intros v. specialize (S2 v).
    rewrite (filter_ext_in' (fun x => (key x =? v)%N) (fun x => (low (num_steps width bits) x =? v)%N) res').
    2:{ intros x Hx. rewrite LK' by auto. reflexivity. }
    rewrite S2. apply filter_ext_in. intros x Hx. rewrite LK by auto. reflexivity.
Qed.

(** * Schedules that finish *)

(** Every loop is given at least as many turns as it has iterations. *)
Definition fair (n : nat) (s : sched) : Prop :=
  (forall t, t < ntiles n -> tile_size <= count_occ Nat.eq_dec (s_hist s) t) /\
  (forall b, b < nb -> ntiles n <= count_occ Nat.eq_dec (s_bins s) b) /\
  (forall t, t < ntiles n -> tile_size <= count_occ Nat.eq_dec (s_scatter s) t).

Definition adv (n : nat) (c : list nat) (t : nat) : list nat :=
  match nth_error c t with
  | Some i => if i <? dend n t then upd c t (i + 1) else c
  | None => c
  end.

Lemma adv_run n s : forall c t i, nth_error c t = Some i -> i <= dend n t ->
  nth_error (fold_left (adv n) s c) t = Some (Nat.min (dend n t) (i + count_occ Nat.eq_dec s t)).
Proof.
  induction s as [|a s IH]; intros c t i H Hi; cbn [fold_left count_occ].
  - rewrite H. f_equal. lia.
  - unfold adv at 2. destruct (Nat.eq_dec a t) as [->|N].
    + rewrite H. destruct (i <? dend n t) eqn:E.
      * rewrite (IH _ t (i + 1)); [f_equal; lia| |lia].
        apply upd_nth_error_same. apply nth_error_Some. congruence.
      * rewrite (IH _ t i H Hi). f_equal. lia.
    + rewrite (IH _ t i); auto.
      destruct (nth_error c a) as [j|]; auto. destruct (j <? dend n a); auto.
      rewrite upd_nth_error_other by auto. auto.
Qed.

Lemma hist_adv first step s : forall st st',
  foldM (hist_step key bits tile_size first step) s st = Ok st' ->
  snd st' = fold_left (adv (length first)) s (snd st).
Proof.
  induction s as [|t s IH]; intros [tb c] st' H; cbn [foldM] in H.
  - inversion H; reflexivity.
  - apply bind_Ok in H. destruct H as (st1 & H1 & H2). rewrite (IH _ _ H2). cbn [fold_left snd]. f_equal.
    unfold hist_step in H1. apply bind_Ok in H1. destruct H1 as (i & G & H1). apply get_Ok in G.
    unfold adv. rewrite G. destruct (i <? dend (length first) t).
    + apply bind_Ok in H1. destruct H1 as (x & _ & H1). apply bind_Ok in H1. destruct H1 as (v & _ & H1).
      apply bind_Ok in H1. destruct H1 as (tb' & _ & H1). destruct (INT_MAX <? N.of_nat (i + 1))%N; [discriminate|].
      apply bind_Ok in H1. destruct H1 as (c' & S1 & H1). apply set_Ok_inv in S1. inversion H1; subst. tauto.
    + inversion H1; reflexivity.
Qed.

Lemma scatter_adv first step go s : forall st st',
  foldM (scatter_step key bits tile_size first step go) s st = Ok st' ->
  snd st' = fold_left (adv (length first)) s (snd st).
Proof.
  induction s as [|t s IH]; intros [[tb out] c] st' H; cbn [foldM] in H.
  - inversion H; reflexivity.
  - apply bind_Ok in H. destruct H as (st1 & H1 & H2). rewrite (IH _ _ H2). cbn [fold_left snd]. f_equal.
    unfold scatter_step in H1. apply bind_Ok in H1. destruct H1 as (i & G & H1). apply get_Ok in G.
    unfold adv. rewrite G. destruct (i <? dend (length first) t).
    + apply bind_Ok in H1. destruct H1 as (x & _ & H1). apply bind_Ok in H1. destruct H1 as (v & _ & H1).
      apply bind_Ok in H1. destruct H1 as (tb' & _ & H1). apply bind_Ok in H1. destruct H1 as (g & _ & H1).
      apply bind_Ok in H1. destruct H1 as (o & _ & H1).
      apply bind_Ok in H1. destruct H1 as (c' & S1 & H1). apply set_Ok_inv in S1. inversion H1; subst. tauto.
    + inversion H1; reflexivity.
Qed.

Lemma bins_adv n s : forall st st' b k last,
  foldM (bin_step tile_size n) s st = Ok st' -> nth_error (snd st) b = Some (k, last) -> k <= ntiles n ->
  exists last', nth_error (snd st') b = Some (Nat.min (ntiles n) (k + count_occ Nat.eq_dec s b), last').
Proof.
  induction s as [|a s IH]; intros [tb loc] st' b k last H E Hk; cbn [foldM] in H.
  - inversion H; subst. cbn [count_occ]. rewrite E. exists last. do 2 f_equal. lia.
  - apply bind_Ok in H. destruct H as (st1 & H1 & H2). cbn [count_occ snd] in *.
    unfold bin_step in H1. apply bind_Ok in H1. destruct H1 as ([k1 last1] & G & H1). apply get_Ok in G.
    destruct (k1 <? ntiles n) eqn:El.
    + apply bind_Ok in H1. destruct H1 as (tmp & _ & H1). apply bind_Ok in H1. destruct H1 as (v & _ & H1).
      apply bind_Ok in H1. destruct H1 as (tb' & _ & H1).
      apply bind_Ok in H1. destruct H1 as (loc' & S1 & H1). apply set_Ok_inv in S1. destruct S1 as (Ll & ->).
      inversion H1; subst. destruct (Nat.eq_dec a b) as [->|N].
      * assert (k1 = k) by congruence. subst.
        destruct (IH _ _ b (k + 1) tmp H2) as (last' & R); [apply upd_nth_error_same; auto|lia|].
        exists last'. rewrite R. do 2 f_equal. lia.
      * destruct (IH _ _ b k last H2) as (last' & R); auto.
        cbn [snd]. rewrite upd_nth_error_other by auto. auto. exists last'. auto.
    + inversion H1; subst. destruct (Nat.eq_dec a b) as [->|N].
      * assert (k1 = k) by congruence. subst.
        destruct (IH _ _ b k last H2) as (last' & R); auto. exists last'. rewrite R. do 2 f_equal. lia.
      * destruct (IH _ _ b k last H2) as (last' & R); auto. exists last'. auto.
Qed.

Lemma fair_ended n s c : counters_ok n c ->
  (forall t, t < ntiles n -> tile_size <= count_occ Nat.eq_dec s t) ->
  c = fold_left (adv n) s (counters0 tile_size n) -> ended tile_size n c = true.
Proof.
  intros (L & _) H E. apply ended_true; auto. intros t Ht. rewrite E.
  rewrite (adv_run n s _ t (dbegin t)).
  - f_equal. specialize (H t Ht). unfold data_begin, data_end. nia.
  - apply counters0_nth; auto.
  - pose proof (tile_bounds n t Ht). lia.
Qed.

Lemma pass_fair first step s out : 0 < length first -> length out = length first ->
  sched_ok bits tile_size (length first) s -> fair (length first) s ->
  (N.of_nat (length first) <= INT_MAX)%N ->
  radix_pass key bits tile_size step s first out = Ok (binned (digit step) nb first).
Proof.
  intros Hn Lo SO (Q1 & Q2 & Q3) HM.
  destruct (pass_spec first step Hn s out Lo SO HM) as [R|R]; auto. exfalso.
  destruct SO as (F1 & F2 & F3). unfold radix_pass in R.
  destruct (hist_run first step Hn (s_hist s) _ (hinv_init first step) F1 HM) as ([tb c] & Eh & (C1 & H1)).
  rewrite Eh in R. cbn [bind fst snd] in *.
  pose proof (hist_adv first step _ _ _ Eh) as A1. cbn [snd] in A1.
  rewrite (fair_ended _ _ _ C1 Q1 A1) in R. cbn [guard bind] in R.
  assert (H2 : cells first tb (tcount first step)).
  { eapply cells_ext; [|exact H1]. intros b t Hb Ht. unfold ccount.
    rewrite (ended_spec _ c (proj1 C1) (fair_ended _ _ _ C1 Q1 A1)) by auto. reflexivity. }
  destruct (save_run first Hn tb _ H2) as (go & Eg & Lg & Vg). rewrite Eg in R. cbn [bind] in R.
  assert (BI : binv first step (tb, repeat (0, 0) nb)).
  { split; [apply repeat_length|]. split.
    - intros b k last E. cbn [snd] in E. assert (b < nb).
      { rewrite <- (repeat_length (0, 0) nb). apply nth_error_Some. congruence. }
      rewrite (repeat_nth first Hn) in E by auto. inversion E; subst. split; lia.
    - eapply cells_ext; [|exact H2]. intros b t Hb Ht. unfold bcell. cbn [snd].
      rewrite (repeat_nth first Hn) by auto. reflexivity. }
  destruct (bin_run first step Hn (s_bins s) _ BI F2) as ([tb' loc] & Eb & (Ll & Vl & H3)).
  rewrite Eb in R. cbn [bind fst snd] in *.
  assert (EB : bins_ended tile_size (length first) loc = true).
  { unfold bins_ended. apply forallb_forall. intros [k last] Hin.
    destruct (In_nth_error _ _ Hin) as (b & E). assert (Hb : b < nb) by (rewrite <- Ll; apply nth_error_Some; congruence).
    destruct (bins_adv (length first) _ _ _ b 0 0 Eb) as (last' & E').
    { cbn [snd]. apply (repeat_nth first Hn); auto. } { lia. }
    cbn [snd] in E'. rewrite E in E'. inversion E'. cbn [fst]. specialize (Q2 b Hb). lia. }
  rewrite EB in R. cbn [guard bind] in R.
  assert (H4 : cells first tb' (fun b t => cnt (digit step) b (firstn (dbegin t) first))).
  { eapply cells_ext; [|exact H3]. intros b t Hb Ht. unfold bcell.
    destruct (nth_error loc b) as [[k last]|] eqn:El; [|apply nth_error_None in El; lia].
    rewrite (bins_ended_spec first Hn loc EB b k last El). replace (t <? ntiles (length first)) with true by lia. reflexivity. }
  destruct (global_run first step Hn tb' go H4 Lg Vg) as (go' & Egl & Lg' & Vg'). rewrite Egl in R. cbn [bind] in R.
  destruct (scatter_run first step Hn go' (s_scatter s) (tb', out, counters0 tile_size (length first)) Vg')
    as ([[tb2 out2] c2] & Es & (C2 & H5 & Lo2 & O2)).
  { split; [apply counters0_ok|]. split; [|split; [exact Lo|]].
    - eapply cells_ext; [|exact H4]. intros b t Hb Ht. unfold scell. rewrite counters0_nth by auto. reflexivity.
    - intros t i k x E Hk. assert (Ht : t < ntiles (length first)).
      { destruct (counters0_ok (length first)) as (L0 & _). rewrite <- L0. apply nth_error_Some. congruence. }
      rewrite counters0_nth in E by auto. inversion E; subst. lia. }
  { exact F3. }
  rewrite Es in R. cbn [bind] in R.
  pose proof (scatter_adv first step go' _ _ _ Es) as A2. cbn [snd] in A2.
  rewrite (fair_ended _ _ _ C2 Q3 A2) in R. discriminate.
Qed.

Lemma radix_loop_fair scheds l buf k :
  0 < length l -> (N.of_nat (length l) <= INT_MAX)%N -> length buf = length l ->
  (forall s, sched_ok bits tile_size (length l) (scheds s)) -> (forall s, fair (length l) (scheds s)) ->
  exists user buffer,
    foldM (radix_loop_step key bits tile_size scheds) (seq 0 k) (l, buf) = Ok (user, buffer) /\
    length user = length l /\ length buffer = length l.
Proof.
  intros Hl HM HB HS HF. induction k as [|k IH]; [eexists _, _; split; [reflexivity|auto]|].
  rewrite seq_S, foldM_app. simpl plus. destruct IH as (user & buffer & -> & L1 & L2).
  cbn [bind foldM]. unfold radix_loop_step. destruct (Nat.even k).
  - rewrite pass_fair; rewrite ?L1; auto; try lia. cbn [bind]. eexists _, _. split; [reflexivity|]. split; auto.
    rewrite binned_length; auto. intros; apply digit_lt.
  - rewrite pass_fair; rewrite ?L2; auto; try lia. cbn [bind]. eexists _, _. split; [reflexivity|]. split; auto.
    rewrite binned_length; auto. intros; apply digit_lt.
Qed.

Lemma radix_sort_fair scheds old dflt l :
  (N.of_nat (length l) <= INT_MAX)%N ->
  (forall s, sched_ok bits tile_size (length l) (scheds s)) -> (forall s, fair (length l) (scheds s)) ->
  radix_sort key width bits tile_size scheds old dflt l <> OutOfFuel.
Proof.
  intros HM HS HF. destruct l as [|x0 l0] eqn:El; [discriminate|]. rewrite <- El in *.
  unfold radix_sort. rewrite El. rewrite <- El.
  destruct (radix_loop_fair scheds l (resize old (length l) dflt) (num_steps width bits)) as (u & b & -> & _); auto.
  - rewrite El; simpl; lia.
  - apply resize_length.
  - discriminate.
Qed.

(** A schedule with these properties. *)
Definition round (n : nat) : sched :=
  mkSched (flat_map (fun t => repeat t tile_size) (seq 0 (ntiles n)))
          (flat_map (fun b => repeat b (ntiles n)) (seq 0 nb))
          (flat_map (fun t => repeat t tile_size) (seq 0 (ntiles n))).

Lemma round_ok n : sched_ok bits tile_size n (round n) /\ fair n (round n).
Proof.
  assert (F : forall m k, Forall (fun t => t < m) (flat_map (fun t => repeat t k) (seq 0 m))).
  { intros m k. apply Forall_forall. intros x Hx. apply in_flat_map in Hx. destruct Hx as (t & Ht & Hx).
    apply repeat_spec in Hx. apply in_seq in Ht. lia. }
  assert (C : forall m k t, t < m -> k <= count_occ Nat.eq_dec (flat_map (fun t => repeat t k) (seq 0 m)) t).
  { intros m k t Ht. replace m with (t + S (m - t - 1)) by lia. rewrite seq_app, flat_map_app, count_occ_app.
    simpl. rewrite count_occ_app. rewrite (count_occ_repeat_eq Nat.eq_dec k eq_refl). lia. }
  split; (split; [|split]); simpl; auto.
Qed.

(** * Arrays with more than INT_MAX elements *)
Lemma hist_stuck first step s st st' t :
  foldM (hist_step key bits tile_size first step) s st = Ok st' ->
  forall i, nth_error (snd st) t = Some i -> (N.of_nat i <= INT_MAX)%N ->
  exists i', nth_error (snd st') t = Some i' /\ (N.of_nat i' <= INT_MAX)%N.
Proof.
  revert st. induction s as [|a s IH]; intros [tb c] H i E Hi; cbn [foldM] in H.
  - inversion H; subst. eauto.
  - apply bind_Ok in H. destruct H as (st1 & H1 & H2).
    assert (G' : exists i1, nth_error (snd st1) t = Some i1 /\ (N.of_nat i1 <= INT_MAX)%N).
    { unfold hist_step in H1. apply bind_Ok in H1. destruct H1 as (j & G & H1). apply get_Ok in G.
      destruct (j <? dend (length first) a).
      + apply bind_Ok in H1. destruct H1 as (x & _ & H1). apply bind_Ok in H1. destruct H1 as (v & _ & H1).
        apply bind_Ok in H1. destruct H1 as (tb' & _ & H1).
        destruct (INT_MAX <? N.of_nat (j + 1))%N eqn:Ej; [discriminate|].
        apply bind_Ok in H1. destruct H1 as (c' & S1 & H1). apply set_Ok_inv in S1. destruct S1 as (Lc & ->).
        inversion H1; subst. cbn [snd] in *. destruct (Nat.eq_dec a t) as [->|N].
        * rewrite upd_nth_error_same by auto. exists (j + 1). split; auto. lia.
        * rewrite upd_nth_error_other by auto. eauto.
      + inversion H1; subst. eauto. }
    destruct G' as (i1 & E1 & L1). exact (IH st1 H2 i1 E1 L1).
Qed.

Lemma pass_huge first step s out : (INT_MAX < N.of_nat (length first))%N ->
  forall r, radix_pass key bits tile_size step s first out <> Ok r.
Proof.
  intros H r R. unfold radix_pass in R. apply bind_Ok in R. destruct R as ([tb c] & Eh & R).
  destruct (tile_of (length first) (N.to_nat INT_MAX)) as (t & Ht & Hti); [unfold INT_MAX in *; lia|].
  destruct (hist_stuck first step _ _ _ t Eh (dbegin t)) as (i' & E' & L').
  { cbn [snd]. apply counters0_nth; auto. } { unfold INT_MAX in *. lia. }
  apply bind_Ok in R. destruct R as (u & G & _). destruct (ended tile_size (length first) c) eqn:En; [|discriminate].
  assert (L : length c = ntiles (length first)).
  { rewrite (hist_adv first step _ _ _ Eh : c = _). cbn [snd].
    assert (AL : forall s c, length (fold_left (adv (length first)) s c) = length c).
    { clear. induction s as [|a s IH]; intros c; cbn [fold_left]; auto. rewrite IH. unfold adv.
      destruct (nth_error c a); auto. destruct (_ <? _); auto. apply upd_length. }
    rewrite AL. apply (counters0_ok (length first)). }
  pose proof (ended_spec _ c L En t Ht) as E2. cbn [snd] in E'. rewrite E' in E2. inversion E2; subst.
  unfold INT_MAX in *. lia.
Qed.

Lemma radix_huge scheds old dflt l : 0 < width -> (INT_MAX < N.of_nat (length l))%N ->
  forall r, radix_sort key width bits tile_size scheds old dflt l <> Ok r.
Proof.
  intros HW H r R. destruct l as [|x0 l0] eqn:El; [simpl in H; unfold INT_MAX in H; lia|]. rewrite <- El in *.
  unfold radix_sort in R. rewrite El in R. rewrite <- El in R.
  apply bind_Ok in R. destruct R as (m & R & _).
  assert (HNS : exists k, num_steps width bits = S k).
  { unfold num_steps. assert (0 < (width + bits - 1) / bits) by (apply Nat.div_str_pos; lia).
    destruct ((width + bits - 1) / bits); [lia|eauto]. }
  destruct HNS as (k & EK). rewrite EK in R. cbn [seq foldM] in R.
  apply bind_Ok in R. destruct R as (m1 & R & _). unfold radix_loop_step in R. cbn [Nat.even] in R.
  apply bind_Ok in R. destruct R as (b & R & _). exact (pass_huge _ _ _ _ H _ R).
Qed.

End Radix.
