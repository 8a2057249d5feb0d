(** C14-C17: the task-parallel sorts, the parallel radix sort, random sampling. *)
From Coq Require Import ZArith ZifyBool ZifyNat ZifyN.
From Verif Require Import Base BaseProofs KdModel KdSpec NthElement SortSpec SortModel SortProofs
  RadixModel RadixProofs SampleModel.
Open Scope nat_scope.

(** * C14 *)
Section C14.
Context (A : Type) (comp : A -> A -> bool).
Context (sort : (A -> A -> bool) -> list A -> list A) (part : (A -> bool) -> list A -> list A * nat).

(** In every configuration a team of threads can reach: the number of executed tasks is
    bounded; no task body has undefined behaviour; tasks pending at the same time own
    disjoint ranges and a body changes nothing outside its range; and when no task is left
    the array is a sorted permutation of the input. *)
Theorem C14_quick_sort_omp (l : list A) :
  sort_contract_at sort -> partition_contract part -> swo_on comp l ->
  (N.of_nat (length l) <= 2454267031)%N ->
  forall k c, qrun comp sort part l k c ->
    k <= 2 * length l + 1 /\
    (forall i o, qstep comp sort part c i = Some o -> exists arr' pend',
       o = Ok (arr', pend') /\
       forall first last, nth_error (snd c) i = Some (first, last) ->
       forall j, j < first \/ last <= j -> nth_error arr' j = nth_error (fst c) j) /\
    (forall i j f1 l1 f2 l2, i <> j -> nth_error (snd c) i = Some (f1, l1) ->
       nth_error (snd c) j = Some (f2, l2) -> l1 <= f2 \/ l2 <= f1) /\
    (snd c = [] -> Permutation l (fst c) /\ sorted_by comp (fst c)).
Proof.
  intros HS HP HW HL k c Hr.
  assert (HM : (N.of_nat (length l / 8 * 7) <= INT_MAX)%N) by (unfold INT_MAX; lia).
  destruct (qrun_inv A comp sort part HS HP l k c HW HM Hr) as (V & K).
  split; [lia|]. split; [|split].
  - intros i o E. assert (Hi : i < length (snd c)).
    { unfold qstep in E. apply nth_error_Some. destruct (nth_error (snd c) i); congruence. }
    destruct (qinv_step A comp sort part HS HP l c i HW HM V Hi)
      as (f & e & arr' & pend' & En & E' & _ & _ & _ & FR).
    rewrite E' in E. inversion E; subst. exists arr', pend'. split; auto.
    intros f0 e0 En' j Hj. rewrite En in En'. inversion En'; subst. apply FR. lia.
  - destruct c as [arr pend]. destruct V as (_ & _ & AA & _). cbn [snd].
    rewrite all_apart_nth in AA. intros i j f1 l1 f2 l2 N E1 E2.
    destruct (Nat.lt_ge_cases i j) as [L|L].
    + exact (AA i j _ _ L E1 E2).
    + pose proof (AA j i _ _ ltac:(lia) E2 E1) as H. unfold apart in H. simpl in H. lia.
  - destruct c as [arr pend]. destruct V as (P & _ & _ & ORD). cbn [fst snd]. intros ->.
    split; auto. apply sorted_by_nth. intros i j x y Hij Hx Hy.
    destruct (ORD i j x y Hij Hx Hy) as [H|(r & [] & _)]; auto.
Qed.

(** Every run can be continued until no task is left. *)
Theorem C14_quick_sort_omp_completes (l : list A) :
  sort_contract_at sort -> partition_contract part -> swo_on comp l ->
  (N.of_nat (length l) <= 2454267031)%N ->
  (forall k c, qrun comp sort part l k c -> snd c <> [] ->
     exists arr pend, qstep comp sort part c 0 = Some (Ok (arr, pend))) /\
  exists k arr, qrun comp sort part l k (arr, []).
Proof.
  intros HS HP HW HL.
  assert (HM : (N.of_nat (length l / 8 * 7) <= INT_MAX)%N) by (unfold INT_MAX; lia).
  split.
  - intros k c Hr Hne. destruct (qrun_inv A comp sort part HS HP l k c HW HM Hr) as (V & _).
    destruct (qinv_step A comp sort part HS HP l c 0 HW HM V) as (f & e & arr' & pend' & _ & E & _).
    { destruct (snd c); simpl; [congruence|lia]. }
    eauto.
  - apply (qrun_complete A comp sort part HS HP l HW HM _ 0 (qinit l) (le_n _)). constructor.
Qed.

(** Beyond that length the pivot offsets (offset * 7, computed in int) overflow: the very
    first task has undefined behaviour, whatever the contents. *)
Theorem C14_huge_array_refuted (l : list A) :
  (2454267031 < N.of_nat (length l))%N -> qstep comp sort part (qinit l) 0 = Some UB.
Proof.
  intros H. unfold qstep, qinit. cbn [snd nth_error fst]. f_equal. unfold quick_body, small, choose_pivot.
  rewrite Nat.sub_0_r. replace (N.of_nat (length l) <? 1024)%N with false by lia.
  replace (INT_MAX <? N.of_nat (length l / 8 * 7))%N with true by (unfold INT_MAX; lia). reflexivity.
Qed.
End C14.

(** Conforming algorithms exist. *)
Definition ref_partition {A : Type} (p : A -> bool) (l : list A) : list A * nat :=
  (filter p l ++ filter (fun x => negb (p x)) l, length (filter p l)).

Lemma ref_partition_ok A : partition_contract (@ref_partition A).
Proof.
  intros p l l' k E. unfold ref_partition in E. inversion E; subst. clear E.
  split; [|split; [rewrite app_length; lia|]].
  - induction l as [|x l IH]; simpl; auto. destruct (p x); simpl; [auto|].
    rewrite <- Permutation_middle. auto.
  - rewrite firstn_app, firstn_all, Nat.sub_diag, skipn_app, skipn_all, Nat.sub_diag. simpl.
    rewrite app_nil_r. split; apply Forall_forall; intros x Hx; apply filter_In in Hx; destruct Hx as (_ & Hx).
    + exact Hx.
    + apply negb_true_iff; auto.
Qed.

Lemma insertion_sort_ok A : sort_contract_at (fun lt (l : list A) => insertion_sort lt l).
Proof.
  intros lt l H. split; [apply insertion_sort_Permutation|].
  apply insertion_sort_sorted. exact H.
Qed.

Lemma swo_nat l : swo_on Nat.ltb l.
Proof. split; [|split]; intros; lia. Qed.

Lemma swo_N l : swo_on N.ltb l.
Proof. split; [|split]; intros; lia. Qed.

(** 1100 descending numbers: the first task partitions and creates two tasks, and some
    order of executing tasks finishes. *)
Definition descending (n : nat) : list nat := rev (seq 0 n).

Example C14_hypotheses :
  sort_contract_at (fun lt (l : list nat) => insertion_sort lt l) /\
  partition_contract (@ref_partition nat) /\
  swo_on Nat.ltb (descending 1100) /\ (N.of_nat (length (descending 1100)) <= 2454267031)%N.
Proof.
  split; [apply insertion_sort_ok|]. split; [apply ref_partition_ok|]. split; [apply swo_nat|].
  vm_compute. discriminate.
Qed.

Example C14_first_task_splits :
  option_map (fun o => match o with Ok (_, pend) => pend | _ => [] end)
    (qstep Nat.ltb insertion_sort ref_partition (qinit (descending 1100)) 0)
  = Some [(0, 551); (552, 1100)].
Proof. vm_compute. reflexivity. Qed.

Example C14_huge_case : exists l : list nat, (2454267031 < N.of_nat (length l))%N.
Proof. exists (repeat 0 (N.to_nat 2454267032)). rewrite repeat_length. lia. Qed.

(** * C15 *)
Section C15.
Context (A : Type) (comp : A -> A -> bool).
Context (sort : (A -> A -> bool) -> list A -> list A) (merge : (A -> A -> bool) -> nat -> list A -> list A).

Theorem C15_merge_sort_omp (l : list A) :
  sort_contract_at sort -> merge_contract merge -> swo_on comp l ->
  forall k arr p, mrun comp sort merge l k (arr, p) ->
    k <= 3 * length l + 1 /\
    (forall o, In o (msteps comp sort merge arr p) -> exists arr' p', o = Ok (arr', p')) /\
    (forall i r arr' p', nth_error (mtouches p) i = Some r ->
       nth_error (msteps comp sort merge arr p) i = Some (Ok (arr', p')) ->
       forall j, j < fst r \/ snd r <= j -> nth_error arr' j = nth_error arr j) /\
    (forall i j r1 r2, i <> j -> nth_error (mtouches p) i = Some r1 ->
       nth_error (mtouches p) j = Some r2 -> snd r1 <= fst r2 \/ snd r2 <= fst r1) /\
    length (mtouches p) = length (msteps comp sort merge arr p) /\
    (p = MDone \/ msteps comp sort merge arr p <> []) /\
    (p = MDone -> Permutation l arr /\ sorted_by comp arr).
Proof.
  intros HS HM HW k arr p Hr.
  destruct (mrun_inv A comp sort merge HS HM l k _ HW Hr) as (P & V & K). cbn [fst snd] in *.
  assert (HWa : swo_on comp arr).
  { eapply swo_sub; eauto. intros x Hx. apply (Permutation_in x (Permutation_sym P)); auto. }
  assert (L : length l = length arr) by (apply Permutation_length; auto).
  destruct (msteps_good A comp sort merge HS HM arr HWa p 0 (length l) ltac:(lia) ltac:(lia) V)
    as (G & AA & _).
  split; [lia|]. split; [|split; [|split; [|split; [|split]]]].
  - intros o Ho. destruct (Forall2_in_l' _ _ _ _ G Ho) as (r & _ & arr' & p' & E & _). eauto.
  - intros i r arr' p' Er Es j Hj.
    assert (N2 : forall X Y (R : X -> Y -> Prop) l1 l2, Forall2 R l1 l2 -> forall i x y,
      nth_error l1 i = Some x -> nth_error l2 i = Some y -> R x y).
    { clear. induction 1; intros [|i] a b Ha Hb; simpl in *; try discriminate; eauto.
      inversion Ha; inversion Hb; subst; auto. }
    destruct (N2 _ _ _ _ _ G i _ _ Es Er) as (a' & q' & E & _ & _ & _ & _ & _ & FR & _).
    inversion E; subst. apply FR. lia.
  - rewrite all_apart_nth in AA. intros i j r1 r2 N E1 E2.
    destruct (Nat.lt_ge_cases i j) as [Q|Q].
    + exact (AA i j _ _ Q E1 E2).
    + pose proof (AA j i _ _ ltac:(lia) E2 E1) as H. unfold apart in H. lia.
  - clear -G. induction G; simpl; auto.
  - destruct (msteps comp sort merge arr p) eqn:E; [left|right; discriminate].
    apply msteps_stuck in E. exact E.
  - intros ->. split; auto. simpl in V. rewrite L, slice_all in V. exact V.
Qed.

Theorem C15_merge_sort_omp_completes (l : list A) :
  sort_contract_at sort -> merge_contract merge -> swo_on comp l ->
  exists k arr, mrun comp sort merge l k (arr, MDone).
Proof.
  intros HS HM HW. apply (mrun_complete A comp sort merge HS HM l HW _ 0 (minit l) (le_n _)). constructor.
Qed.
End C15.

Definition ref_merge {A : Type} (lt : A -> A -> bool) (k : nat) (l : list A) : list A :=
  insertion_sort lt l.

Lemma ref_merge_ok A : merge_contract (@ref_merge A).
Proof. intros lt k l H _ _ _. apply insertion_sort_ok. exact H. Qed.

Example C15_hypotheses :
  sort_contract_at (fun lt (l : list nat) => insertion_sort lt l) /\
  merge_contract (@ref_merge nat) /\ swo_on Nat.ltb (descending 1100).
Proof. split; [apply insertion_sort_ok|]. split; [apply ref_merge_ok|apply swo_nat]. Qed.

(** The two halves can be sorted in either order. *)
Example C15_two_orders :
  length (msteps Nat.ltb insertion_sort ref_merge (descending 1100)
    (MWait 0 550 1100 (MCall 0 550) (MCall 550 1100))) = 2.
Proof. vm_compute. reflexivity. Qed.

(** * C16 *)
(** For every key width, digit width, tile size, old buffer contents and interleaving of
    the parallel loops: no undefined behaviour, and if the loops were all run to their end
    the result is the stable sort by key. *)
Theorem C16_radix_sort_tbb (T : Type) (key : T -> N) (width bits tile_size : nat)
    (scheds : nat -> sched) (old : list T) (d : T) (l : list T) :
  0 < bits -> 0 < tile_size ->
  (forall x, In x l -> (key x < 2 ^ N.of_nat width)%N) ->
  (N.of_nat (length l) <= 2147483647)%N ->
  (forall s, sched_ok bits tile_size (length l) (scheds s)) ->
  radix_sort key width bits tile_size scheds old d l = OutOfFuel \/
  exists l', radix_sort key width bits tile_size scheds old d l = Ok l' /\
    stable_sorted_by key l l' /\ Permutation l l'.
Proof.
  intros Hb Ht HK HL HS.
  destruct (radix_sort_spec T key width bits tile_size Ht Hb scheds old d l HK HL HS) as [H|(l' & E & H)];
    [left; exact H|right].
  exists l'. split; [exact E|]. split; [exact H|]. exact (stable_perm T key bits tile_size Ht Hb key l l' (proj2 H)).
Qed.

(** If every loop gets enough turns the sort finishes, and its result does not depend on
    the schedule, the digit width, the tile size or the buffers. *)
Theorem C16_radix_sort_deterministic (T : Type) (key : T -> N) (width : nat)
    (bits tile_size bits' tile_size' : nat) (scheds scheds' : nat -> sched)
    (old old' : list T) (d d' : T) (l : list T) :
  0 < bits -> 0 < tile_size -> 0 < bits' -> 0 < tile_size' ->
  (forall x, In x l -> (key x < 2 ^ N.of_nat width)%N) ->
  (N.of_nat (length l) <= 2147483647)%N ->
  (forall s, sched_ok bits tile_size (length l) (scheds s)) ->
  (forall s, fair bits tile_size (length l) (scheds s)) ->
  (forall s, sched_ok bits' tile_size' (length l) (scheds' s)) ->
  (forall s, fair bits' tile_size' (length l) (scheds' s)) ->
  exists l', radix_sort key width bits tile_size scheds old d l = Ok l' /\
             radix_sort key width bits' tile_size' scheds' old' d' l = Ok l' /\
             stable_sorted_by key l l'.
Proof.
  intros Hb Ht Hb' Ht' HK HL HS HF HS' HF'.
  destruct (radix_sort_spec T key width bits tile_size Ht Hb scheds old d l HK HL HS) as [H|(l1 & E1 & H1)].
  { exfalso. exact (radix_sort_fair T key width bits tile_size Ht Hb scheds old d l HL HS HF H). }
  destruct (radix_sort_spec T key width bits' tile_size' Ht' Hb' scheds' old' d' l HK HL HS') as [H|(l2 & E2 & H2)].
  { exfalso. exact (radix_sort_fair T key width bits' tile_size' Ht' Hb' scheds' old' d' l HL HS' HF' H). }
  assert (l1 = l2); [|subst; eauto].
  exact (stable_unique T key bits tile_size Ht Hb key l l1 l2 H1 H2).
Qed.

(** Beyond 2^31 - 1 elements the histogram loop counter (an int) overflows: no schedule
    produces a result. *)
Theorem C16_huge_array_refuted (T : Type) (key : T -> N) (width bits tile_size : nat)
    (scheds : nat -> sched) (old : list T) (d : T) (l : list T) :
  0 < bits -> 0 < tile_size -> 0 < width -> (2147483647 < N.of_nat (length l))%N ->
  forall r, radix_sort key width bits tile_size scheds old d l <> Ok r.
Proof. intros Hb Ht HW HL r. apply radix_huge; auto. Qed.

(** Pairs sorted by their first component, 4-bit digits, tiles of 2; the round-robin
    schedule and one that runs the tiles backwards both finish. *)
Definition items : list (N * nat) := [(200%N, 0); (3%N, 1); (200%N, 2); (17%N, 3); (3%N, 4)].
Definition back (s : sched) : sched :=
  mkSched (rev (s_hist s)) (rev (s_bins s)) (rev (s_scatter s)).

Example C16_run :
  radix_sort fst 8 4 2 (fun _ => round 4 2 5) [] (0%N, 0) items =
    Ok [(3%N, 1); (3%N, 4); (17%N, 3); (200%N, 0); (200%N, 2)] /\
  radix_sort fst 8 4 2 (fun _ => back (round 4 2 5)) [] (0%N, 0) items =
    Ok [(3%N, 1); (3%N, 4); (17%N, 3); (200%N, 0); (200%N, 2)].
Proof. split; vm_compute; reflexivity. Qed.

(** The last digit may be partial: 3-bit digits of an 8-bit key. *)
Example C16_partial_digit :
  radix_sort fst 8 3 2 (fun _ => round 3 2 5) [] (0%N, 0) items =
    Ok [(3%N, 1); (3%N, 4); (17%N, 3); (200%N, 0); (200%N, 2)].
Proof. vm_compute; reflexivity. Qed.

Example C16_hypotheses :
  (forall x, In x items -> (fst x < 2 ^ N.of_nat 8)%N) /\
  (forall s : nat, sched_ok 4 2 (length items) (round 4 2 5)) /\
  (forall s : nat, fair 4 2 (length items) (round 4 2 5)).
Proof.
  split; [|split; intros _; apply round_ok; lia].
  intros x Hx. cbn [In items] in Hx.
  repeat (destruct Hx as [<-|Hx]; [vm_compute; reflexivity|]). destruct Hx.
Qed.

(** * C17 *)
Theorem C17_random_sampling (T RNG : Type) (zero : T) (sample : RNG -> list nat -> nat -> list nat)
    (points : list T) (num_samples : nat) (rng : RNG) :
  sample_contract sample ->
  exists ps out,
    random_sampling zero sample points num_samples rng = Ok out /\
    selects points ps out /\ length out = Nat.min num_samples (length points).
Proof.
  intros HC. destruct points as [|p0 pts] eqn:Ep.
  { exists [], []. split; [reflexivity|]. split; [split; constructor|]. simpl. lia. }
  rewrite <- Ep in *. unfold random_sampling. rewrite Ep. rewrite <- Ep.
  rewrite seq_length. set (n := length points).
  set (m := if n <=? num_samples then n else num_samples).
  assert (Em : m = Nat.min num_samples n) by (unfold m; destruct (n <=? num_samples) eqn:E; lia).
  destruct (HC rng (seq 0 n) m) as (ps & (SS & F2) & Lp).
  rewrite seq_length in Lp.
  assert (Ls : length (sample rng (seq 0 n) m) = length ps).
  { clear -F2. induction F2; simpl; auto. }
  assert (Hps : sample rng (seq 0 n) m = ps).
  { clear -F2. induction F2 as [|p x l l' H F IH]; auto. f_equal; auto.
    assert (p < n). { rewrite <- (seq_length n 0). apply nth_error_Some. congruence. }
    rewrite (nth_error_nth' _ 0) in H by (rewrite seq_length; auto). rewrite seq_nth in H by auto.
    inversion H; auto. }
  rewrite Hps in *. replace (m <? length ps) with false by lia.
  replace (m - length ps) with 0 by lia. rewrite app_nil_r.
  assert (BND : Forall (fun p => p < n) ps).
  { apply Forall_forall. intros p Hp. clear -F2 Hp.
    assert (G : forall l l', Forall2 (fun p x => nth_error (seq 0 n) p = Some x) l l' -> In p l -> p < n).
    { induction 1 as [|q x l l' E F IH]; simpl; intros [].
      - subst. rewrite <- (seq_length n 0). apply nth_error_Some. congruence.
      - auto. }
    eapply G; eauto. }
  (* the copy loop *)
  set (body := fun (out : list T) i => let* s := get ps i in let* p := get points s in set out i p).
  assert (LOOP : forall k, k <= m -> exists out,
    foldM body (seq 0 k) (repeat zero m) = Ok out /\ length out = m /\
    forall i, i < k -> nth_error out i = match nth_error ps i with Some p => nth_error points p | None => None end).
  { induction k as [|k IH]; intros Hk.
    - exists (repeat zero m). split; [reflexivity|]. split; [apply repeat_length|]. intros; lia.
    - destruct IH as (out & E & Lo & V); [lia|].
      rewrite seq_S, foldM_app, E. cbn [bind foldM plus]. unfold body at 1.
      destruct (get_lt ps k ltac:(lia)) as (p & Egp). rewrite Egp. cbn [bind].
      apply get_Ok in Egp.
      assert (Hp : p < n). { rewrite Forall_forall in BND. apply BND. eapply nth_error_In; eauto. }
      destruct (get_lt points p Hp) as (x & Ex). rewrite Ex. cbn [bind]. apply get_Ok in Ex.
      rewrite set_Ok by lia. cbn [bind]. eexists. split; [reflexivity|].
      split; [rewrite upd_length; auto|]. intros i Hi. destruct (Nat.eq_dec i k) as [->|N].
      + rewrite upd_nth_error_same by lia. rewrite Egp, Ex. reflexivity.
      + rewrite upd_nth_error_other by auto. apply V. lia. }
  destruct (LOOP m (le_n _)) as (out & E & Lo & V).
  exists ps, out. split; [exact E|]. split; [|lia]. split; [exact SS|].
  assert (G : forall a b : list nat, True) by auto. clear G.
  assert (Lpo : length ps = length out) by lia.
  assert (V' : forall i, i < length out -> nth_error out i = match nth_error ps i with Some p => nth_error points p | None => None end)
    by (intros; apply V; lia).
  clear -V' Lpo BND. revert out Lpo V'. induction BND as [|p ps Hp BND IH]; intros [|x out] Lpo V'; simpl in Lpo; try lia; constructor.
  - specialize (V' 0 ltac:(simpl; lia)). simpl in V'. auto.
  - apply IH; [lia|]. intros i Hi. apply (V' (S i)). simpl. lia.
Qed.

(** A conforming std::sample, and a run. *)
Example C17_hypotheses :
  sample_contract (fun (_ : unit) (l : list nat) n => firstn n l).
Proof.
  intros _ l n. exists (seq 0 (Nat.min n (length l))). split; [|apply seq_length].
  split.
  - assert (G : forall k a, StronglySorted lt (seq a k)).
    { induction k as [|k IH]; intros a; simpl; constructor; auto.
      apply Forall_forall. intros x Hx. apply in_seq in Hx. lia. }
    apply G.
  - assert (G : forall (l : list nat) n a pre, length pre = a ->
      Forall2 (fun p x => nth_error (pre ++ l) p = Some x) (seq a (Nat.min n (length l))) (firstn n l)).
    { clear. induction l as [|x l IH]; intros [|n] a pre E; simpl; try constructor.
      - rewrite nth_error_app2 by lia. rewrite E, Nat.sub_diag. reflexivity.
      - specialize (IH n (S a) (pre ++ [x])). rewrite <- app_assoc in IH. apply IH.
        rewrite app_length. simpl. lia. }
    apply (G l n 0 []). reflexivity.
Qed.

Example C17_run :
  random_sampling 0%N (fun (_ : unit) (l : list nat) n => firstn n l) [10; 20; 30]%N 2 tt = Ok [10; 20]%N /\
  random_sampling 0%N (fun (_ : unit) (l : list nat) n => firstn n l) [10; 20; 30]%N 7 tt = Ok [10; 20; 30]%N.
Proof. split; reflexivity. Qed.

Print Assumptions C14_quick_sort_omp.
Print Assumptions C14_quick_sort_omp_completes.
Print Assumptions C14_huge_array_refuted.
Print Assumptions C15_merge_sort_omp.
Print Assumptions C15_merge_sort_omp_completes.
Print Assumptions C16_radix_sort_tbb.
Print Assumptions C16_radix_sort_deterministic.
Print Assumptions C16_huge_array_refuted.
Print Assumptions C17_random_sampling.
