(** Searches stay inside their buffers and return indices of the cloud for every query and
    every distance function, NaN included. *)
From Coq Require Import ZArith ZifyBool ZifyNat ZifyN.
From Verif Require Import Base BaseProofs Num Vec KnnModel KdModel KdSpec KdProofs KdSearchProofs KdTop.
Open Scope nat_scope.

Section Push.
Context (D : num) (ok : N -> Prop).

(** Every slot but [hole] among the first m holds an acceptable index. *)
Definition filled (m hole : nat) (idx : list N) : Prop :=
  forall j x, j < m -> j <> hole -> nth_error idx j = Some x -> ok x.

Lemma shift_loop_safe d : forall loc m (idx : list N) (dst : list (car D)),
  length idx = length dst -> loc < length idx -> loc < m -> filled m loc idx ->
  exists loc' idx' dst', shift_loop loc d idx dst = Ok (loc', idx', dst') /\
    length idx' = length idx /\ length dst' = length dst /\ loc' < length idx /\ loc' < m /\ filled m loc' idx'.
Proof.
  induction loc as [|l IH]; intros m idx dst L Hl Hm Fi; cbn [shift_loop].
  - exists 0, idx, dst. repeat split; auto.
  - destruct (get_lt dst l) as [x Ex]; [lia|]. rewrite Ex. cbn [bind].
    destruct (nlt d x).
    + destruct (get_lt idx l) as [i Ei]; [lia|]. rewrite Ei. cbn [bind].
      rewrite set_Ok by lia. cbn [bind]. rewrite set_Ok by lia. cbn [bind].
      destruct (IH m (upd idx (S l) i) (upd dst (S l) x)) as (loc' & idx' & dst' & E & A & B & C & F & G).
      * rewrite !upd_length. exact L.
      * rewrite upd_length. lia.
      * lia.
      * intros j y Hj Hn Ey. destruct (Nat.eq_dec j (S l)) as [->|NE].
        -- rewrite upd_nth_error_same in Ey by lia. inversion Ey; subst y.
           apply get_Ok in Ei. apply (Fi l i); [lia|lia|exact Ei].
        -- rewrite upd_nth_error_other in Ey by auto. apply (Fi j y Hj NE Ey).
      * exists loc', idx', dst'. rewrite !upd_length in *. rewrite E. repeat split; auto; congruence.
    + exists (S l), idx, dst. repeat split; auto.
Qed.

(** Buffers of the announced size, at least one slot, and acceptable indices in the used ones. *)
Definition sane (r : knn_result D) : Prop :=
  0 < buffer_size r /\ length (indices r) = buffer_size r /\ length (distances r) = buffer_size r /\
  num_found_neighbors r <= buffer_size r /\
  forall j x, j < num_found_neighbors r -> nth_error (indices r) j = Some x -> ok x.

Lemma push_safe r i d : sane r -> ok i ->
  exists r', push r i d = Ok r' /\ sane r' /\ static_n r' = static_n r /\ capacity r' = capacity r.
Proof.
  intros (K & LI & LD & NF & Fi) Hi. unfold push, worst_distance.
  destruct (get_lt (distances r) (buffer_size r - 1)) as [w Ew]; [lia|]. rewrite Ew. cbn [bind].
  destruct (nle w d). { exists r. repeat split; auto. }
  set (k := buffer_size r) in *.
  assert (Gen : exists idx dst,
    (let* (loc, idx, dst) := shift_loop (Nat.min (num_found_neighbors r) (k - 1)) d (indices r) (distances r) in
     let* idx := set idx loc i in let* dst := set dst loc d in Ok (idx, dst)) = Ok (idx, dst) /\
    length idx = k /\ length dst = k /\
    forall j x, j < Nat.min (num_found_neighbors r + 1) k -> nth_error idx j = Some x -> ok x).
  { destruct (shift_loop_safe d (Nat.min (num_found_neighbors r) (k - 1)) (Nat.min (num_found_neighbors r + 1) k) (indices r) (distances r))
      as (loc & idx & dst & E & A & B & C & F & G); try lia.
    - intros j x Hj Hn Ex. apply (Fi j x); [lia|exact Ex].
    - rewrite E. cbn [bind]. rewrite set_Ok by lia. cbn [bind]. rewrite set_Ok by lia. cbn [bind].
      eexists _, _. split; [reflexivity|]. rewrite !upd_length. split; [lia|]. split; [lia|].
      intros j x Hj Ex. destruct (Nat.eq_dec j loc) as [->|NE].
      + rewrite upd_nth_error_same in Ex by lia. inversion Ex; subst. exact Hi.
      + rewrite upd_nth_error_other in Ex by auto. eapply G; eauto. }
  assert (One : k = 1 -> exists idx dst,
    (let* idx := set (indices r) 0 i in let* dst := set (distances r) 0 d in Ok (idx, dst)) = Ok (idx, dst) /\
    length idx = k /\ length dst = k /\
    forall j x, j < Nat.min (num_found_neighbors r + 1) k -> nth_error idx j = Some x -> ok x).
  { intros K1. rewrite set_Ok by lia. cbn [bind]. rewrite set_Ok by lia. cbn [bind].
    eexists _, _. split; [reflexivity|]. rewrite !upd_length. split; [lia|]. split; [lia|].
    intros j x Hj Ex. assert (j = 0) by lia. subst j. rewrite upd_nth_error_same in Ex by lia. inversion Ex; subst. exact Hi. }
  assert (Fin : exists idx dst,
    (match static_n r with
     | Some 1 => let* idx := set (indices r) 0 i in let* dst := set (distances r) 0 d in Ok (idx, dst)
     | _ => let* (loc, idx, dst) := shift_loop (Nat.min (num_found_neighbors r) (k - 1)) d (indices r) (distances r) in
            let* idx := set idx loc i in let* dst := set dst loc d in Ok (idx, dst) end) = Ok (idx, dst) /\
    length idx = k /\ length dst = k /\
    forall j x, j < Nat.min (num_found_neighbors r + 1) k -> nth_error idx j = Some x -> ok x).
  { destruct (static_n r) as [[|[|n]]|] eqn:S; auto. apply One. subst k. unfold buffer_size. rewrite S. reflexivity. }
  destruct Fin as (idx & dst & -> & A & B & C). cbn [bind]. eexists. split; [reflexivity|].
  unfold sane, buffer_size. cbn [static_n capacity indices distances num_found_neighbors].
  change (match static_n r with Some n => n | None => Z.to_nat (capacity r) end) with k.
  repeat split; auto; lia.
Qed.

Lemma init_sane sn k r : knn_init D sn k = Ok r -> 0 < buffer_size r -> sane r.
Proof.
  intros E K. unfold knn_init in E. unfold buffer_size in *.
  destruct sn as [n|].
  - destruct (0 <=? k)%Z; inversion E; subst; unfold sane, buffer_size; cbn in *.
    rewrite !repeat_length. repeat split; auto; lia.
  - destruct (k <=? 0)%Z; inversion E; subst; unfold sane, buffer_size; cbn in *.
    rewrite !repeat_length. repeat split; auto; lia.
Qed.

Lemma push_all_safe l : forall r, sane r -> (forall c, In c l -> ok (fst c)) ->
  exists r', push_all r l = Ok r' /\ sane r' /\ static_n r' = static_n r /\ capacity r' = capacity r.
Proof.
  induction l as [|c l IH]; intros r H Hl; unfold push_all in *; cbn [foldM].
  - exists r. auto.
  - destruct (push_safe r (fst c) (snd c) H (Hl c (or_introl eq_refl))) as (r1 & -> & H1 & A1 & B1). cbn [bind].
    destruct (IH r1 H1 (fun c' Hc => Hl c' (or_intror Hc))) as (r2 & -> & H2 & A2 & B2).
    exists r2. repeat split; try apply H2; congruence.
Qed.
End Push.
Arguments sane {D}.

Section Search.
Context (D : num) (pt : Type) (sqd : pt -> pt -> car D) (P : Type) (papply : P -> pt -> car D).
Context (points : list pt) (query : pt) (epsilon : car D).
Notation ok := (fun i => (i < N.of_nat (length points))%N).

Lemma scan_safe sl : forall r, sane ok r -> (forall j, In j sl -> j < length points) ->
  exists r', foldM (push_point D pt sqd points query) sl r = Ok r' /\ sane ok r' /\ static_n r' = static_n r /\ capacity r' = capacity r.
Proof.
  induction sl as [|j sl IH]; intros r H Hj; cbn [foldM].
  - exists r. auto.
  - unfold push_point at 1. destruct (get_lt points j (Hj j (or_introl eq_refl))) as [p ->]. cbn [bind].
    destruct (push_safe D ok r (N.of_nat j) (sqd p query) H) as (r1 & -> & H1 & A1 & B1).
    { specialize (Hj j (or_introl eq_refl)). lia. }
    cbn [bind]. destruct (IH r1 H1 (fun i Hi => Hj i (or_intror Hi))) as (r2 & -> & H2 & A2 & B2).
    exists r2. repeat split; try apply H2; congruence.
Qed.

Lemma asearch_safe t : forall r, sane ok r -> (forall j, In j (aelems D P t) -> j < length points) ->
  exists r' go, asearch D pt sqd P papply points query epsilon t r = Ok (r', go) /\ sane ok r' /\
    static_n r' = static_n r /\ capacity r' = capacity r.
Proof.
  induction t as [sl|proj th l IHl r0 IHr]; intros r H Hj.
  - cbn [asearch]. destruct (scan_safe sl r H Hj) as (r1 & -> & H1 & A1 & B1). cbn [bind].
    unfold fulfilled, worst_distance. destruct H1 as (K & LI & LD & NF & Fi).
    destruct (get_lt (distances r1) (buffer_size r1 - 1)) as [w ->]; [lia|]. cbn [bind].
    eexists _, _. split; [reflexivity|]. repeat split; auto.
  - rewrite asearch_node. cbv zeta.
    assert (Hl : forall j, In j (aelems D P l) -> j < length points) by (intros; apply Hj; cbn; apply in_or_app; auto).
    assert (Hr : forall j, In j (aelems D P r0) -> j < length points) by (intros; apply Hj; cbn; apply in_or_app; auto).
    destruct (nlt (nsub (papply proj query) th) nzero).
    + destruct (IHl r H Hl) as (r1 & go & -> & H1 & A1 & B1). cbn [bind].
      destruct go; cbn [negb]; [|exists r1, false; auto].
      pose proof H1 as (K & LI & LD & NF & Fi). unfold worst_distance.
      destruct (get_lt (distances r1) (buffer_size r1 - 1)) as [w ->]; [lia|]. cbn [bind].
      destruct (nlt _ w); [|exists r1, true; auto].
      destruct (IHr r1 H1 Hr) as (r2 & go & -> & H2 & A2 & B2). exists r2, go. repeat split; try apply H2; congruence.
    + destruct (IHr r H Hr) as (r1 & go & -> & H1 & A1 & B1). cbn [bind].
      destruct go; cbn [negb]; [|exists r1, false; auto].
      pose proof H1 as (K & LI & LD & NF & Fi). unfold worst_distance.
      destruct (get_lt (distances r1) (buffer_size r1 - 1)) as [w ->]; [lia|]. cbn [bind].
      destruct (nlt _ w); [|exists r1, true; auto].
      destruct (IHl r1 H1 Hl) as (r2 & go & -> & H2 & A2 & B2). exists r2, go. repeat split; try apply H2; congruence.
Qed.

(** On a well-formed tree every search succeeds. *)
Lemma knn_search_safe pgood mls tree sn k r0 : wf_tree D pt P papply pgood points mls tree ->
  knn_init D sn k = Ok r0 -> 0 < buffer_size r0 ->
  exists r, knn_search sqd papply points tree query epsilon sn k = Ok r /\ sane ok r /\
    static_n r = static_n r0 /\ capacity r = capacity r0.
Proof.
  intros (t & root & ids & ER & RP & PM & _ & _ & _ & _ & DP & BN & BI) E0 K.
  unfold knn_search. rewrite E0. cbn [bind]. rewrite ER.
  rewrite (search_asearch D pt sqd P papply points query epsilon tree t _ _ _ _ _ _ RP BN BI) by lia.
  destruct (asearch_safe t r0 (init_sane D ok _ _ _ E0 K)) as (r & go & -> & H & A & B).
  - intros j Hj. destruct (rep_elems _ _ _ _ _ _ _ _ _ RP) as (_ & _ & SE). rewrite <- SE in Hj.
    assert (Hi : In j (t_indices tree)).
    { unfold slice in Hj. cbn [skipn] in Hj. rewrite <- (firstn_skipn (length points - 0)). apply in_or_app. left. exact Hj. }
    apply (Permutation_in _ (Permutation_sym PM)) in Hi. apply in_seq in Hi. lia.
  - cbn [bind]. exists r. auto.
Qed.
End Search.
