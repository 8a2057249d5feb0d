(** Proofs about the sequential kd-tree builder and the search. *)
From Coq Require Import ZifyBool ZifyNat ZifyN.
From Verif Require Import Base BaseProofs Num Vec KnnModel KnnSpec KnnProofs KdModel KdSpec.
Ltac Zify.zify_post_hook ::= Z.div_mod_to_equations.

Lemma u32_small n : (N.of_nat n < 4294967296)%N -> u32 n = N.of_nat n.
Proof. intros H. unfold u32. apply N.mod_small. exact H. Qed.

Section Abs.
Context (D : num) (P : Type).
Notation node := (node D P).

(** * Abstract trees *)
Inductive atree : Type :=
| ALeaf (sl : list nat)
| ANode (proj : P) (thresh : car D) (l r : atree).

Fixpoint aelems (t : atree) : list nat :=
  match t with ALeaf sl => sl | ANode _ _ l r => aelems l ++ aelems r end.

Fixpoint nnodes (t : atree) : nat :=
  match t with ALeaf _ => 1 | ANode _ _ l r => S (nnodes l + nnodes r) end.

Fixpoint adepth (t : atree) : nat :=
  match t with ALeaf _ => 1 | ANode _ _ l r => S (Nat.max (adepth l) (adepth r)) end.

(** All leaves hold at least one and at most [m] elements. *)
Fixpoint aleaves_le (m : N) (t : atree) : Prop :=
  match t with
  | ALeaf sl => 0 < length sl /\ (N.of_nat (length sl) <= m)%N
  | ANode _ _ l r => aleaves_le m l /\ aleaves_le m r
  end.

Lemma adepth_nnodes t : adepth t <= nnodes t.
Proof. induction t; simpl; lia. Qed.

Lemma nnodes_pos t : 0 < nnodes t.
Proof. destruct t; simpl; lia. Qed.

(** * Concrete representation of an abstract tree in the node/index arrays *)
Fixpoint rep (nodes : list node) (idx : list nat) (id : nat) (first last : nat)
    (t : atree) (ids : list nat) : Prop :=
  match t with
  | ALeaf sl =>
      ids = [id] /\
      nth_error nodes id =
        Some (mkNode (NLeaf (N.of_nat first) (N.of_nat last)) INVALID_NODE INVALID_NODE) /\
      first <= last /\ last <= length idx /\ slice idx first last = sl
  | ANode proj th l r =>
      exists lid rid m lids rids,
        ids = id :: lids ++ rids /\
        nth_error nodes id = Some (mkNode (NSub proj th) (N.of_nat lid) (N.of_nat rid)) /\
        (N.of_nat lid < INVALID_NODE)%N /\ (N.of_nat rid < INVALID_NODE)%N /\
        first <= m /\ m <= last /\ last <= length idx /\
        rep nodes idx lid first m l lids /\ rep nodes idx rid m last r rids
  end.

Lemma rep_elems nodes idx t : forall id first last ids,
  rep nodes idx id first last t ids ->
  first <= last /\ last <= length idx /\ slice idx first last = aelems t.
Proof.
  induction t as [sl|proj th l IHl r IHr]; simpl; intros id first last ids H.
  - tauto.
  - destruct H as (lid & rid & m & lids & rids & _ & _ & _ & _ & H1 & H2 & H3 & Hl & Hr).
    apply IHl in Hl. apply IHr in Hr.
    split; [lia|]. split; [lia|].
    rewrite (slice_split idx first m last) by lia. f_equal; tauto.
Qed.

Lemma rep_frame nodes idx nodes' idx' t : forall id first last ids,
  rep nodes idx id first last t ids ->
  (forall i, In i ids -> nth_error nodes' i = nth_error nodes i) ->
  length idx' = length idx ->
  (forall i, first <= i -> i < last -> nth_error idx' i = nth_error idx i) ->
  rep nodes' idx' id first last t ids.
Proof.
  induction t as [sl|proj th l IHl r IHr]; simpl; intros id first last ids H Hn Hlen Hi.
  - destruct H as (-> & H1 & H2 & H3 & H4). split; auto.
    rewrite Hn by (left; auto). repeat split; auto; try lia.
    rewrite <- H4. apply nth_error_ext. intros i. rewrite !nth_error_slice.
    destruct (i <? last - first) eqn:E; auto. apply Hi; lia.
  - destruct H as (lid & rid & m & lids & rids & -> & H1 & H2 & H3 & H4 & H5 & H6 & Hl & Hr).
    exists lid, rid, m, lids, rids. rewrite Hn by (left; auto).
    repeat split; auto; try lia.
    + eapply IHl; eauto. intros; apply Hn; simpl; rewrite in_app_iff; auto.
      intros; apply Hi; lia.
    + eapply IHr; eauto. intros; apply Hn; simpl; rewrite in_app_iff; auto.
      intros; apply Hi; lia.
Qed.

Lemma rep_ids_bound nodes idx t : forall id first last ids,
  rep nodes idx id first last t ids -> forall i, In i ids -> i < length nodes.
Proof.
  induction t as [sl|proj th l IHl r IHr]; simpl; intros id first last ids H i Hi.
  - destruct H as (-> & H1 & _). destruct Hi as [<-|[]]. apply nth_error_Some; congruence.
  - destruct H as (lid & rid & m & lids & rids & -> & H1 & _ & _ & _ & _ & _ & Hl & Hr).
    destruct Hi as [<-|Hi]; [apply nth_error_Some; congruence|].
    apply in_app_iff in Hi. destruct Hi; eauto.
Qed.

Lemma rep_length_ids nodes idx t : forall id first last ids,
  rep nodes idx id first last t ids -> length ids = nnodes t.
Proof.
  induction t as [sl|proj th l IHl r IHr]; simpl; intros id first last ids H.
  - destruct H as (-> & _). reflexivity.
  - destruct H as (lid & rid & m & lids & rids & -> & H1 & _ & _ & _ & _ & _ & Hl & Hr).
    simpl. rewrite app_length. erewrite IHl, IHr by eauto. reflexivity.
Qed.

End Abs.
Arguments ALeaf {D P}.
Arguments ANode {D P}.

Section KdProofs.
Context (D : num) (pt : Type).
Context (P : Type) (papply : P -> pt -> car D) (find_axis : list pt -> outcome P).
Context (nth_element : (nat -> nat -> bool) -> nat -> list nat -> list nat).

Context (pgood : P -> Prop).   (* projections find_axis may return *)

Notation node := (node D P).
Notation atree := (atree D P).
Notation aelems := (aelems D P).
Notation nnodes := (nnodes D P).
Notation rep := (rep D P).
Notation split_range := (split_range papply find_axis nth_element).
Notation create_node := (create_node papply find_axis nth_element).

Section ABuild.
Context (points : list pt) (max_leaf_size : Z).
Notation is_leaf_size := (is_leaf_size max_leaf_size).

Fixpoint abuild (fuel : nat) (sl : list nat) : outcome atree :=
  match fuel with
  | O => OutOfFuel
  | S fuel =>
      if is_leaf_size (length sl) then Ok (ALeaf sl)
      else
        let* (proj, sl', thresh) := split_range points sl in
        let m := length sl / 2 in
        let* l := abuild fuel (firstn m sl') in
        let* r := abuild fuel (skipn m sl') in
        Ok (ANode proj thresh l r)
  end.

(** What [split_range] needs from its environment. *)
Definition split_ok : Prop :=
  forall sl, (forall i, In i sl -> i < length points) -> sl <> [] ->
    length sl <= length points ->
    exists proj sl' thresh mp,
      split_range points sl = Ok (proj, sl', thresh) /\
      pgood proj /\
      Permutation sl sl' /\
      In mp points /\ thresh = papply proj mp /\
      (forall i p, In i (firstn (length sl / 2) sl') -> nth_error points i = Some p ->
         nlt thresh (papply proj p) = false) /\
      (forall i p, In i (skipn (length sl / 2) sl') -> nth_error points i = Some p ->
         nlt (papply proj p) thresh = false).

(** kd-tree invariant. *)
Fixpoint kd_inv (t : atree) : Prop :=
  match t with
  | ALeaf _ => True
  | ANode proj th l r =>
      pgood proj /\
      (exists mp, In mp points /\ th = papply proj mp) /\
      (forall i p, In i (aelems l) -> nth_error points i = Some p -> nlt th (papply proj p) = false) /\
      (forall i p, In i (aelems r) -> nth_error points i = Some p -> nlt (papply proj p) th = false) /\
      kd_inv l /\ kd_inv r
  end.

Lemma is_leaf_size_false n : is_leaf_size n = false ->
  (size_t_of_int max_leaf_size < N.of_nat n)%N.
Proof. unfold KdModel.is_leaf_size. lia. Qed.

Lemma abuild_ok : (1 <= size_t_of_int max_leaf_size)%N -> split_ok ->
  forall fuel sl, (forall i, In i sl -> i < length points) -> length sl <= length points ->
  length sl < fuel ->
  exists t, abuild fuel sl = Ok t /\ Permutation sl (aelems t) /\ kd_inv t.
Proof.
  intros HL SO. induction fuel as [|fuel IH]; intros sl Hb Hlp Hf; [lia|].
  cbn [abuild]. destruct (is_leaf_size (length sl)) eqn:EL.
  - exists (ALeaf sl). simpl. auto.
  - assert (Hn : sl <> []).
    { intros ->. apply is_leaf_size_false in EL. simpl in EL. lia. }
    destruct (SO sl Hb Hn Hlp) as (proj & sl' & th & mp & ES & HG & HP & Hm & Ht & HL1 & HR1).
    rewrite ES. cbn [bind].
    assert (Hlen : length sl' = length sl) by (symmetry; apply Permutation_length; auto).
    assert (2 <= length sl).
    { apply is_leaf_size_false in EL. lia. }
    assert (Hb' : forall i, In i sl' -> i < length points).
    { intros i Hi. apply Hb. eapply Permutation_in; [apply Permutation_sym; eauto|auto]. }
    destruct (IH (firstn (length sl / 2) sl')) as (tl & EL' & PL & IL).
    { intros i Hi. apply Hb'. rewrite <- (firstn_skipn (length sl / 2) sl'). apply in_app_iff; auto. }
    { rewrite firstn_length. lia. }
    { rewrite firstn_length. lia. }
    destruct (IH (skipn (length sl / 2) sl')) as (tr & ER' & PR & IR).
    { intros i Hi. apply Hb'. rewrite <- (firstn_skipn (length sl / 2) sl'). apply in_app_iff; auto. }
    { rewrite skipn_length. lia. }
    { rewrite skipn_length. lia. }
    rewrite EL'. cbn [bind]. rewrite ER'. cbn [bind].
    exists (ANode proj th tl tr). split; [reflexivity|]. split.
    + simpl. rewrite <- PL, <- PR. rewrite firstn_skipn. exact HP.
    + simpl. split; [exact HG|]. split; [eauto|]. split; [|split; [|split]]; auto.
      * intros i p Hi. apply HL1. eapply Permutation_in; [apply Permutation_sym; eauto|auto].
      * intros i p Hi. apply HR1. eapply Permutation_in; [apply Permutation_sym; eauto|auto].
Qed.

Lemma abuild_nnodes : (3 <= size_t_of_int max_leaf_size)%N -> split_ok ->
  forall fuel sl t, (forall i, In i sl -> i < length points) -> length sl <= length points ->
  abuild fuel sl = Ok t -> 0 < length sl -> nnodes t <= Nat.max 1 (length sl - 1).
Proof.
  intros HL SO. induction fuel as [|fuel IH]; intros sl t Hb Hlp E Hpos; [discriminate|].
  cbn [abuild] in E. destruct (is_leaf_size (length sl)) eqn:EL.
  - inversion E; subst. cbn [nnodes]; lia.
  - assert (Hn : sl <> []) by (intros ->; simpl in *; lia).
    destruct (SO sl Hb Hn Hlp) as (proj & sl' & th & mp & ES & _ & HP & _).
    rewrite ES in E. cbn [bind] in E.
    assert (Hlen : length sl' = length sl) by (symmetry; apply Permutation_length; auto).
    apply is_leaf_size_false in EL.
    assert (4 <= length sl) by lia.
    assert (Hb' : forall i, In i sl' -> i < length points).
    { intros i Hi. apply Hb. eapply Permutation_in; [apply Permutation_sym; eauto|auto]. }
    apply bind_Ok in E. destruct E as (tl & E1 & E).
    apply bind_Ok in E. destruct E as (tr & E2 & E). inversion E; subst; clear E.
    apply IH in E1.
    2:{ intros i Hi. apply Hb'. rewrite <- (firstn_skipn (length sl / 2) sl'). apply in_app_iff; auto. }
    2:{ rewrite firstn_length. lia. }
    2:{ rewrite firstn_length. lia. }
    apply IH in E2.
    2:{ intros i Hi. apply Hb'. rewrite <- (firstn_skipn (length sl / 2) sl'). apply in_app_iff; auto. }
    2:{ rewrite skipn_length. lia. }
    2:{ rewrite skipn_length. lia. }
    rewrite firstn_length in E1. rewrite skipn_length in E2. cbn [nnodes]. lia.
Qed.

Lemma abuild_leaves : (1 <= size_t_of_int max_leaf_size)%N -> split_ok ->
  forall fuel sl t, (forall i, In i sl -> i < length points) -> length sl <= length points ->
  0 < length sl -> abuild fuel sl = Ok t -> aleaves_le D P (size_t_of_int max_leaf_size) t.
Proof.
  intros HL SO. induction fuel as [|fuel IH]; intros sl t Hb Hlp Hpos E; [discriminate|].
  cbn [abuild] in E. destruct (is_leaf_size (length sl)) eqn:EL.
  - inversion E; subst. cbn [aleaves_le]. unfold KdModel.is_leaf_size in EL. lia.
  - assert (Hn : sl <> []) by (intros ->; simpl in *; lia).
    destruct (SO sl Hb Hn Hlp) as (proj & sl' & th & mp & ES & _ & HP & _).
    rewrite ES in E. cbn [bind] in E.
    assert (Hlen : length sl' = length sl) by (symmetry; apply Permutation_length; auto).
    apply is_leaf_size_false in EL.
    assert (Hb' : forall i, In i sl' -> i < length points).
    { intros i Hi. apply Hb. eapply Permutation_in; [apply Permutation_sym; eauto|auto]. }
    apply bind_Ok in E. destruct E as (tl & E1 & E).
    apply bind_Ok in E. destruct E as (tr & E2 & E). inversion E; subst t; clear E.
    cbn [aleaves_le]. split.
    + apply (IH (firstn (length sl / 2) sl')); auto.
      * intros i Hi. apply Hb'. rewrite <- (firstn_skipn (length sl / 2) sl'). apply in_app_iff; auto.
      * rewrite firstn_length. lia.
      * rewrite firstn_length. lia.
    + apply (IH (skipn (length sl / 2) sl')); auto.
      * intros i Hi. apply Hb'. rewrite <- (firstn_skipn (length sl / 2) sl'). apply in_app_iff; auto.
      * rewrite skipn_length. lia.
      * rewrite skipn_length. lia.
Qed.
End ABuild.

(** * The sequential builder produces the abstract tree *)
Section Build.
Context (points : list pt) (max_leaf_size : Z).
Notation abuild := (abuild points max_leaf_size).
Notation is_leaf_size := (is_leaf_size max_leaf_size).

Lemma set_ntype_Ok (nodes : list node) id t n :
  nth_error nodes id = Some n ->
  set_ntype nodes id t = Ok (upd nodes id (mkNode t (left n) (right n))).
Proof.
  intros H. unfold set_ntype. rewrite (proj2 (get_Ok nodes id n) H). cbn [bind].
  apply set_Ok. apply nth_error_Some; congruence.
Qed.
Lemma set_left_Ok (nodes : list node) id c n :
  nth_error nodes id = Some n ->
  set_left nodes id c = Ok (upd nodes id (mkNode (ntype n) c (right n))).
Proof.
  intros H. unfold set_left. rewrite (proj2 (get_Ok nodes id n) H). cbn [bind].
  apply set_Ok. apply nth_error_Some; congruence.
Qed.
Lemma set_right_Ok (nodes : list node) id c n :
  nth_error nodes id = Some n ->
  set_right nodes id c = Ok (upd nodes id (mkNode (ntype n) (left n) c)).
Proof.
  intros H. unfold set_right. rewrite (proj2 (get_Ok nodes id n) H). cbn [bind].
  apply set_Ok. apply nth_error_Some; congruence.
Qed.

Lemma create_node_abuild : split_ok points ->
  forall fuel sl t st first last,
  abuild fuel sl = Ok t ->
  (forall i, In i sl -> i < length points) -> length sl <= length points ->
  first <= last -> last <= length (b_indices st) ->
  slice (b_indices st) first last = sl ->
  b_count st + nnodes t <= length (b_nodes st) ->
  (N.of_nat (length (b_nodes st)) <= INVALID_NODE)%N ->
  (N.of_nat (length (b_indices st)) <= INVALID_NODE)%N ->
  (forall i, b_count st <= i -> i < length (b_nodes st) -> nth_error (b_nodes st) i = Some node0) ->
  exists st' ids,
    create_node points max_leaf_size fuel st first last = Ok (st', N.of_nat (b_count st)) /\
    b_count st' = b_count st + nnodes t /\
    length (b_nodes st') = length (b_nodes st) /\
    length (b_indices st') = length (b_indices st) /\
    (forall i, i < b_count st -> nth_error (b_nodes st') i = nth_error (b_nodes st) i) /\
    (forall i, b_count st' <= i -> i < length (b_nodes st') -> nth_error (b_nodes st') i = Some node0) /\
    (forall i, i < first \/ last <= i -> nth_error (b_indices st') i = nth_error (b_indices st) i) /\
    (forall i, In i ids -> b_count st <= i < b_count st') /\
    NoDup ids /\
    rep (b_nodes st') (b_indices st') (b_count st) first last t ids.
Proof.
  intros SL. induction fuel as [|fuel IH]; intros sl t st first last E Hb Hlp Hfl Hl Hsl Hc Hn Hi Hfresh;
    [discriminate|].
  assert (Lsl : length sl = last - first) by (rewrite <- Hsl; apply slice_length; auto).
  pose proof (nnodes_pos _ _ t) as Npos.
  assert (U : u32 (b_count st) = N.of_nat (b_count st)).
  { apply u32_small. unfold INVALID_NODE in *. lia. }
  assert (F0 : nth_error (b_nodes st) (b_count st) = Some node0) by (apply Hfresh; lia).
  cbn [KdModel.create_node]. cbn [abuild] in E.
  rewrite <- Lsl. rewrite U, Nat2N.id. cbn [b_nodes b_indices b_count].
  destruct (is_leaf_size (length sl)) eqn:EL.
  - (* leaf *)
    inversion E; subst t; clear E. rewrite (set_ntype_Ok _ _ _ _ F0). cbn [bind].
    rewrite (u32_small first), (u32_small last) by (unfold INVALID_NODE in *; lia).
    eexists _, [b_count st]. split; [reflexivity|]. cbn [b_nodes b_indices b_count].
    rewrite upd_length. split; [simpl; lia|].
    split; [reflexivity|]. split; [reflexivity|].
    split; [intros i Hlt; apply upd_nth_error_other; lia|].
    split; [intros i H1 H2; rewrite upd_nth_error_other by lia; apply Hfresh; lia|].
    split; [auto|].
    split; [intros i [<-|[]]; lia|].
    split; [constructor; [simpl; tauto|constructor]|].
    simpl. split; auto. split; [apply upd_nth_error_same; lia|]. auto.
  - (* inner node *)
    rewrite Hsl. apply bind_Ok in E. destruct E as (((proj & sl') & th) & ES & E).
    rewrite ES. cbn [bind]. rewrite (set_ntype_Ok _ _ _ _ F0). cbn [bind].
    assert (HPsl : Permutation sl sl').
    { assert (Hne : sl <> []) by (intros ->; unfold KdModel.is_leaf_size in EL; simpl in EL; lia).
      destruct (SL sl Hb Hne Hlp) as (p1 & s1 & t1 & mp1 & ES1 & _ & HP1 & _).
      rewrite ES1 in ES. inversion ES; subst. exact HP1. }
    pose proof (Permutation_length HPsl) as Lsl'.
    assert (Hb' : forall i, In i sl' -> i < length points).
    { intros i Hin. apply Hb. eapply Permutation_in; [apply Permutation_sym; eauto|auto]. }
    apply bind_Ok in E. destruct E as (tl & E1 & E).
    apply bind_Ok in E. destruct E as (tr & E2 & E). inversion E; subst t; clear E.
    cbn [nnodes] in Hc.
    set (m := length sl / 2) in *.
    assert (Hm : m <= length sl) by (unfold m; lia).
    set (idx1 := put_slice (b_indices st) first sl').
    assert (Li1 : length idx1 = length (b_indices st)) by (apply put_slice_length; lia).
    set (n1 := upd (b_nodes st) (b_count st) _).
    assert (Ln1 : length n1 = length (b_nodes st)) by apply upd_length.
    assert (S1 : slice idx1 first last = sl').
    { replace last with (first + length sl') by lia. apply slice_put_slice_same. lia. }
    (* left child *)
    destruct (IH _ _ (mkB n1 idx1 (S (b_count st))) first (first + m) E1) as
      (st2 & ids2 & C2 & D2 & Ln2 & Li2 & K2 & Fr2 & Ix2 & Id2 & ND2 & R2);
      cbn [b_nodes b_indices b_count] in *; try lia.
    { intros i Hin. apply Hb'. rewrite <- (firstn_skipn m sl'). apply in_app_iff; auto. }
    { rewrite firstn_length. lia. }
    { rewrite (slice_firstn idx1 first last (first + m)) by lia. rewrite S1. f_equal. lia. }
    { intros i H1 H2. unfold n1. rewrite upd_nth_error_other by lia. apply Hfresh; lia. }
    rewrite C2. cbn [bind].
    assert (G2 : nth_error (b_nodes st2) (b_count st) =
                 Some (mkNode (NSub proj th) INVALID_NODE INVALID_NODE)).
    { rewrite K2 by lia. unfold n1. rewrite upd_nth_error_same by lia. reflexivity. }
    rewrite (set_left_Ok _ _ _ _ G2). cbn [bind ntype right].
    set (n2 := upd (b_nodes st2) (b_count st) _).
    assert (Ln2' : length n2 = length (b_nodes st2)) by apply upd_length.
    assert (Hix2 : slice (b_indices st2) (first + m) last = skipn m sl').
    { rewrite <- S1. apply nth_error_ext. intros i. rewrite nth_error_slice, nth_error_skipn, nth_error_slice.
      replace (first + (m + i)) with (first + m + i) by lia.
      destruct (i <? last - (first + m)) eqn:Q; destruct (m + i <? last - first) eqn:Q2; try lia; auto.
      rewrite Ix2 by lia. reflexivity. }
    (* right child *)
    destruct (IH _ _ (mkB n2 (b_indices st2) (b_count st2)) (first + m) last E2) as
      (st3 & ids3 & C3 & D3 & Ln3 & Li3 & K3 & Fr3 & Ix3 & Id3 & ND3 & R3);
      cbn [b_nodes b_indices b_count] in *; try lia.
    { intros i Hin. apply Hb'. rewrite <- (firstn_skipn m sl'). apply in_app_iff; auto. }
    { rewrite skipn_length. lia. }
    { exact Hix2. }
    { intros i H1 H2. unfold n2. rewrite upd_nth_error_other by lia. apply Fr2; lia. }
    rewrite C3. cbn [bind].
    assert (G3 : nth_error (b_nodes st3) (b_count st) =
                 Some (mkNode (NSub proj th) (N.of_nat (S (b_count st))) INVALID_NODE)).
    { rewrite K3 by lia. unfold n2. rewrite upd_nth_error_same by lia. reflexivity. }
    rewrite (set_right_Ok _ _ _ _ G3). cbn [bind ntype left].
    set (n3 := upd (b_nodes st3) (b_count st) _).
    assert (Ln3' : length n3 = length (b_nodes st3)) by apply upd_length.
    eexists _, (b_count st :: ids2 ++ ids3). split; [reflexivity|].
    cbn [b_nodes b_indices b_count].
    assert (Dpos2 := nnodes_pos _ _ tl). assert (Dpos3 := nnodes_pos _ _ tr).
    split; [simpl; lia|]. split; [lia|]. split; [lia|].
    split.
    { intros i Hlt. unfold n3. rewrite upd_nth_error_other by lia.
      rewrite K3 by lia. unfold n2. rewrite upd_nth_error_other by lia.
      rewrite K2 by lia. unfold n1. apply upd_nth_error_other; lia. }
    split.
    { intros i H1 H2. unfold n3. rewrite upd_nth_error_other by lia. apply Fr3; lia. }
    split.
    { intros i Hout. rewrite Ix3 by lia. rewrite Ix2 by lia. unfold idx1.
      rewrite nth_error_put_slice by lia.
      destruct (i <? first) eqn:Q1; auto. destruct (i <? first + length sl') eqn:Q2; auto. lia. }
    split.
    { intros i [<-|Hin]; [lia|]. apply in_app_iff in Hin. destruct Hin as [Hin|Hin].
      - apply Id2 in Hin. lia.
      - apply Id3 in Hin. lia. }
    split.
    { constructor.
      - rewrite in_app_iff. intros [Hin|Hin]; [apply Id2 in Hin|apply Id3 in Hin]; lia.
      - apply NoDup_app_intro; auto. intros i H1 H2. apply Id2 in H1. apply Id3 in H2. lia. }
    cbn [rep]. exists (S (b_count st)), (b_count st2), (first + m), ids2, ids3.
    split; [reflexivity|].
    split; [unfold n3; rewrite upd_nth_error_same by lia; reflexivity|].
    split; [unfold INVALID_NODE in *; lia|]. split; [unfold INVALID_NODE in *; lia|].
    split; [lia|]. split; [lia|]. split; [lia|]. split.
    + eapply rep_frame; [exact R2| | lia |].
      * intros i Hin. apply Id2 in Hin. unfold n3. rewrite upd_nth_error_other by lia.
        rewrite K3 by lia. unfold n2. apply upd_nth_error_other. lia.
      * intros i H1 H2. apply Ix3. lia.
    + eapply rep_frame; [exact R3| | lia |].
      * intros i Hin. apply Id3 in Hin. unfold n3. apply upd_nth_error_other. lia.
      * auto.
Qed.

End Build.
End KdProofs.
