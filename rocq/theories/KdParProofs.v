(** Every schedule of the parallel builders produces the sequential builder's tree. *)
From Coq Require Import ZifyBool ZifyNat ZifyN.
From Verif Require Import Base BaseProofs Num Vec KnnModel KnnSpec KnnProofs KdModel KdSpec
  KdProofs KdSearchProofs KdTop KdParModel.
Ltac Zify.zify_post_hook ::= Z.div_mod_to_equations.

Lemma resize_le {A} (l : list A) n d : n <= length l -> resize l n d = firstn n l.
Proof. intros H. unfold resize. replace (n - length l) with 0 by lia. apply app_nil_r. Qed.

Section KdPar.
Context (D : num) (pt : Type).
Context (P : Type) (papply : P -> pt -> car D) (find_axis : list pt -> outcome P).
Context (nth_element : (nat -> nat -> bool) -> nat -> list nat -> list nat).
Context (pgood : P -> Prop).
Context (points : list pt) (max_leaf_size : Z).
Notation abuild := (abuild D pt P papply find_axis nth_element points max_leaf_size).
Notation psteps := (psteps papply find_axis nth_element points max_leaf_size).
Notation split_ok := (split_ok D pt P papply find_axis nth_element pgood points).
Notation bstate := (bstate D P).
Notation proc := (proc D P).
Notation atree := (atree D P).
Notation rep := (rep D P).
Notation nnodes := (nnodes D P).
Hypothesis SO : split_ok.

Definition sub_ok (sl : list nat) : Prop :=
  (forall i, In i sl -> i < length points) /\ length sl <= length points.

(** [inv nodes idx p f l t ids]: call [p] works on the range [f,l), will produce the
    abstract tree [t], and has taken the node ids [ids] so far. *)
Fixpoint inv (nodes : list (node D P)) (idx : list nat) (p : proc) (f l : nat) (t : atree)
    (ids : list nat) : Prop :=
  match p with
  | PCall f' l' | PPend f' l' =>
      f' = f /\ l' = l /\ ids = [] /\ f <= l /\ l <= length idx /\
      sub_ok (slice idx f l) /\ exists fuel, abuild fuel (slice idx f l) = Ok t
  | PHave id f' l' =>
      f' = f /\ l' = l /\ ids = [id] /\ f <= l /\ l <= length idx /\
      nth_error nodes id = Some node0 /\
      sub_ok (slice idx f l) /\ exists fuel, abuild fuel (slice idx f l) = Ok t
  | PSplit id f' l' proj th =>
      f' = f /\ l' = l /\ ids = [id] /\ f <= l /\ l <= length idx /\
      nth_error nodes id = Some node0 /\ sub_ok (slice idx f l) /\
      exists fuel tl tr, t = ANode proj th tl tr /\
        abuild fuel (firstn ((l - f) / 2) (slice idx f l)) = Ok tl /\
        abuild fuel (skipn ((l - f) / 2) (slice idx f l)) = Ok tr
  | PFork id pl pr =>
      exists proj th tl tr m lids rids L R,
        t = ANode proj th tl tr /\ ids = id :: lids ++ rids /\
        f <= m /\ m <= l /\ l <= length idx /\
        nth_error nodes id = Some (mkNode (NSub proj th) L R) /\
        match pl with
        | PDone => exists lid, L = N.of_nat lid /\ (N.of_nat lid < INVALID_NODE)%N /\
                               rep nodes idx lid f m tl lids
        | _ => inv nodes idx pl f m tl lids
        end /\
        match pr with
        | PDone => exists rid, R = N.of_nat rid /\ (N.of_nat rid < INVALID_NODE)%N /\
                               rep nodes idx rid m l tr rids
        | _ => inv nodes idx pr m l tr rids
        end
  | PRet id => exists i, id = N.of_nat i /\ rep nodes idx i f l t ids
  | PDone => False
  end.

(** Fetches of the node counter that are enabled now. *)
Fixpoint has_call (p : proc) : bool :=
  match p with
  | PCall _ _ => true
  | PFork _ pl pr => has_call pl || has_call pr
  | _ => false
  end.

Lemma inv_budget nodes idx p : forall f l t ids,
  inv nodes idx p f l t ids ->
  length ids <= nnodes t /\ (has_call p = true -> length ids < nnodes t).
Proof.
  induction p as [f' l'|id f' l'|id f' l' proj th|id pl IHl pr IHr|f' l'| |id];
    intros f l t ids H; cbn [inv has_call] in *.
  - destruct H as (_ & _ & -> & _). pose proof (nnodes_pos _ _ t). simpl. lia.
  - destruct H as (_ & _ & -> & _). pose proof (nnodes_pos _ _ t). simpl. split; [lia|discriminate].
  - destruct H as (_ & _ & -> & _). pose proof (nnodes_pos _ _ t). simpl. split; [lia|discriminate].
  - destruct H as (proj & th & tl & tr & m & lids & rids & L & R & -> & -> & _ & _ & _ & _ & Hl & Hr).
    assert (Bl : length lids <= nnodes tl /\ (has_call pl = true -> length lids < nnodes tl)).
    { destruct pl; try (apply IHl in Hl; exact Hl). destruct Hl as (lid & _ & _ & Hl).
      apply rep_length_ids in Hl. split; [lia|discriminate]. }
    assert (Br : length rids <= nnodes tr /\ (has_call pr = true -> length rids < nnodes tr)).
    { destruct pr; try (apply IHr in Hr; exact Hr). destruct Hr as (rid & _ & _ & Hr).
      apply rep_length_ids in Hr. split; [lia|discriminate]. }
    cbn [nnodes length]. rewrite app_length. split; [lia|].
    intros Hc. apply orb_true_iff in Hc. destruct Hc as [Hc|Hc].
    + apply (proj2 Bl) in Hc. lia.
    + apply (proj2 Br) in Hc. lia.
  - destruct H as (_ & _ & -> & _). pose proof (nnodes_pos _ _ t). simpl. split; [lia|discriminate].
  - destruct H.
  - destruct H as (i & _ & H). apply rep_length_ids in H. split; [lia|discriminate].
Qed.

Lemma slice_ext (idx idx' : list nat) f l :
  (forall i, f <= i -> i < l -> nth_error idx' i = nth_error idx i) ->
  slice idx' f l = slice idx f l.
Proof.
  intros H. apply nth_error_ext. intros i. rewrite !nth_error_slice.
  destruct (i <? l - f) eqn:E; auto. apply H; lia.
Qed.

Lemma inv_frame nodes idx nodes' idx' p : forall f l t ids,
  inv nodes idx p f l t ids ->
  (forall i, In i ids -> nth_error nodes' i = nth_error nodes i) ->
  length idx' = length idx ->
  (forall i, f <= i -> i < l -> nth_error idx' i = nth_error idx i) ->
  inv nodes' idx' p f l t ids.
Proof.
  induction p as [f' l'|id f' l'|id f' l' proj th|id pl IHl pr IHr|f' l'| |id];
    intros f l t ids H Hn Hlen Hi; cbn [inv] in *.
  - destruct H as (-> & -> & -> & H). rewrite Hlen, (slice_ext _ _ _ _ Hi). auto.
  - destruct H as (-> & -> & -> & H). rewrite Hlen, (slice_ext _ _ _ _ Hi).
    rewrite Hn by (left; auto). auto.
  - destruct H as (-> & -> & -> & H). rewrite Hlen, (slice_ext _ _ _ _ Hi).
    rewrite Hn by (left; auto). auto.
  - destruct H as (proj & th & tl & tr & m & lids & rids & L & R & -> & -> & H1 & H2 & H3 & H4 & Hl & Hr).
    exists proj, th, tl, tr, m, lids, rids, L, R.
    split; [reflexivity|]. split; [reflexivity|]. split; [lia|]. split; [lia|]. split; [lia|].
    split; [rewrite Hn by (left; auto); exact H4|].
    assert (Hnl : forall i, In i lids -> nth_error nodes' i = nth_error nodes i).
    { intros i Hin. apply Hn. right. apply in_app_iff. auto. }
    assert (Hnr : forall i, In i rids -> nth_error nodes' i = nth_error nodes i).
    { intros i Hin. apply Hn. right. apply in_app_iff. auto. }
    split.
    + destruct pl; try (apply IHl; auto; intros; apply Hi; lia).
      destruct Hl as (lid & E1 & E2 & Hl). exists lid. split; auto. split; auto.
      eapply rep_frame; eauto. intros; apply Hi; lia.
    + destruct pr; try (apply IHr; auto; intros; apply Hi; lia).
      destruct Hr as (rid & E1 & E2 & Hr). exists rid. split; auto. split; auto.
      eapply rep_frame; eauto. intros; apply Hi; lia.
  - destruct H as (-> & -> & -> & H). rewrite Hlen, (slice_ext _ _ _ _ Hi). auto.
  - exact H.
  - destruct H as (i & -> & H). exists i. split; auto. eapply rep_frame; eauto.
Qed.

(** Remaining work of a call. *)
Fixpoint cost (t : atree) : nat :=
  match t with
  | ALeaf _ => 2
  | ANode _ _ l r => 7 + cost l + cost r
  end.
Fixpoint pm (p : proc) (t : atree) : nat :=
  match p, t with
  | PCall _ _, _ => cost t
  | PPend _ _, _ => S (cost t)
  | PHave _ _ _, _ => cost t - 1
  | PSplit _ _ _ _ _, _ => cost t - 2
  | PFork _ pl pr, ANode _ _ tl tr =>
      1 + match pl with PDone => 0 | _ => S (pm pl tl) end
        + match pr with PDone => 0 | _ => S (pm pr tr) end
  | _, _ => 0
  end.

Definition fresh (st : bstate) : Prop :=
  forall i, b_count st <= i -> i < length (b_nodes st) -> nth_error (b_nodes st) i = Some node0.

(** Effect of one step, as seen from outside the call. *)
Definition effect (st st' : bstate) (f l : nat) (ids ids' : list nat) : Prop :=
  length (b_nodes st') = length (b_nodes st) /\
  length (b_indices st') = length (b_indices st) /\
  (forall i, ~ In i ids -> nth_error (b_nodes st') i = nth_error (b_nodes st) i) /\
  (forall i, i < f \/ l <= i -> nth_error (b_indices st') i = nth_error (b_indices st) i) /\
  ((b_count st' = b_count st /\ ids' = ids) \/
   (b_count st' = S (b_count st) /\ Permutation ids' (b_count st :: ids))).

Lemma is_leaf_empty n : is_leaf_size max_leaf_size n = false -> 0 < n.
Proof. unfold is_leaf_size. lia. Qed.

Lemma pstep_inv : forall p st f l t ids o,
  inv (b_nodes st) (b_indices st) p f l t ids ->
  (forall i, In i ids -> i < b_count st) -> NoDup ids -> fresh st ->
  (N.of_nat (length (b_nodes st)) <= INVALID_NODE)%N ->
  (N.of_nat (length (b_indices st)) <= INVALID_NODE)%N ->
  b_count st <= length (b_nodes st) ->
  (has_call p = true -> b_count st < length (b_nodes st)) ->
  In o (psteps st p) ->
  exists st' p' ids', o = Ok (st', p') /\
    inv (b_nodes st') (b_indices st') p' f l t ids' /\
    effect st st' f l ids ids' /\ pm p' t < pm p t.
Proof.
  induction p as [f' l'|id f' l'|id f' l' proj th|id pl IHl pr IHr|f' l'| |id];
    intros st f l t ids o H Hids ND Hfr Hn Hi Hc Hcall Hin.
  - (* fetch *)
    cbn [inv] in H. destruct H as (-> & -> & -> & Hfl & Hl & Hs & fuel & Hb).
    specialize (Hcall eq_refl). cbn [KdParModel.psteps In] in Hin. destruct Hin as [<-|[]].
    rewrite u32_small by (unfold INVALID_NODE in *; lia). rewrite Nat2N.id.
    eexists _, _, [b_count st]. split; [reflexivity|]. cbn [inv b_nodes b_indices b_count]. split.
    { split; [reflexivity|]. split; [reflexivity|]. split; [reflexivity|].
      split; [lia|]. split; [lia|]. split; [apply Hfr; lia|]. eauto. }
    split.
    { split; [reflexivity|]. split; [reflexivity|]. split; [auto|]. split; [auto|]. right. auto. }
    destruct t; simpl; lia.
  - (* leaf write or split *)
    cbn [inv] in H. destruct H as (-> & -> & -> & Hfl & Hl & H0 & Hs & fuel & Hb).
    destruct fuel as [|fuel]; [discriminate|]. cbn [KdProofs.abuild] in Hb.
    rewrite slice_length in Hb by lia.
    cbn [KdParModel.psteps] in Hin.
    destruct (is_leaf_size max_leaf_size (l - f)) eqn:EL.
    + destruct Hin as [<-|[]]. inversion Hb; subst t. clear Hb.
      rewrite (set_ntype_Ok _ _ _ _ _ _ H0). cbn [bind left right node0].
      rewrite !u32_small by (unfold INVALID_NODE in *; lia).
      eexists _, _, [id]. split; [reflexivity|]. cbn [inv b_nodes b_indices b_count]. split.
      { exists id. split; [reflexivity|]. cbn [KdProofs.rep]. split; [reflexivity|].
        split; [apply upd_nth_error_same; apply nth_error_Some; congruence|].
        split; [lia|]. split; [lia|]. reflexivity. }
      split; [|simpl; lia].
      split; [apply upd_length|]. split; [reflexivity|]. split.
      { intros i Hni. apply upd_nth_error_other. intros ->. apply Hni; left; auto. }
      split; [auto|]. left; auto.
    + destruct Hin as [<-|[]].
      destruct Hs as [Hs1 Hs2].
      destruct (SO (slice (b_indices st) f l) Hs1) as (proj & sl' & th & mp & ES & _ & HP & _).
      { intros E. apply (f_equal (@length nat)) in E. rewrite slice_length in E by lia.
        apply is_leaf_empty in EL. simpl in E. lia. }
      { exact Hs2. }
      rewrite ES in Hb |- *. cbn [bind] in Hb |- *.
      apply bind_Ok in Hb. destruct Hb as (tl & E1 & Hb).
      apply bind_Ok in Hb. destruct Hb as (tr & E2 & Hb). inversion Hb; subst t; clear Hb.
      assert (Lsl : length sl' = l - f).
      { rewrite <- (Permutation_length HP). apply slice_length; lia. }
      assert (Ssl : slice (put_slice (b_indices st) f sl') f l = sl').
      { replace l with (f + length sl') by lia. apply slice_put_slice_same. lia. }
      eexists _, _, [id]. split; [reflexivity|]. cbn [inv b_nodes b_indices b_count].
      rewrite Ssl. split.
      { split; [reflexivity|]. split; [reflexivity|]. split; [reflexivity|]. split; [lia|].
        split; [rewrite put_slice_length; lia|]. split; [exact H0|]. split.
        { split.
          - intros i Hi'. apply Hs1. eapply Permutation_in; [apply Permutation_sym; eauto|auto].
          - rewrite <- (Permutation_length HP). exact Hs2. }
        exists fuel, tl, tr. auto. }
      split; [|cbn [pm cost]; lia].
      split; [reflexivity|]. split; [apply put_slice_length; lia|]. split; [auto|]. split.
      { intros i Hout. cbn [b_indices]. rewrite nth_error_put_slice by lia.
        destruct (i <? f) eqn:Q1; auto. destruct (i <? f + length sl') eqn:Q2; auto. lia. }
      left; auto.
  - (* node write and fork *)
    cbn [inv] in H. destruct H as (-> & -> & -> & Hfl & Hl & H0 & Hs & fuel & tl & tr & -> & E1 & E2).
    cbn [KdParModel.psteps In] in Hin. destruct Hin as [<-|[]].
    rewrite (set_ntype_Ok _ _ _ _ _ _ H0). cbn [bind left right node0].
    eexists _, _, [id]. split; [reflexivity|]. cbn [b_nodes b_indices b_count].
    assert (Lsl : length (slice (b_indices st) f l) = l - f) by (apply slice_length; lia).
    set (m := f + (l - f) / 2) in *.
    assert (Sl : slice (b_indices st) f m = firstn ((l - f) / 2) (slice (b_indices st) f l)).
    { rewrite (slice_firstn (b_indices st) f l m) by lia. f_equal. lia. }
    assert (Sr : slice (b_indices st) m l = skipn ((l - f) / 2) (slice (b_indices st) f l)).
    { apply nth_error_ext. intros i. rewrite nth_error_skipn, !nth_error_slice.
      replace (f + ((l - f) / 2 + i)) with (m + i) by lia.
      destruct (i <? l - m) eqn:Q1, ((l - f) / 2 + i <? l - f) eqn:Q2; auto; lia. }
    destruct Hs as [Hs1 Hs2].
    assert (Okl : sub_ok (slice (b_indices st) f m)).
    { rewrite Sl. split.
      - intros i Hi'. apply Hs1. rewrite <- (firstn_skipn ((l - f) / 2)). apply in_app_iff; auto.
      - rewrite firstn_length. lia. }
    assert (Okr : sub_ok (slice (b_indices st) m l)).
    { rewrite Sr. split.
      - intros i Hi'. apply Hs1. rewrite <- (firstn_skipn ((l - f) / 2)). apply in_app_iff; auto.
      - rewrite skipn_length. lia. }
    split.
    { cbn [inv]. exists proj, th, tl, tr, m, [], [], INVALID_NODE, INVALID_NODE.
      split; [reflexivity|]. split; [reflexivity|]. split; [lia|]. split; [lia|]. split; [lia|].
      split; [apply upd_nth_error_same; apply nth_error_Some; congruence|].
      split.
      - split; [reflexivity|]. split; [reflexivity|]. split; [reflexivity|]. split; [lia|].
        split; [lia|]. split; [exact Okl|]. exists fuel. rewrite Sl. exact E1.
      - assert (Hr : m = m /\ l = l /\ @nil nat = [] /\ m <= l /\ l <= length (b_indices st) /\
                     sub_ok (slice (b_indices st) m l) /\
                     exists fuel, abuild fuel (slice (b_indices st) m l) = Ok tr).
        { split; [reflexivity|]. split; [reflexivity|]. split; [reflexivity|]. split; [lia|].
          split; [lia|]. split; [exact Okr|]. exists fuel. rewrite Sr. exact E2. }
        destruct (spawns (l - f)); exact Hr. }
    split.
    { split; [apply upd_length|]. split; [reflexivity|]. split.
      { intros i Hni. apply upd_nth_error_other. intros ->. apply Hni; left; auto. }
      split; [auto|]. left; auto. }
    destruct (spawns (l - f)); cbn [pm cost]; lia.
  - (* fork *)
    cbn [inv] in H.
    destruct H as (proj & th & tl & tr & m & lids & rids & L & R & -> & -> & H1 & H2 & H3 & H4 & Hl & Hr).
    inversion ND as [|? ? NI ND']; subst.
    assert (NDl : NoDup lids /\ NoDup rids /\ forall i, In i lids -> ~ In i rids).
    { clear -ND'. induction lids as [|a lids IH]; simpl in *.
      - split; [constructor|]. split; auto.
      - inversion ND'; subst. destruct (IH H2) as (A & B & C). split; [|split]; auto.
        + constructor; auto. intros Hin. apply H1. apply in_app_iff; auto.
        + intros i [<-|Hi] Hr; [apply H1; apply in_app_iff; auto|]. eapply C; eauto. }
    destruct NDl as (NDl & NDr & Disj).
    assert (Hidc : id < b_count st) by (apply Hids; left; auto).
    assert (Hlc : forall i, In i lids -> i < b_count st).
    { intros i Hi'. apply Hids. right. apply in_app_iff; auto. }
    assert (Hrc : forall i, In i rids -> i < b_count st).
    { intros i Hi'. apply Hids. right. apply in_app_iff; auto. }
    assert (Hidl : ~ In id lids) by (intros Hx; apply NI; apply in_app_iff; auto).
    assert (Hidr : ~ In id rids) by (intros Hx; apply NI; apply in_app_iff; auto).
    (* generic treatment of a step inside the left / right child *)
    assert (StepL : forall o', inv (b_nodes st) (b_indices st) pl f m tl lids ->
       In o' (psteps st pl) ->
       match pl with PDone => False | _ => True end ->
       exists st' p' ids',
         (let* (st', pl') := o' in Ok (st', PFork id pl' pr)) = Ok (st', p') /\
         inv (b_nodes st') (b_indices st') p' f l (ANode proj th tl tr) ids' /\
         effect st st' f l (id :: lids ++ rids) ids' /\ pm p' (ANode proj th tl tr) < pm (PFork id pl pr) (ANode proj th tl tr)).
    { intros o' Hl' Hin' Hnd.
      destruct (IHl st f m tl lids o' Hl' Hlc NDl Hfr Hn Hi Hc) as (st' & pl' & lids' & -> & Hl2 & He & Hpm).
      { intros Hcl. apply Hcall. cbn [has_call]. rewrite Hcl. reflexivity. }
      { exact Hin'. }
      cbn [bind]. exists st', (PFork id pl' pr), (id :: lids' ++ rids).
      split; [reflexivity|]. destruct He as (e1 & e2 & e3 & e4 & e5).
      assert (Hpd : pl' <> PDone) by (intros ->; exact Hl2).
      split.
      { cbn [inv]. exists proj, th, tl, tr, m, lids', rids, L, R.
        split; [reflexivity|]. split; [reflexivity|]. split; [lia|]. split; [lia|]. split; [lia|].
        split; [rewrite e3 by auto; exact H4|]. split.
        - destruct pl'; try exact Hl2. congruence.
        - assert (Hfrm : forall i, In i rids -> nth_error (b_nodes st') i = nth_error (b_nodes st) i).
          { intros i Hi'. apply e3. intros Hx. eapply Disj; eauto. }
          destruct pr; try (eapply inv_frame; [exact Hr|exact Hfrm|exact e2|intros; apply e4; lia]).
          destruct Hr as (rid & R1 & R2 & Hr). exists rid. split; auto. split; auto.
          eapply rep_frame; [exact Hr|exact Hfrm|exact e2|intros; apply e4; lia]. }
      split.
      { split; [exact e1|]. split; [exact e2|]. split.
        { intros i Hni. apply e3. intros Hx. apply Hni. right. apply in_app_iff; auto. }
        split; [intros i Hout; apply e4; lia|].
        destruct e5 as [[c1 ->]|[c1 c2]]; [left; auto|right]. split; [exact c1|].
        eapply perm_trans; [apply perm_skip; apply Permutation_app_tail; exact c2|].
        simpl. apply perm_swap. }
      cbn [pm]. destruct pl; try contradiction; destruct pl'; try congruence; lia. }
    assert (StepR : forall o', inv (b_nodes st) (b_indices st) pr m l tr rids ->
       In o' (psteps st pr) ->
       match pr with PDone => False | _ => True end ->
       exists st' p' ids',
         (let* (st', pr') := o' in Ok (st', PFork id pl pr')) = Ok (st', p') /\
         inv (b_nodes st') (b_indices st') p' f l (ANode proj th tl tr) ids' /\
         effect st st' f l (id :: lids ++ rids) ids' /\ pm p' (ANode proj th tl tr) < pm (PFork id pl pr) (ANode proj th tl tr)).
    { intros o' Hr' Hin' Hnd.
      destruct (IHr st m l tr rids o' Hr' Hrc NDr Hfr Hn Hi Hc) as (st' & pr' & rids' & -> & Hr2 & He & Hpm).
      { intros Hcl. apply Hcall. cbn [has_call]. rewrite Hcl. apply orb_true_r. }
      { exact Hin'. }
      cbn [bind]. exists st', (PFork id pl pr'), (id :: lids ++ rids').
      split; [reflexivity|]. destruct He as (e1 & e2 & e3 & e4 & e5).
      assert (Hpd : pr' <> PDone) by (intros ->; exact Hr2).
      split.
      { cbn [inv]. exists proj, th, tl, tr, m, lids, rids', L, R.
        split; [reflexivity|]. split; [reflexivity|]. split; [lia|]. split; [lia|]. split; [lia|].
        split; [rewrite e3 by auto; exact H4|]. split.
        - assert (Hfrm : forall i, In i lids -> nth_error (b_nodes st') i = nth_error (b_nodes st) i).
          { intros i Hi'. apply e3. intros Hx. eapply Disj; eauto. }
          destruct pl; try (eapply inv_frame; [exact Hl|exact Hfrm|exact e2|intros; apply e4; lia]).
          destruct Hl as (lid & R1 & R2 & Hl). exists lid. split; auto. split; auto.
          eapply rep_frame; [exact Hl|exact Hfrm|exact e2|intros; apply e4; lia].
        - destruct pr'; try exact Hr2. congruence. }
      split.
      { split; [exact e1|]. split; [exact e2|]. split.
        { intros i Hni. apply e3. intros Hx. apply Hni. right. apply in_app_iff; auto. }
        split; [intros i Hout; apply e4; lia|].
        destruct e5 as [[c1 ->]|[c1 c2]]; [left; auto|right]. split; [exact c1|].
        eapply perm_trans; [apply perm_skip; apply Permutation_app_head; exact c2|].
        eapply perm_trans; [apply perm_skip; apply Permutation_sym; apply Permutation_middle|].
        apply perm_swap. }
      cbn [pm]. destruct pr; try contradiction; destruct pr'; try congruence; lia. }
    cbn [KdParModel.psteps] in Hin. apply in_app_iff in Hin. destruct Hin as [Hin|Hin].
    + (* left *)
      destruct pl as [f1 l1|id1 f1 l1|id1 f1 l1 pj1 th1|id1 pl1 pr1|f1 l1| |c];
        try (apply in_map_iff in Hin; destruct Hin as (o' & <- & Hin');
             exact (StepL o' Hl Hin' I)).
      * destruct Hin.
      * (* link write *)
        destruct Hin as [<-|[]]. destruct Hl as (lid & -> & Hl).
        rewrite (set_left_Ok _ _ _ _ _ _ H4). cbn [bind ntype right].
        eexists _, _, (id :: lids ++ rids). split; [reflexivity|]. cbn [b_nodes b_indices b_count].
        assert (Hfrm : forall i, i <> id ->
          nth_error (upd (b_nodes st) id (mkNode (NSub proj th) (N.of_nat lid) R)) i = nth_error (b_nodes st) i).
        { intros i Hx. apply upd_nth_error_other. auto. }
        split.
        { cbn [inv]. exists proj, th, tl, tr, m, lids, rids, (N.of_nat lid), R.
          split; [reflexivity|]. split; [reflexivity|]. split; [lia|]. split; [lia|]. split; [lia|].
          split; [apply upd_nth_error_same; apply nth_error_Some; congruence|]. split.
          - exists lid. split; [reflexivity|]. split.
            + assert (lid < length (b_nodes st)).
              { destruct tl; cbn [KdProofs.rep] in Hl.
                - apply nth_error_Some. destruct Hl as (_ & -> & _). discriminate.
                - destruct Hl as (? & ? & ? & ? & ? & _ & E & _). apply nth_error_Some. congruence. }
              lia.
            + eapply rep_frame; [exact Hl| |reflexivity|auto].
              intros i Hx. apply Hfrm. intros ->. auto.
          - assert (Hfrm' : forall i, In i rids ->
              nth_error (upd (b_nodes st) id (mkNode (NSub proj th) (N.of_nat lid) R)) i = nth_error (b_nodes st) i).
            { intros i Hx. apply Hfrm. intros ->. auto. }
            destruct pr; try (eapply inv_frame; [exact Hr|exact Hfrm'|reflexivity|auto]).
            destruct Hr as (rid & R1 & R2 & Hr). exists rid. split; auto. split; auto.
            eapply rep_frame; [exact Hr|exact Hfrm'|reflexivity|auto]. }
        split.
        { split; [apply upd_length|]. split; [reflexivity|]. split.
          { intros i Hni. apply Hfrm. intros ->. apply Hni; left; auto. }
          split; [auto|]. left; auto. }
        cbn [pm]. lia.
    + (* right *)
      destruct pr as [f1 l1|id1 f1 l1|id1 f1 l1 pj1 th1|id1 pl1 pr1|f1 l1| |c];
        try (apply in_map_iff in Hin; destruct Hin as (o' & <- & Hin');
             exact (StepR o' Hr Hin' I)).
      * (* start the pending right child *)
        destruct pl; try (destruct Hin; fail). destruct Hin as [<-|[]].
        eexists _, _, (id :: lids ++ rids). split; [reflexivity|]. split.
        { cbn [inv]. exists proj, th, tl, tr, m, lids, rids, L, R.
          repeat (split; [first [reflexivity|assumption]|]). exact Hr. }
        split.
        { repeat (split; [reflexivity || auto|]). left; auto. }
        cbn [pm]. lia.
      * (* both done *)
        destruct pl; try (destruct Hin; fail). destruct Hin as [<-|[]].
        eexists _, _, (id :: lids ++ rids). split; [reflexivity|]. split.
        { cbn [inv]. exists id. split; [reflexivity|]. cbn [KdProofs.rep].
          destruct Hl as (lid & -> & L2 & Hl). destruct Hr as (rid & -> & R2 & Hr).
          exists lid, rid, m, lids, rids.
          repeat (split; [first [reflexivity|assumption]|]). exact Hr. }
        split.
        { repeat (split; [reflexivity || auto|]). left; auto. }
        cbn [pm]. lia.
      * (* link write *)
        destruct Hin as [<-|[]]. destruct Hr as (rid & -> & Hr).
        rewrite (set_right_Ok _ _ _ _ _ _ H4). cbn [bind ntype left].
        eexists _, _, (id :: lids ++ rids). split; [reflexivity|]. cbn [b_nodes b_indices b_count].
        assert (Hfrm : forall i, i <> id ->
          nth_error (upd (b_nodes st) id (mkNode (NSub proj th) L (N.of_nat rid))) i = nth_error (b_nodes st) i).
        { intros i Hx. apply upd_nth_error_other. auto. }
        split.
        { cbn [inv]. exists proj, th, tl, tr, m, lids, rids, L, (N.of_nat rid).
          split; [reflexivity|]. split; [reflexivity|]. split; [lia|]. split; [lia|]. split; [lia|].
          split; [apply upd_nth_error_same; apply nth_error_Some; congruence|]. split.
          - assert (Hfrm' : forall i, In i lids ->
              nth_error (upd (b_nodes st) id (mkNode (NSub proj th) L (N.of_nat rid))) i = nth_error (b_nodes st) i).
            { intros i Hx. apply Hfrm. intros ->. auto. }
            destruct pl; try (eapply inv_frame; [exact Hl|exact Hfrm'|reflexivity|auto]).
            destruct Hl as (lid & R1 & R2 & Hl). exists lid. split; auto. split; auto.
            eapply rep_frame; [exact Hl|exact Hfrm'|reflexivity|auto].
          - exists rid. split; [reflexivity|]. split.
            + assert (rid < length (b_nodes st)).
              { destruct tr; cbn [KdProofs.rep] in Hr.
                - apply nth_error_Some. destruct Hr as (_ & -> & _). discriminate.
                - destruct Hr as (? & ? & ? & ? & ? & _ & E & _). apply nth_error_Some. congruence. }
              lia.
            + eapply rep_frame; [exact Hr| |reflexivity|auto].
              intros i Hx. apply Hfrm. intros ->. auto. }
        split.
        { split; [apply upd_length|]. split; [reflexivity|]. split.
          { intros i Hni. apply Hfrm. intros ->. apply Hni; left; auto. }
          split; [auto|]. left; auto. }
        cbn [pm]. destruct pl; lia.
  - destruct Hin.
  - destruct Hin.
  - destruct Hin.
Qed.

(** The right child waits only while the left one is running. *)
Fixpoint pend_ok (p : proc) : Prop :=
  match p with
  | PFork _ pl pr =>
      match pl with PPend _ _ => False | _ => pend_ok pl end /\
      match pr with PPend _ _ => True | _ => pend_ok pr end
  | PPend _ _ => False
  | _ => True
  end.

Lemma pstep_pend_ok st : forall p st' p',
  pend_ok p -> In (Ok (st', p')) (psteps st p) -> pend_ok p'.
Proof.
  induction p as [f' l'|id f' l'|id f' l' proj th|id pl IHl pr IHr|f' l'| |id];
    intros st' p' W Hin; cbn [KdParModel.psteps] in Hin.
  - destruct Hin as [E|[]]. inversion E; subst. exact I.
  - destruct (is_leaf_size _ _); destruct Hin as [E|[]].
    + apply bind_Ok in E. destruct E as (nodes & _ & E). inversion E; subst. exact I.
    + apply bind_Ok in E. destruct E as ([[pj sl'] th] & _ & E). inversion E; subst. exact I.
  - destruct Hin as [E|[]]. apply bind_Ok in E. destruct E as (nodes & _ & E). inversion E; subst.
    cbn [pend_ok]. destruct (spawns _); split; exact I.
  - cbn [pend_ok] in W. destruct W as [W1 W2]. apply in_app_iff in Hin. destruct Hin as [Hin|Hin].
    + assert (G : forall pl', In (Ok (st', PFork id pl' pr)) (map (fun o => let* (st', pl') := o in Ok (st', PFork id pl' pr)) (psteps st pl)) ->
        pend_ok pl -> pend_ok (PFork id pl' pr)).
      { intros pl' Hx Wp. apply in_map_iff in Hx. destruct Hx as (o & E & Ho).
        apply bind_Ok in E. destruct E as ([st1 pl1] & -> & E). inversion E; subst.
        apply IHl in Ho; auto. cbn [pend_ok]. split; [|exact W2]. destruct pl'; auto. }
      assert (Hsh : forall o, In (Ok (st', p')) (map (fun o => let* (st', pl') := o in Ok (st', PFork id pl' pr)) o) ->
         exists pl', p' = PFork id pl' pr).
      { intros o Hx. apply in_map_iff in Hx. destruct Hx as (o1 & E & Ho).
        apply bind_Ok in E. destruct E as ([st1 pl1] & -> & E). inversion E; subst. eauto. }
      destruct pl; try (destruct (Hsh _ Hin) as (pl' & ->); apply G; auto; fail); try contradiction.
      destruct Hin as [E|[]]. apply bind_Ok in E. destruct E as (nodes & _ & E). inversion E; subst.
      cbn [pend_ok]. split; [exact I|exact W2].
    + assert (G : forall pr', In (Ok (st', PFork id pl pr')) (map (fun o => let* (st', pr') := o in Ok (st', PFork id pl pr')) (psteps st pr)) ->
        pend_ok pr -> pend_ok (PFork id pl pr')).
      { intros pr' Hx Wp. apply in_map_iff in Hx. destruct Hx as (o & E & Ho).
        apply bind_Ok in E. destruct E as ([st1 pr1] & -> & E). inversion E; subst.
        apply IHr in Ho; auto. cbn [pend_ok]. split; [exact W1|]. destruct pr'; auto. }
      assert (Hsh : forall o, In (Ok (st', p')) (map (fun o => let* (st', pr') := o in Ok (st', PFork id pl pr')) o) ->
         exists pr', p' = PFork id pl pr').
      { intros o Hx. apply in_map_iff in Hx. destruct Hx as (o1 & E & Ho).
        apply bind_Ok in E. destruct E as ([st1 pr1] & -> & E). inversion E; subst. eauto. }
      destruct pr; try (destruct (Hsh _ Hin) as (pr' & ->); apply G; auto; fail).
      * destruct pl; try (destruct Hin; fail). destruct Hin as [E|[]]. inversion E; subst.
        cbn [pend_ok]. auto.
      * destruct pl; try (destruct Hin; fail). destruct Hin as [E|[]]. inversion E; subst. exact I.
      * destruct Hin as [E|[]]. apply bind_Ok in E. destruct E as (nodes & _ & E). inversion E; subst.
        cbn [pend_ok]. split; [exact W1|exact I].
  - destruct Hin.
  - destruct Hin.
  - destruct Hin.
Qed.

Lemma progress st : forall p f l t ids,
  inv (b_nodes st) (b_indices st) p f l t ids -> pend_ok p ->
  (exists root, p = PRet root) \/ psteps st p <> [].
Proof.
  induction p as [f' l'|id f' l'|id f' l' proj th|id pl IHl pr IHr|f' l'| |id];
    intros f l t ids H W; cbn [KdParModel.psteps].
  - right. discriminate.
  - right. destruct (is_leaf_size _ _); discriminate.
  - right. discriminate.
  - right. cbn [inv] in H. cbn [pend_ok] in W. destruct W as [W1 W2].
    destruct H as (proj & th & tl & tr & m & lids & rids & L & R & -> & -> & _ & _ & _ & _ & Hl & Hr).
    assert (Gm : forall (A B : Type) (g : A -> B) x, x <> [] -> map g x <> []).
    { intros A B g x Hx E. apply map_eq_nil in E. auto. }
    assert (Ga : forall (A : Type) (x y : list A), x <> [] \/ y <> [] -> x ++ y <> []).
    { intros A x y [Hx|Hx] E; apply app_eq_nil in E; tauto. }
    apply Ga.
    destruct pl; try contradiction;
      try (left; destruct (IHl _ _ _ _ Hl W1) as [(root & E)|E]; [discriminate E|apply Gm; exact E]).
    + right. destruct pr; try discriminate;
        try (destruct (IHr _ _ _ _ Hr W2) as [(root & E)|E]; [discriminate E|apply Gm; exact E]).
    + left. discriminate.
  - destruct W.
  - destruct H.
  - left. eauto.
Qed.

(** ** Data races *)
Definition own_loc (ids : list nat) (f l : nat) (x : loc) : Prop :=
  match x with
  | LType i | LLeft i | LRight i => In i ids
  | LIdx i => f <= i < l
  end.
Notation touches := (touches max_leaf_size).

Lemma touches_own nodes idx : forall p f l t ids,
  inv nodes idx p f l t ids -> forall F x, In F (touches p) -> F x -> own_loc ids f l x.
Proof.
  induction p as [f' l'|id f' l'|id f' l' proj th|id pl IHl pr IHr|f' l'| |id];
    intros f l t ids H F x HF Hx; cbn [KdParModel.touches In] in HF.
  - destruct HF as [<-|[]]. destruct Hx.
  - cbn [inv] in H. destruct H as (-> & -> & -> & _). destruct HF as [<-|[]].
    destruct (is_leaf_size _ _).
    + subst x. left; auto.
    + destruct Hx as (i & -> & Hi). exact Hi.
  - cbn [inv] in H. destruct H as (-> & -> & -> & _). destruct HF as [<-|[]]. subst x. left; auto.
  - cbn [inv] in H.
    destruct H as (proj & th & tl & tr & m & lids & rids & L & R & -> & -> & H1 & H2 & _ & _ & Hl & Hr).
    assert (Wl : own_loc lids f m x -> own_loc (id :: lids ++ rids) f l x).
    { destruct x; simpl; rewrite ?in_app_iff; auto. lia. }
    assert (Wr : own_loc rids m l x -> own_loc (id :: lids ++ rids) f l x).
    { destruct x; simpl; rewrite ?in_app_iff; auto. lia. }
    apply in_app_iff in HF. destruct HF as [HF|HF].
    + destruct pl; try (destruct HF; fail); try (apply Wl; exact (IHl _ _ _ _ Hl F x HF Hx)).
      destruct HF as [<-|[]]. subst x. left; auto.
    + destruct pr; try (apply Wr; exact (IHr _ _ _ _ Hr F x HF Hx)).
      * destruct pl; try (destruct HF; fail). destruct HF as [<-|[]]. destruct Hx.
      * destruct pl; try (destruct HF; fail). destruct HF as [<-|[]]. destruct Hx.
      * destruct HF as [<-|[]]. subst x. left; auto.
  - destruct HF.
  - destruct HF.
  - destruct HF.
Qed.

Lemma touches_disjoint nodes idx : forall p f l t ids,
  inv nodes idx p f l t ids -> NoDup ids ->
  forall i j F G x, i < j -> nth_error (touches p) i = Some F -> nth_error (touches p) j = Some G ->
  F x -> G x -> False.
Proof.
  assert (One : forall (F0 : loc -> Prop) i j F G, i < j -> nth_error [F0] i = Some F ->
     nth_error [F0] j = Some G -> False).
  { intros F0 i j F G Hij E1 E2. destruct j as [|[|j]]; try discriminate. lia. }
  induction p as [f' l'|id f' l'|id f' l' proj th|id pl IHl pr IHr|f' l'| |id];
    intros f l t ids H ND i j F G x Hij EF EG HF HG; cbn [KdParModel.touches] in EF, EG;
    try (eapply One; eauto; fail); try (destruct i; discriminate).
  cbn [inv] in H.
  destruct H as (proj & th & tl & tr & m & lids & rids & L & R & -> & -> & H1 & H2 & _ & _ & Hl & Hr).
  inversion ND as [|? ? NI ND']; subst.
  assert (NDl : NoDup lids /\ NoDup rids /\ forall i, In i lids -> ~ In i rids).
  { clear -ND'. induction lids as [|a lids IH]; simpl in *.
    - split; [constructor|]. split; auto.
    - inversion ND'; subst. destruct (IH H2) as (A & B & C). split; [|split]; auto.
      + constructor; auto. intros Hin. apply H1. apply in_app_iff; auto.
      + intros i [<-|Hi] Hr; [apply H1; apply in_app_iff; auto|]. eapply C; eauto. }
  destruct NDl as (NDl & NDr & Disj).
  assert (Hidl : ~ In id lids) by (intros Hx; apply NI; apply in_app_iff; auto).
  assert (Hidr : ~ In id rids) by (intros Hx; apply NI; apply in_app_iff; auto).
  set (tl' := match pl with PRet _ => [fun x => x = LLeft id] | _ => touches pl end) in *.
  set (tr' := match pr with
       | PRet _ => [fun x => x = LRight id]
       | PPend _ _ => match pl with PDone => [fun _ => False] | _ => [] end
       | PDone => match pl with PDone => [fun _ => False] | _ => [] end
       | _ => touches pr end) in *.
  assert (OL : forall F x, In F tl' -> F x -> x = LLeft id \/ own_loc lids f m x).
  { intros F0 y HF0 Hy. unfold tl' in HF0.
    destruct pl; try (destruct HF0; fail); try (right; exact (touches_own _ _ _ _ _ _ _ Hl F0 y HF0 Hy)).
    destruct HF0 as [<-|[]]. auto. }
  assert (OR : forall F x, In F tr' -> F x -> x = LRight id \/ own_loc rids m l x).
  { intros F0 y HF0 Hy. unfold tr' in HF0.
    destruct pr; try (right; exact (touches_own _ _ _ _ _ _ _ Hr F0 y HF0 Hy)).
    - destruct pl; try (destruct HF0; fail). destruct HF0 as [<-|[]]. destruct Hy.
    - destruct pl; try (destruct HF0; fail). destruct HF0 as [<-|[]]. destruct Hy.
    - destruct HF0 as [<-|[]]. auto. }
  assert (LL : forall i j F G x, i < j -> nth_error tl' i = Some F -> nth_error tl' j = Some G ->
     F x -> G x -> False).
  { intros i0 j0 F0 G0 y Hij0 E1 E2 Y1 Y2. unfold tl' in *.
    destruct pl; try (destruct i0; discriminate);
      try (exact (IHl _ _ _ _ Hl NDl _ _ _ _ _ Hij0 E1 E2 Y1 Y2)).
    eapply One; eauto. }
  assert (RR : forall i j F G x, i < j -> nth_error tr' i = Some F -> nth_error tr' j = Some G ->
     F x -> G x -> False).
  { intros i0 j0 F0 G0 y Hij0 E1 E2 Y1 Y2. unfold tr' in *.
    destruct pr; try (exact (IHr _ _ _ _ Hr NDr _ _ _ _ _ Hij0 E1 E2 Y1 Y2)).
    - destruct pl; try (destruct i0; discriminate). eapply One; eauto.
    - destruct pl; try (destruct i0; discriminate). eapply One; eauto.
    - eapply One; eauto. }
  destruct (Nat.lt_ge_cases i (length tl')) as [Ci|Ci];
    [rewrite nth_error_app1 in EF by auto|rewrite nth_error_app2 in EF by auto];
  (destruct (Nat.lt_ge_cases j (length tl')) as [Cj|Cj];
    [rewrite nth_error_app1 in EG by auto|rewrite nth_error_app2 in EG by auto]).
  - exact (LL i j F G x Hij EF EG HF HG).
  - apply nth_error_In in EF. apply nth_error_In in EG.
    destruct (OL _ _ EF HF) as [O1|O1]; destruct (OR _ _ EG HG) as [O2|O2].
    + congruence.
    + rewrite O1 in O2. simpl in O2. auto.
    + rewrite O2 in O1. simpl in O1. auto.
    + destruct x; simpl in O1, O2; try (eapply Disj; eauto; fail). lia.
  - lia.
  - refine (RR (i - length tl') (j - length tl') F G x _ EF EG HF HG). lia.
Qed.

Lemma set_ntype_inv (nodes : list (node D P)) id nt nodes' :
  set_ntype nodes id nt = Ok nodes' ->
  exists nd, nth_error nodes id = Some nd /\ nodes' = upd nodes id (mkNode nt (left nd) (right nd)).
Proof.
  unfold set_ntype. intros H. apply bind_Ok in H. destruct H as (nd & E & H).
  apply get_Ok in E. apply set_Ok_inv in H. exists nd. tauto.
Qed.
Lemma set_left_inv (nodes : list (node D P)) id c nodes' :
  set_left nodes id c = Ok nodes' ->
  exists nd, nth_error nodes id = Some nd /\ nodes' = upd nodes id (mkNode (ntype nd) c (right nd)).
Proof.
  unfold set_left. intros H. apply bind_Ok in H. destruct H as (nd & E & H).
  apply get_Ok in E. apply set_Ok_inv in H. exists nd. tauto.
Qed.
Lemma set_right_inv (nodes : list (node D P)) id c nodes' :
  set_right nodes id c = Ok nodes' ->
  exists nd, nth_error nodes id = Some nd /\ nodes' = upd nodes id (mkNode (ntype nd) (left nd) c).
Proof.
  unfold set_right. intros H. apply bind_Ok in H. destruct H as (nd & E & H).
  apply get_Ok in E. apply set_Ok_inv in H. exists nd. tauto.
Qed.

Lemma read_upd (st : bstate) id nd nd' c x :
  nth_error (b_nodes st) id = Some nd ->
  (x = LType id -> ntype nd' = ntype nd) -> (x = LLeft id -> left nd' = left nd) ->
  (x = LRight id -> right nd' = right nd) ->
  read_loc (mkB (upd (b_nodes st) id nd') (b_indices st) c) x = read_loc st x.
Proof.
  intros E H1 H2 H3.
  assert (Hlt : id < length (b_nodes st)) by (apply nth_error_Some; congruence).
  destruct x as [i|i|i|i]; cbn [read_loc b_nodes b_indices]; auto;
  (destruct (Nat.eq_dec id i) as [<-|Hne];
   [rewrite upd_nth_error_same by auto; rewrite E; cbn [option_map]; rewrite ?H1, ?H2, ?H3; auto
   |rewrite upd_nth_error_other by auto; reflexivity]).
Qed.

Lemma touches_length st p : length (psteps st p) = length (touches p).
Proof.
  induction p as [f' l'|id f' l'|id f' l' proj th|id pl IHl pr IHr|f' l'| |id];
    cbn [KdParModel.psteps KdParModel.touches]; auto.
  - destruct (is_leaf_size _ _); reflexivity.
  - rewrite !app_length. f_equal.
    + destruct pl; try rewrite map_length; auto.
    + destruct pr; try rewrite map_length; auto; destruct pl; auto.
Qed.

(** A step changes nothing outside its footprint. *)
Lemma touches_sound st : forall p f l t ids i F st' p',
  inv (b_nodes st) (b_indices st) p f l t ids ->
  nth_error (touches p) i = Some F -> nth_error (psteps st p) i = Some (Ok (st', p')) ->
  forall x, ~ F x -> read_loc st' x = read_loc st x.
Proof.
  induction p as [f' l'|id f' l'|id f' l' proj th|id pl IHl pr IHr|f' l'| |id];
    intros f l t ids i F st' p' H EF EP x Hx;
    cbn [KdParModel.psteps KdParModel.touches] in EF, EP.
  - destruct i as [|[|i]]; inversion EP; subst. destruct x; reflexivity.
  - cbn [inv] in H. destruct H as (-> & -> & -> & Hfl & Hl & H0 & Hs & fuel & Hb).
    destruct (is_leaf_size _ _) eqn:EL; destruct i as [|[|i]]; inversion EP as [E]; inversion EF; subst; clear EP EF.
    + apply bind_Ok in E. destruct E as (nodes & E & E2). inversion E2; subst; clear E2.
      apply set_ntype_inv in E. destruct E as (nd & E & ->).
      apply read_upd with (nd := nd); cbn [ntype left right]; auto. intros ->. tauto.
    + destruct Hs as [Hs1 Hs2].
      destruct (SO (slice (b_indices st) f l) Hs1) as (proj & sl' & th & mp & ES & _ & HP & _).
      { intros E0. apply (f_equal (@length nat)) in E0. rewrite slice_length in E0 by lia.
        apply is_leaf_empty in EL. simpl in E0. lia. }
      { exact Hs2. }
      rewrite ES in E. cbn [bind] in E. inversion E; subst; clear E.
      assert (Lsl : length sl' = l - f).
      { rewrite <- (Permutation_length HP). apply slice_length; lia. }
      destruct x as [i|i|i|i]; cbn [read_loc b_nodes b_indices]; auto. f_equal.
      rewrite nth_error_put_slice by lia.
      destruct (i <? f) eqn:Q1; auto. destruct (i <? f + length sl') eqn:Q2; auto.
      exfalso. apply Hx. exists i. split; auto. lia.
  - destruct i as [|[|i]]; inversion EP as [E]; inversion EF; subst; clear EP EF.
    apply bind_Ok in E. destruct E as (nodes & E & E2). inversion E2; subst; clear E2.
    apply set_ntype_inv in E. destruct E as (nd & E & ->).
    apply read_upd with (nd := nd); cbn [ntype left right]; auto. intros ->. tauto.
  - cbn [inv] in H.
    destruct H as (proj & th & tl & tr & m & lids & rids & L & R & -> & -> & H1 & H2 & _ & _ & Hl & Hr).
    set (tl' := match pl with PRet _ => [fun x => x = LLeft id] | _ => touches pl end) in *.
    set (sl' := match pl with PRet c => [let* nodes := set_left (b_nodes st) id c in
                    Ok (mkB nodes (b_indices st) (b_count st), PFork id PDone pr)]
       | _ => map (fun o => let* (st', pl') := o in Ok (st', PFork id pl' pr)) (psteps st pl) end) in *.
    assert (Len : length sl' = length tl').
    { unfold tl', sl'. destruct pl; rewrite ?map_length; auto; apply touches_length. }
    destruct (Nat.lt_ge_cases i (length tl')) as [Ci|Ci].
    + rewrite nth_error_app1 in EF by auto. rewrite nth_error_app1 in EP by lia.
      assert (G : inv (b_nodes st) (b_indices st) pl f m tl lids ->
         nth_error (touches pl) i = Some F ->
         nth_error (map (fun o => let* (st', pl') := o in Ok (st', PFork id pl' pr)) (psteps st pl)) i = Some (Ok (st', p')) ->
         read_loc st' x = read_loc st x).
      { intros G1 G2 G3. rewrite nth_error_map in G3. destruct (nth_error (psteps st pl) i) as [o|] eqn:Eo; [|discriminate].
        inversion G3 as [G4]. apply bind_Ok in G4. destruct G4 as ([st1 p1] & -> & G5). inversion G5; subst.
        eapply IHl; eauto. }
      unfold tl', sl' in EF, EP. destruct pl; try (apply G; auto; fail); try (destruct i; discriminate).
      destruct i as [|[|i]]; inversion EP as [E]; inversion EF; subst; clear EP EF.
      apply bind_Ok in E. destruct E as (nodes & E & E2). inversion E2; subst; clear E2.
      apply set_left_inv in E. destruct E as (nd & E & ->).
      apply read_upd with (nd := nd); cbn [ntype left right]; auto. intros ->. tauto.
    + rewrite nth_error_app2 in EF by auto. rewrite nth_error_app2 in EP by lia. rewrite Len in EP.
      set (j := i - length tl') in *. clearbody j. clear Len tl' sl' Ci.
      assert (G : inv (b_nodes st) (b_indices st) pr m l tr rids ->
         nth_error (touches pr) j = Some F ->
         nth_error (map (fun o => let* (st', pr') := o in Ok (st', PFork id pl pr')) (psteps st pr)) j = Some (Ok (st', p')) ->
         read_loc st' x = read_loc st x).
      { intros G1 G2 G3. rewrite nth_error_map in G3. destruct (nth_error (psteps st pr) j) as [o|] eqn:Eo; [|discriminate].
        inversion G3 as [G4]. apply bind_Ok in G4. destruct G4 as ([st1 p1] & -> & G5). inversion G5; subst.
        eapply IHr; eauto. }
      destruct pr; try (apply G; auto; fail).
      * destruct pl; destruct j as [|[|j]]; try discriminate EP. inversion EP; subst. reflexivity.
      * destruct pl; destruct j as [|[|j]]; try discriminate EP. inversion EP; subst. reflexivity.
      * destruct j as [|[|j]]; inversion EP as [E]; inversion EF; subst; clear EP EF.
        apply bind_Ok in E. destruct E as (nodes & E & E2). inversion E2; subst; clear E2.
        apply set_right_inv in E. destruct E as (nd & E & ->).
        apply read_upd with (nd := nd); cbn [ntype left right]; auto. intros ->. tauto.
  - destruct i; discriminate.
  - destruct i; discriminate.
  - destruct i; discriminate.
Qed.

(** ** Whole runs *)
Lemma cost_bound (t : atree) : cost t <= 9 * nnodes t.
Proof. induction t; simpl; lia. Qed.

Section Run.
Context (t : atree).
Hypothesis Hbuild : exists fuel, abuild fuel (seq 0 (length points)) = Ok t.
Hypothesis Hnn : nnodes t <= length points.
Hypothesis Hn : (N.of_nat (length points) <= INVALID_NODE)%N.

Definition run_inv (st : bstate) (p : proc) (ids : list nat) : Prop :=
  inv (b_nodes st) (b_indices st) p 0 (length points) t ids /\
  (forall i, In i ids -> i < b_count st) /\ NoDup ids /\ b_count st = length ids /\ fresh st /\
  length (b_nodes st) = length points /\ length (b_indices st) = length points /\ pend_ok p.

Lemma run_inv_step st p ids o : run_inv st p ids -> In o (psteps st p) ->
  exists st' p' ids', o = Ok (st', p') /\ run_inv st' p' ids' /\ pm p' t < pm p t.
Proof.
  intros (H1 & H2 & H3 & H4 & H5 & H6 & H7 & H8) Hin.
  destruct (inv_budget _ _ _ _ _ _ _ H1) as [B1 B2].
  destruct (pstep_inv p st 0 (length points) t ids o H1 H2 H3 H5 ltac:(lia) ltac:(lia) ltac:(lia)
    ltac:(intros Hc; apply B2 in Hc; lia) Hin) as (st' & p' & ids' & -> & I & E & M).
  exists st', p', ids'. split; [reflexivity|]. split; [|exact M].
  destruct E as (e1 & e2 & e3 & e4 & e5).
  assert (Hids' : forall i, In i ids' -> i < b_count st').
  { destruct e5 as [[c1 ->]|[c1 c2]]; rewrite c1; auto.
    intros i Hi. apply (Permutation_in _ c2) in Hi. destruct Hi as [<-|Hi]; [lia|].
    apply H2 in Hi. lia. }
  split; [exact I|]. split; [exact Hids'|]. split.
  { destruct e5 as [[c1 ->]|[c1 c2]]; auto.
    eapply Permutation_NoDup; [apply Permutation_sym; exact c2|]. constructor; auto.
    intros Hx. apply H2 in Hx. lia. }
  split.
  { destruct e5 as [[c1 ->]|[c1 c2]]; rewrite c1; auto.
    rewrite (Permutation_length c2). simpl. lia. }
  split.
  { intros i Hi1 Hi2. rewrite e3; [apply H5; [destruct e5 as [[c1 _]|[c1 _]]; lia|lia]|].
    intros Hx. apply H2 in Hx. destruct e5 as [[c1 _]|[c1 _]]; lia. }
  split; [lia|]. split; [lia|]. eapply pstep_pend_ok; eauto.
Qed.

Lemma run_inv_init : run_inv (par_init points) (par_start points) [].
Proof.
  destruct Hbuild as (fuel & Hb).
  assert (Hs : slice (seq 0 (length points)) 0 (length points) = seq 0 (length points)).
  { unfold slice. rewrite Nat.sub_0_r. cbn [skipn]. apply firstn_all2. rewrite seq_length. lia. }
  unfold run_inv, par_init, par_start. cbn [inv b_nodes b_indices b_count]. rewrite Hs.
  split.
  { split; [reflexivity|]. split; [reflexivity|]. split; [reflexivity|]. split; [lia|].
    split; [rewrite seq_length; lia|]. split; [|eauto]. split.
    - intros i Hi. apply in_seq in Hi. lia.
    - rewrite seq_length. lia. }
  split; [intros i []|]. split; [constructor|]. split; [reflexivity|]. split.
  { intros i _ Hi. cbn [b_nodes] in *. rewrite repeat_length in Hi. apply nth_error_repeat; auto. }
  rewrite repeat_length, seq_length. cbn [pend_ok]. auto.
Qed.

Lemma run_inv_run k st p :
  prun papply find_axis nth_element points max_leaf_size (par_init points) (par_start points) k st p ->
  exists ids, run_inv st p ids /\ k + pm p t <= cost t.
Proof.
  intros H. remember (par_init points) as st0. remember (par_start points) as p0.
  induction H as [|st0 p0 st1 p1 k st2 p2 Hr IH Hs]; subst.
  - exists []. split; [apply run_inv_init|]. unfold par_start. cbn [pm]. lia.
  - destruct IH as (ids & Hi & Hk); auto.
    destruct (run_inv_step _ _ _ _ Hi Hs) as (st' & p' & ids' & E & Hi' & Hm).
    inversion E; subst. exists ids'. split; auto. lia.
Qed.
End Run.
End KdPar.

Section Top.
Context (D : num) (ok : car D -> Prop) (OL : order_laws D ok).
Context (pt : Type) (sqd : pt -> pt -> car D).
Context (P : Type) (papply : P -> pt -> car D) (find_axis : list pt -> outcome P).
Context (nth_element : (nat -> nat -> bool) -> nat -> list nat -> list nat).
Context (good : pt -> Prop) (pgood : P -> Prop).
Hypothesis NE : nth_element_contract nth_element.
Hypothesis sqd_ok : forall p q, good p -> good q -> ok (sqd p q).
Hypothesis papply_ok : forall pr p, pgood pr -> good p -> ok (papply pr p).
Context (points : list pt) (max_leaf_size : Z).
Hypothesis points_good : forall p, In p points -> good p.
Hypothesis axis_total : forall range, range <> [] -> length range <= length points ->
  (forall p, In p range -> In p points) -> exists pr, find_axis range = Ok pr /\ pgood pr.
Notation psteps := (psteps papply find_axis nth_element points max_leaf_size).
Notation run := (prun papply find_axis nth_element points max_leaf_size (par_init points) (par_start points)).

Theorem par_build :
  points <> [] -> (3 <= size_t_of_int max_leaf_size)%N ->
  (N.of_nat (length points) <= INVALID_NODE)%N ->
  exists seqtree,
    build_tree papply find_axis nth_element points max_leaf_size = Ok seqtree /\
    forall k st p, run k st p ->
      k <= 9 * length points /\
      (forall o, In o (psteps st p) -> exists st' p', o = Ok (st', p')) /\
      ((exists root, p = PRet root) \/ psteps st p <> []) /\
      (forall i j F G x, i < j ->
         nth_error (touches max_leaf_size p) i = Some F ->
         nth_error (touches max_leaf_size p) j = Some G -> F x -> G x -> False) /\
      (forall i F st' p', nth_error (touches max_leaf_size p) i = Some F ->
         nth_error (psteps st p) i = Some (Ok (st', p')) ->
         forall x, ~ F x -> read_loc st' x = read_loc st x) /\
      forall root, p = PRet root ->
        wf_tree D pt P papply pgood points max_leaf_size (par_tree st root) /\
        t_indices (par_tree st root) = t_indices seqtree /\
        length (t_nodes (par_tree st root)) = length (t_nodes seqtree) /\
        forall query epsilon sn q,
          knn_search sqd papply points (par_tree st root) query epsilon sn q =
          knn_search sqd papply points seqtree query epsilon sn q.
Proof.
  intros Hne HL Hn. set (n := length points) in *.
  assert (SO : split_ok D pt P papply find_axis nth_element pgood points).
  { intros sl H1 H2 H3.
    eapply (split_range_spec D ok OL pt sqd P papply find_axis nth_element good pgood NE); eauto. }
  assert (Hb : forall i, In i (seq 0 n) -> i < length points).
  { intros i Hi. apply in_seq in Hi. fold n. lia. }
  assert (Hn0 : 0 < n) by (unfold n; destruct points; simpl; [congruence|lia]).
  assert (Lseq : length (seq 0 n) = n) by apply seq_length.
  destruct (abuild_ok D pt P papply find_axis nth_element pgood points max_leaf_size
              ltac:(lia) SO (S n) (seq 0 n) Hb ltac:(lia) ltac:(lia)) as (t & Et & HP & HI).
  pose proof (abuild_nnodes D pt P papply find_axis nth_element pgood points max_leaf_size
     HL SO (S n) (seq 0 n) t Hb ltac:(lia) Et ltac:(lia)) as Hnn.
  rewrite Lseq in Hnn.
  assert (Hlv : aleaves_le D P (size_t_of_int max_leaf_size) t)
    by (eapply (abuild_leaves D pt P papply find_axis nth_element pgood points max_leaf_size ltac:(lia) SO (S n) (seq 0 n)); auto; lia).
  assert (Npos : 0 < nnodes D P t) by (eapply nnodes_pos; eauto).
  (* a node array of the right size holding [t] is a well-formed tree *)
  assert (FIN : forall (st : bstate D P) i ids,
     rep D P (b_nodes st) (b_indices st) i 0 n t ids -> NoDup ids ->
     (forall j, In j ids -> j < b_count st) -> b_count st = nnodes D P t ->
     length (b_nodes st) = n -> length (b_indices st) = n ->
     let tree := par_tree st (N.of_nat i) in
     rep D P (t_nodes tree) (t_indices tree) i 0 n t ids /\
     length (t_nodes tree) = nnodes D P t /\
     t_indices tree = aelems D P t /\
     wf_tree D pt P papply pgood points max_leaf_size tree).
  { intros st i ids Hrep ND Hids Hc Ln Li tree.
    unfold tree, par_tree. cbn [t_root t_nodes t_indices].
    rewrite resize_le by lia.
    set (nodes := firstn (b_count st) (b_nodes st)).
    assert (Lnd : length nodes = nnodes D P t) by (unfold nodes; rewrite firstn_length; lia).
    assert (Hrep' : rep D P nodes (b_indices st) i 0 n t ids).
    { eapply rep_frame; [exact Hrep| |reflexivity|auto].
      intros j Hj. unfold nodes. rewrite nth_error_firstn. apply Hids in Hj.
      destruct (j <? b_count st) eqn:Q; auto. lia. }
    pose proof (rep_elems _ _ _ _ _ _ _ _ _ Hrep') as (_ & _ & Hel).
    assert (Hel' : b_indices st = aelems D P t).
    { rewrite <- Hel. unfold slice. rewrite Nat.sub_0_r. simpl. rewrite firstn_all2; auto. lia. }
    split; [exact Hrep'|]. split; [exact Lnd|]. split; [exact Hel'|].
    exists t, i, ids. cbn [t_root t_nodes t_indices]. split; [reflexivity|]. split; [exact Hrep'|].
    split; [rewrite Hel'; exact HP|]. split; [exact HI|]. split; [exact ND|].
    split; [rewrite Lnd; eapply rep_length_ids; exact Hrep'|]. split; [exact Hlv|].
    split; [rewrite Lnd; apply adepth_nnodes|]. split; lia. }
  destruct (create_node_abuild D pt P papply find_axis nth_element pgood points max_leaf_size
     SO (S n) (seq 0 n) t (mkB (repeat node0 n) (seq 0 n) 0) 0 n Et Hb ltac:(lia))
    as (sst & sids & E & C1 & C2 & C3 & C4 & C5 & C6 & C7 & C8 & C9);
    cbn [b_nodes b_indices b_count] in *; rewrite ?repeat_length, ?Lseq in *; try lia.
  { unfold slice. rewrite Nat.sub_0_r. apply firstn_all2. simpl. lia. }
  { intros i _ Hi. apply nth_error_repeat; auto. }
  assert (EB : build_tree papply find_axis nth_element points max_leaf_size =
     (let* (st, root) := create_node papply find_axis nth_element points max_leaf_size (S n)
                           (mkB (repeat node0 n) (seq 0 n) 0) 0 n in
      Ok (mkTree (b_indices st) (Some root) (resize (b_nodes st) (b_count st) node0)))).
  { unfold build_tree, n. clear -Hne. destruct points; [congruence|reflexivity]. }
  rewrite EB, E. cbn [bind]. fold (par_tree sst (N.of_nat 0)).
  destruct (FIN sst 0 sids C9 C8 ltac:(intros j Hj; apply C7 in Hj; lia) ltac:(lia) C2 C3)
    as (S1 & S2 & S3 & S4).
  assert (SEARCH : forall (tree : kdtree D P) i ids query epsilon sn q,
     t_root tree = Some (N.of_nat i) ->
     rep D P (t_nodes tree) (t_indices tree) i 0 n t ids ->
     length (t_nodes tree) = nnodes D P t -> t_indices tree = aelems D P t ->
     knn_search sqd papply points tree query epsilon sn q =
     (let* r := knn_init D sn q in
      let* (r, _) := asearch D pt sqd P papply points query epsilon t r in Ok r)).
  { intros tree i ids query eps sn q R1 R2 R3 R4. unfold knn_search. apply bind_ext. intros r.
    rewrite R1. pose proof (adepth_nnodes D P t).
    assert (Lel : length (aelems D P t) = n) by (rewrite <- (Permutation_length HP); auto).
    rewrite (search_asearch D pt sqd P papply points query eps tree t _ _ _ _ _ _ R2);
      rewrite ?R3, ?R4, ?Lel; auto; lia. }
  eexists. split; [reflexivity|].
  intros k st p Hrun.
  destruct (run_inv_run D pt P papply find_axis nth_element pgood points max_leaf_size SO t
     ltac:(eauto) ltac:(fold n; lia) Hn k st p Hrun) as (ids & RI & Hk).
  pose proof (cost_bound D P t) as CB.
  split; [lia|]. split.
  { intros o Ho. destruct (run_inv_step D pt P papply find_axis nth_element pgood points
      max_leaf_size SO t ltac:(fold n; lia) Hn st p ids o RI Ho) as (st' & p' & _ & -> & _). eauto. }
  destruct RI as (I1 & I2 & I3 & I4 & I5 & I6 & I7 & I8).
  split; [eapply progress; eauto|].
  split; [eapply touches_disjoint; eauto|].
  split; [intros i F st' p' T1 T2; eapply touches_sound; eauto|].
  intros root ->. cbn [inv] in I1. destruct I1 as (i & -> & Hrep).
  assert (Hcnt : b_count st = nnodes D P t).
  { rewrite I4. eapply rep_length_ids; exact Hrep. }
  destruct (FIN st i ids Hrep I3 I2 Hcnt I6 I7) as (T1 & T2 & T3 & T4).
  split; [exact T4|]. split; [congruence|]. split; [congruence|].
  intros query eps sn q.
  rewrite (SEARCH (par_tree st (N.of_nat i)) i ids) by auto.
  rewrite (SEARCH (par_tree sst (N.of_nat 0)) 0 sids) by auto. reflexivity.
Qed.
End Top.
