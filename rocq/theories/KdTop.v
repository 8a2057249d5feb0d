(** Top-level kd-tree theorems, generic in the number system and the projection. *)
From Coq Require Import ZifyBool ZifyNat ZifyN.
From Verif Require Import Base BaseProofs Num Vec KnnModel KnnSpec KnnProofs KdModel KdSpec
  KdProofs KdSearchProofs.
Ltac Zify.zify_post_hook ::= Z.div_mod_to_equations.

Lemma Permutation_filter {A} (f : A -> bool) l1 l2 :
  Permutation l1 l2 -> Permutation (filter f l1) (filter f l2).
Proof.
  induction 1; simpl; auto.
  - destruct (f x); auto.
  - destruct (f x), (f y); auto. apply perm_swap.
  - eapply perm_trans; eauto.
Qed.

Lemma NoDup_firstn {A} (l : list A) k : NoDup l -> NoDup (firstn k l).
Proof.
  intros H. rewrite <- (firstn_skipn k l) in H. revert H.
  generalize (firstn k l) (skipn k l). intros l1 l2. induction l1; simpl; intros H; [constructor|].
  inversion H; subst. constructor; auto. intros Hin. apply H2. apply in_app_iff; auto.
Qed.

Section KnnOfFold.
Context (D : num) (ok : car D -> Prop) (OL : order_laws D ok).
Context (dist : nat -> car D) (n : nat).
Hypothesis dist_ok : forall j, j < n -> ok (dist j).
Definition mkc (j : nat) : N * car D := (N.of_nat j, dist j).

Lemma nat_inj_map L : NoDup L -> NoDup (map fst (map mkc L)).
Proof.
  intros H. rewrite map_map. simpl. apply FinFun.Injective_map_NoDup; auto.
  intros a b E. lia.
Qed.

Lemma NoDup_map_filter (f : N * car D -> bool) l :
  NoDup (map fst l) -> NoDup (map fst (filter f l)).
Proof.
  induction l as [|x l IH]; simpl; intros H; auto. inversion H; subst.
  destruct (f x); simpl; auto. constructor; auto.
  intros Hin. apply H2. apply in_map_iff in Hin. destruct Hin as (y & E & Hy).
  apply filter_In in Hy. apply in_map_iff. exists y. tauto.
Qed.

(** Facts common to exact and early-terminated searches. *)
Lemma topk_genuine k L :
  NoDup L -> (forall j, In j L -> j < n) ->
  let res := firstn k (isort D (filter reachable_dist (map mkc L))) in
  NoDup (map fst res) /\
  (forall i d, In (i, d) res -> exists j, j < n /\ i = N.of_nat j /\ d = dist j) /\
  ascending res.
Proof.
  intros HN Hb res.
  set (F := filter reachable_dist (map mkc L)) in *.
  assert (OkF : Forall (okc D ok) F).
  { apply Forall_forall. intros c Hc. apply filter_In in Hc. destruct Hc as [Hc _].
    apply in_map_iff in Hc. destruct Hc as (j & <- & Hj). apply dist_ok. auto. }
  split; [|split].
  - unfold res. rewrite <- firstn_map. apply NoDup_firstn.
    eapply Permutation_NoDup; [apply Permutation_map; apply isort_Permutation|].
    apply NoDup_map_filter. apply nat_inj_map. auto.
  - intros i d Hin.
    assert (Hin2 : In (i, d) F).
    { eapply Permutation_in; [apply Permutation_sym; apply isort_Permutation|].
      rewrite <- (firstn_skipn k (isort D F)). apply in_app_iff. auto. }
    apply filter_In in Hin2. destruct Hin2 as [Hin2 _].
    apply in_map_iff in Hin2. destruct Hin2 as (j & E & Hj). inversion E; subst. eauto.
  - pose proof (isort_ascending D ok OL F OkF) as A.
    rewrite <- (firstn_skipn k (isort D F)) in A. apply ascending_app_inv in A. tauto.
Qed.

Lemma topk_is_knn k L :
  Permutation L (seq 0 n) ->
  is_knn dist n k (firstn k (isort D (filter reachable_dist (map mkc L)))).
Proof.
  intros HP. set (F := filter reachable_dist (map mkc L)).
  assert (Hb : forall j, In j L -> j < n).
  { intros j Hj. apply (Permutation_in _ HP) in Hj. apply in_seq in Hj. lia. }
  assert (HN : NoDup L).
  { eapply Permutation_NoDup; [apply Permutation_sym; eauto|]. apply seq_NoDup. }
  destruct (topk_genuine k L HN Hb) as (A1 & A2 & A3). fold F in A1, A2, A3.
  assert (OkF : Forall (okc D ok) F).
  { apply Forall_forall. intros c Hc. apply filter_In in Hc. destruct Hc as [Hc _].
    apply in_map_iff in Hc. destruct Hc as (j & <- & Hj). apply dist_ok. auto. }
  split; [exact A1|]. split; [exact A2|]. split; [exact A3|]. split.
  - rewrite firstn_length. f_equal.
    rewrite <- (Permutation_length (isort_Permutation D F)). unfold F.
    rewrite <- (map_length mkc (filter (fun j => nlt (dist j) nmaxv) (seq 0 n))).
    transitivity (length (map mkc (filter (fun j => nlt (dist j) nmaxv) L))).
    + clear. induction L as [|j L IH]; simpl; auto.
      unfold reachable_dist at 1. cbn [snd mkc]. destruct (nlt (dist j) nmaxv); simpl; auto.
    + rewrite !map_length. apply Permutation_length. apply Permutation_filter. exact HP.
  - intros j Hj Hnot c Hc.
    assert (HjL : In j L) by (apply (Permutation_in _ (Permutation_sym HP)); apply in_seq; lia).
    assert (HcF : In c F).
    { eapply Permutation_in; [apply Permutation_sym; apply isort_Permutation|].
      rewrite <- (firstn_skipn k (isort D F)). apply in_app_iff. auto. }
    assert (Okc : ok (snd c)) by (rewrite Forall_forall in OkF; apply OkF; auto).
    destruct (reachable_dist (mkc j)) eqn:R.
    + assert (HjF : In (mkc j) F) by (apply filter_In; split; auto; apply in_map; auto).
      apply (Permutation_in _ (isort_Permutation D F)) in HjF.
      rewrite <- (firstn_skipn k (isort D F)) in HjF. apply in_app_iff in HjF.
      destruct HjF as [HjF|HjF].
      { exfalso. apply Hnot. apply in_map_iff. exists (mkc j). split; auto. }
      pose proof (isort_ascending D ok OL F OkF) as A.
      rewrite <- (firstn_skipn k (isort D F)) in A. apply ascending_app_inv in A.
      destruct A as (_ & _ & A). rewrite Forall_forall in A. specialize (A c Hc).
      rewrite Forall_forall in A. apply (A (mkc j) HjF).
    + unfold reachable_dist in R. cbn [snd mkc] in R.
      apply filter_In in HcF. destruct HcF as [_ Rc]. unfold reachable_dist in Rc.
      eapply (ol_cotrans _ _ OL _ nmaxv _); auto. apply (ol_max _ _ OL).
      destruct (nlt nmaxv (snd c)) eqn:G; auto.
      pose proof (ol_trans _ _ OL _ _ _ Okc (ol_max _ _ OL) Okc Rc G) as T.
      rewrite (ol_irrefl _ _ OL _ Okc) in T. discriminate.
Qed.
End KnnOfFold.

Section Top.
Context (D : num) (ok : car D -> Prop) (OL : order_laws D ok).
Context (pt : Type) (sqd : pt -> pt -> car D).
Context (P : Type) (papply : P -> pt -> car D) (find_axis : list pt -> outcome P).
Context (nth_element : (nat -> nat -> bool) -> nat -> list nat -> list nat).
Context (good : pt -> Prop) (pgood : P -> Prop).
Hypothesis NE : nth_element_contract nth_element.
Hypothesis sqd_ok : forall p q, good p -> good q -> ok (sqd p q).
Hypothesis papply_ok : forall pr p, pgood pr -> good p -> ok (papply pr p).

Section Build.
Context (points : list pt) (max_leaf_size : Z).
Hypothesis points_good : forall p, In p points -> good p.
(** find_axis succeeds on the non-empty ranges it is called with. *)
Hypothesis axis_total : forall range, range <> [] -> length range <= length points ->
  (forall p, In p range -> In p points) -> exists pr, find_axis range = Ok pr /\ pgood pr.

Lemma swo_proj proj sl : pgood proj ->
  (forall i, In i sl -> i < length points) -> swo_on (proj_less papply points proj) sl.
Proof.
  intros Hg Hb. unfold proj_less.
  assert (G : forall i, In i sl -> exists p, nth_error points i = Some p /\ ok (papply proj p)).
  { intros i Hi. destruct (nth_error points i) as [p|] eqn:E.
    - exists p. split; auto. apply papply_ok; auto. apply points_good. eapply nth_error_In; eauto.
    - apply nth_error_None in E. apply Hb in Hi. lia. }
  split; [|split].
  - intros x Hx. destruct (G x Hx) as (p & -> & Hp). apply (ol_irrefl _ _ OL); auto.
  - intros x y z Hx Hy Hz. destruct (G x Hx) as (p & -> & Hp). destruct (G y Hy) as (q & -> & Hq).
    destruct (G z Hz) as (r & -> & Hr). intros. eapply (ol_trans _ _ OL); [| | |eauto|]; eauto.
  - intros x y z Hx Hy Hz. destruct (G x Hx) as (p & -> & Hp). destruct (G y Hy) as (q & -> & Hq).
    destruct (G z Hz) as (r & -> & Hr). intros. eapply (ol_cotrans _ _ OL); [| | |eauto|]; eauto.
Qed.

Lemma split_range_spec sl :
  (forall i, In i sl -> i < length points) -> sl <> [] -> length sl <= length points ->
  exists proj sl' thresh mp,
      split_range papply find_axis nth_element points sl = Ok (proj, sl', thresh) /\
      pgood proj /\
      Permutation sl sl' /\
      In mp points /\ thresh = papply proj mp /\
      (forall i p, In i (firstn (length sl / 2) sl') -> nth_error points i = Some p ->
         nlt thresh (papply proj p) = false) /\
      (forall i p, In i (skipn (length sl / 2) sl') -> nth_error points i = Some p ->
         nlt (papply proj p) thresh = false).
Proof.
  intros Hb Hn Hlen. destruct points as [|p0 pts] eqn:Ep.
  { destruct sl as [|i sl]; [congruence|]. exfalso. assert (i < 0) by (apply Hb; left; auto). lia. }
  rewrite <- Ep in *. clear Ep pts.
  unfold split_range. rewrite (mapM_get_Ok points sl p0) by auto. cbn [bind].
  set (range := map (fun i => nth i points p0) sl).
  destruct (axis_total range) as (proj & EP & HG).
  { unfold range. destruct sl; simpl; congruence. }
  { unfold range. rewrite map_length. auto. }
  { intros p Hp. apply in_map_iff in Hp. destruct Hp as (i & <- & Hi). apply nth_In. auto. }
  rewrite EP. cbn [bind].
  set (m := length sl / 2).
  assert (Hm : m < length sl). { destruct sl; [congruence|]. unfold m. simpl length. lia. }
  destruct (NE (proj_less papply points proj) m sl Hm (swo_proj proj sl HG Hb)) as (HP & HO & HO2).
  set (sl' := nth_element _ m sl) in *.
  assert (Hlen' : length sl' = length sl) by (symmetry; apply Permutation_length; auto).
  destruct (nth_error sl' m) as [mi|] eqn:Emi.
  2:{ apply nth_error_None in Emi. lia. }
  rewrite (proj2 (get_Ok _ _ _) Emi). cbn [bind].
  assert (Hmi : mi < length points).
  { apply Hb. eapply Permutation_in; [apply Permutation_sym; exact HP|]. eapply nth_error_In; eauto. }
  destruct (nth_error points mi) as [mp|] eqn:Emp.
  2:{ apply nth_error_None in Emp. lia. }
  rewrite (proj2 (get_Ok _ _ _) Emp). cbn [bind].
  exists proj, sl', (papply proj mp), mp. split; [reflexivity|]. split; [exact HG|].
  split; [exact HP|].
  split; [eapply nth_error_In; eauto|]. split; [reflexivity|]. split.
  - intros i p Hi Ei. apply In_nth_error in Hi. destruct Hi as (a & Ha).
    rewrite nth_error_firstn in Ha. destruct (a <? m) eqn:Q; [|discriminate].
    assert (R : proj_less papply points proj mi i = false) by (eapply (HO a m); eauto; lia).
    unfold proj_less in R. rewrite Emp, Ei in R. exact R.
  - intros i p Hi Ei. apply In_nth_error in Hi. destruct Hi as (a & Ha).
    rewrite nth_error_skipn in Ha.
    assert (R : proj_less papply points proj i mi = false) by (eapply (HO2 (m + a)); eauto; lia).
    unfold proj_less in R. rewrite Emp, Ei in R. exact R.
Qed.


(** What every correct builder delivers: an index permutation and a node array holding a
    tree whose leaves partition it and whose splits separate the points. *)
Definition wf_tree (tree : kdtree D P) : Prop :=
  exists t root ids,
    t_root tree = Some (N.of_nat root) /\
    rep D P (t_nodes tree) (t_indices tree) root 0 (length points) t ids /\
    Permutation (seq 0 (length points)) (t_indices tree) /\
    kd_inv D pt P papply pgood points t /\
    NoDup ids /\ length ids = length (t_nodes tree) /\
    aleaves_le D P (size_t_of_int max_leaf_size) t /\
    adepth D P t <= length (t_nodes tree) /\
    (N.of_nat (length (t_nodes tree)) <= INVALID_NODE)%N /\
    (N.of_nat (length (t_indices tree)) <= INVALID_NODE)%N.

Lemma resize_firstn {A} (l : list A) n d : n <= length l -> resize l n d = firstn n l.
Proof. intros H. unfold resize. replace (n - length l) with 0 by lia. apply app_nil_r. Qed.

Theorem build_tree_wf :
  points <> [] -> (3 <= size_t_of_int max_leaf_size)%N ->
  (N.of_nat (length points) <= INVALID_NODE)%N ->
  exists tree, build_tree papply find_axis nth_element points max_leaf_size = Ok tree /\
    wf_tree tree /\ t_root tree = Some 0%N /\ 1 <= length (t_nodes tree) <= length points.
Proof.
  intros Hne HL Hn. set (n := length points) in *.
  assert (SO : split_ok D pt P papply find_axis nth_element pgood points).
  { intros sl H1 H2 H3. apply split_range_spec; auto. }
  assert (Hb : forall i, In i (seq 0 n) -> i < length points).
  { intros i Hi. apply in_seq in Hi. fold n. lia. }
  assert (Hn0 : 0 < n) by (unfold n; destruct points; simpl; [congruence|lia]).
  assert (Lseq : length (seq 0 n) = n) by apply seq_length.
  destruct (abuild_ok D pt P papply find_axis nth_element pgood points max_leaf_size
              ltac:(lia) SO (S n) (seq 0 n) Hb ltac:(lia) ltac:(lia)) as (t & Et & HP & HI).
  pose proof (abuild_nnodes D pt P papply find_axis nth_element pgood points max_leaf_size
     HL SO (S n) (seq 0 n) t Hb ltac:(lia) Et ltac:(lia)) as Hnn.
  rewrite Lseq in Hnn.
  destruct (create_node_abuild D pt P papply find_axis nth_element pgood points max_leaf_size
     SO (S n) (seq 0 n) t (mkB (repeat node0 n) (seq 0 n) 0) 0 n Et Hb ltac:(lia))
    as (st & ids & E & C1 & C2 & C3 & C4 & C5 & C6 & C7 & C8 & C9);
    cbn [b_nodes b_indices b_count] in *; rewrite ?repeat_length, ?Lseq in *; try lia.
  { unfold slice. rewrite Nat.sub_0_r. apply firstn_all2. simpl. lia. }
  { intros i _ Hi. apply nth_error_repeat; auto. }
  assert (EB : build_tree papply find_axis nth_element points max_leaf_size =
     (let* (st, root) := create_node papply find_axis nth_element points max_leaf_size (S n)
                           (mkB (repeat node0 n) (seq 0 n) 0) 0 n in
      Ok (mkTree (b_indices st) (Some root) (resize (b_nodes st) (b_count st) node0)))).
  { unfold build_tree, n. clear -Hne. destruct points; [congruence|reflexivity]. }
  rewrite EB, E. cbn [bind].
  assert (Npos : 0 < nnodes D P t) by (eapply nnodes_pos; eauto).
  rewrite resize_firstn by lia.
  set (nodes := firstn (b_count st) (b_nodes st)).
  assert (Ln : length nodes = nnodes D P t) by (unfold nodes; rewrite firstn_length; lia).
  eexists. split; [reflexivity|]. split.
  - exists t, 0, ids. cbn [t_root t_nodes t_indices]. split; [reflexivity|]. split.
    + eapply rep_frame; [exact C9| |reflexivity|auto].
      intros i Hi. unfold nodes. rewrite nth_error_firstn. apply C7 in Hi.
      destruct (i <? b_count st) eqn:Q; auto. lia.
    + pose proof C9 as C9'. eapply rep_elems in C9; eauto. destruct C9 as (_ & _ & C9). split.
      { unfold slice in C9. rewrite Nat.sub_0_r in C9. simpl in C9.
        rewrite firstn_all2 in C9 by lia. rewrite C9. exact HP. }
      split; [exact HI|]. split; [exact C8|]. split; [rewrite Ln; eapply rep_length_ids; exact C9'|].
      split; [eapply (abuild_leaves D pt P papply find_axis nth_element pgood points max_leaf_size ltac:(lia) SO (S n) (seq 0 n)); auto; lia|].
      split; [rewrite Ln; eapply adepth_nnodes; eauto|]. split; [lia|lia].
  - cbn [t_root t_nodes]. split; [reflexivity|]. lia.
Qed.

(** ** What a well-formed tree means for the arrays *)
Definition leaf_slice (idx : list nat) (nd : node D P) : list nat :=
  match ntype nd with NLeaf f l => slice idx (N.to_nat f) (N.to_nat l) | _ => [] end.

Lemma rep_leaf_slices nodes idx d t : forall id first last ids,
  rep D P nodes idx id first last t ids ->
  flat_map (fun i => leaf_slice idx (nth i nodes d)) ids = aelems D P t.
Proof.
  induction t as [sl|proj th l IHl r IHr]; simpl; intros id first last ids H.
  - destruct H as (-> & H1 & H2 & H3 & H4). simpl. rewrite app_nil_r.
    erewrite nth_error_nth by exact H1. unfold leaf_slice. simpl. rewrite !Nat2N.id. exact H4.
  - destruct H as (lid & rid & m & lids & rids & -> & H1 & _ & _ & _ & _ & _ & Hl & Hr).
    simpl. erewrite nth_error_nth by exact H1. simpl.
    rewrite flat_map_app. erewrite IHl, IHr by eauto. reflexivity.
Qed.

Lemma NoDup_bounded_Permutation (l : list nat) n :
  NoDup l -> (forall i, In i l -> i < n) -> length l = n -> Permutation l (seq 0 n).
Proof.
  intros H1 H2 H3. apply NoDup_Permutation_bis; auto.
  - rewrite seq_length. lia.
  - intros i Hi. apply in_seq. apply H2 in Hi. lia.
Qed.

Lemma nodes_as_map (nodes : list (node D P)) d : nodes = map (fun i => nth i nodes d) (seq 0 (length nodes)).
Proof.
  apply nth_error_ext. intros i. rewrite nth_error_map.
  destruct (nth_error nodes i) as [x|] eqn:E.
  - assert (i < length nodes) by (apply nth_error_Some; congruence).
    rewrite (nth_error_nth' _ 0) by (rewrite seq_length; auto).
    rewrite seq_nth by auto. simpl. rewrite (nth_error_nth _ _ _ E). reflexivity.
  - apply nth_error_None in E. destruct (nth_error (seq 0 (length nodes)) i) eqn:E2; auto.
    assert (i < length (seq 0 (length nodes))) by (apply nth_error_Some; congruence).
    rewrite seq_length in *. lia.
Qed.

Theorem wf_leaf_points tree : wf_tree tree ->
  Permutation (leaf_points tree) (seq 0 (length points)).
Proof.
  intros (t & root & ids & Hroot & Hrep & HP & HI & ND & Lids & _).
  assert (Hids : Permutation ids (seq 0 (length (t_nodes tree)))).
  { apply NoDup_bounded_Permutation; auto. intros i Hi. eapply rep_ids_bound; eauto. }
  pose proof (rep_elems _ _ _ _ _ _ _ _ _ Hrep) as (_ & Hlen & Hel).
  assert (Hel' : t_indices tree = aelems D P t).
  { rewrite <- Hel. unfold slice. rewrite Nat.sub_0_r. simpl. rewrite firstn_all2; auto.
    apply Permutation_length in HP. rewrite seq_length in HP. lia. }
  unfold leaf_points. fold (leaf_slice (t_indices tree)).
  rewrite (nodes_as_map (t_nodes tree) node0).
  rewrite flat_map_concat_map, map_map, <- flat_map_concat_map.
  eapply perm_trans; [apply Permutation_flat_map; apply Permutation_sym; exact Hids|].
  rewrite (rep_leaf_slices _ _ node0 _ _ _ _ _ Hrep). rewrite <- Hel'.
  apply Permutation_sym. exact HP.
Qed.

Lemma rep_nodes (nodes : list (node D P)) idx t m : forall id first last ids,
  rep D P nodes idx id first last t ids ->
  (N.of_nat (length nodes) <= INVALID_NODE)%N ->
  aleaves_le D P m t ->
  In id ids /\
  forall i, In i ids -> exists nd, nth_error nodes i = Some nd /\
    match ntype nd with
    | NUninit => False
    | NLeaf f l => left nd = INVALID_NODE /\ right nd = INVALID_NODE /\ (f < l)%N /\ (l - f <= m)%N
    | NSub _ _ => N.to_nat (left nd) < length nodes /\ N.to_nat (right nd) < length nodes
    end.
Proof.
  induction t as [sl|proj th l IHl r IHr]; intros id first last ids H Hn Hm.
  - destruct H as (-> & H1 & H2 & H3 & H4). split; [left; auto|]. intros i [<-|[]].
    eexists. split; [exact H1|]. simpl. cbn [aleaves_le] in Hm.
    assert (length sl = last - first) by (rewrite <- H4; apply slice_length; auto).
    repeat split; lia.
  - destruct H as (lid & rid & mm & lids & rids & -> & H1 & _ & _ & _ & _ & _ & Hl & Hr).
    destruct Hm as [Hm1 Hm2].
    destruct (IHl _ _ _ _ Hl Hn Hm1) as [Il Fl]. destruct (IHr _ _ _ _ Hr Hn Hm2) as [Ir Fr].
    split; [left; auto|]. intros i [<-|Hi].
    + eexists. split; [exact H1|]. simpl. rewrite !Nat2N.id.
      split; [eapply rep_ids_bound; [exact Hl|exact Il]|eapply rep_ids_bound; [exact Hr|exact Ir]].
    + apply in_app_iff in Hi. destruct Hi; auto.
Qed.

Theorem wf_links tree : wf_tree tree ->
  links_ok tree /\ leaves_bounded (size_t_of_int max_leaf_size) tree.
Proof.
  intros (t & root & ids & Hroot & Hrep & HP & HI & ND & Lids & HLv & _ & Hn & _).
  assert (Hids : Permutation ids (seq 0 (length (t_nodes tree)))).
  { apply NoDup_bounded_Permutation; auto. intros i Hi. eapply rep_ids_bound; eauto. }
  destruct (rep_nodes _ _ _ _ _ _ _ _ Hrep Hn HLv) as [_ F].
  assert (G : forall nd, In nd (t_nodes tree) -> exists i, In i ids /\ nth_error (t_nodes tree) i = Some nd).
  { intros nd Hin. apply In_nth_error in Hin. destruct Hin as (i & Ei). exists i. split; auto.
    apply (Permutation_in _ (Permutation_sym Hids)). apply in_seq.
    assert (i < length (t_nodes tree)) by (apply nth_error_Some; congruence). lia. }
  split.
  - intros nd Hin. destruct (G nd Hin) as (i & Hi & Ei). destruct (F i Hi) as (nd' & Ei' & M).
    rewrite Ei in Ei'. inversion Ei'; subst nd'. destruct (ntype nd); tauto.
  - intros nd f l Hin Ety. destruct (G nd Hin) as (i & Hi & Ei). destruct (F i Hi) as (nd' & Ei' & M).
    rewrite Ei in Ei'. inversion Ei'; subst nd'. rewrite Ety in M. tauto.
Qed.

(** * Queries on a well-formed tree *)
Section Query.
Context (tree : kdtree D P) (query : pt) (epsilon : car D).
Hypothesis WF : wf_tree tree.
Hypothesis query_good : good query.
Hypothesis PL : prune_law D ok pt sqd P papply query good pgood.
Notation dist := (dist_to sqd points query).

Lemma dist_ok : forall j, j < length points -> ok (dist j).
Proof.
  intros j Hj. unfold dist_to. destruct (nth_error points j) as [p|] eqn:E.
  - apply sqd_ok; auto. apply points_good. eapply nth_error_In; eauto.
  - apply nth_error_None in E. lia.
Qed.

Lemma mk_mkc j : mk D pt sqd points query j = mkc D dist j.
Proof. unfold mk, mkc, dist_to. destruct (nth_error points j); reflexivity. Qed.

(** One visiting order serves every query size. *)
Lemma knn_search_fold :
  exists order, Permutation order (seq 0 (length points)) /\
  forall sn k r0, knn_init D sn k = Ok r0 -> 0 < buffer_size r0 ->
  exists r b l,
    knn_search sqd papply points tree query epsilon sn k = Ok r /\
    krep D ok r l /\ buffer_size r = buffer_size r0 /\
    (b = true -> l = firstn (buffer_size r0) (isort D (filter reachable_dist (map (mkc D dist) order)))) /\
    (b = false ->
       nlt (aworst D (buffer_size r0) l) epsilon = true /\
       exists Sv rest, Permutation order (Sv ++ rest) /\
         l = firstn (buffer_size r0) (isort D (filter reachable_dist (map (mkc D dist) Sv)))).
Proof.
  destruct WF as (t & root & ids & Hroot & Hrep & HP & HI & _ & _ & _ & Hd & Hn & Hi).
  eapply rep_elems in Hrep as Hre; eauto. destruct Hre as (_ & Hlen & Hel).
  assert (Hel' : t_indices tree = aelems D P t).
  { rewrite <- Hel. unfold slice. rewrite Nat.sub_0_r. simpl. rewrite firstn_all2; auto.
    apply Permutation_length in HP. rewrite seq_length in HP. lia. }
  exists (visit D pt P papply query t). split.
  { rewrite visit_Permutation. rewrite <- Hel'. apply Permutation_sym. auto. }
  intros sn k r0 E0 Hb0.
  assert (Hmap : forall L, map (mk D pt sqd points query) L = map (mkc D dist) L).
  { intros L. apply map_ext. apply mk_mkc. }
  destruct (asearch_spec D ok OL pt sqd P papply points query epsilon good sqd_ok pgood PL
             points_good query_good t r0 [] (knn_init_Ok D ok sn k r0 E0 Hb0))
    as (r & b & l & Es & K & Bs & T & F).
  { intros i Hin. rewrite <- Hel' in Hin.
    apply (Permutation_in _ (Permutation_sym HP)) in Hin. apply in_seq in Hin. lia. }
  { exact HI. }
  exists r, b, l. split.
  { unfold knn_search. rewrite E0. cbn [bind]. rewrite Hroot.
    rewrite (search_asearch D pt sqd P papply points query epsilon tree t _ _ _ _ _ _ Hrep) by lia.
    rewrite Es. reflexivity. }
  split; [exact K|]. split; [exact Bs|]. split.
  - intros Hb. rewrite (T Hb), Hmap. apply fold_apush_topk.
  - intros Hb. destruct (F Hb) as (Hw & Sv & rest & HPm & ->). split; [exact Hw|].
    exists Sv, rest. split; [exact HPm|]. rewrite Hmap. apply fold_apush_topk.
Qed.

Lemma krep_buffers r l : krep D ok r l ->
  knn_buffers (buffer_size r) l (num_found_neighbors r) (indices r) (distances r).
Proof. intros (H1 & H2 & H3 & H4 & H5 & _). repeat split; auto. Qed.

(** With a tolerance no distance can beat, the answers for all k are prefixes of one
    exact ranking of the cloud. *)
Theorem knn_search_exact :
  (forall j, j < length points -> nlt (dist j) epsilon = false) -> nlt nmaxv epsilon = false ->
  exists ranking,
    (forall k, is_knn dist (length points) k (firstn k ranking)) /\
    forall sn k r0, knn_init D sn k = Ok r0 -> 0 < buffer_size r0 ->
    exists r,
      knn_search sqd papply points tree query epsilon sn k = Ok r /\
      knn_buffers (buffer_size r0) (firstn (buffer_size r0) ranking)
        (num_found_neighbors r) (indices r) (distances r).
Proof.
  intros He1 He2. destruct knn_search_fold as (order & HP & H).
  exists (isort D (filter reachable_dist (map (mkc D dist) order))). split.
  { intros k. eapply topk_is_knn; eauto. apply dist_ok. }
  intros sn k r0 E0 Hb0. destruct (H sn k r0 E0 Hb0) as (r & b & l & E & K & B & T & F).
  exists r. split; [exact E|].
  destruct b.
  - rewrite <- (T eq_refl). rewrite <- B. apply krep_buffers; auto.
  - exfalso. destruct (F eq_refl) as (Hw & Sv & rest & HP2 & El).
    unfold aworst in Hw. destruct (nth_error l (buffer_size r0 - 1)) as [c|] eqn:En; [|congruence].
    apply nth_error_In in En. rewrite El in En.
    assert (Hin : In c (isort D (filter reachable_dist (map (mkc D dist) Sv)))).
    { rewrite <- (firstn_skipn (buffer_size r0)). apply in_app_iff. auto. }
    apply (Permutation_in _ (Permutation_sym (isort_Permutation D _))) in Hin.
    apply filter_In in Hin. destruct Hin as [Hin _]. apply in_map_iff in Hin.
    destruct Hin as (j & <- & Hj). cbn [snd mkc] in Hw. rewrite He1 in Hw; [discriminate|].
    assert (Hj2 : In j order).
    { apply (Permutation_in _ (Permutation_sym HP2)). apply in_app_iff. auto. }
    apply (Permutation_in _ HP) in Hj2. apply in_seq in Hj2. lia.
Qed.

(** With a tolerance, the answer is exact or consists of k points closer than it. *)
Theorem knn_search_epsilon sn k r0 :
  ok epsilon -> nlt nmaxv epsilon = false ->
  knn_init D sn k = Ok r0 -> 0 < buffer_size r0 ->
  exists r res,
    knn_search sqd papply points tree query epsilon sn k = Ok r /\
    knn_buffers (buffer_size r0) res (num_found_neighbors r) (indices r) (distances r) /\
    (is_knn dist (length points) (buffer_size r0) res \/
     is_early_knn dist (length points) (buffer_size r0) epsilon res).
Proof.
  intros Hoe He2 E0 Hb0. destruct knn_search_fold as (order & HP & H).
  destruct (H sn k r0 E0 Hb0) as (r & b & l & E & K & B & T & F).
  exists r, l. split; [exact E|]. split; [rewrite <- B; apply krep_buffers; auto|].
  destruct b.
  - left. rewrite (T eq_refl). eapply topk_is_knn; eauto. apply dist_ok.
  - right. destruct (F eq_refl) as (Hw & Sv & rest & HP2 & El).
    assert (HNo : NoDup (Sv ++ rest)).
    { eapply Permutation_NoDup; [exact HP2|].
      eapply Permutation_NoDup; [apply Permutation_sym; exact HP|apply seq_NoDup]. }
    assert (HN : NoDup Sv).
    { replace Sv with (firstn (length Sv) (Sv ++ rest))
        by (rewrite firstn_app, firstn_all, Nat.sub_diag; simpl; apply app_nil_r).
      apply NoDup_firstn. exact HNo. }
    assert (HSb : forall j, In j Sv -> j < length points).
    { intros j Hj. assert (Hj2 : In j order).
      { apply (Permutation_in _ (Permutation_sym HP2)). apply in_app_iff. auto. }
      apply (Permutation_in _ HP) in Hj2. apply in_seq in Hj2. lia. }
    destruct (topk_genuine D ok OL dist (length points) dist_ok (buffer_size r0) Sv HN HSb)
      as (A1 & A2 & A3). rewrite <- El in *.
    destruct K as (k1 & k2 & k3 & k4 & k5 & k6 & k7 & k8). rewrite B in *.
    unfold aworst in Hw. destruct (nth_error l (buffer_size r0 - 1)) as [c|] eqn:En; [|congruence].
    assert (Hlen : buffer_size r0 - 1 < length l) by (apply nth_error_Some; congruence).
    split; [lia|]. split; [exact A1|]. split; [exact A2|]. split; [exact A3|].
    intros x Hx.
    destruct (exists_last (l := l)) as (l0 & y & Ey).
    { intros ->; simpl in *; lia. }
    assert (y = c).
    { rewrite Ey in En. rewrite nth_error_app2 in En by (rewrite Ey, app_length in *; simpl in *; lia).
      replace (buffer_size r0 - 1 - length l0) with 0 in En
        by (rewrite Ey, app_length in *; simpl in *; lia). simpl in En. congruence. }
    subst y. rewrite Ey in A3, Hx, k7.
    assert (Hxc : nlt (snd c) (snd x) = false).
    { apply in_app_iff in Hx. destruct Hx as [Hx|[<-|[]]].
      - apply ascending_app_inv in A3. destruct A3 as (_ & _ & A3).
        rewrite Forall_forall in A3. specialize (A3 x Hx). inversion A3; auto.
      - apply (ol_irrefl _ _ OL). apply Forall_app in k7. destruct k7 as [_ k7].
        inversion k7; auto. }
    rewrite Forall_forall in k7.
    destruct (nlt (snd x) epsilon) eqn:G; auto.
    rewrite (ol_cotrans _ _ OL (snd c) (snd x) epsilon) in Hw; auto; try discriminate.
    + apply k7. apply in_app_iff. right; left; auto.
    + apply k7. auto.
Qed.
End Query.
End Build.
End Top.
