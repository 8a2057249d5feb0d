(** Proofs about the kd-tree search. *)
From Coq Require Import ZifyBool ZifyNat ZifyN.
From Verif Require Import Base BaseProofs Num Vec KnnModel KnnSpec KnnProofs KdModel KdSpec KdProofs.
Ltac Zify.zify_post_hook ::= Z.div_mod_to_equations.

Lemma foldM_seq_slice {T A} (f : T -> A -> outcome T) (idx : list A) a b s :
  a <= b -> b <= length idx ->
  foldM (fun r i => let* j := get idx i in f r j) (seq a (b - a)) s = foldM f (slice idx a b) s.
Proof.
  intros Hab Hb. remember (b - a) as n eqn:En.
  revert a s Hab En. induction n as [|n IH]; intros a s Hab En.
  - unfold slice. replace (b - a) with 0 by lia. reflexivity.
  - cbn [seq foldM]. destruct (nth_error idx a) as [x|] eqn:Ex.
    2:{ apply nth_error_None in Ex. lia. }
    rewrite (proj2 (get_Ok idx a x) Ex). cbn [bind].
    rewrite (slice_split idx a (S a) b) by lia.
    assert (slice idx a (S a) = [x]) as ->.
    { apply nth_error_ext. intros i. rewrite nth_error_slice.
      destruct (i <? S a - a) eqn:Q.
      - replace i with 0 by lia. rewrite Nat.add_0_r. exact Ex.
      - destruct i as [|[|i]]; try reflexivity. lia. }
    cbn [app foldM]. apply bind_ext. intros s'. apply IH; lia.
Qed.

Section Search.
Context (D : num) (ok : car D -> Prop) (OL : order_laws D ok).
Context (pt : Type) (sqd : pt -> pt -> car D).
Context (P : Type) (papply : P -> pt -> car D).
Context (points : list pt) (query : pt) (epsilon : car D).
Notation atree := (atree D P).

Definition push_point (r : knn_result D) (j : nat) : outcome (knn_result D) :=
  let* p := get points j in push r (N.of_nat j) (sqd p query).

(** The search on abstract trees. *)
Fixpoint asearch (t : atree) (r : knn_result D) : outcome (knn_result D * bool) :=
  match t with
  | ALeaf sl =>
      let* r := foldM push_point sl r in
      let* ful := fulfilled epsilon r in
      Ok (r, negb ful)
  | ANode proj th lt rt =>
      let diff := nsub (papply proj query) th in
      let cut := nmul diff diff in
      let* (r, go) := asearch (if nlt diff nzero then lt else rt) r in
      if negb go then Ok (r, false)
      else
        let* w := worst_distance r in
        if nlt cut w then asearch (if nlt diff nzero then rt else lt) r
        else Ok (r, true)
  end.

Lemma asearch_node proj th lt rt r :
  asearch (ANode proj th lt rt) r =
      let diff := nsub (papply proj query) th in
      let cut := nmul diff diff in
      let* (r, go) := asearch (if nlt diff nzero then lt else rt) r in
      if negb go then Ok (r, false)
      else
        let* w := worst_distance r in
        if nlt cut w then asearch (if nlt diff nzero then rt else lt) r
        else Ok (r, true).
Proof. reflexivity. Qed.

Lemma search_asearch (tree : kdtree D P) t : forall fuel id first last ids r,
  rep D P (t_nodes tree) (t_indices tree) id first last t ids ->
  (N.of_nat (length (t_nodes tree)) <= INVALID_NODE)%N ->
  (N.of_nat (length (t_indices tree)) <= INVALID_NODE)%N ->
  adepth D P t <= fuel ->
  search sqd papply points tree query epsilon fuel (N.of_nat id) r = asearch t r.
Proof.
  induction t as [sl|proj th l IHl r' IHr]; intros fuel id first last ids r H Hn Hi Hf;
    (destruct fuel as [|fuel]; [simpl in Hf; lia|]).
  - destruct H as (-> & H1 & H2 & H3 & H4).
    cbn [search]. rewrite Nat2N.id. rewrite (proj2 (get_Ok _ _ _) H1). cbn [bind left ntype].
    rewrite N.eqb_refl. unfold scan_leaf.
    rewrite !Nat2N.id. rewrite <- H4.
    change (fun (r0 : knn_result D) (i : nat) =>
       let* j := get (t_indices tree) i in
       let* p := get points j in push r0 (N.of_nat j) (sqd p query))
      with (fun (r0 : knn_result D) (i : nat) =>
       let* j := get (t_indices tree) i in push_point r0 j).
    rewrite foldM_seq_slice by auto. reflexivity.
  - destruct H as (lid & rid & m & lids & rids & -> & H1 & H2 & H3 & H4 & H5 & H6 & Hl & Hr).
    cbn [search]. rewrite Nat2N.id. rewrite (proj2 (get_Ok _ _ _) H1). cbn [bind left ntype right].
    assert ((N.of_nat lid =? INVALID_NODE)%N = false) as -> by lia.
    rewrite asearch_node. cbv zeta. cbn [adepth] in Hf.
    destruct (nlt (nsub (papply proj query) th) nzero).
    + erewrite IHl by (eauto; lia). apply bind_ext. intros [r1 go].
      destruct (negb go); auto. apply bind_ext. intros w.
      destruct (nlt _ w); auto. eapply IHr; eauto; lia.
    + erewrite IHr by (eauto; lia). apply bind_ext. intros [r1 go].
      destruct (negb go); auto. apply bind_ext. intros w.
      destruct (nlt _ w); auto. eapply IHl; eauto; lia.
Qed.

(** * Correctness on abstract trees *)
Context (good : pt -> Prop).
Hypothesis sqd_ok : forall p q, good p -> good q -> ok (sqd p q).
Context (pgood : P -> Prop).

(** Pruning is sound for the projection. *)
Definition prune_law : Prop :=
  forall proj p m, pgood proj -> good p -> good m ->
    let diff := nsub (papply proj query) (papply proj m) in
    let cut := nmul diff diff in
    ok cut /\
    (nlt diff nzero = true -> nlt (papply proj p) (papply proj m) = false ->
       nlt (sqd p query) cut = false) /\
    (nlt diff nzero = false -> nlt (papply proj m) (papply proj p) = false ->
       nlt (sqd p query) cut = false).
Hypothesis PL : prune_law.
Hypothesis points_good : forall p, In p points -> good p.
Hypothesis query_good : good query.

(** Candidates in the order the search visits them. *)
Definition mk (j : nat) : N * car D :=
  match nth_error points j with
  | Some p => (N.of_nat j, sqd p query)
  | None => (N.of_nat j, nzero)
  end.

Fixpoint visit (t : atree) : list nat :=
  match t with
  | ALeaf sl => sl
  | ANode proj th l r =>
      if nlt (nsub (papply proj query) th) nzero then visit l ++ visit r else visit r ++ visit l
  end.

Lemma visit_Permutation t : Permutation (visit t) (aelems D P t).
Proof.
  induction t as [sl|proj th l IHl r IHr]; simpl; auto.
  destruct (nlt _ _).
  - apply Permutation_app; auto.
  - rewrite Permutation_app_comm. apply Permutation_app; auto.
Qed.

Lemma mk_ok j : j < length points -> okc D ok (mk j).
Proof.
  intros H. unfold okc, mk. destruct (nth_error points j) as [p|] eqn:E.
  - simpl. apply sqd_ok; auto. apply points_good. eapply nth_error_In; eauto.
  - apply nth_error_None in E. lia.
Qed.

Lemma apush_noop k l c :
  0 < k -> length l <= k -> okc D ok c -> Forall (okc D ok) l -> ascending l ->
  nlt (snd c) (aworst D k l) = false -> apush D k l c = l.
Proof.
  intros Hk Hl Hc Hok Ha E. unfold apush. destruct (reachable_dist c) eqn:R; auto.
  unfold aworst in E. destruct (nth_error l (k - 1)) as [x|] eqn:En.
  - assert (length l = k).
    { assert (k - 1 < length l) by (apply nth_error_Some; congruence). lia. }
    destruct (exists_last (l := l)) as (l' & y & ->).
    { intros ->; simpl in *; lia. }
    rewrite app_length in H; simpl in H.
    rewrite nth_error_app2 in En by lia.
    replace (k - 1 - length l') with 0 in En by lia. simpl in En. inversion En; subst y.
    rewrite (ins_ge_last D).
    + rewrite firstn_app. rewrite app_length; simpl. replace (k - (length l' + 1)) with 0 by lia.
      simpl. rewrite app_nil_r. apply firstn_all2. rewrite app_length; simpl; lia.
    + eapply ascending_last_max; eauto.
  - unfold reachable_dist in R. congruence.
Qed.

Lemma fold_apush_noop k l L :
  0 < k -> length l <= k -> Forall (okc D ok) L -> Forall (okc D ok) l -> ascending l ->
  Forall (fun c => nlt (snd c) (aworst D k l) = false) L ->
  fold_left (apush D k) L l = l.
Proof.
  intros Hk Hl HL Hok Ha. induction L as [|c L IH]; simpl; intros F; auto.
  inversion F; inversion HL; subst. rewrite apush_noop; auto.
Qed.

Lemma foldM_push_point sl : forall r, 
  (forall i, In i sl -> i < length points) ->
  foldM push_point sl r = push_all r (map mk sl).
Proof.
  induction sl as [|j sl IH]; intros r H; [reflexivity|].
  change (push_all r (map mk (j :: sl)))
    with (let* r' := push r (fst (mk j)) (snd (mk j)) in push_all r' (map mk sl)).
  cbn [foldM]. unfold push_point at 1, mk at 1 2.
  destruct (nth_error points j) as [p|] eqn:E.
  - rewrite (proj2 (get_Ok _ _ _) E). cbn [bind fst snd]. apply bind_ext. intros r'.
    apply IH. intros; apply H; right; auto.
  - exfalso. apply nth_error_None in E. assert (j < length points) by (apply H; left; auto). lia.
Qed.

Lemma asearch_spec t : forall r l,
  krep D ok r l ->
  (forall i, In i (aelems D P t) -> i < length points) ->
  kd_inv D pt P papply pgood points t ->
  exists r' b l',
    asearch t r = Ok (r', b) /\ krep D ok r' l' /\ buffer_size r' = buffer_size r /\
    (b = true -> l' = fold_left (apush D (buffer_size r)) (map mk (visit t)) l) /\
    (b = false ->
       nlt (aworst D (buffer_size r) l') epsilon = true /\
       exists Sv rest, Permutation (visit t) (Sv ++ rest) /\
                      l' = fold_left (apush D (buffer_size r)) (map mk Sv) l).
Proof.
  induction t as [sl|proj th lt IHl rt IHr]; intros r l K Hb Hinv.
  - (* leaf *)
    cbn [asearch]. cbn [aelems] in Hb.
    rewrite foldM_push_point by auto.
    destruct (push_all_krep D ok OL (map mk sl) r l K) as (r1 & E1 & K1 & B1).
    { apply Forall_forall. intros c Hc. apply in_map_iff in Hc. destruct Hc as (j & <- & Hj).
      apply mk_ok. auto. }
    rewrite E1. cbn [bind]. unfold fulfilled.
    rewrite (worst_krep D ok r1 _ K1). cbn [bind].
    eexists r1, _, _. split; [reflexivity|]. split; [exact K1|]. split; [exact B1|]. split.
    + intros _. reflexivity.
    + intros H. rewrite negb_false_iff in H. rewrite B1 in H. split; [exact H|].
      exists sl, []. split; [rewrite app_nil_r; apply Permutation_refl|]. reflexivity.
  - (* inner *)
    rewrite asearch_node. cbv zeta.
    cbn [kd_inv] in Hinv. destruct Hinv as (Hpr & (mp & Hmp & Hth) & HL & HR & Il & Ir).
    cbn [aelems] in Hb. cbn [visit].
    set (diff := nsub (papply proj query) th) in *.
    set (first := if nlt diff nzero then lt else rt).
    set (other := if nlt diff nzero then rt else lt).
    assert (Hvisit : (if nlt diff nzero then visit lt ++ visit rt else visit rt ++ visit lt)
                     = visit first ++ visit other).
    { unfold first, other. destruct (nlt diff nzero); reflexivity. }
    rewrite Hvisit. clear Hvisit.
    assert (IHf : forall r l, krep D ok r l ->
       exists r' b l',
       asearch first r = Ok (r', b) /\ krep D ok r' l' /\ buffer_size r' = buffer_size r /\
       (b = true -> l' = fold_left (apush D (buffer_size r)) (map mk (visit first)) l) /\
       (b = false ->
       nlt (aworst D (buffer_size r) l') epsilon = true /\
       exists Sv rest, Permutation (visit first) (Sv ++ rest) /\
                      l' = fold_left (apush D (buffer_size r)) (map mk Sv) l)).
    { unfold first. destruct (nlt diff nzero); [intros; apply IHl|intros; apply IHr]; auto;
      intros; apply Hb; apply in_app_iff; auto. }
    assert (IHo : forall r l, krep D ok r l ->
       exists r' b l',
       asearch other r = Ok (r', b) /\ krep D ok r' l' /\ buffer_size r' = buffer_size r /\
       (b = true -> l' = fold_left (apush D (buffer_size r)) (map mk (visit other)) l) /\
       (b = false ->
       nlt (aworst D (buffer_size r) l') epsilon = true /\
       exists Sv rest, Permutation (visit other) (Sv ++ rest) /\
                      l' = fold_left (apush D (buffer_size r)) (map mk Sv) l)).
    { unfold other. destruct (nlt diff nzero); [intros; apply IHr|intros; apply IHl]; auto;
      intros; apply Hb; apply in_app_iff; auto. }
    clear IHl IHr.
    assert (Hcut : forall j, In j (visit other) ->
               okc D ok (mk j) /\ ok (nmul diff diff) /\ nlt (snd (mk j)) (nmul diff diff) = false).
    { intros j Hj.
      assert (Hjp : j < length points).
      { apply Hb. apply in_app_iff. unfold other in Hj.
        destruct (nlt diff nzero); apply (Permutation_in _ (visit_Permutation _)) in Hj; auto. }
      split; [apply mk_ok; auto|].
      destruct (nth_error points j) as [p|] eqn:Ej.
      2:{ apply nth_error_None in Ej. lia. }
      assert (Gp : good p) by (apply points_good; eapply nth_error_In; eauto).
      destruct (PL proj p mp Hpr Gp (points_good _ Hmp)) as (Hok & PL1 & PL2).
      rewrite <- Hth in Hok, PL1, PL2. fold diff in Hok, PL1, PL2.
      split; [exact Hok|]. unfold mk. rewrite Ej. cbn [snd].
      unfold other in Hj. destruct (nlt diff nzero) eqn:Ed.
      - apply PL1; auto. eapply HR; eauto.
        apply (Permutation_in _ (visit_Permutation _)). auto.
      - apply PL2; auto. eapply HL; eauto.
        apply (Permutation_in _ (visit_Permutation _)). auto. }
    destruct (IHf r l K) as (r1 & b1 & l1 & E1 & K1 & B1 & T1 & F1).
    rewrite E1. cbn [bind]. destruct b1; cbn [negb].
    + specialize (T1 eq_refl). rewrite (worst_krep D ok r1 _ K1). cbn [bind]. rewrite B1.
      destruct (nlt (nmul diff diff) (aworst D (buffer_size r) l1)) eqn:Ew.
      * destruct (IHo r1 l1 K1) as (r2 & b2 & l2 & E2 & K2 & B2 & T2 & F2).
        exists r2, b2, l2. rewrite B1 in *.
        split; [exact E2|]. split; [exact K2|]. split; [congruence|]. split.
        { intros Hb2. rewrite map_app, fold_left_app, <- T1. apply T2; auto. }
        { intros Hb2. destruct (F2 Hb2) as (Hw & Sv & rest & HP & HS). split; auto.
          exists (visit first ++ Sv), rest. split.
          - rewrite HP, app_assoc. apply Permutation_refl.
          - rewrite map_app, fold_left_app, <- T1. exact HS. }
      * exists r1, true, l1. split; [reflexivity|]. split; [exact K1|]. split; [exact B1|].
        split; [|discriminate]. intros _.
        rewrite map_app, fold_left_app, <- T1. symmetry.
        destruct K1 as (k1 & k2 & _ & _ & _ & k6 & k7 & k8). rewrite B1 in *.
        apply fold_apush_noop; auto.
        { apply Forall_forall. intros c Hc. apply in_map_iff in Hc.
          destruct Hc as (j & <- & Hj). apply Hcut; auto. }
        { apply Forall_forall. intros c Hc. apply in_map_iff in Hc.
          destruct Hc as (j & <- & Hj). destruct (Hcut j Hj) as (c1 & c2 & c3).
          eapply (ol_cotrans _ _ OL _ (nmul diff diff) _); auto.
          apply (aworst_ok D ok OL); auto. }
    + destruct (F1 eq_refl) as (Hw & Sv & rest & HP & HS).
      exists r1, false, l1. split; [reflexivity|]. split; [exact K1|]. split; [exact B1|].
      split; [discriminate|]. intros _. split; auto.
      exists Sv, (rest ++ visit other). split; [|exact HS].
      rewrite HP, <- app_assoc. apply Permutation_refl.
Qed.

End Search.
