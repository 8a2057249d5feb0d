(** Search with a projection whose pruning is not exact. *)
From Coq Require Import Reals Lra Psatz ZifyBool ZifyNat ZifyN.
From Flocq Require Import Core IEEE754.BinarySingleNaN.
From Verif Require Import Base BaseProofs Num Vec F64 F64Proofs F64Err KnnModel KnnSpec KnnProofs
  KdModel KdSpec KdProofs KdSearchProofs KdTop KdF64 KdNearSpec.
Open Scope nat_scope.

Section Generic.
Context (D : num) (ok : car D -> Prop) (OL : order_laws D ok).
Context (pt : Type) (sqd : pt -> pt -> car D).
Context (P : Type) (papply : P -> pt -> car D).
Context (points : list pt) (query : pt) (epsilon : car D).
Context (good : pt -> Prop) (pgood : P -> Prop).
Hypothesis sqd_ok : forall p q, good p -> good q -> ok (sqd p q).
Hypothesis points_good : forall p, In p points -> good p.
Hypothesis query_good : good query.
Definition cut_of (proj : P) (m : pt) : car D :=
  let diff := nsub (papply proj query) (papply proj m) in nmul diff diff.
Hypothesis cut_ok : forall proj m, pgood proj -> good m -> ok (cut_of proj m).
Notation atree := (atree D P).
Notation mk := (mk D pt sqd points query).
Notation visit := (visit D pt P papply query).
Notation asearch := (asearch D pt sqd P papply points query epsilon).

(** Point [j] was skipped at a split ([proj], [m]) because of the distance to it. *)
Definition skipped (j : nat) (w : car D) : Prop :=
  exists proj m p, pgood proj /\ In m points /\ nth_error points j = Some p /\ nlt (cut_of proj m) w = false /\
    ((nlt (nsub (papply proj query) (papply proj m)) nzero = true /\ nlt (papply proj p) (papply proj m) = false) \/
     (nlt (nsub (papply proj query) (papply proj m)) nzero = false /\ nlt (papply proj m) (papply proj p) = false)).

Lemma skipped_le j w w' : ok w -> ok w' -> nlt w w' = false -> skipped j w -> skipped j w'.
Proof using OL cut_ok points_good.
  intros W W' L (proj & m & p & A & B & C & E & F). exists proj, m, p. split; [exact A|]. split; [exact B|]. split; [exact C|]. split; [|exact F].
  eapply (ol_cotrans _ _ OL _ w _); auto.
Qed.

Lemma aworst_push k (l : list (N * car D)) c : 0 < k -> length l <= k -> okc D ok c -> Forall (okc D ok) l -> ascending l ->
  Forall (fun c => reachable_dist c = true) l -> nlt (aworst D k l) (aworst D k (apush D k l c)) = false.
Proof using OL sqd_ok points_good query_good cut_ok.
  intros Hk Hl Hc Hok Ha Hr. unfold apush. destruct (reachable_dist c) eqn:R.
  2:{ apply (ol_irrefl _ _ OL). apply (aworst_ok D ok OL). exact Hok. }
  destruct (le_lt_dec k (length l)) as [G|G].
  - assert (E : length l = k) by lia. destruct (exists_last (l := l)) as (l0 & x & ->); [intros ->; simpl in *; lia|].
    rewrite app_length in E. simpl in E.
    assert (EX : aworst D k (l0 ++ [x]) = snd x).
    { unfold aworst. rewrite nth_error_app2 by lia. replace (k - 1 - length l0) with 0 by lia. reflexivity. }
    rewrite EX. destruct (nlt (snd c) (snd x)) eqn:L.
    + rewrite (ins_snoc_lt D ok c l0 x Hc L).
      assert (FI : firstn k (ins D c l0 ++ [x]) = ins D c l0).
      { rewrite firstn_app, ins_length. replace (k - S (length l0)) with 0 by lia. simpl. rewrite app_nil_r. apply firstn_all2. rewrite ins_length. lia. }
      rewrite FI. unfold aworst. destruct (nth_error (ins D c l0) (k - 1)) as [y|] eqn:Ey.
      2:{ apply nth_error_None in Ey. rewrite ins_length in Ey. lia. }
      apply nth_error_In in Ey. apply (Permutation_in _ (Permutation_sym (ins_Permutation D c l0))) in Ey.
      apply Forall_app in Hok. destruct Hok as (Ho & Hx). inversion Hx; subst.
      destruct Ey as [<-|Ey]; [apply (nlt_asym D ok OL); auto|].
      apply ascending_app_inv in Ha. destruct Ha as (_ & _ & Ha). rewrite Forall_forall in Ha. specialize (Ha y Ey). inversion Ha; auto.
    + assert (NO : apush D k (l0 ++ [x]) c = l0 ++ [x]).
      { apply (apush_noop D ok OL pt sqd points query good sqd_ok points_good query_good); auto. rewrite EX. exact L. }
      unfold apush in NO. rewrite R in NO. rewrite NO, EX. apply (ol_irrefl _ _ OL). apply Forall_app in Hok. destruct Hok as (_ & Hx). inversion Hx; auto.
  - assert (EX : aworst D k l = nmaxv).
    { unfold aworst. destruct (nth_error l (k - 1)) eqn:En; [|reflexivity].
      assert (k - 1 < length l) by (apply nth_error_Some; congruence). lia. }
    rewrite EX. rewrite firstn_all2 by (rewrite ins_length; lia).
    apply (aworst_le_max D ok OL).
    + apply (ins_okc D ok); auto.
    + eapply Permutation_Forall; [apply ins_Permutation|]. constructor; auto.
Qed.

Definition fine (k : nat) (l : list (N * car D)) : Prop :=
  0 < k /\ length l <= k /\ Forall (okc D ok) l /\ ascending l /\ Forall (fun c => reachable_dist c = true) l.
Lemma apush_fine k l c : fine k l -> okc D ok c -> fine k (apush D k l c).
Proof using OL sqd_ok points_good query_good cut_ok.
  intros (A & B & C & E & F) Hc. unfold apush. destruct (reachable_dist c) eqn:R; [|split; auto].
  pose proof (ins_okc D ok c l Hc C) as C'. pose proof (ins_ascending D ok OL c l Hc C E) as E'.
  assert (F' : Forall (fun c => reachable_dist c = true) (ins D c l)) by (eapply Permutation_Forall; [apply ins_Permutation|constructor; auto]).
  rewrite <- (firstn_skipn k (ins D c l)) in C', E', F'. apply Forall_app in C', F'. apply ascending_app_inv in E'.
  split; [exact A|]. split; [rewrite firstn_length; lia|]. tauto.
Qed.
Lemma fold_fine k L : forall l, fine k l -> Forall (okc D ok) L ->
  fine k (fold_left (apush D k) L l) /\ nlt (aworst D k l) (aworst D k (fold_left (apush D k) L l)) = false.
Proof using OL sqd_ok points_good query_good cut_ok.
  induction L as [|c L IH]; intros l FL HL; cbn [fold_left].
  - split; [exact FL|]. apply (ol_irrefl _ _ OL). apply (aworst_ok D ok OL). apply FL.
  - inversion HL; subst. destruct (IH (apush D k l c) (apush_fine k l c FL H1) H2) as (A & B). split; [exact A|].
    destruct FL as (F1 & F2 & F3 & F4 & F5). destruct (apush_fine k l c (conj F1 (conj F2 (conj F3 (conj F4 F5)))) H1) as (_ & _ & G & _).
    destruct A as (_ & _ & GA & _).
    eapply (ol_cotrans _ _ OL _ (aworst D k (apush D k l c)) _); try apply (aworst_ok D ok OL); auto.
    apply aworst_push; auto.
Qed.

Lemma asearch_near t : forall r l,
  krep D ok r l ->
  (forall i, In i (aelems D P t) -> i < length points) ->
  kd_inv D pt P papply pgood points t ->
  exists r' b Sv rest,
    let l' := fold_left (apush D (buffer_size r)) (map mk Sv) l in
    asearch t r = Ok (r', b) /\ krep D ok r' l' /\ buffer_size r' = buffer_size r /\
    Permutation (visit t) (Sv ++ rest) /\
    (b = true -> forall j, In j rest -> skipped j (aworst D (buffer_size r) l')) /\
    (b = false -> nlt (aworst D (buffer_size r) l') epsilon = true).
Proof using OL sqd_ok points_good query_good cut_ok.
  induction t as [sl|proj th lt IHl rt IHr]; intros r l K Hb Hinv.
  - cbn [KdSearchProofs.asearch]. cbn [aelems] in Hb.
    rewrite (foldM_push_point D ok pt sqd points query good sqd_ok points_good query_good) by auto.
    destruct (push_all_krep D ok OL (map mk sl) r l K) as (r1 & E1 & K1 & B1).
    { apply Forall_forall. intros c Hc. apply in_map_iff in Hc. destruct Hc as (j & <- & Hj).
      apply (mk_ok D ok pt sqd points query good sqd_ok points_good query_good). auto. }
    rewrite E1. cbn [bind]. unfold fulfilled.
    rewrite (worst_krep D ok r1 _ K1). cbn [bind].
    exists r1, (negb (nlt (aworst D (buffer_size r1) (fold_left (apush D (buffer_size r)) (map mk sl) l)) epsilon)), sl, []. split; [reflexivity|]. split; [exact K1|]. split; [exact B1|].
    split; [cbn [KdSearchProofs.visit]; rewrite app_nil_r; apply Permutation_refl|]. split; [intros _ j []|].
    intros H. rewrite negb_false_iff in H. rewrite B1 in H. exact H.
  - rewrite asearch_node. cbv zeta.
    cbn [kd_inv] in Hinv. destruct Hinv as (Hpr & (mp & Hmp & Hth) & HL & HR & Il & Ir).
    cbn [aelems] in Hb. cbn [KdSearchProofs.visit].
    set (diff := nsub (papply proj query) th) in *.
    set (first := if nlt diff nzero then lt else rt).
    set (other := if nlt diff nzero then rt else lt).
    assert (Hvisit : (if nlt diff nzero then visit lt ++ visit rt else visit rt ++ visit lt)
                     = visit first ++ visit other).
    { unfold first, other. destruct (nlt diff nzero); reflexivity. }
    rewrite Hvisit. clear Hvisit.
    assert (Hel : forall j, In j (visit first) \/ In j (visit other) -> j < length points).
    { intros j Hj. apply Hb. apply in_app_iff. unfold first, other in Hj.
      destruct (nlt diff nzero); destruct Hj as [Hj|Hj]; apply (Permutation_in _ (visit_Permutation _ _ _ _ _ _)) in Hj; auto. }
    pose (Q := fun tt => forall r l, krep D ok r l ->
       exists r' b Sv rest,
       let l' := fold_left (apush D (buffer_size r)) (map mk Sv) l in
       asearch tt r = Ok (r', b) /\ krep D ok r' l' /\ buffer_size r' = buffer_size r /\
       Permutation (visit tt) (Sv ++ rest) /\
       (b = true -> forall j, In j rest -> skipped j (aworst D (buffer_size r) l')) /\
       (b = false -> nlt (aworst D (buffer_size r) l') epsilon = true)).
    assert (IHf : Q first).
    { unfold first, Q. destruct (nlt diff nzero); [intros; apply IHl|intros; apply IHr]; auto;
      intros; apply Hb; apply in_app_iff; auto. }
    assert (IHo : Q other).
    { unfold other, Q. destruct (nlt diff nzero); [intros; apply IHr|intros; apply IHl]; auto;
      intros; apply Hb; apply in_app_iff; auto. }
    clear IHl IHr. unfold Q in IHf, IHo. clear Q.
    assert (Hmk : forall L, (forall j, In j L -> j < length points) -> Forall (okc D ok) (map mk L)).
    { intros L HL'. apply Forall_forall. intros c Hc. apply in_map_iff in Hc. destruct Hc as (j & <- & Hj).
      apply (mk_ok D ok pt sqd points query good sqd_ok points_good query_good). auto. }
    destruct (IHf r l K) as (r1 & b1 & S1 & R1 & E1 & K1 & B1 & P1 & T1 & F1).
    rewrite E1. cbn [bind]. destruct b1; cbn [negb].
    + specialize (T1 eq_refl). rewrite (worst_krep D ok r1 _ K1). cbn [bind]. rewrite B1.
      set (l1 := fold_left (apush D (buffer_size r)) (map mk S1) l) in *.
      destruct (nlt (nmul diff diff) (aworst D (buffer_size r) l1)) eqn:Ew.
      * destruct (IHo r1 l1 K1) as (r2 & b2 & S2 & R2 & E2 & K2 & B2 & P2 & T2 & F2). rewrite B1 in *.
        assert (EF : fold_left (apush D (buffer_size r)) (map mk (S1 ++ S2)) l = fold_left (apush D (buffer_size r)) (map mk S2) l1)
          by (rewrite map_app, fold_left_app; reflexivity).
        exists r2, b2, (S1 ++ S2), (R1 ++ R2). rewrite EF.
        split; [exact E2|]. split; [exact K2|]. split; [congruence|]. split.
        { rewrite P1, P2, <- !app_assoc. apply Permutation_app_head. rewrite !app_assoc. apply Permutation_app_tail, Permutation_app_comm. }
        split; [|exact F2]. intros Hb2 j Hj. apply in_app_iff in Hj. destruct Hj as [Hj|Hj]; [|apply T2; auto].
        destruct K1 as (k1 & k2 & _ & _ & _ & k6 & k7 & k8). rewrite B1 in *.
        destruct (fold_fine (buffer_size r) (map mk S2) l1) as ((_ & _ & G & _) & M).
        { split; auto. }
        { apply Hmk. intros i Hi. apply Hel. right. apply (Permutation_in _ (Permutation_sym P2)). apply in_app_iff; auto. }
        apply (skipped_le j (aworst D (buffer_size r) l1)); [apply (aworst_ok D ok OL); auto|apply (aworst_ok D ok OL); auto|exact M|apply T1; exact Hj].
      * exists r1, true, S1, (R1 ++ visit other). fold l1. split; [reflexivity|]. split; [exact K1|]. split; [exact B1|].
        split; [rewrite P1, <- app_assoc; apply Permutation_refl|]. split; [|discriminate]. intros _ j Hj.
        apply in_app_iff in Hj. destruct Hj as [Hj|Hj]; [apply T1; exact Hj|].
        assert (Hjp : j < length points) by (apply Hel; auto).
        destruct (nth_error points j) as [p|] eqn:Ej; [|apply nth_error_None in Ej; lia].
        exists proj, mp, p. split; [exact Hpr|]. split; [exact Hmp|]. split; [exact Ej|]. unfold cut_of. rewrite <- Hth. fold diff.
        split; [exact Ew|]. apply (Permutation_in _ (visit_Permutation _ _ _ _ _ _)) in Hj. unfold other in Hj.
        destruct (nlt diff nzero) eqn:Ed; [left|right]; (split; [reflexivity|]); [eapply HR|eapply HL]; eauto.
    + exists r1, false, S1, (R1 ++ visit other). split; [reflexivity|]. split; [exact K1|]. split; [exact B1|].
      split; [rewrite P1, <- app_assoc; apply Permutation_refl|]. split; [discriminate|]. exact F1.
Qed.

Notation dist := (dist_to sqd points query).
Context (max_leaf_size : Z) (tree : kdtree D P).
Hypothesis WF : wf_tree D pt P papply pgood points max_leaf_size tree.
Hypothesis cut_small : forall proj m, pgood proj -> In m points -> nlt (cut_of proj m) nmaxv = true.

Theorem knn_search_near sn k r0 :
  (forall j, j < length points -> nlt (dist j) epsilon = false) -> nlt nmaxv epsilon = false ->
  knn_init D sn k = Ok r0 -> 0 < buffer_size r0 ->
  exists r res,
    knn_search sqd papply points tree query epsilon sn k = Ok r /\
    knn_buffers (buffer_size r0) res (num_found_neighbors r) (indices r) (distances r) /\
    nearly_knn dist skipped (length points) (buffer_size r0) res.
Proof using OL sqd_ok points_good query_good cut_ok WF cut_small.
  intros He1 He2 E0 Hb0.
  assert (Dok : forall j, j < length points -> ok (dist j)).
  { intros j Hj. unfold dist_to. destruct (nth_error points j) as [p|] eqn:E; [|apply nth_error_None in E; lia].
    apply sqd_ok; auto. apply points_good. eapply nth_error_In; eauto. }
  destruct WF as (t & root & ids & Hroot & Hrep & HP & HI & _ & _ & _ & Hd & Hn & Hi).
  pose proof (rep_elems _ _ _ _ _ _ _ _ _ Hrep) as (_ & Hlen & Hel).
  assert (Hel' : t_indices tree = aelems D P t).
  { rewrite <- Hel. unfold slice. rewrite Nat.sub_0_r. simpl. rewrite firstn_all2; auto.
    apply Permutation_length in HP. rewrite seq_length in HP. lia. }
  destruct (asearch_near t r0 [] (knn_init_Ok D ok sn k r0 E0 Hb0)) as (r & b & Sv & rest & Es & K & Bs & PV & T & F).
  { intros i Hin. rewrite <- Hel' in Hin. apply (Permutation_in _ (Permutation_sym HP)) in Hin. apply in_seq in Hin. lia. }
  { exact HI. }
  assert (PA : Permutation (Sv ++ rest) (seq 0 (length points))).
  { rewrite <- PV, visit_Permutation, <- Hel'. symmetry. exact HP. }
  set (kk := buffer_size r0) in *.
  assert (EL : fold_left (apush D kk) (map mk Sv) [] = firstn kk (isort D (filter reachable_dist (map (mkc D dist) Sv)))).
  { rewrite <- fold_apush_topk. f_equal. apply map_ext. intros j. unfold KdSearchProofs.mk, mkc, dist_to. destruct (nth_error points j); reflexivity. }
  cbv zeta in *. rewrite EL in *. set (res := firstn kk (isort D (filter reachable_dist (map (mkc D dist) Sv)))) in *.
  exists r, res. split.
  { unfold knn_search. rewrite E0. cbn [bind]. rewrite Hroot.
    rewrite (search_asearch D pt sqd P papply points query epsilon tree t _ _ _ _ _ _ Hrep) by lia.
    rewrite Es. reflexivity. }
  assert (Kb : knn_buffers kk res (num_found_neighbors r) (indices r) (distances r)).
  { destruct K as (H1 & H2 & H3 & H4 & H5 & _). rewrite Bs in *. repeat split; auto. }
  split; [exact Kb|].
  assert (HNo : NoDup (Sv ++ rest)) by (eapply Permutation_NoDup; [symmetry; exact PA|apply seq_NoDup]).
  assert (HN : NoDup Sv).
  { replace Sv with (firstn (length Sv) (Sv ++ rest)) by (rewrite firstn_app, firstn_all, Nat.sub_diag; simpl; apply app_nil_r).
    apply NoDup_firstn. exact HNo. }
  assert (HSb : forall j, In j Sv -> j < length points).
  { intros j Hj. assert (Hj2 : In j (Sv ++ rest)) by (apply in_app_iff; auto).
    apply (Permutation_in _ PA) in Hj2. apply in_seq in Hj2. lia. }
  destruct (topk_genuine D ok OL dist (length points) Dok kk Sv HN HSb) as (A1 & A2 & A3). fold res in A1, A2, A3.
  destruct K as (k1 & k2 & _ & _ & _ & _ & k7 & k8). rewrite Bs in *.
  destruct b.
  2:{ exfalso. specialize (F eq_refl). unfold aworst in F. destruct (nth_error res (kk - 1)) as [c|] eqn:En; [|congruence].
      apply nth_error_In in En. destruct c as (i, d). destruct (A2 i d En) as (j & Lj & _ & ->). cbn [snd] in F. rewrite He1 in F; [discriminate|exact Lj]. }
  specialize (T eq_refl). clear F.
  destruct rest as [|j0 rest].
  - rewrite app_nil_r in PA. destruct (topk_is_knn D ok OL dist (length points) Dok kk Sv PA) as (C1 & C2 & C3 & C4 & C5). fold res in C1, C2, C3, C4, C5.
    split; [exact C1|]. split; [exact C2|]. split; [exact C3|]. split; [exact C4|]. intros j Lj NI c Hc. left. eapply C5; eauto.
  - assert (Lk : length res = kk).
    { destruct (T j0 (or_introl eq_refl)) as (proj & m & p & G1 & G2 & _ & G4 & _). pose proof (cut_small proj m G1 G2) as CS.
      destruct (Nat.lt_ge_cases (kk - 1) (length res)) as [L|L]; [lia|]. exfalso. unfold aworst in G4. rewrite (proj2 (nth_error_None _ _) L) in G4. congruence. }
    assert (Hworst : forall c, In c res -> nlt (aworst D kk res) (snd c) = false).
    { intros c Hc. destruct (exists_last (l := res)) as (l0 & y & Ey); [intros E; rewrite E in Lk; simpl in Lk; lia|].
      assert (AW : aworst D kk res = snd y).
      { unfold aworst. rewrite Ey in Lk |- *. rewrite app_length in Lk. simpl in Lk. rewrite nth_error_app2 by lia. replace (kk - 1 - length l0) with 0 by lia. reflexivity. }
      rewrite AW. rewrite Ey in Hc, A3, k7. apply in_app_iff in Hc. destruct Hc as [Hc|[<-|[]]].
      - apply ascending_app_inv in A3. destruct A3 as (_ & _ & A3). rewrite Forall_forall in A3. specialize (A3 c Hc). inversion A3; auto.
      - apply (ol_irrefl _ _ OL). apply Forall_app in k7. destruct k7 as (_ & k7). inversion k7; auto. }
    split; [exact A1|]. split; [exact A2|]. split; [exact A3|]. split.
    + rewrite Lk. symmetry. apply Nat.min_l. rewrite <- Lk.
      rewrite <- (map_length fst res), <- (map_length N.of_nat (filter _ _)). apply NoDup_incl_length; [exact A1|].
      intros i Hi'. apply in_map_iff in Hi'. destruct Hi' as ((i', d) & <- & Hid). destruct (A2 i' d Hid) as (j & Lj & -> & Ed). cbn [fst].
      apply in_map. apply filter_In. split; [apply in_seq; lia|]. rewrite Forall_forall in k8. specialize (k8 _ Hid). unfold reachable_dist in k8. cbn [snd] in k8. rewrite Ed in k8. exact k8.
    + intros j Lj NI c Hc. assert (HjA : In j (Sv ++ j0 :: rest)) by (apply (Permutation_in _ (Permutation_sym PA)); apply in_seq; lia).
      assert (Okc : okc D ok c) by (rewrite Forall_forall in k7; auto).
      apply in_app_iff in HjA. destruct HjA as [HjS|HjR].
      * left. set (FF := filter reachable_dist (map (mkc D dist) Sv)) in *.
        assert (OkF : Forall (okc D ok) FF).
        { apply Forall_forall. intros x Hx. apply filter_In in Hx. destruct Hx as [Hx _]. apply in_map_iff in Hx. destruct Hx as (i & <- & Hi'). apply Dok. auto. }
        destruct (reachable_dist (mkc D dist j)) eqn:R.
        -- assert (HjF : In (mkc D dist j) FF) by (apply filter_In; split; auto; apply in_map; auto).
           apply (Permutation_in _ (isort_Permutation D FF)) in HjF. rewrite <- (firstn_skipn kk (isort D FF)) in HjF. apply in_app_iff in HjF.
           destruct HjF as [HjF|HjF]; [exfalso; apply NI; apply in_map_iff; exists (mkc D dist j); split; auto|].
           pose proof (isort_ascending D ok OL FF OkF) as A. rewrite <- (firstn_skipn kk (isort D FF)) in A. apply ascending_app_inv in A.
           destruct A as (_ & _ & A). rewrite Forall_forall in A. specialize (A c Hc). rewrite Forall_forall in A. apply (A (mkc D dist j) HjF).
        -- unfold reachable_dist in R. cbn [snd mkc] in R. rewrite Forall_forall in k8. pose proof (k8 c Hc) as Rc. unfold reachable_dist in Rc.
           eapply (ol_cotrans _ _ OL _ nmaxv _); auto; [apply (ol_max _ _ OL)|]. apply (nlt_asym D ok OL); auto. apply (ol_max _ _ OL).
      * right. apply (skipped_le j (aworst D kk res)); [apply (aworst_ok D ok OL); auto|exact Okc|apply Hworst; exact Hc|apply T; exact HjR].
Qed.
End Generic.

(** * Rounded projections *)
Section Rounded.
Open Scope R_scope.
Context (M tau : R).
Hypothesis M_range : bpow radix2 (-400) <= M <= bpow radix2 400.
Hypothesis tau_range : 0 <= tau <= 1.

Lemma eta_small : eta64 <= u64 * M.
Proof using M_range. clear tau_range.
  apply Rle_trans with (u64 * bpow radix2 (-400)); [|apply Rmult_le_compat_l; [left; apply u64_pos|tauto]].
  unfold eta64, u64. rewrite <- bpow_plus. apply bpow_le. lia.
Qed.
Lemma u64_tiny : u64 <= / 1000.
Proof using. clear. unfold u64. apply Rle_trans with (bpow radix2 (-10)); [apply bpow_le; lia|]. change (bpow radix2 (-10)) with (/ 1024). lra. Qed.
Lemma M_pos : 0 < M.
Proof using M_range. clear tau_range. pose proof (bpow_gt_0 radix2 (-400)). lra. Qed.
Lemma big_ok c : 0 <= c <= 1024 -> c * M <= bpow radix2 410.
Proof using M_range. clear tau_range. intros H. replace 410%Z with (10 + 400)%Z by lia. rewrite bpow_plus. change (bpow radix2 10) with 1024.
  pose proof M_pos. apply Rmult_le_compat; lra. Qed.

Lemma direction_comp n : direction tau n -> forall x, In x [n0 n; n1 n; n2 n] -> finite x /\ Rabs (B2R x) <= 2.
Proof using tau_range. clear M_range.
  intros (F & L) x Hx. split; [apply F; exact Hx|].
  assert (Q : forall a b c : R, a ^ 2 + b ^ 2 + c ^ 2 <= (1 + tau) ^ 2 -> Rabs a <= 2).
  { clear - tau_range. intros a b c H. apply Rabs_le. pose proof (pow2_ge_0 b). pose proof (pow2_ge_0 c). split; nra. }
  destruct Hx as [<-|[<-|[<-|[]]]]; [eapply Q; exact L| |].
  - apply (Q _ (B2R (n0 n)) (B2R (n2 n))). lra.
  - apply (Q _ (B2R (n0 n)) (B2R (n1 n))). lra.
Qed.

Definition exact_proj (n : vec3 Fnum) (p : vec4 Fnum) : R := B2R (n0 n) * B2R (vx p) + B2R (n1 n) * B2R (vy p) + B2R (n2 n) * B2R (vz p).

Lemma prod_err a x : finite a -> finite x -> Rabs (B2R a) <= 2 -> Rabs (B2R x) <= M ->
  finite (f64_mul a x) /\ Rabs (B2R (f64_mul a x) - B2R a * B2R x) <= 3 * (u64 * M) /\ Rabs (B2R (f64_mul a x)) <= 3 * M.
Proof using M_range. clear tau_range.
  intros Fa Fx La Lx. pose proof M_pos as MP. pose proof u64_pos as U. pose proof u64_tiny as UT. pose proof eta_small as ES.
  assert (L : Rabs (B2R a * B2R x) <= 2 * M) by (rewrite Rabs_mult; apply Rmult_le_compat; try apply Rabs_pos; lra).
  destruct (mul_finite a x 410 Fa Fx) as (F & E); [lia|eapply Rle_trans; [exact L|apply big_ok; lra]|].
  pose proof (rnd_err (B2R a * B2R x)) as R. rewrite <- E in R.
  assert (B : Rabs (B2R (f64_mul a x) - B2R a * B2R x) <= 3 * (u64 * M)).
  { eapply Rle_trans; [exact R|]. assert (u64 * Rabs (B2R a * B2R x) <= u64 * (2 * M)) by (apply Rmult_le_compat_l; lra). lra. }
  split; [exact F|]. split; [exact B|].
  replace (B2R (f64_mul a x)) with ((B2R (f64_mul a x) - B2R a * B2R x) + B2R a * B2R x) by ring.
  eapply Rle_trans; [apply Rabs_triang|]. assert (u64 * M <= / 1000 * M) by (apply Rmult_le_compat_r; lra). lra.
Qed.

Lemma proj_err n p : direction tau n -> within M p ->
  finite (normal_apply n p) /\ Rabs (B2R (normal_apply n p) - exact_proj n p) <= 25 * (u64 * M) /\ Rabs (B2R (normal_apply n p)) <= 11 * M.
Proof using M_range tau_range.
  intros Hn Hp. pose proof M_pos as MP. pose proof u64_pos as U. pose proof u64_tiny as UT.
  assert (UM : u64 * M <= / 1000 * M) by (apply Rmult_le_compat_r; lra). assert (UP : 0 < u64 * M) by (apply Rmult_lt_0_compat; lra).
  destruct (direction_comp n Hn (n0 n)) as (N0 & L0); [cbn; auto|]. destruct (direction_comp n Hn (n1 n)) as (N1 & L1); [cbn; auto|].
  destruct (direction_comp n Hn (n2 n)) as (N2 & L2); [cbn; auto|].
  destruct (Hp (vx p)) as (X0 & K0); [cbn; auto|]. destruct (Hp (vy p)) as (X1 & K1); [cbn; auto|]. destruct (Hp (vz p)) as (X2 & K2); [cbn; auto|].
  destruct (prod_err _ _ N0 X0 L0 K0) as (F0 & E0 & B0). destruct (prod_err _ _ N1 X1 L1 K1) as (F1 & E1 & B1). destruct (prod_err _ _ N2 X2 L2 K2) as (F2 & E2 & B2).
  unfold normal_apply, exact_proj. cbn [nadd nmul Fnum].
  set (a := f64_mul (n0 n) (vx p)) in *. set (b := f64_mul (n1 n) (vy p)) in *. set (c := f64_mul (n2 n) (vz p)) in *.
  set (ra := B2R (n0 n) * B2R (vx p)) in *. set (rb := B2R (n1 n) * B2R (vy p)) in *. set (rc := B2R (n2 n) * B2R (vz p)) in *.
  assert (S1 : Rabs (B2R a + B2R b) <= 6 * M) by (eapply Rle_trans; [apply Rabs_triang|lra]).
  destruct (add_finite a b 410 F0 F1) as (FS & ES); [lia|eapply Rle_trans; [exact S1|apply big_ok; lra]|].
  pose proof (rnd_add_err a b F0 F1) as R1. rewrite <- ES in R1. set (s := f64_add a b) in *.
  assert (R1' : Rabs (B2R s - (B2R a + B2R b)) <= 6 * (u64 * M)) by (eapply Rle_trans; [exact R1|]; rewrite <- Rmult_assoc, (Rmult_comm 6), Rmult_assoc; apply Rmult_le_compat_l; lra).
  assert (S1' : Rabs (B2R s) <= 7 * M).
  { replace (B2R s) with ((B2R s - (B2R a + B2R b)) + (B2R a + B2R b)) by ring. eapply Rle_trans; [apply Rabs_triang|]. lra. }
  assert (S2 : Rabs (B2R s + B2R c) <= 10 * M) by (eapply Rle_trans; [apply Rabs_triang|lra]).
  destruct (add_finite s c 410 FS F2) as (FT & ET); [lia|eapply Rle_trans; [exact S2|apply big_ok; lra]|].
  pose proof (rnd_add_err s c FS F2) as R2. rewrite <- ET in R2. set (t := f64_add s c) in *.
  assert (R2' : Rabs (B2R t - (B2R s + B2R c)) <= 10 * (u64 * M)) by (eapply Rle_trans; [exact R2|]; rewrite <- Rmult_assoc, (Rmult_comm 10), Rmult_assoc; apply Rmult_le_compat_l; lra).
  split; [exact FT|]. apply Rabs_le_inv in E0, E1, E2, R1', R2', S2. split; apply Rabs_le; lra.
Qed.

Lemma exact_diff n p q : direction tau n -> Rabs (exact_proj n q - exact_proj n p) <= (1 + tau) * euclid p q.
Proof using tau_range. clear M_range.
  intros (_ & L). unfold exact_proj, euclid. set (a := B2R (n0 n)) in *. set (b := B2R (n1 n)) in *. set (c := B2R (n2 n)) in *.
  set (x := B2R (vx p) - B2R (vx q)). set (y := B2R (vy p) - B2R (vy q)). set (z := B2R (vz p) - B2R (vz q)).
  match goal with |- Rabs ?e <= _ => replace e with (- (a * x + b * y + c * z)) by (unfold x, y, z; ring) end.
  rewrite Rabs_Ropp. pose proof (pow2_ge_0 x). pose proof (pow2_ge_0 y). pose proof (pow2_ge_0 z). set (w := x ^ 2 + y ^ 2 + z ^ 2) in *.
  assert (W : 0 <= w) by (unfold w; lra). pose proof (sqrt_pos w) as SP. pose proof (sqrt_sqrt w W) as SS.
  assert (C : (a * x + b * y + c * z) ^ 2 <= ((1 + tau) * sqrt w) ^ 2).
  { replace (((1 + tau) * sqrt w) ^ 2) with ((1 + tau) ^ 2 * (sqrt w * sqrt w)) by ring. rewrite SS.
    apply Rle_trans with ((a ^ 2 + b ^ 2 + c ^ 2) * w); [|apply Rmult_le_compat_r; lra].
    unfold w. pose proof (pow2_ge_0 (a*y-b*x)). pose proof (pow2_ge_0 (a*z-c*x)). pose proof (pow2_ge_0 (b*z-c*y)).
    replace ((a ^ 2 + b ^ 2 + c ^ 2) * (x^2+y^2+z^2)) with ((a*x+b*y+c*z)^2 + ((a*y-b*x)^2 + (a*z-c*x)^2 + (b*z-c*y)^2)) by ring. lra. }
  rewrite <- (Rabs_pos_eq ((1 + tau) * sqrt w)) by (apply Rmult_le_pos; lra). apply Rsqr_le_abs_0. unfold Rsqr. lra.
Qed.

Context (query : vec4 Fnum).
Hypothesis query_in : within M query.
Notation cut := (cut_of Fnum (vec4 Fnum) (vec3 Fnum) normal_apply query).

Lemma diff_facts n m : direction tau n -> within M m ->
  let diff := f64_sub (normal_apply n query) (normal_apply n m) in
  finite diff /\ B2R diff = rnd (B2R (normal_apply n query) - B2R (normal_apply n m)) /\ finite (cut n m) /\ B2R (cut n m) = rnd (B2R diff * B2R diff) /\
  Rabs (B2R (cut n m)) <= bpow radix2 830.
Proof using M_range tau_range query_in.
  intros Hn Hm diff. pose proof M_pos as MP.
  destruct (proj_err n query Hn query_in) as (Fq & _ & Bq). destruct (proj_err n m Hn Hm) as (Fm & _ & Bm).
  assert (L : Rabs (B2R (normal_apply n query) - B2R (normal_apply n m)) <= bpow radix2 410).
  { apply Rle_trans with (22 * M); [|apply big_ok; lra]. apply Rabs_le_inv in Bq, Bm. apply Rabs_le. lra. }
  destruct (sub_finite _ _ 410 Fq Fm) as (Fd & Ed); [lia|exact L|]. fold diff in Fd, Ed.
  assert (Ld : Rabs (B2R diff) <= bpow radix2 410) by (rewrite Ed; apply rnd_small; [lia|exact L]).
  assert (Lc : Rabs (B2R diff * B2R diff) <= bpow radix2 830).
  { rewrite Rabs_mult. apply Rle_trans with (bpow radix2 410 * bpow radix2 410); [apply Rmult_le_compat; try apply Rabs_pos; exact Ld|].
    rewrite <- bpow_plus. apply bpow_le. lia. }
  destruct (mul_finite diff diff 830 Fd Fd) as (Fc & Ec); [lia|exact Lc|].
  split; [exact Fd|]. split; [exact Ed|]. unfold cut_of. change (@nmul Fnum) with f64_mul. change (@nsub Fnum) with f64_sub. fold diff.
  split; [exact Fc|]. split; [exact Ec|]. rewrite Ec. apply rnd_small; [lia|exact Lc].
Qed.

Lemma sq_bound : eta64 <= (u64 * M) ^ 2.
Proof using M_range. clear tau_range query_in query.
  apply Rle_trans with ((u64 * bpow radix2 (-400)) ^ 2).
  - unfold eta64, u64. rewrite <- bpow_plus. cbn [pow]. rewrite Rmult_1_r, <- bpow_plus. apply bpow_le. lia.
  - apply pow_incr. pose proof u64_pos. pose proof (bpow_gt_0 radix2 (-400)). split; [apply Rmult_le_pos; lra|apply Rmult_le_compat_l; lra].
Qed.

(** A point behind a split whose rounded cut distance reaches [d] is no nearer than [d], up to rounding. *)
Lemma cut_bound n m p d : direction tau n -> within M m -> within M p -> notnan d ->
  f64_lt (cut n m) d = false ->
  ((f64_lt (f64_sub (normal_apply n query) (normal_apply n m)) (nzero (n := Fnum)) = true /\ f64_lt (normal_apply n p) (normal_apply n m) = false) \/
   (f64_lt (f64_sub (normal_apply n query) (normal_apply n m)) (nzero (n := Fnum)) = false /\ f64_lt (normal_apply n m) (normal_apply n p) = false)) ->
  by_rounding M tau query p d.
Proof using M_range tau_range query_in.
  intros Hn Hm Hp Nd LE SIDE. pose proof M_pos as MP. pose proof u64_pos as U. pose proof u64_tiny as UT.
  destruct (diff_facts n m Hn Hm) as (Fd & Ed & Fc & Ec & _). set (diff := f64_sub (normal_apply n query) (normal_apply n m)) in *.
  destruct (proj_err n query Hn query_in) as (Fq & Eq & _). destruct (proj_err n m Hn Hm) as (Fm & _ & _). destruct (proj_err n p Hn Hp) as (Fp & Ep & _).
  pose proof (exact_diff n p query Hn) as XD. set (D := euclid p query) in *. assert (DP : 0 <= D) by apply sqrt_pos.
  set (vq := B2R (normal_apply n query)) in *. set (vm := B2R (normal_apply n m)) in *. set (vp := B2R (normal_apply n p)) in *.
  set (X := (1 + tau) * D) in *. assert (XP : 0 <= X) by (apply Rmult_le_pos; lra).
  assert (UM : 0 < u64 * M) by (apply Rmult_lt_0_compat; lra).
  assert (V : Rabs (vq - vp) <= X + 50 * (u64 * M)).
  { apply Rabs_le_inv in Eq, Ep, XD. apply Rabs_le. lra. }
  assert (DL : Rabs (B2R diff) <= Rabs (rnd (vq - vp))).
  { assert (Z : rnd 0 = 0) by (apply round_0; typeclasses eauto).
    destruct SIDE as [(S1 & S2)|(S1 & S2)].
    - apply f64_lt_val in S1; [|apply finite_notnan; exact Fd|reflexivity]. apply f64_lt_val_false in S2; try (apply finite_notnan; assumption).
      rewrite (finite_val diff Fd) in S1. rewrite !finite_val in S2 by assumption. fold vm vp in S2. change (val (@nzero Fnum)) with 0 in S1.
      assert (rnd (vq - vp) <= B2R diff) by (rewrite Ed; apply rnd_le; lra). rewrite !Rabs_left1 by lra. lra.
    - apply f64_lt_val_false in S1; [|apply finite_notnan; exact Fd|reflexivity]. apply f64_lt_val_false in S2; try (apply finite_notnan; assumption).
      rewrite (finite_val diff Fd) in S1. rewrite !finite_val in S2 by assumption. fold vm vp in S2. change (val (@nzero Fnum)) with 0 in S1.
      assert (B2R diff <= rnd (vq - vp)) by (rewrite Ed; apply rnd_le; lra). rewrite !Rabs_pos_eq by lra. lra. }
  assert (A : Rabs (B2R diff) <= (1 + u64) * (X + 50 * (u64 * M)) + u64 * M).
  { eapply Rle_trans; [exact DL|]. pose proof (rnd_err (vq - vp)) as R. pose proof eta_small as ES.
    replace (rnd (vq - vp)) with ((rnd (vq - vp) - (vq - vp)) + (vq - vp)) by ring. eapply Rle_trans; [apply Rabs_triang|].
    assert (u64 * Rabs (vq - vp) <= u64 * (X + 50 * (u64 * M))) by (apply Rmult_le_compat_l; lra). lra. }
  set (Y := Rabs (B2R diff)) in *. assert (YP : 0 <= Y) by apply Rabs_pos.
  assert (C : B2R (cut n m) <= ((1 + u64) * Y + u64 * M) ^ 2).
  { pose proof (rnd_err (B2R diff * B2R diff)) as R. rewrite <- Ec in R.
    assert (YY : B2R diff * B2R diff = Y * Y) by (unfold Y; rewrite <- Rabs_mult; symmetry; apply Rabs_pos_eq; nra).
    rewrite YY in R. rewrite (Rabs_pos_eq (Y * Y)) in R by nra. apply Rabs_le_inv in R. pose proof sq_bound.
    assert (0 <= (1 + u64) * Y * (u64 * M)) by (repeat apply Rmult_le_pos; lra). nra. }
  assert (LD : B2R d <= B2R (cut n m)).
  { apply f64_lt_val_false in LE; [|apply finite_notnan; exact Fc|exact Nd]. rewrite (finite_val _ Fc) in LE.
    destruct d as [s|s| |s mm e B]; try discriminate Nd; cbn [val] in LE; cbn [B2R]; try exact LE; try lra.
    pose proof E1024_pos. rewrite Ec. rewrite <- (round_0 radix2 fexp64 ZnearestE) at 1. apply rnd_le. nra. }
  unfold by_rounding. fold D.
  apply Rle_trans with ((1 + u64) * Y + u64 * M).
  { assert (W : 0 <= (1 + u64) * Y + u64 * M) by (assert (0 <= (1 + u64) * Y) by (apply Rmult_le_pos; lra); lra).
    rewrite <- (sqrt_pow2 _ W). apply sqrt_le_1_alt. lra. }
  assert (G1 : (1 + u64) * Y <= (1 + u64) * ((1 + u64) * (X + 50 * (u64 * M)) + u64 * M)) by (apply Rmult_le_compat_l; lra).
  assert (E51 : bpow radix2 (-51) = 4 * u64) by (change (-51)%Z with (2 + -53)%Z; rewrite bpow_plus; reflexivity).
  assert (E47 : bpow radix2 (-47) = 64 * u64) by (change (-47)%Z with (6 + -53)%Z; rewrite bpow_plus; reflexivity).
  rewrite E51, E47.
  assert (Q : (1 + u64) * (1 + u64) <= 1 + 4 * u64) by nra.
  assert (G2 : (1 + u64) * (1 + u64) * X <= (1 + 4 * u64) * X) by (apply Rmult_le_compat_r; lra).
  assert (G3 : (1 + u64) * (1 + u64) * (u64 * M) <= (1 + 4 / 1000) * (u64 * M)) by (apply Rmult_le_compat_r; lra).
  assert (G4 : (1 + u64) * (u64 * M) <= (1 + 1 / 1000) * (u64 * M)) by (apply Rmult_le_compat_r; lra).
  unfold X in *. lra.
Qed.
End Rounded.

Lemma max_big : (bpow radix2 831 <= B2R (nmaxv (n := Fnum)))%R.
Proof.
  replace (B2R (nmaxv (n := Fnum))) with (F2R (Float radix2 9007199254740991 971)) by (vm_compute; reflexivity).
  unfold F2R. cbn [Defs.Fnum Defs.Fexp].
  apply Rle_trans with (1 * bpow radix2 971)%R; [rewrite Rmult_1_l; apply bpow_le; lia|apply Rmult_le_compat_r; [apply bpow_ge_0|apply (IZR_le 1); lia]].
Qed.
Lemma within_vfinite M p : within M p -> vfinite p.
Proof. intros H. repeat split; apply H; cbn; auto. Qed.

Section Top.
Context (M tau : R) (order : sumtree) (nth_element : (nat -> nat -> bool) -> nat -> list nat -> list nat).
Context (find_axis : list (vec4 Fnum) -> outcome (vec3 Fnum)) (points : list (vec4 Fnum)) (max_leaf_size : Z).
Hypothesis M_range : (bpow radix2 (-400) <= M <= bpow radix2 400)%R.
Hypothesis tau_range : (0 <= tau <= 1)%R.
Hypothesis NE : nth_element_contract nth_element.
Hypothesis dirs : forall range, range <> [] -> exists n, find_axis range = Ok n /\ direction tau n.
Hypothesis points_in : forall p, In p points -> within M p.

Lemma near_sqd_ok p q : within M p -> within M q -> notnan (fsqd order p q).
Proof using. clear. intros. apply fsqd_ok; eapply within_vfinite; eauto. Qed.
Lemma near_papply_ok (n : vec3 Fnum) p : direction tau n -> within M p -> notnan (normal_apply n p).
Proof using M_range tau_range. intros Hn Hp. apply finite_notnan. apply (proj_err M tau M_range tau_range n p Hn Hp). Qed.

Lemma kd_normal_near : points <> [] -> (3 <= size_t_of_int max_leaf_size)%N -> (N.of_nat (length points) <= INVALID_NODE)%N ->
  exists tree, build_tree (normal_apply (D := Fnum)) find_axis nth_element points max_leaf_size = Ok tree /\
    forall query sn k r0, within M query -> knn_init Fnum sn k = Ok r0 -> 0 < buffer_size r0 ->
    exists r res,
      knn_search (fsqd order) (normal_apply (D := Fnum)) points tree query (nzero (n := Fnum)) sn k = Ok r /\
      knn_buffers (buffer_size r0) res (num_found_neighbors r) (indices r) (distances r) /\
      nearly_knn (dist_to (fsqd order) points query) (fun j d => exists p, nth_error points j = Some p /\ by_rounding M tau query p d)
        (length points) (buffer_size r0) res.
Proof using M_range tau_range NE dirs points_in.
  intros H1 H2 H3.
  assert (AT : forall range : list (vec4 Fnum), range <> [] -> length range <= length points -> (forall p, In p range -> In p points) ->
     exists pr, find_axis range = Ok pr /\ direction tau pr) by (intros; apply dirs; auto).
  destruct (build_tree_wf Fnum notnan f64_order (vec4 Fnum) (fsqd order) (vec3 Fnum) (normal_apply (D := Fnum)) find_axis nth_element
    (within M) (direction tau) NE near_sqd_ok near_papply_ok points max_leaf_size points_in AT H1 H2 H3) as (tree & E & WF & _).
  exists tree. split; [exact E|]. intros query sn k r0 Hq E0 B0.
  destruct (knn_search_near Fnum notnan f64_order (vec4 Fnum) (fsqd order) (vec3 Fnum) (normal_apply (D := Fnum)) points query (nzero (n := Fnum))
    (within M) (direction tau) near_sqd_ok points_in Hq) with (max_leaf_size := max_leaf_size) (tree := tree) (sn := sn) (k := k) (r0 := r0) as (r & res & A & B & C); auto.
  - intros n m Hn Hm. apply finite_notnan. apply (diff_facts M tau M_range tau_range query Hq n m Hn Hm).
  - intros n m Hn Hm. destruct (diff_facts M tau M_range tau_range query Hq n m Hn (points_in m Hm)) as (_ & _ & F & _ & L).
    apply f64_lt_val; [apply finite_notnan; exact F|reflexivity|]. rewrite (finite_val _ F). rewrite finite_val by reflexivity.
    apply Rle_lt_trans with (bpow radix2 830); [eapply Rle_trans; [apply Rle_abs|exact L]|].
    apply Rlt_le_trans with (bpow radix2 831); [apply bpow_lt; lia|].
    apply max_big.
  - intros j Hj. unfold dist_to. destruct (nth_error points j) as [p|] eqn:Ej; [|apply nth_error_None in Ej; lia].
    apply fsqd_nonneg; eapply within_vfinite; eauto. apply points_in. eapply nth_error_In; eauto.
  - exists r, res. split; [exact A|]. split; [exact B|]. destruct C as (C1 & C2 & C3 & C4 & C5).
    split; [exact C1|]. split; [exact C2|]. split; [exact C3|]. split; [exact C4|]. intros j Lj NI c Hc.
    destruct (C5 j Lj NI c Hc) as [L|(n & m & p & P1 & P2 & P3 & P4 & P5)]; [left; exact L|right].
    exists p. split; [exact P3|]. destruct c as (i, d). cbn [snd] in *. destruct (C2 i d Hc) as (j' & Lj' & _ & Ed).
    apply (cut_bound M tau M_range tau_range query Hq n m p d P1 (points_in m P2) (points_in p (nth_error_In _ _ P3))); auto.
    rewrite Ed. unfold dist_to. destruct (nth_error points j') as [p'|] eqn:Ej'; [|apply nth_error_None in Ej'; lia].
    apply near_sqd_ok; auto. apply points_in. eapply nth_error_In; eauto.
Qed.
End Top.
