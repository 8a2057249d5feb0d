(** Proofs about the neighbour result container. *)
From Coq Require Import ZifyBool ZifyNat ZifyN.
From Verif Require Import Base BaseProofs Num KnnModel KnnSpec.

Section KnnProofs.
Context (D : num) (ok : car D -> Prop) (OL : order_laws D ok).
Notation cand := (N * car D)%type.

(** Stable insertion and the abstract push. *)
Fixpoint ins (c : cand) (l : list cand) : list cand :=
  match l with
  | [] => [c]
  | x :: t => if nlt (snd c) (snd x) then c :: x :: t else x :: ins c t
  end.

Definition apush (k : nat) (l : list cand) (c : cand) : list cand :=
  if reachable_dist c then firstn k (ins c l) else l.

Definition isort (L : list cand) : list cand := fold_left (fun l c => ins c l) L [].

Definition okc (c : cand) : Prop := ok (snd c).

Lemma ascending_inv (x : cand) l : ascending (x :: l) ->
  ascending l /\ Forall (fun y => nlt (snd y) (snd x) = false) l.
Proof. intros H. inversion H; subst. split; auto. Qed.

Lemma ascending_app_inv (l1 l2 : list cand) : ascending (l1 ++ l2) ->
  ascending l1 /\ ascending l2 /\
  Forall (fun x => Forall (fun y => nlt (snd y) (snd x) = false) l2) l1.
Proof.
  induction l1 as [|x l1 IH]; simpl; intros H.
  - split; [constructor|split; [auto|constructor]].
  - apply ascending_inv in H. destruct H as [H1 H2]. destruct (IH H1) as (A & B & C).
    apply Forall_app in H2. destruct H2 as [H2 H3].
    split; [|split]; auto. constructor; auto.
Qed.

Lemma ins_Permutation c l : Permutation (c :: l) (ins c l).
Proof.
  induction l as [|x l IH]; simpl; auto.
  destruct (nlt (snd c) (snd x)); auto.
  eapply perm_trans; [apply perm_swap|]. constructor. exact IH.
Qed.

Lemma ins_length c l : length (ins c l) = S (length l).
Proof. rewrite <- (Permutation_length (ins_Permutation c l)). reflexivity. Qed.

Lemma ins_okc c l : okc c -> Forall okc l -> Forall okc (ins c l).
Proof.
  intros Hc Hl. eapply Permutation_Forall; [apply ins_Permutation|]. constructor; auto.
Qed.

Lemma ins_ascending c l : okc c -> Forall okc l -> ascending l -> ascending (ins c l).
Proof.
  intros Hc. induction l as [|x l IH]; simpl; intros Hl Ha.
  - repeat constructor.
  - apply ascending_inv in Ha. destruct Ha as [Ha Hx].
    inversion Hl as [|? ? Okx Okl]; subst.
    destruct (nlt (snd c) (snd x)) eqn:E.
    + constructor. constructor; auto.
      constructor.
      * destruct (nlt (snd x) (snd c)) eqn:E2; auto.
        pose proof (ol_trans _ _ OL _ _ _ Hc Okx Hc E E2) as T.
        rewrite (ol_irrefl _ _ OL _ Hc) in T. discriminate.
      * rewrite Forall_forall in *. intros y Hy.
        destruct (nlt (snd y) (snd c)) eqn:E2; auto.
        pose proof (ol_trans _ _ OL _ _ _ (Okl y Hy) Hc Okx E2 E) as T.
        rewrite (Hx y Hy) in T. discriminate.
    + constructor; [apply IH; auto|].
      eapply Permutation_Forall; [apply ins_Permutation|]. constructor; auto.
Qed.

Lemma ins_split (c : cand) a1 a2 :
  okc c -> Forall okc (a1 ++ a2) -> ascending (a1 ++ a2) ->
  Forall (fun x => nlt (snd c) (snd x) = true) a2 ->
  (forall x a1', a1 = a1' ++ [x] -> nlt (snd c) (snd x) = false) ->
  ins c (a1 ++ a2) = a1 ++ c :: a2.
Proof.
  intros Hc. induction a1 as [|x a1 IH]; simpl; intros Hok Ha H2 H1.
  - destruct a2 as [|y a2]; simpl; auto. inversion H2; subst. rewrite H3. reflexivity.
  - apply ascending_inv in Ha. destruct Ha as [Ha Hx].
    inversion Hok as [|? ? Okx Okl]; subst.
    assert (E : nlt (snd c) (snd x) = false).
    { destruct (exists_last (l := x :: a1)) as (a1' & y & Ey); [discriminate|].
      pose proof (H1 y a1' Ey) as Hy.
      destruct a1' as [|z a1'].
      - simpl in Ey. inversion Ey; subst. exact Hy.
      - simpl in Ey. inversion Ey; subst.
        rewrite Forall_forall in Hx, Okl.
        assert (In y ((a1' ++ [y]) ++ a2)) by (rewrite !in_app_iff; simpl; auto).
        eapply (ol_cotrans _ _ OL _ (snd y) _); auto. apply Okl; auto. }
    rewrite E. f_equal. apply IH; auto.
    intros y a1' ->. apply (H1 y (x :: a1')). reflexivity.
Qed.

Lemma ins_snoc_lt (c : cand) a x :
  okc c -> nlt (snd c) (snd x) = true -> ins c (a ++ [x]) = ins c a ++ [x].
Proof.
  intros Hc E. induction a as [|y a IH]; simpl.
  - rewrite E. reflexivity.
  - destruct (nlt (snd c) (snd y)); simpl; [reflexivity|rewrite IH; reflexivity].
Qed.

Lemma ins_ge_last (c : cand) l :
  Forall (fun x => nlt (snd c) (snd x) = false) l -> ins c l = l ++ [c].
Proof.
  induction 1 as [|x l Hx Hl IH]; simpl; auto. rewrite Hx, IH. reflexivity.
Qed.

Lemma firstn_ins k c l : firstn k (ins c (firstn k l)) = firstn k (ins c l).
Proof.
  revert l; induction k as [|k IH]; intros l; simpl; auto.
  destruct l as [|x l]; simpl; auto.
  destruct (nlt (snd c) (snd x)).
  - f_equal. destruct k as [|k']; [reflexivity|].
    change (x :: firstn k' (firstn (S k') l) = x :: firstn k' l).
    rewrite firstn_firstn. f_equal. f_equal. lia.
  - f_equal. apply IH.
Qed.

Lemma firstn_length_le_id {A} k (l : list A) : length l <= k -> firstn k l = l.
Proof. intros; apply firstn_all2; auto. Qed.

(** * The representation relation *)
Definition krep (r : knn_result D) (l : list cand) : Prop :=
  let k := buffer_size r in
  0 < k /\ length l <= k /\ num_found_neighbors r = length l /\
  indices r = map fst l ++ repeat INVALID (k - length l) /\
  distances r = map snd l ++ repeat nmaxv (k - length l) /\
  ascending l /\ Forall okc l /\ Forall (fun c => reachable_dist c = true) l.

Lemma nth_error_repeat {A} (x : A) n i : i < n -> nth_error (repeat x n) i = Some x.
Proof. revert i; induction n; intros [|i] H; simpl; try lia; auto. apply IHn; lia. Qed.

Definition aworst (k : nat) (l : list cand) : car D :=
  match nth_error l (k - 1) with Some c => snd c | None => nmaxv end.

Lemma worst_krep r l : krep r l -> worst_distance r = Ok (aworst (buffer_size r) l).
Proof.
  intros (Hk & Hl & Hf & Hi & Hd & Ha & Hok & Hr). unfold worst_distance, aworst.
  apply get_Ok. rewrite Hd.
  destruct (nth_error l (buffer_size r - 1)) as [c|] eqn:E.
  - rewrite nth_error_app1 by (rewrite map_length; apply nth_error_Some; congruence).
    rewrite nth_error_map, E. reflexivity.
  - apply nth_error_None in E.
    rewrite nth_error_app2 by (rewrite map_length; lia).
    rewrite map_length. apply nth_error_repeat. lia.
Qed.

Lemma aworst_ok k (l : list cand) : Forall okc l -> ok (aworst k l).
Proof.
  intros H. unfold aworst. destruct (nth_error l (k - 1)) eqn:E.
  - rewrite Forall_forall in H. apply H. eapply nth_error_In; eauto.
  - apply (ol_max _ _ OL).
Qed.

Lemma aworst_le_max k (l : list cand) : Forall okc l -> Forall (fun c => reachable_dist c = true) l ->
  nlt nmaxv (aworst k l) = false.
Proof.
  intros H1 H2. unfold aworst. destruct (nth_error l (k - 1)) as [c|] eqn:E.
  - apply nth_error_In in E. rewrite Forall_forall in H1, H2.
    pose proof (H2 _ E) as L. unfold reachable_dist in L.
    destruct (nlt nmaxv (snd c)) eqn:G; auto.
    pose proof (ol_trans _ _ OL _ _ _ (H1 _ E) (ol_max _ _ OL) (H1 _ E) L G) as T.
    rewrite (ol_irrefl _ _ OL _ (H1 _ E)) in T. discriminate.
  - apply (ol_irrefl _ _ OL), (ol_max _ _ OL).
Qed.

Lemma knn_init_Ok sn k r :
  knn_init D sn k = Ok r -> 0 < buffer_size r -> krep r [].
Proof.
  unfold knn_init. destruct sn as [n|].
  - destruct (0 <=? k)%Z; intros H; inversion H; subst; clear H. unfold krep; simpl.
    intros; unfold buffer_size in *; simpl in *.
    rewrite Nat.sub_0_r. repeat split; auto; try lia; constructor.
  - destruct (k <=? 0)%Z; intros H; inversion H; subst; clear H. unfold krep; simpl.
    intros; unfold buffer_size in *; simpl in *.
    rewrite Nat.sub_0_r. repeat split; auto; try lia; constructor.
Qed.

(** * The shifting loop *)
Lemma get_app_mid {A} (l1 l2 : list A) x : get (l1 ++ x :: l2) (length l1) = Ok x.
Proof.
  apply get_Ok. rewrite nth_error_app2 by lia. rewrite Nat.sub_diag. reflexivity.
Qed.

Lemma set_app_mid {A} (l1 l2 : list A) x v :
  set (l1 ++ x :: l2) (length l1) v = Ok (l1 ++ v :: l2).
Proof.
  rewrite set_Ok by (rewrite app_length; simpl; lia). rewrite upd_app_r. reflexivity.
Qed.

Lemma shift_loop_spec (d : car D) (a : list cand) :
  forall ix tb dx tb',
  exists a1 a2 jx jd,
    a = a1 ++ a2 /\
    Forall (fun x => nlt d (snd x) = true) a2 /\
    (forall x a1', a1 = a1' ++ [x] -> nlt d (snd x) = false) /\
    shift_loop (length a) d (map fst a ++ ix :: tb) (map snd a ++ dx :: tb')
      = Ok (length a1, map fst a1 ++ jx :: map fst a2 ++ tb,
            map snd a1 ++ jd :: map snd a2 ++ tb').
Proof.
  induction a as [|x a IH] using rev_ind; intros ix tb dx tb'.
  - exists [], [], ix, dx. simpl. repeat split; auto.
    intros x a1' H. destruct a1'; discriminate.
  - rewrite app_length. simpl. rewrite Nat.add_1_r. cbn [shift_loop].
    rewrite !map_app. simpl. rewrite <- !app_assoc. simpl.
    replace (get (map snd a ++ snd x :: dx :: tb') (length a)) with (Ok (snd x))
      by (rewrite <- (map_length snd a); symmetry; apply get_app_mid).
    cbn [bind].
    destruct (nlt d (snd x)) eqn:E.
    + replace (get (map fst a ++ fst x :: ix :: tb) (length a)) with (Ok (fst x))
        by (rewrite <- (map_length fst a); symmetry; apply get_app_mid).
      cbn [bind].
      assert (S1 : set (map fst a ++ fst x :: ix :: tb) (S (length a)) (fst x)
                   = Ok (map fst a ++ fst x :: fst x :: tb)).
      { replace (map fst a ++ fst x :: ix :: tb) with ((map fst a ++ [fst x]) ++ ix :: tb)
          by (rewrite <- app_assoc; reflexivity).
        replace (S (length a)) with (length (map fst a ++ [fst x]))
          by (rewrite app_length, map_length; simpl; lia).
        rewrite set_app_mid, <- app_assoc. reflexivity. }
      rewrite S1. cbn [bind].
      assert (S2 : set (map snd a ++ snd x :: dx :: tb') (S (length a)) (snd x)
                   = Ok (map snd a ++ snd x :: snd x :: tb')).
      { replace (map snd a ++ snd x :: dx :: tb') with ((map snd a ++ [snd x]) ++ dx :: tb')
          by (rewrite <- app_assoc; reflexivity).
        replace (S (length a)) with (length (map snd a ++ [snd x]))
          by (rewrite app_length, map_length; simpl; lia).
        rewrite set_app_mid, <- app_assoc. reflexivity. }
      rewrite S2. cbn [bind].
      destruct (IH (fst x) (fst x :: tb) (snd x) (snd x :: tb'))
        as (a1 & a2 & jx & jd & Ea & F2 & F1 & R).
      exists a1, (a2 ++ [x]), jx, jd. rewrite R. split; [|split; [|split]].
      * rewrite Ea, app_assoc. reflexivity.
      * apply Forall_app. split; auto.
      * exact F1.
      * rewrite !map_app. simpl. rewrite <- !app_assoc. reflexivity.
    + exists (a ++ [x]), [], ix, dx. simpl. split; [|split; [|split]].
      * rewrite app_nil_r. reflexivity.
      * constructor.
      * intros y a1' H. apply app_inj_tail in H. destruct H; subst. exact E.
      * rewrite app_length. simpl. rewrite Nat.add_1_r, !map_app. simpl.
        rewrite <- !app_assoc. reflexivity.
Qed.

Lemma ascending_last_max (l : list cand) x c :
  okc c -> Forall okc (l ++ [x]) -> ascending (l ++ [x]) -> nlt (snd c) (snd x) = false ->
  Forall (fun y => nlt (snd c) (snd y) = false) (l ++ [x]).
Proof.
  intros Hc Hok Ha E. apply ascending_app_inv in Ha. destruct Ha as (_ & _ & F).
  apply Forall_app in Hok. destruct Hok as [Hok Hx]. inversion Hx; subst.
  apply Forall_app. split; [|auto]. rewrite Forall_forall in *. intros y Hy.
  specialize (F y Hy). inversion F; subst.
  eapply (ol_cotrans _ _ OL _ (snd x) _); auto. apply Hok; auto.
Qed.

(** * push refines the abstract push *)
Lemma push_krep r l i d :
  krep r l -> ok d ->
  exists r', push r i d = Ok r' /\ krep r' (apush (buffer_size r) l (i, d)) /\
             buffer_size r' = buffer_size r /\ static_n r' = static_n r /\
             capacity r' = capacity r.
Proof.
  intros Hrep Hd. pose proof Hrep as (Hk & Hl & Hf & Hi & Hds & Ha & Hok & Hr).
  set (k := buffer_size r) in *.
  unfold push. rewrite (worst_krep r l Hrep). fold k. cbn [bind].
  rewrite (ol_le _ _ OL) by (auto; apply aworst_ok; auto).
  set (c := (i, d)).
  destruct (nlt d (aworst k l)) eqn:E; cbn [negb].
  2:{ (* rejected *)
    exists r. split; [reflexivity|]. split; [|split; [|split]; reflexivity]. fold k.
    replace (apush k l c) with l; [exact Hrep|]. unfold apush.
    destruct (reachable_dist c) eqn:R; auto.
    unfold aworst in E. destruct (nth_error l (k - 1)) as [x|] eqn:En.
    - assert (length l = k). { assert (k - 1 < length l) by (apply nth_error_Some; congruence). lia. }
      destruct (exists_last (l := l)) as (l' & y & ->).
      { intros ->; simpl in *; lia. }
      rewrite app_length in H; simpl in H.
      rewrite nth_error_app2 in En by lia.
      replace (k - 1 - length l') with 0 in En by lia. simpl in En. inversion En; subst y.
      rewrite ins_ge_last.
      + rewrite firstn_app. rewrite app_length; simpl. replace (k - (length l' + 1)) with 0 by lia.
        simpl. rewrite app_nil_r. symmetry. apply firstn_length_le_id. rewrite app_length; simpl; lia.
      + apply ascending_last_max; auto.
    - unfold reachable_dist in R. simpl in R. congruence. }
  (* accepted *)
  assert (R : reachable_dist c = true).
  { unfold reachable_dist. simpl.
    destruct (nlt d nmaxv) eqn:G; auto.
    pose proof (aworst_le_max k l Hok Hr) as W.
    rewrite (ol_cotrans _ _ OL d nmaxv (aworst k l)) in E; auto; try discriminate.
    apply (ol_max _ _ OL). apply aworst_ok; auto. }
  (* what the buffers look like afterwards *)
  assert (Main : exists a1 a2 idx dst,
     (match static_n r with
       | Some 1 =>
           let* idx := set (indices r) 0 i in
           let* dst := set (distances r) 0 d in
           Ok (idx, dst)
       | _ =>
           let* (loc, idx, dst) :=
              shift_loop (Nat.min (num_found_neighbors r) (k - 1)) d
                         (indices r) (distances r) in
           let* idx := set idx loc i in
           let* dst := set dst loc d in
           Ok (idx, dst)
       end) = Ok (idx, dst) /\
     idx = map fst (a1 ++ c :: a2) ++ repeat INVALID (k - S (length l)) /\
     dst = map snd (a1 ++ c :: a2) ++ repeat nmaxv (k - S (length l)) /\
     a1 ++ c :: a2 = apush k l c).
  { (* shape of the list before the insertion position *)
    assert (Sh : exists a ix dx,
        Nat.min (num_found_neighbors r) (k - 1) = length a /\
        indices r = map fst a ++ ix :: repeat INVALID (k - S (length l)) /\
        distances r = map snd a ++ dx :: repeat nmaxv (k - S (length l)) /\
        Forall okc a /\ ascending a /\
        (forall a1 a2, a = a1 ++ a2 -> ins c a = a1 ++ c :: a2 -> a1 ++ c :: a2 = apush k l c)).
    { destruct (Nat.eq_dec (length l) k) as [Ef|Nf].
      - destruct (exists_last (l := l)) as (l' & y & El).
        { intros ->; simpl in *; lia. }
        exists l', (fst y), (snd y). subst l. rewrite app_length in *; simpl in *.
        assert (Ey : nlt d (snd y) = true).
        { unfold aworst in E. rewrite nth_error_app2 in E by lia.
          replace (k - 1 - length l') with 0 in E by lia. exact E. }
        split; [lia|]. split; [|split; [|split; [|split]]].
        + rewrite Hi, map_app. simpl. rewrite <- app_assoc. simpl. f_equal. f_equal.
          f_equal. lia.
        + rewrite Hds, map_app. simpl. rewrite <- app_assoc. simpl. f_equal. f_equal.
          f_equal. lia.
        + apply Forall_app in Hok; tauto.
        + apply ascending_app_inv in Ha; tauto.
        + intros a1 a2 Ea Ei. unfold apush. rewrite R. rewrite ins_snoc_lt by auto.
          rewrite <- Ei. rewrite firstn_app.
          rewrite ins_length. replace (k - S (length l')) with 0 by lia.
          simpl. rewrite app_nil_r. symmetry. apply firstn_length_le_id.
          rewrite ins_length; lia.
      - exists l, INVALID, nmaxv.
        split; [lia|]. split; [|split; [|split; [|split]]]; auto.
        + rewrite Hi. f_equal. replace (k - length l) with (S (k - S (length l))) by lia.
          reflexivity.
        + rewrite Hds. f_equal. replace (k - length l) with (S (k - S (length l))) by lia.
          reflexivity.
        + intros a1 a2 Ea Ei. unfold apush. rewrite R, <- Ei. symmetry.
          apply firstn_length_le_id. rewrite ins_length. lia. }
    destruct Sh as (a & ix & dx & Hlen & Hi' & Hd' & Oka & Aa & Hcl).
    destruct (shift_loop_spec d a ix (repeat INVALID (k - S (length l)))
                              dx (repeat nmaxv (k - S (length l))))
      as (a1 & a2 & jx & jd & Ea & F2 & F1 & RL).
    assert (Ei : ins c a = a1 ++ c :: a2).
    { rewrite Ea. apply ins_split; auto.
      - rewrite <- Ea; auto.
      - rewrite <- Ea; auto. }
    assert (Gen : exists idx dst,
      (let* (loc, idx, dst) :=
              shift_loop (Nat.min (num_found_neighbors r) (k - 1)) d
                         (indices r) (distances r) in
           let* idx := set idx loc i in
           let* dst := set dst loc d in
           Ok (idx, dst)) = Ok (idx, dst) /\
      idx = map fst (a1 ++ c :: a2) ++ repeat INVALID (k - S (length l)) /\
      dst = map snd (a1 ++ c :: a2) ++ repeat nmaxv (k - S (length l))).
    { rewrite Hlen, Hi', Hd', RL. cbn [bind].
      replace (set (map fst a1 ++ jx :: map fst a2 ++ repeat INVALID (k - S (length l))) (length a1) i)
        with (set (map fst a1 ++ jx :: map fst a2 ++ repeat INVALID (k - S (length l))) (length (map fst a1)) i)
        by (rewrite map_length; reflexivity).
      rewrite set_app_mid. cbn [bind].
      replace (set (map snd a1 ++ jd :: map snd a2 ++ repeat nmaxv (k - S (length l))) (length a1) d)
        with (set (map snd a1 ++ jd :: map snd a2 ++ repeat nmaxv (k - S (length l))) (length (map snd a1)) d)
        by (rewrite map_length; reflexivity).
      rewrite set_app_mid. cbn [bind].
      eexists _, _. split; [reflexivity|].
      rewrite !map_app. simpl. rewrite <- !app_assoc. split; reflexivity. }
    destruct Gen as (idx & dst & G1 & G2 & G3).
    exists a1, a2, idx, dst. split; [|split; [|split]]; auto.
    destruct (static_n r) as [[|[|n]]|] eqn:Es; auto.
    (* N == 1: slot 0 is overwritten *)
    assert (k = 1) by (unfold k, buffer_size; rewrite Es; reflexivity).
    assert (La : length a = 0) by lia. destruct a; [|discriminate].
    assert (a1 = [] /\ a2 = []) as [-> ->]
      by (destruct a1; [destruct a2; [auto|discriminate]|discriminate]).
    simpl in *. rewrite Hi', Hd'. unfold set. simpl. rewrite G2, G3. reflexivity. }
  destruct Main as (a1 & a2 & idx & dst & M1 & M2 & M3 & M4).
  rewrite M1. cbn [bind]. eexists. split; [reflexivity|].
  assert (Lp : length (apush k l c) = Nat.min (S (length l)) k).
  { unfold apush. rewrite R, firstn_length, ins_length. lia. }
  assert (Okp : Forall okc (ins c l)) by (apply ins_okc; auto).
  split; [|split; [|split]]; auto.
  unfold krep. unfold buffer_size; cbn [static_n capacity]. fold (buffer_size r). fold k.
  cbn [num_found_neighbors indices distances].
  rewrite Lp. split; [auto|]. split; [lia|]. split; [lia|].
  split; [rewrite M2, M4; f_equal; f_equal; lia|].
  split; [rewrite M3, M4; f_equal; f_equal; lia|].
  assert (Ap : ascending (ins c l)) by (apply ins_ascending; auto).
  unfold apush. rewrite R. split; [|split].
  - rewrite <- (firstn_skipn k (ins c l)) in Ap. apply ascending_app_inv in Ap; tauto.
  - rewrite <- (firstn_skipn k (ins c l)) in Okp. apply Forall_app in Okp; tauto.
  - assert (Q : Forall (fun x => reachable_dist x = true) (ins c l)).
    { eapply Permutation_Forall; [apply ins_Permutation|]. constructor; auto. }
    rewrite <- (firstn_skipn k (ins c l)) in Q. apply Forall_app in Q; tauto.
Qed.

(** * Sequences of pushes *)
Lemma push_all_krep L : forall r l,
  krep r l -> Forall okc L ->
  exists r', push_all r L = Ok r' /\ krep r' (fold_left (apush (buffer_size r)) L l) /\
             buffer_size r' = buffer_size r.
Proof.
  unfold push_all. induction L as [|[i d] L IH]; intros r l Hr HL; simpl.
  - exists r. auto.
  - inversion HL as [|? ? Hd HL']; subst.
    destruct (push_krep r l i d Hr Hd) as (r1 & E1 & K1 & B1 & _ & _).
    rewrite E1. cbn [bind]. destruct (IH r1 _ K1 HL') as (r2 & E2 & K2 & B2).
    exists r2. rewrite B1 in *. auto.
Qed.

Lemma fold_apush_firstn k L : forall l,
  fold_left (apush k) L (firstn k l) =
  firstn k (fold_left (fun l c => ins c l) (filter reachable_dist L) l).
Proof.
  induction L as [|c L IH]; intros l; simpl; auto.
  unfold apush at 2. destruct (reachable_dist c) eqn:R; simpl.
  - rewrite firstn_ins. apply IH.
  - apply IH.
Qed.

Lemma fold_apush_topk k L :
  fold_left (apush k) L [] = firstn k (isort (filter reachable_dist L)).
Proof.
  replace (@nil cand) with (firstn k (@nil cand)) at 1 by (destruct k; reflexivity).
  apply fold_apush_firstn.
Qed.

(** [isort] is the stable sort. *)
Lemma isort_snoc L c : isort (L ++ [c]) = ins c (isort L).
Proof. unfold isort. rewrite fold_left_app. reflexivity. Qed.

Lemma isort_Permutation L : Permutation L (isort L).
Proof.
  induction L as [|c L IH] using rev_ind; [constructor|].
  rewrite isort_snoc. rewrite Permutation_app_comm. simpl.
  eapply perm_trans; [|apply ins_Permutation]. constructor; auto.
Qed.

Lemma isort_okc L : Forall okc L -> Forall okc (isort L).
Proof. intros H. eapply Permutation_Forall; [apply isort_Permutation|auto]. Qed.

Lemma isort_ascending L : Forall okc L -> ascending (isort L).
Proof.
  induction L as [|c L IH] using rev_ind; intros H; [constructor|].
  apply Forall_app in H. destruct H as [H Hc]. inversion Hc; subst.
  rewrite isort_snoc. apply ins_ascending; auto. apply isort_okc; auto.
Qed.

Lemma nlt_asym (a b : car D) : ok a -> ok b -> nlt a b = true -> nlt b a = false.
Proof.
  intros Ha Hb H. destruct (nlt b a) eqn:E; auto.
  pose proof (ol_trans _ _ OL a b a Ha Hb Ha H E) as T.
  rewrite (ol_irrefl _ _ OL a Ha) in T. discriminate.
Qed.

Lemma filter_ins_other (x c : cand) l :
  same_dist x c = false -> filter (same_dist x) (ins c l) = filter (same_dist x) l.
Proof.
  intros E. induction l as [|y l IH]; simpl.
  - rewrite E. reflexivity.
  - destruct (nlt (snd c) (snd y)); simpl.
    + rewrite E. reflexivity.
    + rewrite IH. reflexivity.
Qed.

Lemma filter_none {A} (f : A -> bool) l : Forall (fun x => f x = false) l -> filter f l = [].
Proof. induction 1; simpl; auto. rewrite H; auto. Qed.

Lemma filter_ins_same (x c : cand) l :
  okc x -> okc c -> Forall okc l -> ascending l -> same_dist x c = true ->
  filter (same_dist x) (ins c l) = filter (same_dist x) l ++ [c].
Proof.
  intros Hx Hc. induction l as [|y l IH]; simpl; intros Hok Ha E.
  - rewrite E. reflexivity.
  - inversion Hok as [|? ? Oky Okl]; subst.
    apply ascending_inv in Ha. destruct Ha as [Ha Hy].
    destruct (nlt (snd c) (snd y)) eqn:L; simpl.
    + rewrite E.
      assert (N : Forall (fun z => same_dist x z = false) (y :: l)).
      { assert (Ny : forall z, okc z -> nlt (snd z) (snd y) = false -> same_dist x z = false).
        { intros z Okz Hz.
          assert (nlt (snd c) (snd z) = true).
          { destruct (nlt (snd c) (snd z)) eqn:G; auto.
            rewrite (ol_cotrans _ _ OL (snd c) (snd z) (snd y)) in L; auto; try discriminate. }
          unfold same_dist in *. apply andb_true_iff in E. destruct E as [E1 E2].
          rewrite negb_true_iff in E1, E2.
          assert (nlt (snd x) (snd z) = true).
          { destruct (nlt (snd x) (snd z)) eqn:G; auto.
            rewrite (ol_cotrans _ _ OL (snd c) (snd x) (snd z)) in H; auto; try discriminate. }
          rewrite H0. reflexivity. }
        constructor.
        - apply Ny; auto. apply (ol_irrefl _ _ OL); auto.
        - rewrite Forall_forall in *. intros z Hz. apply Ny; [apply Okl; auto|apply Hy; auto]. }
      inversion N; subst. rewrite H1. rewrite (filter_none _ _ H2). reflexivity.
    + rewrite IH by auto. destruct (same_dist x y); reflexivity.
Qed.

Lemma isort_stable L : Forall okc L -> stable_sort_of L (isort L).
Proof.
  intros Hok. split; [apply isort_Permutation|]. split; [apply isort_ascending; auto|].
  intros x Hx. assert (Okx : okc x) by (rewrite Forall_forall in Hok; auto).
  clear Hx. induction L as [|c L IH] using rev_ind; auto.
  apply Forall_app in Hok. destruct Hok as [Hok Hc]. inversion Hc; subst.
  rewrite isort_snoc, filter_app. simpl. destruct (same_dist x c) eqn:E.
  - rewrite filter_ins_same; auto. rewrite IH; auto.
    apply isort_okc; auto. apply isort_ascending; auto.
  - rewrite filter_ins_other by auto. rewrite IH, app_nil_r; auto.
Qed.

(** Main statement: pushing [L] into a fresh container keeps the first [k] of the
    stable sort of the reachable candidates. *)
Theorem push_all_topk sn kn r0 L :
  knn_init D sn kn = Ok r0 -> 0 < buffer_size r0 ->
  Forall okc L ->
  exists r S,
    push_all r0 L = Ok r /\
    stable_sort_of (filter reachable_dist L) S /\
    let k := buffer_size r0 in
    let kept := firstn k S in
    buffer_size r = k /\
    num_found_neighbors r = length kept /\
    indices r = map fst kept ++ repeat INVALID (k - length kept) /\
    distances r = map snd kept ++ repeat nmaxv (k - length kept).
Proof.
  intros Hi Hk HL.
  destruct (push_all_krep L r0 [] (knn_init_Ok _ _ _ Hi Hk) HL) as (r & E & K & B).
  rewrite fold_apush_topk in K.
  exists r, (isort (filter reachable_dist L)). split; auto. split.
  - apply isort_stable. rewrite Forall_forall in *. intros x Hx.
    apply filter_In in Hx. apply HL; tauto.
  - cbv zeta. destruct K as (K1 & K2 & K3 & K4 & K5 & _). rewrite B in *. auto.
Qed.

End KnnProofs.
