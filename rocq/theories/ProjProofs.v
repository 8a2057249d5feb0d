(** Proofs about projective search. *)
From Coq Require Import ZArith ZifyBool ZifyNat ZifyN.
From Verif Require Import Base BaseProofs Num F64 FloorModel KnnModel KnnSpec KnnProofs.
From Verif Require Import ProjModel ProjSpec.

(** * Arithmetic *)
Lemma zrange_In w d : (0 <= w)%Z -> In d (zrange w) <-> (- w <= d <= w)%Z.
Proof.
  intros Hw. unfold zrange. rewrite in_map_iff. split.
  - intros (i & <- & Hi). apply in_seq in Hi. lia.
  - intros H. exists (Z.to_nat (d + w)). split; [lia|]. apply in_seq. lia.
Qed.

Lemma zrange_NoDup w : NoDup (zrange w).
Proof.
  unfold zrange. apply FinFun.Injective_map_NoDup; [|apply seq_NoDup].
  intros a b H. lia.
Qed.

Lemma inside_iff cols rows u v :
  inside cols rows u v = true <-> (0 <= u < cols /\ 0 <= v < rows)%Z.
Proof. unfold inside. lia. Qed.

Lemma cell_lt cols rows u v :
  inside cols rows u v = true -> cell cols u v < Z.to_nat (cols * rows).
Proof. rewrite inside_iff. unfold cell. intros H. nia. Qed.

Lemma cell_inj cols rows u v u' v' :
  inside cols rows u v = true -> inside cols rows u' v' = true ->
  cell cols u v = cell cols u' v' -> u = u' /\ v = v'.
Proof.
  rewrite !inside_iff. unfold cell. intros H H' E.
  assert (E' : (v * cols + u = v' * cols + u')%Z) by nia.
  assert (v = v') by nia. subst. split; [nia|reflexivity].
Qed.

Lemma border_reaches b x width x' : (0 <= width)%Z ->
  reaches b x width x' <->
  (border_apply b x width = x' /\ (0 <= x' < width)%Z).
Proof.
  intros Hw. unfold reaches, border_apply. destruct b.
  - intuition.
  - split.
    + intros (R & t & T & E). split; [|exact R].
      assert (t = -1 \/ t = 0 \/ t = 1)%Z as [-> | [-> | ->]] by lia;
        destruct (Z.ltb_spec x 0); destruct (Z.leb_spec width x); lia.
    + intros (E & R). split; [exact R|].
      destruct (Z.ltb_spec x 0).
      * exists 1%Z. lia.
      * destruct (Z.leb_spec width x); [exists (-1)%Z|exists 0%Z]; lia.
Qed.

Lemma border_inj b w width x d d' y :
  (0 <= width)%Z -> fits b w width ->
  (- w <= d <= w)%Z -> (- w <= d' <= w)%Z ->
  border_apply b (x + d) width = y -> border_apply b (x + d') width = y ->
  (0 <= y < width)%Z -> d = d'.
Proof.
  unfold fits, border_apply. intros Hw F Hd Hd' E E' R. destruct b; [lia|].
  revert E E'. destruct (Z.ltb_spec (x + d) 0), (Z.ltb_spec (x + d') 0),
    (Z.leb_spec width (x + d)), (Z.leb_spec width (x + d')); lia.
Qed.

Lemma foldM_flat_map {S A B} (f : S -> A -> outcome S) (g : S -> B -> outcome S)
  (h : A -> list B) l : forall s,
  (forall s a, In a l -> f s a = foldM g (h a) s) ->
  foldM f l s = foldM g (flat_map h l) s.
Proof.
  induction l as [|a l IH]; intros s H; simpl; auto.
  rewrite foldM_app, <- H by (left; reflexivity).
  destruct (f s a); simpl; auto. apply IH. intros; apply H; right; auto.
Qed.

Section ProjProofs.
Context (D : num) (P : Type) (dist : P -> P -> car D).
Context (pixel : Z -> Z -> P -> outcome (Z * Z)) (bh bv : border) (mode : int_mode).

(** * The index image *)
Section Image.
Context (cols rows : Z).
Context (Hc : (0 <= cols)%Z) (Hr : (0 <= rows)%Z).
Notation pix := (pixel cols rows).

Definition map_inv (pts : list P) (m : list N) : Prop :=
  length m = Z.to_nat (cols * rows) /\
  forall u v, inside cols rows u v = true ->
    exists x, nth_error m (cell cols u v) = Some x /\
      ((x = invalid_index /\
        forall i p, nth_error pts i = Some p -> pix p <> Ok (u, v)) \/
       exists i, x = N.of_nat i /\ owner pix pts u v i).

Lemma combine_seq_snoc (pts : list P) p :
  combine (seq 0 (length (pts ++ [p]))) (pts ++ [p]) =
  combine (seq 0 (length pts)) pts ++ [(length pts, p)].
Proof.
  rewrite app_length. cbn [length]. rewrite Nat.add_1_r, seq_S. cbn [Nat.add].
  assert (H : forall a (l1 : list nat) (l2 : list P) x y, length l1 = length l2 -> a = 0 ->
            combine (l1 ++ [x]) (l2 ++ [y]) = combine l1 l2 ++ [(x, y)]).
  { clear. intros a l1. induction l1 as [|b l1 IH]; intros [|c l2] x y E Ha; simpl in *;
      try discriminate; auto. f_equal. apply IH; auto. }
  apply (H 0); auto. apply seq_length.
Qed.

Lemma owner_snoc_old pts p u v i :
  pix p <> Ok (u, v) -> owner pix pts u v i -> owner pix (pts ++ [p]) u v i.
Proof.
  intros Hp (q & E & Q & L). exists q.
  assert (Hi : i < length pts) by (apply nth_error_Some; congruence).
  split; [rewrite nth_error_app1; auto|]. split; [exact Q|].
  intros j r Hj Hn. destruct (Nat.lt_ge_cases j (length pts)) as [C|C].
  - rewrite nth_error_app1 in Hn by auto. eauto.
  - rewrite nth_error_app2 in Hn by auto. destruct (j - length pts) as [|n].
    + simpl in Hn. congruence.
    + destruct n; discriminate.
Qed.

Lemma fill_inv pts : forall m0,
  (N.of_nat (length pts) <= invalid_index)%N ->
  m0 = repeat invalid_index (Z.to_nat (cols * rows)) ->
  (forall p, In p pts -> exists uv, pix p = Ok uv) ->
  exists m, foldM (fill_step P pixel cols rows) (combine (seq 0 (length pts)) pts) m0 = Ok m /\
            map_inv pts m.
Proof.
  intros m0. induction pts as [|p pts IH] using rev_ind; intros HL Hm0 HP.
  - exists m0. split; [reflexivity|]. subst m0. split; [apply repeat_length|].
    intros u v Hi. exists invalid_index. split.
    + apply nth_error_repeat. apply (cell_lt cols rows); auto.
    + left. split; [reflexivity|]. intros i q Hn. destruct i; discriminate.
  - rewrite app_length in HL. cbn [length] in HL.
    destruct IH as (m & E & [IL IM]).
    { lia. } { exact Hm0. } { intros q Hq. apply HP, in_or_app. auto. }
    rewrite combine_seq_snoc, foldM_app, E. cbn [bind foldM].
    unfold fill_step at 1. cbn [fst snd].
    destruct (HP p) as ([u v] & EP); [apply in_or_app; simpl; auto|]. rewrite EP. cbn [bind].
    destruct (inside cols rows u v) eqn:Ei.
    + unfold map_set. rewrite Ei, set_Ok by (rewrite IL; apply (cell_lt cols rows); auto).
      cbn [bind]. eexists. split; [reflexivity|]. split; [rewrite upd_length; exact IL|].
      assert (TU : to_u32 (N.of_nat (length pts)) = N.of_nat (length pts)).
      { unfold to_u32. apply N.mod_small. unfold invalid_index, U32 in *. lia. }
      rewrite TU. intros u' v' Hi'. rewrite upd_nth_error.
      destruct (Nat.eqb_spec (cell cols u v) (cell cols u' v')) as [Eq|Ne].
      * destruct (cell_inj cols rows u v u' v') as [-> ->]; auto.
        replace (cell cols u' v' <? length m) with true
          by (symmetry; apply Nat.ltb_lt; rewrite IL; apply (cell_lt cols rows); auto).
        cbn. eexists. split; [reflexivity|]. right. exists (length pts). split; [reflexivity|].
        exists p. split; [rewrite nth_error_app2, Nat.sub_diag; auto|]. split; [exact EP|].
        intros j q Hj Hn. exfalso.
        assert (j < length (pts ++ [p])) by (apply nth_error_Some; congruence).
        rewrite app_length in *. simpl in *. lia.
      * simpl. destruct (IM u' v' Hi') as (x & Ex & C). exists x. split; [exact Ex|].
        assert (NP : pix p <> Ok (u', v')) by (rewrite EP; intros K; inversion K; subst; auto).
        destruct C as [(-> & N0) | (i & -> & O)].
        -- left. split; [reflexivity|]. intros i q Hn.
           destruct (Nat.lt_ge_cases i (length pts)) as [C|C].
           ++ rewrite nth_error_app1 in Hn by auto. eauto.
           ++ rewrite nth_error_app2 in Hn by auto. destruct (i - length pts) as [|n].
              ** simpl in Hn. congruence.
              ** destruct n; discriminate.
        -- right. exists i. split; [reflexivity|]. apply owner_snoc_old; auto.
    + exists m. split; [reflexivity|]. split; [exact IL|].
      intros u' v' Hi'. destruct (IM u' v' Hi') as (x & Ex & C). exists x. split; [exact Ex|].
      assert (NP : pix p <> Ok (u', v')) by (rewrite EP; intros K; inversion K; subst; congruence).
      destruct C as [(-> & N0) | (i & -> & O)].
      * left. split; [reflexivity|]. intros i q Hn.
        destruct (Nat.lt_ge_cases i (length pts)) as [C|C].
        -- rewrite nth_error_app1 in Hn by auto. eauto.
        -- rewrite nth_error_app2 in Hn by auto. destruct (i - length pts) as [|n].
           ++ simpl in Hn. congruence.
           ++ destruct n; discriminate.
      * right. exists i. split; [reflexivity|]. apply owner_snoc_old; auto.
Qed.

End Image.
Close Scope Z_scope.

(** * The scan over the candidates *)
Definition cstep (pts : list P) (query : P) (eps : car D)
  (st : knn_result D * bool) (i : nat) : outcome (knn_result D * bool) :=
  let (r, done) := st in
  if done then Ok st
  else
    let* p := get pts i in
    let* r' := push r (N.of_nat i) (dist p query) in
    let* f := fulfilled eps r' in
    Ok (r', f).

Lemma cstep_done pts query eps L r :
  foldM (cstep pts query eps) L (r, true) = Ok (r, true).
Proof. induction L; simpl; auto. Qed.

(** Candidates of one image cell. *)
Definition cell_cand (s : projective P) (v' u' : Z) : list nat :=
  match nth_error (pr_map s) (cell (pr_cols s) u' v') with
  | Some x => if (x =? invalid_index)%N then [] else [N.to_nat x]
  | None => []
  end.
Definition col_cand (s : projective P) (u v' du : Z) : list nat :=
  let u' := border_apply bh (u + du)%Z (pr_cols s) in
  if ((u' <? 0) || (pr_cols s <=? u'))%Z then [] else cell_cand s v' u'.
Definition row_cand (s : projective P) (u v dv : Z) : list nat :=
  let v' := border_apply bv (v + dv)%Z (pr_rows s) in
  if ((v' <? 0) || (pr_rows s <=? v'))%Z then []
  else flat_map (col_cand s u v') (zrange (search_window_h s)).
Definition cands (s : projective P) (u v : Z) : list nat :=
  flat_map (row_cand s u v) (zrange (search_window_v s)).

Section Scan.
Context (s : projective P).
Context (Hc : (0 <= pr_cols s)%Z) (Hr : (0 <= pr_rows s)%Z).
Context (INV : map_inv (pr_cols s) (pr_rows s) (pr_points s) (pr_map s)).
Context (u v : Z).
Context (Wh : (0 <= search_window_h s)%Z) (Wv : (0 <= search_window_v s)%Z).
Context (Iu : (INT_MIN <= u - search_window_h s)%Z) (Iu' : (u + search_window_h s <= INT_MAX)%Z).
Context (Iv : (INT_MIN <= v - search_window_v s)%Z) (Iv' : (v + search_window_v s <= INT_MAX)%Z).
Context (query : P) (eps : car D).

Lemma inner_cand v' st du :
  (0 <= v' < pr_rows s)%Z -> In du (zrange (search_window_h s)) ->
  inner_step D P dist bh mode s query eps u v' st du =
  foldM (cstep (pr_points s) query eps) (col_cand s u v' du) st.
Proof.
  intros Hv Hd. apply zrange_In in Hd; [|exact Wh].
  destruct st as [r done]. unfold inner_step, col_cand. destruct done.
  - symmetry. apply cstep_done.
  - unfold int_result.
    replace (in_int (u + du)) with true by (symmetry; unfold in_int; lia). cbn [bind].
    set (u' := border_apply bh (u + du) (pr_cols s)).
    destruct ((u' <? 0) || (pr_cols s <=? u'))%Z eqn:Eo; [reflexivity|].
    assert (Ei : inside (pr_cols s) (pr_rows s) u' v' = true) by (rewrite inside_iff; lia).
    unfold map_get. rewrite Ei. unfold cell_cand. destruct INV as [_ IM].
    destruct (IM u' v' Ei) as (x & Ex & _). unfold get at 1. rewrite Ex. cbn [bind].
    destruct (x =? invalid_index)%N; [reflexivity|].
    cbn [foldM cstep]. rewrite N2Nat.id. symmetry. apply bind_Ok_r.
Qed.

Lemma outer_cand st dv :
  In dv (zrange (search_window_v s)) ->
  outer_step D P dist bh bv mode s query eps u v st dv =
  foldM (cstep (pr_points s) query eps) (row_cand s u v dv) st.
Proof.
  intros Hd. apply zrange_In in Hd; [|exact Wv].
  destruct st as [r done]. unfold outer_step, row_cand. destruct done.
  - symmetry. apply cstep_done.
  - unfold int_result.
    replace (in_int (v + dv)) with true by (symmetry; unfold in_int; lia). cbn [bind].
    set (v' := border_apply bv (v + dv) (pr_rows s)).
    destruct ((v' <? 0) || (pr_rows s <=? v'))%Z eqn:Eo; [reflexivity|].
    apply foldM_flat_map. intros st' a Ha. apply inner_cand; auto. lia.
Qed.

Lemma search_cand r :
  pixel (pr_cols s) (pr_rows s) query = Ok (u, v) ->
  proj_search D P dist pixel bh bv mode s query eps r =
  (let* st := foldM (cstep (pr_points s) query eps) (cands s u v) (r, false) in Ok (fst st)).
Proof.
  intros HQ. unfold proj_search, cands. rewrite HQ. cbn [bind].
  rewrite <- (foldM_flat_map (outer_step D P dist bh bv mode s query eps u v)); auto.
  intros; apply outer_cand; auto.
Qed.

Lemma cell_cand_owner v' u' i :
  inside (pr_cols s) (pr_rows s) u' v' = true ->
  (N.of_nat (length (pr_points s)) <= invalid_index)%N ->
  In i (cell_cand s v' u') <-> owner (pixel (pr_cols s) (pr_rows s)) (pr_points s) u' v' i.
Proof.
  intros Hi HL. unfold cell_cand. destruct INV as [_ IM].
  destruct (IM u' v' Hi) as (x & Ex & C). rewrite Ex. destruct C as [(-> & N0)|(j & -> & O)].
  - rewrite N.eqb_refl. split; [intros []|]. intros (p & E & Q & _). exfalso. eapply N0; eauto.
  - assert (Hj : j < length (pr_points s))
      by (destruct O as (p & E & _); apply nth_error_Some; congruence).
    destruct (N.eqb_spec (N.of_nat j) invalid_index) as [Eq|Ne].
    + lia.
    + rewrite Nat2N.id. split.
      * intros [<-|[]]. exact O.
      * intros O'. left. destruct O as (p & E & Q & L), O' as (p' & E' & Q' & L').
        destruct (Nat.lt_trichotomy i j) as [C|[C|C]]; auto; exfalso.
        -- exact (L' j p C E Q).
        -- exact (L i p' C E' Q').
Qed.

Lemma cell_cand_NoDup v' u' : NoDup (cell_cand s v' u').
Proof.
  unfold cell_cand. destruct (nth_error _ _); [destruct (n =? _)%N|]; repeat constructor; auto.
Qed.

Lemma cands_In i :
  (N.of_nat (length (pr_points s)) <= invalid_index)%N ->
  In i (cands s u v) <->
  exists u' v', visible bh bv (pr_cols s) (pr_rows s) (search_window_h s) (search_window_v s)
                        u v u' v' /\
                owner (pixel (pr_cols s) (pr_rows s)) (pr_points s) u' v' i.
Proof.
  intros HL. unfold cands. rewrite in_flat_map. split.
  - intros (dv & Hdv & H). apply zrange_In in Hdv; [|exact Wv].
    unfold row_cand in H.
    destruct ((_ <? 0) || _)%Z eqn:Ev in H; [destruct H|].
    apply in_flat_map in H. destruct H as (du & Hdu & H).
    apply zrange_In in Hdu; [|exact Wh]. unfold col_cand in H.
    destruct ((_ <? 0) || _)%Z eqn:Eu in H; [destruct H|].
    exists (border_apply bh (u + du) (pr_cols s)), (border_apply bv (v + dv) (pr_rows s)).
    split.
    + exists du, dv. split; [exact Hdu|]. split; [exact Hdv|].
      split; apply border_reaches; auto; split; auto; lia.
    + apply cell_cand_owner; auto. rewrite inside_iff. lia.
  - intros (u' & v' & (du & dv & Hdu & Hdv & Ru & Rv) & O).
    apply border_reaches in Ru; auto. apply border_reaches in Rv; auto.
    destruct Ru as [Bu Ru], Rv as [Bv Rv].
    exists dv. split; [apply zrange_In; auto|]. unfold row_cand. rewrite Bv.
    replace ((v' <? 0) || (pr_rows s <=? v'))%Z with false by lia.
    apply in_flat_map. exists du. split; [apply zrange_In; auto|].
    unfold col_cand. rewrite Bu.
    replace ((u' <? 0) || (pr_cols s <=? u'))%Z with false by lia.
    apply cell_cand_owner; auto. rewrite inside_iff. lia.
Qed.

Lemma NoDup_flat_map {A B} (f : A -> list B) l :
  NoDup l -> (forall a, In a l -> NoDup (f a)) ->
  (forall a b x, In a l -> In b l -> In x (f a) -> In x (f b) -> a = b) ->
  NoDup (flat_map f l).
Proof.
  induction l as [|a l IH]; intros Hl Hf Hd; simpl; [constructor|].
  inversion Hl; subst. apply NoDup_app_intro.
  - apply Hf; left; auto.
  - apply IH; auto; intros; [apply Hf; right; auto|eapply Hd; eauto; right; auto].
  - intros x Hx Hx'. apply in_flat_map in Hx'. destruct Hx' as (b & Hb & Hx').
    assert (a = b) by (eapply Hd; eauto; [left; auto|right; auto]). subst. auto.
Qed.

Lemma owner_unique_cell u1 v1 u2 v2 i :
  owner (pixel (pr_cols s) (pr_rows s)) (pr_points s) u1 v1 i ->
  owner (pixel (pr_cols s) (pr_rows s)) (pr_points s) u2 v2 i -> u1 = u2 /\ v1 = v2.
Proof.
  intros (p & E & Q & _) (p' & E' & Q' & _). rewrite E in E'. inversion E'; subst.
  rewrite Q in Q'. inversion Q'; auto.
Qed.

Lemma col_cand_inv v' du i :
  (N.of_nat (length (pr_points s)) <= invalid_index)%N -> (0 <= v' < pr_rows s)%Z ->
  In i (col_cand s u v' du) ->
  exists u', border_apply bh (u + du) (pr_cols s) = u' /\ (0 <= u' < pr_cols s)%Z /\
    owner (pixel (pr_cols s) (pr_rows s)) (pr_points s) u' v' i.
Proof.
  intros HL Hv H. unfold col_cand in H.
  destruct ((_ <? 0) || _)%Z eqn:Eu in H; [destruct H|].
  eexists. split; [reflexivity|]. split; [lia|]. apply cell_cand_owner; auto.
  rewrite inside_iff. lia.
Qed.

Lemma cands_NoDup :
  (N.of_nat (length (pr_points s)) <= invalid_index)%N ->
  fits bh (search_window_h s) (pr_cols s) -> fits bv (search_window_v s) (pr_rows s) ->
  NoDup (cands s u v).
Proof.
  intros HL Fh Fv. unfold cands. apply NoDup_flat_map.
  - apply zrange_NoDup.
  - intros dv _. unfold row_cand. cbv zeta.
    match goal with |- NoDup (if ?c then _ else _) => destruct c eqn:Ev end; [constructor|].
    apply NoDup_flat_map.
    + apply zrange_NoDup.
    + intros du _. unfold col_cand. cbv zeta.
      match goal with |- NoDup (if ?c then _ else _) => destruct c end;
        [constructor|apply cell_cand_NoDup].
    + intros a b x Ha Hb Ia Ib. apply zrange_In in Ha, Hb; auto.
      apply col_cand_inv in Ia, Ib; auto; try lia.
      destruct Ia as (ua & Ba & Ra & Oa), Ib as (ub & Bb & Rb & Ob).
      destruct (owner_unique_cell _ _ _ _ _ Oa Ob) as [-> _].
      exact (border_inj bh _ _ u a b ub Hc Fh Ha Hb Ba Bb Ra).
  - intros a b x Ha Hb Ia Ib. apply zrange_In in Ha, Hb; auto.
    unfold row_cand in Ia, Ib.
    destruct ((_ <? 0) || _)%Z eqn:Ea in Ia; [destruct Ia|].
    destruct ((_ <? 0) || _)%Z eqn:Eb in Ib; [destruct Ib|].
    apply in_flat_map in Ia, Ib. destruct Ia as (da & _ & Ia), Ib as (db & _ & Ib).
    apply col_cand_inv in Ia, Ib; auto; try lia.
    destruct Ia as (ua & _ & _ & Oa), Ib as (ub & _ & _ & Ob).
    destruct (owner_unique_cell _ _ _ _ _ Oa Ob) as [_ EQ].
    refine (border_inj bv _ _ v a b _ Hr Fv Ha Hb EQ eq_refl _). lia.
Qed.

End Scan.

(** * The scan keeps the best of a prefix *)
Section Best.
Context (ok : car D -> Prop) (OL : order_laws D ok).
Context (pts : list P) (query : P) (eps : car D).
Context (OKD : forall p, In p pts -> ok (dist p query)).

(** Pair a candidate index with its true distance. *)
Definition true_cand (i : nat) (c : N * car D) : Prop :=
  exists p, nth_error pts i = Some p /\ c = (N.of_nat i, dist p query).

Lemma scan_prefix L : forall r l,
  krep D ok r l -> (forall i, In i L -> i < length pts) ->
  exists r' f L1 L2 C1,
    foldM (cstep pts query eps) L (r, false) = Ok (r', f) /\
    L = L1 ++ L2 /\ Forall2 true_cand L1 C1 /\ push_all r C1 = Ok r' /\
    Forall (okc D ok) C1 /\
    (L2 = [] \/ exists w, worst_distance r' = Ok w /\ nlt w eps = true).
Proof.
  induction L as [|i L IH]; intros r l Hk HL.
  - exists r, false, [], [], []. repeat split; auto; constructor.
  - destruct (nth_error pts i) as [p|] eqn:Ep.
    2: { apply nth_error_None in Ep. specialize (HL i (or_introl eq_refl)). lia. }
    assert (Hd : ok (dist p query)) by (apply OKD; eapply nth_error_In; eauto).
    destruct (push_krep D ok OL r l (N.of_nat i) (dist p query) Hk Hd)
      as (r1 & E1 & K1 & _).
    cbn [foldM cstep]. unfold get. rewrite Ep. cbn [bind]. rewrite E1. cbn [bind].
    unfold fulfilled.
    assert (exists w, worst_distance r1 = Ok w) as (w & Ew).
    { destruct K1 as (B1 & B2 & _ & _ & B5 & _). unfold worst_distance. apply get_lt.
      rewrite B5, app_length, map_length, repeat_length. lia. }
    rewrite Ew. cbn [bind]. destruct (nlt w eps) eqn:El.
    + rewrite cstep_done. exists r1, true, [i], L, [(N.of_nat i, dist p query)].
      split; [reflexivity|]. split; [reflexivity|].
      split; [constructor; [exists p; auto|constructor]|].
      split; [unfold push_all; simpl; rewrite E1; reflexivity|].
      split; [repeat constructor; exact Hd|].
      right. eauto.
    + destruct (IH r1 _ K1) as (r' & f & L1 & L2 & C1 & E & EL & F & PA & FO & T).
      { intros j Hj. apply HL. right; auto. }
      exists r', f, (i :: L1), L2, ((N.of_nat i, dist p query) :: C1).
      split; [exact E|]. split; [rewrite EL; reflexivity|].
      split; [constructor; [exists p; auto|exact F]|].
      split; [unfold push_all in *; simpl; rewrite E1; exact PA|].
      split; [constructor; auto|exact T].
Qed.

End Best.

End ProjProofs.
