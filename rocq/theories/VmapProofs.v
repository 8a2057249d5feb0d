(** Proofs about the voxel map: index consistency, eviction, contents. *)
From Coq Require Import ZArith.
From Coq Require Import ZifyBool ZifyNat ZifyN.
From Verif Require Import Base BaseProofs Num Vec F64 FloorModel KnnModel VmapModel VmapSpec.

Lemma coord_eqb_spec a b : coord_eqb a b = true <-> a = b.
Proof.
  destruct a as [[x y] z], b as [[x' y'] z']. simpl. rewrite !andb_true_iff, !Z.eqb_eq.
  split; [intros [[? ?] ?]|intros E; inversion E]; subst; auto.
Qed.
Lemma coord_eqb_refl a : coord_eqb a a = true.
Proof. apply coord_eqb_spec. auto. Qed.
Lemma coord_eqb_neq a b : coord_eqb a b = false <-> a <> b.
Proof.
  rewrite <- not_true_iff_false, coord_eqb_spec. tauto.
Qed.

Lemma lookup_In m c i : lookup m c = Some i -> In (c, i) m.
Proof.
  induction m as [|[c' j] m IH]; simpl; [discriminate|].
  destruct (coord_eqb c' c) eqn:E; intros H.
  - apply coord_eqb_spec in E. inversion H; subst. auto.
  - auto.
Qed.
Lemma lookup_NoDup m c i : NoDup (map fst m) -> In (c, i) m -> lookup m c = Some i.
Proof.
  induction m as [|[c' j] m IH]; simpl; intros ND I; [tauto|].
  inversion ND; subst. destruct I as [E|I].
  - inversion E; subst. rewrite coord_eqb_refl. auto.
  - destruct (coord_eqb c' c) eqn:E; [|auto].
    apply coord_eqb_spec in E. subst c'. exfalso. apply H1. apply (in_map fst) in I. exact I.
Qed.
Lemma nth_error_snoc {A} (l : list A) x i :
  nth_error (l ++ [x]) i = if i =? length l then Some x else nth_error l i.
Proof.
  destruct (Nat.eqb_spec i (length l)).
  - subst. rewrite nth_error_app2, Nat.sub_diag by lia. auto.
  - destruct (Nat.lt_ge_cases i (length l)).
    + apply nth_error_app1. auto.
    + rewrite nth_error_app2 by lia. rewrite (proj2 (nth_error_None l i)) by lia.
      destruct (i - length l) as [|[|k]] eqn:E; [lia| |]; reflexivity.
Qed.
Lemma combine_seq_In {A} (l : list A) a i x :
  In (i, x) (combine (seq a (length l)) l) <-> a <= i /\ nth_error l (i - a) = Some x.
Proof.
  revert a. induction l as [|y l IH]; intros a; simpl.
  - split; [tauto|]. intros [_ H]. destruct (i - a); discriminate.
  - rewrite IH. split.
    + intros [E|[H1 H2]].
      * inversion E; subst. rewrite Nat.sub_diag. auto.
      * split; [lia|]. replace (i - a) with (S (i - S a)) by lia. auto.
    + intros [H1 H2]. destruct (i - a) as [|k] eqn:E.
      * left. inversion H2. f_equal. lia.
      * right. split; [lia|]. replace (i - S a) with k by lia. auto.
Qed.

Section Map.
Context (D : num) (C : contents D).
Context (coord_of : vec4 D -> outcome coord).
Context (pose : Type) (act : pose -> item D -> item D).
Notation voxel := (voxel D C).
Notation vmap := (vmap D C).
Notation call := (pose * list (item D))%type.
Notation here := (here coord_of act).
Notation falls_in := (falls_in coord_of).

(** Looking a coordinate up gives the index of the voxel with that coordinate. *)
Definition idx_ok (flat : list voxel) (idx : index_map) : Prop :=
  forall c i, lookup idx c = Some i <-> exists v, nth_error flat i = Some v /\ v_coord v = c.

Lemma idx_ok_inj flat idx i j v w : idx_ok flat idx ->
  nth_error flat i = Some v -> nth_error flat j = Some w -> v_coord v = v_coord w -> i = j.
Proof.
  intros H Hi Hj E.
  assert (A : lookup idx (v_coord v) = Some i) by (apply H; eauto).
  assert (B : lookup idx (v_coord v) = Some j) by (apply H; eauto).
  congruence.
Qed.

Lemma idx_ok_NoDup flat idx : idx_ok flat idx -> NoDup (map v_coord flat).
Proof.
  intros H. apply NoDup_nth_error. intros i j L E. rewrite map_length in L.
  rewrite !nth_error_map in E.
  destruct (nth_error flat i) as [v|] eqn:Ei; [|apply nth_error_None in Ei; lia].
  destruct (nth_error flat j) as [w|] eqn:Ej; [|discriminate].
  simpl in E. inversion E. eapply idx_ok_inj; eauto.
Qed.

Lemma reindex_rev flat :
  reindex flat = rev (map (fun iv : nat * voxel => (v_coord (snd iv), fst iv))
                          (combine (seq 0 (length flat)) flat)).
Proof.
  unfold reindex. rewrite <- (app_nil_r (rev _)).
  generalize (@nil (coord * nat)). generalize (combine (seq 0 (length flat)) flat).
  induction l as [|x l IH]; intros acc; simpl; auto.
  rewrite IH, <- app_assoc. reflexivity.
Qed.

Lemma reindex_ok (flat : list voxel) : NoDup (map v_coord flat) -> idx_ok flat (reindex flat).
Proof.
  intros ND c i. rewrite reindex_rev.
  assert (K : NoDup (map fst (rev (map (fun iv : nat * voxel => (v_coord (snd iv), fst iv))
                          (combine (seq 0 (length flat)) flat))))).
  { rewrite map_rev, map_map. simpl.
    apply (Permutation_NoDup (Permutation_rev _)).
    replace (map (fun x : nat * voxel => v_coord (snd x)) (combine (seq 0 (length flat)) flat))
      with (map v_coord flat); auto.
    generalize 0. clear ND. induction flat as [|v l IH]; intros a; simpl; auto. f_equal. apply IH. }
  assert (IN : forall i, In (c, i) (rev (map (fun iv : nat * voxel => (v_coord (snd iv), fst iv))
                          (combine (seq 0 (length flat)) flat)))
          <-> exists v, nth_error flat i = Some v /\ v_coord v = c).
  { intros j. rewrite <- in_rev, in_map_iff. split.
    - intros [[k v] [E I]]. simpl in E. inversion E; subst. apply combine_seq_In in I.
      destruct I as [_ I]. rewrite Nat.sub_0_r in I. eauto.
    - intros [v [E1 E2]]. exists (j, v). simpl. split; [congruence|].
      apply combine_seq_In. rewrite Nat.sub_0_r. split; [lia|auto]. }
  split.
  - intros H. apply IN. apply lookup_In. auto.
  - intros H. apply lookup_NoDup; auto. apply IN. auto.
Qed.

Lemma In_voxel flat idx v w : idx_ok flat idx -> In v flat -> In w flat ->
  v_coord v = v_coord w -> v = w.
Proof.
  intros H Iv Iw E. apply In_nth_error in Iv, Iw. destruct Iv as [i Hi], Iw as [j Hj].
  rewrite (idx_ok_inj _ _ _ _ _ _ H Hi Hj E) in Hi. congruence.
Qed.

(** What one point does to the voxel [c], seen as an optional (last use, body) pair. *)
Definition cell_add (now : N) (q : item D) (o : option (N * body C)) : option (N * body C) :=
  Some (now, add C (match o with Some (_, b) => b | None => empty C end) q).

(** [f] describes which voxels are in [flat]. *)
Definition shows (flat : list voxel) (f : coord -> option (N * body C)) : Prop :=
  forall c t b, In (mkVoxel t c b) flat <-> f c = Some (t, b).

Lemma insert_point_spec now flat idx q c f :
  idx_ok flat idx -> shows flat f -> coord_of (it_pt q) = Ok c ->
  exists flat' idx', insert_point coord_of now (flat, idx) q = Ok (flat', idx') /\
    idx_ok flat' idx' /\
    shows flat' (fun c' => if coord_eqb c c' then cell_add now q (f c) else f c').
Proof.
  intros IX SH Ec. unfold insert_point. rewrite Ec. cbn [bind].
  assert (GEN : forall flat1 idx1 i v, idx_ok flat1 idx1 -> nth_error flat1 i = Some v ->
    v_coord v = c ->
    exists flat', (let* v := get flat1 i in
      let* flat := set flat1 i (mkVoxel now (v_coord v) (add C (v_body v) q)) in
      Ok (flat, idx1)) = Ok (flat', idx1) /\ idx_ok flat' idx1 /\
      (forall c' t b, In (mkVoxel t c' b) flat' <->
        (c' = c /\ t = now /\ b = add C (v_body v) q) \/ (c' <> c /\ In (mkVoxel t c' b) flat1))).
  { intros flat1 idx1 i v IX1 Hi Hc.
    assert (Li : i < length flat1) by (apply nth_error_Some; congruence).
    exists (upd flat1 i (mkVoxel now (v_coord v) (add C (v_body v) q))).
    split; [|split].
    - rewrite (proj2 (get_Ok flat1 i v)) by auto. cbn [bind]. rewrite set_Ok by auto. reflexivity.
    - intros c' j. rewrite (IX1 c' j). destruct (Nat.eq_dec j i).
      + subst j. rewrite upd_nth_error_same by auto. split.
        * intros [w [E1 E2]]. rewrite Hi in E1. inversion E1; subst w. eexists; split; eauto.
        * intros [w [E1 E2]]. inversion E1; subst w. simpl in E2. eauto.
      + rewrite upd_nth_error_other by auto. tauto.
    - intros c' t b. split.
      + intros I. apply In_nth_error in I. destruct I as [j Hj]. destruct (Nat.eq_dec j i).
        * subst j. rewrite upd_nth_error_same in Hj by auto. inversion Hj. left.
          split; [congruence|auto].
        * rewrite upd_nth_error_other in Hj by auto. right. split.
          -- intros ->. apply n. eapply idx_ok_inj; [exact IX1|exact Hj|exact Hi|]. simpl. auto.
          -- apply nth_error_In in Hj. auto.
      + intros [[E1 [E2 E3]]|[N I]].
        * apply (nth_error_In _ i). rewrite upd_nth_error_same by auto. congruence.
        * apply In_nth_error in I. destruct I as [j Hj]. apply (nth_error_In _ j).
          rewrite upd_nth_error_other; auto. intros ->. rewrite Hi in Hj. inversion Hj; subst v.
          simpl in Hc. auto. }
  destruct (lookup idx c) as [i|] eqn:El.
  - destruct (proj1 (IX c i) El) as [v [Hi Hc]].
    destruct (GEN flat idx i v IX Hi Hc) as [flat' [E [IX' IN]]].
    exists flat', idx. split; [exact E|]. split; [exact IX'|].
    intros c' t b. rewrite IN. assert (F : f c = Some (v_lru v, v_body v)).
    { apply SH. apply nth_error_In in Hi. destruct v as [tv cv bv]. simpl in *. subst cv. auto. }
    rewrite F. destruct (coord_eqb c c') eqn:Ecc.
    + apply coord_eqb_spec in Ecc. subst c'. unfold cell_add. split.
      * intros [[_ [-> ->]]|[N _]]; [auto|tauto].
      * intros H. inversion H. left. auto.
    + apply coord_eqb_neq in Ecc. rewrite (SH c' t b). split.
      * intros [[E1 _]|[_ H]]; [congruence|auto].
      * intros H. right. split; auto.
  - assert (NI : forall v, In v flat -> v_coord v <> c).
    { intros v I Ev. apply In_nth_error in I. destruct I as [j Hj].
      assert (lookup idx c = Some j) by (apply IX; eauto). congruence. }
    assert (IX1 : idx_ok (flat ++ [mkVoxel now c (empty C)]) ((c, length flat) :: idx)).
    { intros c' j. cbn [lookup]. rewrite nth_error_snoc.
      destruct (coord_eqb c c') eqn:Ecc.
      - apply coord_eqb_spec in Ecc. subst c'. split.
        + intros E. inversion E; subst j. rewrite Nat.eqb_refl. eexists; split; eauto.
        + intros [v [E1 E2]]. destruct (Nat.eqb_spec j (length flat)); [congruence|].
          exfalso. apply (NI v); auto. apply nth_error_In in E1. auto.
      - apply coord_eqb_neq in Ecc. rewrite (IX c' j). split; intros [v [E1 E2]].
        + exists v. split; auto. destruct (Nat.eqb_spec j (length flat)); auto.
          subst j. rewrite (proj2 (nth_error_None _ _)) in E1 by lia. discriminate.
        + destruct (Nat.eqb_spec j (length flat)).
          * inversion E1; subst v. simpl in E2. congruence.
          * eauto. }
    destruct (GEN _ _ (length flat) (mkVoxel now c (empty C)) IX1) as [flat' [E [IX' IN]]].
    + rewrite nth_error_snoc, Nat.eqb_refl. auto.
    + reflexivity.
    + exists flat', ((c, length flat) :: idx). split; [exact E|]. split; [exact IX'|].
      intros c' t b. rewrite IN. cbn [v_body].
      assert (F : f c = None).
      { destruct (f c) as [[t0 b0]|] eqn:Fc; auto. apply SH in Fc. apply NI in Fc. simpl in Fc. tauto. }
      rewrite F. destruct (coord_eqb c c') eqn:Ecc.
      * apply coord_eqb_spec in Ecc. subst c'. unfold cell_add. split.
        -- intros [[_ [-> ->]]|[N _]]; [auto|tauto].
        -- intros H. inversion H. left. auto.
      * apply coord_eqb_neq in Ecc. rewrite <- (SH c' t b), in_app_iff. cbn [In]. split.
        -- intros [[E1 _]|[_ [H|[H|[]]]]]; [congruence|auto|inversion H; congruence].
        -- intros H. right. split; auto.
Qed.

Lemma shows_ext flat f g : (forall c, f c = g c) -> shows flat f -> shows flat g.
Proof. intros E H c t b. rewrite <- E. apply H. Qed.

Lemma insert_points_spec now qs : forall flat idx f,
  idx_ok flat idx -> shows flat f -> (forall q, In q qs -> exists c, coord_of (it_pt q) = Ok c) ->
  exists flat' idx', foldM (insert_point coord_of now) qs (flat, idx) = Ok (flat', idx') /\
    idx_ok flat' idx' /\
    shows flat' (fun c => fold_left (fun o q => cell_add now q o) (filter (falls_in c) qs) (f c)).
Proof.
  induction qs as [|q qs IH]; intros flat idx f IX SH OK; cbn [foldM].
  - exists flat, idx. simpl. auto.
  - destruct (OK q (or_introl eq_refl)) as [c Ec].
    destruct (insert_point_spec now flat idx q c f IX SH Ec) as [flat1 [idx1 [E [IX1 SH1]]]].
    rewrite E. cbn [bind].
    destruct (IH flat1 idx1 _ IX1 SH1) as [flat2 [idx2 [E2 [IX2 SH2]]]].
    { intros. apply OK. right. auto. }
    exists flat2, idx2. split; [exact E2|]. split; [exact IX2|].
    eapply shows_ext; [|exact SH2]. intros c'. cbn [filter]. unfold VmapSpec.falls_in at 2.
    rewrite Ec. destruct (coord_eqb c c') eqn:Ecc; auto.
    apply coord_eqb_spec in Ecc. subst c'. reflexivity.
Qed.

(** What a whole insert call does to voxel [c]; [n] is the counter before the call. *)
Definition cell_step (horizon cycle : N) (c : coord) (n : N) (o : option (N * body C)) (k : call)
  : option (N * body C) :=
  let o := fold_left (fun o q => cell_add n q o) (here c k) o in
  let now := wrap64 (n + 1) in
  let o := if (now mod cycle =? 0)%N then
             match o with
             | Some (t, b) => if (wrap64 (t + horizon) <? now)%N then None else o
             | None => None
             end
           else o in
  option_map (fun tb => (fst tb, finalize C (snd tb))) o.

Lemma insert_spec (st : vmap) (k : call) f :
  idx_ok (flat_voxels st) (voxels st) -> shows (flat_voxels st) f ->
  lru_clear_cycle st <> 0%N ->
  (forall q, In q (snd k) -> exists c, coord_of (it_pt (act (fst k) q)) = Ok c) ->
  exists st', insert coord_of pose act st k = Ok st' /\
    idx_ok (flat_voxels st') (voxels st') /\
    shows (flat_voxels st')
      (fun c => cell_step (lru_horizon st) (lru_clear_cycle st) c (lru_counter st) (f c) k) /\
    lru_counter st' = wrap64 (lru_counter st + 1) /\
    lru_horizon st' = lru_horizon st /\ lru_clear_cycle st' = lru_clear_cycle st /\
    search_offsets st' = search_offsets st.
Proof.
  intros IX SH CY OK. destruct k as [T pts]. cbn [fst snd] in *. unfold insert.
  destruct (insert_points_spec (lru_counter st) (map (act T) pts) _ _ f IX SH)
    as [flat1 [idx1 [E [IX1 SH1]]]].
  { intros q I. apply in_map_iff in I. destruct I as [p [<- I]]. auto. }
  rewrite E. cbn [bind]. destruct (N.eqb_spec (lru_clear_cycle st) 0); [tauto|].
  set (now := wrap64 (lru_counter st + 1)).
  set (fin := fun v : voxel => mkVoxel (v_lru v) (v_coord v) (finalize C (v_body v))).
  assert (FIN : forall flat idx g, idx_ok flat idx -> shows flat g ->
    idx_ok (map fin flat) idx /\
    shows (map fin flat) (fun c => option_map (fun tb => (fst tb, finalize C (snd tb))) (g c))).
  { intros flat idx g IX0 SH0. split.
    - intros c i. rewrite (IX0 c i), nth_error_map. split.
      + intros [v [E1 E2]]. rewrite E1. exists (fin v). auto.
      + intros [v [E1 E2]]. destruct (nth_error flat i) as [w|]; [|discriminate].
        inversion E1; subst v. eauto.
    - intros c t b. rewrite in_map_iff. split.
      + intros [[t0 c0 b0] [E1 I]]. unfold fin in E1. simpl in E1. inversion E1; subst.
        apply SH0 in I. rewrite I. reflexivity.
      + intros E1. destruct (g c) as [[t0 b0]|] eqn:G; [|discriminate]. simpl in E1.
        inversion E1; subst. exists (mkVoxel t c b0). split; auto. apply SH0. auto. }
  destruct (now mod lru_clear_cycle st =? 0)%N eqn:EM; cbn [bind].
  - set (keep := fun v : voxel => negb (expired (lru_horizon st) now v)).
    assert (IX2 : idx_ok (filter keep flat1) (reindex (filter keep flat1))).
    { apply reindex_ok. pose proof (idx_ok_NoDup _ _ IX1) as ND. clear -ND.
      induction flat1 as [|v l IH]; simpl in *; [constructor|]. inversion ND; subst.
      destruct (keep v); simpl; auto. constructor; auto.
      intros I. apply H1. apply in_map_iff in I. destruct I as [w [E I]].
      apply filter_In in I. rewrite <- E. apply in_map. tauto. }
    destruct (FIN _ _ (fun c => match fold_left (fun o q => cell_add (lru_counter st) q o)
                 (filter (falls_in c) (map (act T) pts)) (f c) with
             | Some (t, b) => if (wrap64 (t + lru_horizon st) <? now)%N then None else Some (t, b)
             | None => None
             end) IX2) as [IX3 SH3].
    { intros c t b. rewrite filter_In. rewrite (SH1 c t b). cbv beta. unfold keep, expired. cbn [v_lru].
      destruct (fold_left _ _ _) as [[t0 b0]|]; [|split; [intros [? _]|]; discriminate].
      destruct (wrap64 (t0 + lru_horizon st) <? now)%N eqn:EL.
      - split; [intros [E1 E2]|discriminate]. inversion E1; subst. rewrite EL in E2. discriminate.
      - split; [tauto|]. intros E1. inversion E1; subst. rewrite EL. auto. }
    eexists. split; [reflexivity|]. cbn [flat_voxels voxels lru_counter lru_horizon lru_clear_cycle search_offsets].
    split; [exact IX3|]. split; [|auto].
    eapply shows_ext; [|exact SH3]. intros c. unfold cell_step. fold now. rewrite EM.
    unfold VmapSpec.here. cbn [fst snd]. f_equal.
    destruct (fold_left _ _ _) as [[t0 b0]|]; auto.
  - destruct (FIN _ _ _ IX1 SH1) as [IX3 SH3].
    eexists. split; [reflexivity|]. cbn [flat_voxels voxels lru_counter lru_horizon lru_clear_cycle search_offsets].
    split; [exact IX3|]. split; [|auto].
    eapply shows_ext; [|exact SH3]. intros c. unfold cell_step. fold now. rewrite EM. reflexivity.
Qed.

End Map.
Arguments idx_ok {D C}.
Arguments shows {D C}.
Arguments cell_add {D C}.
Arguments cell_step {D C} coord_of {pose}.
