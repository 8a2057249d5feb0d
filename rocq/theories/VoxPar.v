(** Parallel voxel grid downsampling: what the blocks produce, and the concurrent
    collection of their results. *)
From Coq Require Import ZifyBool ZifyNat ZifyN.
From Verif Require Import Base BaseProofs Num Vec KdModel KdSpec SortSpec VoxModel VoxSpec VoxProofs.

(** * Counting lemmas *)
Lemma nodup_incl_count (l m : list N) : NoDup l -> incl l m -> length l <= length (nodup N.eq_dec m).
Proof.
  intros H1 H2. apply NoDup_incl_length; auto. intros x Hx. apply nodup_In. auto.
Qed.

Lemma sorted_lt_NoDup l : StronglySorted N.lt l -> NoDup l.
Proof.
  induction 1; constructor; auto. rewrite Forall_forall in H0. intros Hin.
  specialize (H0 _ Hin). lia.
Qed.

(** Nonempty strictly ascending lists, ascending when put together: few repetitions. *)
Lemma blocks_count (bs : list (list N)) :
  Forall (fun b => b <> [] /\ StronglySorted N.lt b) bs ->
  StronglySorted N.le (concat bs) ->
  length (concat bs) <= length (nodup N.eq_dec (concat bs)) + (length bs - 1).
Proof.
  induction bs as [|b bs IH]; intros HF HS; [simpl; lia|].
  inversion HF as [|? ? [Hb1 Hb2] HF']; subst. simpl concat in *.
  destruct (StronglySorted_app_inv _ _ _ HS) as (_ & HS2 & HS3).
  specialize (IH HF' HS2). rewrite app_length.
  destruct bs as [|c bs].
  - simpl concat in *. rewrite app_nil_r in *. simpl.
    assert (length b <= length (nodup N.eq_dec b)); [|lia].
    apply nodup_incl_count; [apply sorted_lt_NoDup; auto|apply incl_refl].
  - set (rest := concat (c :: bs)) in *.
    destruct (exists_last Hb1) as (b' & x & ->).
    destruct (StronglySorted_app_inv _ _ _ Hb2) as (Hb3 & _ & Hb4).
    assert (L : length (b' ++ nodup N.eq_dec rest) <= length (nodup N.eq_dec ((b' ++ [x]) ++ rest))).
    { apply nodup_incl_count.
      - apply NoDup_app_intro; [apply sorted_lt_NoDup; auto|apply NoDup_nodup|].
        intros y Hy Hr. apply nodup_In in Hr.
        specialize (Hb4 y x Hy (or_introl eq_refl)).
        specialize (HS3 x y ltac:(apply in_app_iff; right; left; reflexivity) Hr). lia.
      - intros y Hy. apply in_app_iff in Hy. apply in_app_iff. destruct Hy as [Hy|Hy].
        + left. apply in_app_iff; auto.
        + right. apply nodup_In in Hy. exact Hy. }
    rewrite app_length in *. simpl length in *. lia.
Qed.

Lemma filter_perm {A} (f : A -> bool) a b : Permutation a b -> Permutation (filter f a) (filter f b).
Proof.
  intros H. induction H; simpl; auto.
  - destruct (f x); auto.
  - destruct (f x), (f y); auto. apply perm_swap.
  - eapply perm_trans; eauto.
Qed.

(** Starting positions of the blocks. *)
Fixpoint starts (off : nat) (sizes : list nat) : list nat :=
  match sizes with [] => [] | s :: sizes => off :: starts (off + s) sizes end.

(** * Structure of the blocks *)
Section Blocks.
Context (sort : forall A : Type, (A -> A -> bool) -> list A -> list A).
Hypothesis SC : sort_contract sort.
Context (D : num) (key : vec4 D -> outcome N) (points : list (vec4 D)) (keys : nat -> N).
Hypothesis KD : keyed key points keys.
Notation n := (length points).
Notation se := (sort _ key_less (entries D points keys)).
Notation nvalid := (length (filter (in_range keys) (seq 0 n))).

Lemma filter_entries l : filter valid_entry (map (fun i => (keys i, i)) l)
  = map (fun i => (keys i, i)) (filter (in_range keys) l).
Proof.
  induction l as [|i l IH]; simpl; auto. unfold valid_entry at 1, in_range at 1. cbn [fst].
  destruct (negb (keys i =? INVALID_COORD)%N); simpl; rewrite IH; reflexivity.
Qed.

Lemma valid_count_perm :
  Permutation (filter valid_entry se) (map (fun i => (keys i, i)) (filter (in_range keys) (seq 0 n))).
Proof.
  rewrite <- filter_entries. apply filter_perm. apply Permutation_sym.
  apply (sorted_entries_perm sort SC D points keys).
Qed.

(** A sorted list has its valid entries first. *)
Lemma valid_first l : StronglySorted N.le (map fst l) ->
  (forall e, In e l -> (fst e <= INVALID_COORD)%N) ->
  exists v i, l = v ++ i /\ v = filter valid_entry l /\
    (forall e, In e v -> valid_entry e = true) /\ (forall e, In e i -> valid_entry e = false).
Proof.
  induction l as [|e l IH]; intros HS Hb.
  - exists [], []. simpl. split; auto. split; auto. split; intros ? [].
  - simpl in HS. inversion HS as [|? ? HS1 HF]; subst.
    destruct IH as (v & i & E & Ev & Hv & Hi); auto; [intros; apply Hb; right; auto|].
    simpl. destruct (valid_entry e) eqn:V.
    + exists (e :: v), i. split; [simpl; congruence|]. split; [congruence|].
      split; auto. intros e' [<-|He']; auto.
    + exists [], (e :: l). split; [reflexivity|].
      assert (All : forall e', In e' l -> valid_entry e' = false).
      { intros e' He'. rewrite Forall_forall in HF. specialize (HF _ (in_map fst _ _ He')).
        specialize (Hb e' (or_intror He')). unfold valid_entry in *. lia. }
      split.
      * clear -All. induction l as [|e' l IHl]; simpl; auto. rewrite (All e') by (left; auto).
        apply IHl. intros; apply All; right; auto.
      * split; [intros ? []|]. intros e' [<-|He']; auto.
Qed.

Definition good_seg (seg : list (N * nat)) : bool :=
  match seg with [] => false | e :: _ => valid_entry e end.

(** Groups of a block that starts with an in-range point. *)
Lemma good_block seg : good_seg seg = true -> StronglySorted N.le (map fst seg) ->
  (forall e, In e seg -> (fst e <= INVALID_COORD)%N) ->
  let gs := block_groups seg in
  gs <> [] /\ StronglySorted N.lt (map fst gs) /\
  (forall k g, In (k, g) gs -> k <> INVALID_COORD /\ g <> []) /\
  flat gs = filter valid_entry seg.
Proof.
  destruct seg as [|e l]; [discriminate|]. cbn [good_seg block_groups]. intros Hg HS Hb.
  assert (He : fst e <> INVALID_COORD) by (unfold valid_entry in Hg; lia).
  assert (KS : keys_sorted (fst e) l).
  { split; [exact HS|]. intros; apply Hb; right; auto. }
  destruct (group_spec l (fst e) [snd e] KS He) as ((gs & A0) & A & B & F & G).
  cbv zeta. split; [rewrite A0; discriminate|]. split; [exact A|]. split.
  - intros k g Hin. split; [eapply B; eauto|]. eapply G; eauto. discriminate.
  - rewrite F. simpl. rewrite Hg. destruct e; reflexivity.
Qed.

(** Groups of a block that starts with an out-of-range point. *)
Lemma bad_block seg : good_seg seg = false -> seg <> [] -> StronglySorted N.le (map fst seg) ->
  (forall e, In e seg -> (fst e <= INVALID_COORD)%N) ->
  (exists i, block_groups seg = [(INVALID_COORD, [i])] /\ In (INVALID_COORD, i) seg) /\
  filter valid_entry seg = [].
Proof.
  destruct seg as [|e l]; [congruence|]. cbn [good_seg block_groups]. intros Hg _ HS Hb.
  assert (He : fst e = INVALID_COORD) by (unfold valid_entry in Hg; lia).
  assert (KS : keys_sorted (fst e) l).
  { split; [exact HS|]. intros; apply Hb; right; auto. }
  pose proof (keys_sorted_invalid _ _ KS He) as AI. rewrite group_all_invalid by exact AI.
  split.
  - exists (snd e). rewrite <- He. split; [reflexivity|]. left. destruct e; reflexivity.
  - simpl. rewrite Hg. clear -AI. induction l as [|e' l IHl]; simpl; auto.
    unfold valid_entry at 1. rewrite (AI e') by (left; auto). rewrite N.eqb_refl. simpl.
    apply IHl. intros; apply AI; right; auto.
Qed.

Lemma flat_app a b : flat (a ++ b) = flat a ++ flat b.
Proof. unfold flat. apply flat_map_app. Qed.

(** All blocks together. *)
Lemma segments_struct sizes : forall off v i,
  StronglySorted N.le (map fst (v ++ i)) ->
  (forall e, In e v -> valid_entry e = true) ->
  (forall e, In e i -> valid_entry e = false) ->
  (forall e, In e (v ++ i) -> (fst e <= INVALID_COORD)%N) ->
  list_sum sizes = length (v ++ i) -> Forall (fun s => 0 < s) sizes ->
  exists bs bad,
    flat_map block_groups (segments (v ++ i) sizes) = concat bs ++ map (fun j => (INVALID_COORD, [j])) bad /\
    length bs + length bad = length sizes /\
    length bad = length (filter (fun s => off + length v <=? s) (starts off sizes)) /\
    Forall (fun b => b <> [] /\ StronglySorted N.lt (map fst b)) bs /\
    (forall k g, In (k, g) (concat bs) -> k <> INVALID_COORD /\ g <> []) /\
    flat (concat bs) = v /\
    (forall j, In j bad -> In (INVALID_COORD, j) i).
Proof.
  induction sizes as [|s sizes IH]; intros off v i HS Hv Hi Hb Hsum HF.
  - simpl in Hsum. assert (v ++ i = []) by (destruct (v ++ i); [reflexivity|discriminate]).
    apply app_eq_nil in H. destruct H; subst.
    exists [], []. simpl. repeat split; auto; try (intros; contradiction).
  - inversion HF as [|? ? Hs HF']; subst. simpl in Hsum.
    cbn [segments flat_map starts].
    set (l := v ++ i) in *.
    assert (El : l = firstn s l ++ skipn s l) by (rewrite firstn_skipn; reflexivity).
    pose proof HS as HS'. rewrite El, map_app in HS'.
    destruct (StronglySorted_app_inv _ _ _ HS') as (HSa & HSb & _).
    assert (Fl : length (firstn s l) = s) by (rewrite firstn_length; lia).
    assert (Hne : firstn s l <> []) by (intros E; rewrite E in Fl; simpl in Fl; lia).
    assert (Hba : forall e, In e (firstn s l) -> (fst e <= INVALID_COORD)%N).
    { intros e He. apply Hb. rewrite El. apply in_app_iff; auto. }
    assert (Sk : skipn s l = skipn s v ++ skipn (s - length v) i) by apply skipn_app.
    assert (Ff : firstn s l = firstn s v ++ firstn (s - length v) i) by apply firstn_app.
    assert (Fv : filter valid_entry (firstn s l) = firstn s v).
    { rewrite Ff. rewrite filter_app.
      assert (E1 : forall x, (forall e, In e x -> valid_entry e = true) -> filter valid_entry x = x).
      { clear. intros x H. induction x as [|e x IHx]; simpl; auto. rewrite H by (left; auto). f_equal.
        apply IHx. intros; apply H; right; auto. }
      assert (E2 : forall x, (forall e, In e x -> valid_entry e = false) -> filter valid_entry x = []).
      { clear. intros x H. induction x as [|e x IHx]; simpl; auto. rewrite H by (left; auto).
        apply IHx. intros; apply H; right; auto. }
      rewrite E1, E2; [apply app_nil_r| |].
      - intros e He. apply Hi. rewrite <- (firstn_skipn (s - length v) i). apply in_app_iff; auto.
      - intros e He. apply Hv. rewrite <- (firstn_skipn s v). apply in_app_iff; auto. }
    assert (HSk : StronglySorted N.le (map fst (skipn s v ++ skipn (s - length v) i))).
    { rewrite <- Sk. exact HSb. }
    destruct (IH (off + s) (skipn s v) (skipn (s - length v) i) HSk) as (bs & bad & A & B & C & F & G & H & J).
    { intros e He. apply Hv. rewrite <- (firstn_skipn s v). apply in_app_iff; auto. }
    { intros e He. apply Hi. rewrite <- (firstn_skipn (s - length v) i). apply in_app_iff; auto. }
    { intros e He. apply Hb. rewrite El. apply in_app_iff. right. rewrite Sk. exact He. }
    { rewrite <- Sk, skipn_length. unfold l in *. lia. }
    { exact HF'. }
    rewrite <- Sk in A. rewrite A.
    assert (GS : good_seg (firstn s l) = (0 <? length v)).
    { unfold l. destruct s; [lia|]. destruct v as [|e v]; simpl.
      - destruct i as [|e i]; simpl; auto. apply Hi. left; auto.
      - apply Hv. left; auto. }
    destruct (0 <? length v) eqn:V0.
    + destruct (good_block (firstn s l) GS HSa Hba) as (B1 & B2 & B3 & B4).
      exists (block_groups (firstn s l) :: bs), bad.
      split; [simpl; rewrite app_assoc; reflexivity|].
      split; [simpl; lia|]. split.
      { simpl. destruct (off + length v <=? off) eqn:Q; [lia|].
        rewrite C. rewrite skipn_length.
        assert (STG : forall sz o x, In x (starts o sz) -> o <= x).
        { clear. induction sz as [|a sz IHs]; simpl; intros o x Hx; [contradiction|].
          destruct Hx as [<-|Hx]; [lia|]. apply IHs in Hx. lia. }
        f_equal. apply filter_ext_in. intros x Hx. apply STG in Hx.
        lia. }
      split; [constructor; auto|]. split.
      { intros k g Hin. simpl in Hin. apply in_app_iff in Hin. destruct Hin as [Hin|Hin]; eauto. }
      split.
      { simpl. rewrite flat_app, B4, H, Fv. apply firstn_skipn. }
      intros j Hj. rewrite <- (firstn_skipn (s - length v) i). apply in_app_iff. right. auto.
    + assert (Ev : v = []) by (destruct v; [reflexivity|simpl in V0; lia]).
      destruct (bad_block (firstn s l) GS Hne HSa Hba) as ((j & B1 & B2) & B3).
      assert (Hbs : bs = []).
      { destruct bs as [|b bs]; auto. inversion F as [|? ? [F1 F2] F3]; subst.
        destruct b as [|[k g] b]; [congruence|]. destruct (G k g) as [_ Gne]; [left; reflexivity|].
        destruct g as [|x g]; [congruence|]. rewrite skipn_nil in H. unfold flat in H. simpl in H.
        discriminate. }
      subst bs v. exists [], (j :: bad). rewrite B1. split; [reflexivity|].
      split; [simpl in *; lia|]. split.
      { simpl. destruct (off + 0 <=? off) eqn:Q; [|lia]. simpl. f_equal. rewrite C.
        rewrite skipn_nil. simpl.
        assert (STG : forall sz o x, In x (starts o sz) -> o <= x).
        { clear. induction sz as [|a sz IHs]; simpl; intros o x Hx; [contradiction|].
          destruct Hx as [<-|Hx]; [lia|]. apply IHs in Hx. lia. }
        f_equal. apply filter_ext_in. intros x Hx. apply STG in Hx. lia. }
      split; [constructor|]. split; [intros k g []|]. split; [reflexivity|].
      intros j' [<-|Hj'].
      * unfold l in B2. simpl in B2. rewrite <- (firstn_skipn s i). apply in_app_iff; auto.
      * rewrite <- (firstn_skipn (s - 0) i). apply in_app_iff. right. apply J. exact Hj'.
Qed.

(** Points of each voxel that the blocks' groups hold. *)
Definition split_groups (sizes : list nat) (gs : list (N * list nat)) (bad : list nat) : Prop :=
  (forall k g, In (k, g) gs -> g <> [] /\ k <> INVALID_COORD /\ forall i, In i g -> keys i = k) /\
  Permutation (flat_map snd gs) (filter (in_range keys) (seq 0 n)) /\
  length gs <= length (nodup N.eq_dec (map keys (filter (in_range keys) (seq 0 n)))) + (length sizes - 1) /\
  length gs + length bad <= n /\
  length bad = length (filter (fun s => nvalid <=? s) (starts 0 sizes)) /\
  (forall j, In j bad -> j < n /\ keys j = INVALID_COORD).

Theorem parallel_struct sizes :
  list_sum sizes = n -> Forall (fun s => 0 < s) sizes ->
  exists outs gs bad, parallel_blocks key sort points sizes = Ok outs /\
    split_groups sizes gs bad /\ length outs = length sizes /\
    group_means points (gs ++ map (fun j => (INVALID_COORD, [j])) bad) (concat outs).
Proof.
  intros Hsum HF.
  destruct (parallel_blocks_spec sort SC D key points keys KD sizes Hsum HF) as (outs & E & HO).
  assert (Hb : forall e, In e se -> (fst e <= INVALID_COORD)%N).
  { intros e He. apply (sorted_entries_in sort SC D key points keys KD e He). }
  pose proof (sorted_entries_sorted sort SC D points keys) as HS.
  destruct (valid_first se HS Hb) as (v & i & Ese & Ev & Hv & Hi).
  pose proof (sorted_entries_length sort SC D points keys) as Hlen.
  rewrite Ese in HS, Hb.
  destruct (segments_struct sizes 0 v i HS Hv Hi Hb) as (bs & bad & A & B & C & F & G & H & J); auto.
  { rewrite <- Ese, Hlen. exact Hsum. }
  rewrite <- Ese in A.
  assert (Lo : length outs = length sizes).
  { assert (FL : forall A B (R : A -> B -> Prop) a b, Forall2 R a b -> length a = length b)
      by (induction 1; simpl; auto).
    apply FL in HO. rewrite <- HO. clear. generalize se. induction sizes; simpl; auto. }
  exists outs, (concat bs), bad. split; [exact E|].
  assert (Pv : Permutation v (map (fun i => (keys i, i)) (filter (in_range keys) (seq 0 n)))).
  { rewrite Ev. apply valid_count_perm. }
  assert (Lv : length v = nvalid).
  { rewrite (Permutation_length Pv). apply map_length. }
  assert (Efs : flat_map snd (concat bs) = map snd v).
  { rewrite <- H. generalize (concat bs). intros gs. induction gs as [|[k g] gs IHg]; simpl; auto.
    unfold flat. simpl. rewrite map_app. rewrite IHg. f_equal.
    induction g; simpl; auto. f_equal. auto. }
  assert (InV : forall e, In e v -> fst e = keys (snd e)).
  { intros e He. apply (sorted_entries_in sort SC D key points keys KD). rewrite Ese.
    apply in_app_iff; auto. }
  split; [split; [|split; [|split; [|split; [|split]]]]|split].
  - intros k g Hg. destruct (G k g Hg) as [G1 G2]. split; auto. split; auto.
    intros j Hj. assert (Hin : In (k, j) v).
    { rewrite <- H. unfold flat. apply in_flat_map. exists (k, g). split; auto.
      apply in_map. exact Hj. }
    apply InV in Hin. auto.
  - rewrite Efs. eapply perm_trans; [apply Permutation_map; exact Pv|].
    rewrite map_map. simpl. rewrite map_id. apply Permutation_refl.
  - assert (Ek : length (concat bs) = length (concat (map (map fst) bs))).
    { rewrite <- concat_map, map_length. reflexivity. }
    rewrite Ek.
    assert (Hinc : forall x, In x (concat (map (map fst) bs)) <-> In x (map fst v)).
    { intros x. rewrite <- concat_map. rewrite <- H. split; intros Hx.
      - apply in_map_iff in Hx. destruct Hx as ([k g] & <- & Hg). destruct (G k g Hg) as [_ Gne].
        destruct g as [|j g]; [congruence|]. apply in_map_iff. exists (k, j). split; auto.
        unfold flat. apply in_flat_map. exists (k, j :: g). split; auto. left; auto.
      - apply in_map_iff in Hx. destruct Hx as (e & <- & He). unfold flat in He.
        apply in_flat_map in He. destruct He as ([k g] & Hg & Hm). apply in_map_iff in Hm.
        destruct Hm as (j & <- & _). apply in_map_iff. exists (k, g). auto. }
    assert (Kv : Permutation (map fst v) (map keys (filter (in_range keys) (seq 0 n)))).
    { eapply perm_trans; [apply Permutation_map; exact Pv|]. rewrite map_map. simpl. apply Permutation_refl. }
    assert (BC : length (concat (map (map fst) bs)) <=
        length (nodup N.eq_dec (concat (map (map fst) bs))) + (length (map (map fst) bs) - 1)).
    { apply blocks_count.
      - apply Forall_forall. intros b Hbm. apply in_map_iff in Hbm. destruct Hbm as (b0 & <- & Hb0).
        rewrite Forall_forall in F. destruct (F b0 Hb0) as [F1 F2]. split; auto.
        destruct b0; [congruence|discriminate].
      - rewrite <- concat_map.
        assert (HSv : StronglySorted N.le (map fst v)).
        { rewrite map_app in HS. apply StronglySorted_app_inv in HS. tauto. }
        rewrite <- H in HSv. clear -HSv G.
        induction (concat bs) as [|[k g] gs IHg]; simpl; [constructor|].
        unfold flat in HSv. simpl in HSv. rewrite map_app in HSv.
        apply StronglySorted_app_inv in HSv. destruct HSv as (_ & H2 & H3).
        constructor; [apply IHg; auto; intros; eapply G; right; eauto|].
        apply Forall_forall. intros x Hx. apply H3.
        + destruct (G k g) as [_ Gne]; [left; auto|]. destruct g; [congruence|]. left; auto.
        + apply in_map_iff in Hx. destruct Hx as ([k' g'] & <- & Hg').
          destruct (G k' g') as [_ Gne]; [right; auto|]. destruct g' as [|j g']; [congruence|].
          apply in_map_iff. exists (k', j). split; auto. apply in_flat_map.
          exists (k', j :: g'). split; auto. left; auto. }
    rewrite map_length in BC.
    assert (length (nodup N.eq_dec (concat (map (map fst) bs))) <=
            length (nodup N.eq_dec (map keys (filter (in_range keys) (seq 0 n))))).
    { apply nodup_incl_count; [apply NoDup_nodup|]. intros x Hx. apply nodup_In in Hx.
      apply (Permutation_in _ Kv). apply Hinc. exact Hx. }
    lia.
  - assert (Hg : length (concat bs) <= length v).
    { rewrite <- H. clear -G. induction (concat bs) as [|[k g] gs IHg]; simpl; [lia|].
      unfold flat. simpl. rewrite app_length, map_length.
      destruct (G k g) as [_ Gne]; [left; auto|].
      specialize (IHg (fun k' g' Hx => G k' g' (or_intror Hx))). unfold flat in IHg.
      destruct g; [congruence|]. simpl. lia. }
    assert (Hbad : length bad <= length i).
    { rewrite C. simpl.
      (* every bad block holds an entry of i *)
      assert (STL : forall sz o V, Forall (fun s => 0 < s) sz ->
         length (filter (fun s => V <=? s) (starts o sz)) <= (o + list_sum sz) - Nat.max V o).
      { clear. induction sz as [|a sz IHs]; intros o V HFs; simpl; [lia|].
        inversion HFs; subst. specialize (IHs (o + a) V H2).
        destruct (V <=? o) eqn:Q; simpl; lia. }
      specialize (STL sizes 0 (length v) HF). rewrite Hsum in STL. rewrite <- Hlen, Ese, app_length in STL.
      lia. }
    rewrite <- Hlen, Ese, app_length. lia.
  - rewrite C. simpl. rewrite Lv. reflexivity.
  - intros j Hj. apply J in Hj.
    destruct (sorted_entries_in sort SC D key points keys KD (INVALID_COORD, j)) as (_ & K2 & K3).
    { rewrite Ese. apply in_app_iff; auto. }
    cbn [fst snd] in *. auto.
  - exact Lo.
  - unfold group_means in *. rewrite <- A. clear -HO.
    induction HO; simpl; [constructor|]. apply Forall2_app; auto.
Qed.
End Blocks.

(** * Concurrent collection *)
Section Collect.
Context (T : Type).
Implicit Types (st : cstate T).

Definition sub_of (w : wstate T) : list T :=
  match w with WReserve s => s | WWrite _ _ s => s end.
Definition reserved (w : wstate T) : nat :=
  match w with WReserve s => length s | WWrite _ _ _ => 0 end.

(** Slot ranges in order of reservation. *)
Fixpoint placed (arr : list T) (ws : list (wstate T)) (off : nat) (order : list nat) : Prop :=
  match order with
  | [] => True
  | w :: order => exists d sub, nth_error ws w = Some (WWrite off d sub) /\ d <= length sub /\
      (forall i, i < d -> nth_error arr (off + i) = nth_error sub i) /\
      placed arr ws (off + length sub) order
  end.

Definition cinv (L : nat) (subs : list (list T)) st : Prop :=
  length (c_arr st) = L /\ map sub_of (c_workers st) = subs /\
  c_num st + list_sum (map reserved (c_workers st)) <= L /\
  exists order, NoDup order /\
    (forall w, In w order <-> exists b d s, nth_error (c_workers st) w = Some (WWrite b d s)) /\
    placed (c_arr st) (c_workers st) 0 order /\
    c_num st = list_sum (map (fun w => length (nth w subs [])) order).

Lemma list_sum_upd (f : wstate T -> nat) ws w x y : nth_error ws w = Some x ->
  list_sum (map f (upd ws w y)) + f x = list_sum (map f ws) + f y.
Proof.
  revert w. induction ws as [|a ws IH]; intros [|w] H; simpl in *; try discriminate.
  - inversion H; subst. unfold upd. simpl. lia.
  - specialize (IH w H). unfold upd in *. simpl. lia.
Qed.

Definition wlen (subs : list (list T)) (w : nat) : nat := length (nth w subs []).

Lemma placed_ws arr ws ws' off order :
  (forall w, In w order -> nth_error ws' w = nth_error ws w) ->
  placed arr ws off order -> placed arr ws' off order.
Proof.
  revert off. induction order as [|w order IH]; intros off H HP; simpl in *; auto.
  destruct HP as (d & sub & E & Hd & Hi & HP). exists d, sub.
  rewrite H by (left; auto). split; auto. split; auto.
Qed.

Lemma placed_app arr ws off o1 o2 subs : map sub_of ws = subs ->
  placed arr ws off o1 -> placed arr ws (off + list_sum (map (wlen subs) o1)) o2 ->
  placed arr ws off (o1 ++ o2).
Proof.
  intros Hs. revert off. induction o1 as [|w o1 IH]; intros off H1 H2; simpl in *.
  - rewrite Nat.add_0_r in H2. exact H2.
  - destruct H1 as (d & sub & E & Hd & Hi & H1). exists d, sub. split; auto. split; auto. split; auto.
    apply IH; auto.
    replace (length sub) with (wlen subs w).
    + replace (off + wlen subs w + list_sum (map (wlen subs) o1))
        with (off + (wlen subs w + list_sum (map (wlen subs) o1))) by lia. exact H2.
    + unfold wlen. f_equal. apply nth_error_nth. rewrite <- Hs.
      rewrite (map_nth_error sub_of _ _ E). reflexivity.
Qed.

(** Ranges start at or after [off]. *)
Lemma placed_upd_before arr ws off order i v : i < off ->
  placed arr ws off order -> placed (upd arr i v) ws off order.
Proof.
  revert off. induction order as [|w order IH]; intros off Hi HP; simpl in *; auto.
  destruct HP as (d & sub & E & Hd & Hn & HP). exists d, sub. split; auto. split; auto. split.
  - intros j Hj. rewrite upd_nth_error_other by lia. auto.
  - apply IH; auto. lia.
Qed.

Lemma placed_bound arr ws subs off order w b d sub : map sub_of ws = subs ->
  placed arr ws off order -> In w order ->
  nth_error ws w = Some (WWrite b d sub) ->
  off <= b /\ b + length sub <= off + list_sum (map (wlen subs) order) /\ d <= length sub.
Proof.
  intros Hs. revert off. induction order as [|w' order IH]; intros off HP Hin E; simpl in *; [contradiction|].
  destruct HP as (d' & sub' & E' & Hd & Hn & HP).
  assert (L : wlen subs w' = length sub').
  { unfold wlen. f_equal. apply nth_error_nth. rewrite <- Hs. rewrite (map_nth_error sub_of _ _ E'). reflexivity. }
  destruct Hin as [->|Hin].
  - rewrite E' in E. inversion E; subst. rewrite L. split; [lia|]. split; [lia|auto].
  - specialize (IH _ HP Hin E). rewrite L. lia.
Qed.

Lemma placed_write arr ws subs off order w b d sub v : map sub_of ws = subs ->
  NoDup order -> placed arr ws off order -> In w order -> w < length ws ->
  nth_error ws w = Some (WWrite b d sub) -> nth_error sub d = Some v ->
  b + d < length arr ->
  placed (upd arr (b + d) v) (upd ws w (WWrite b (S d) sub)) off order.
Proof.
  intros Hs. revert off. induction order as [|w' order IH]; intros off HN HP Hin Hw E Ev Hl; simpl in *; [contradiction|].
  inversion HN as [|? ? HN1 HN2]; subst.
  destruct HP as (d' & sub' & E' & Hd & Hn & HP).
  assert (Hdl : d < length sub) by (apply nth_error_Some; congruence).
  destruct (Nat.eq_dec w' w) as [->|Hne].
  - rewrite E' in E. inversion E; subst d' sub' b.
    exists (S d), sub. rewrite upd_nth_error_same by auto. split; auto. split; [lia|]. split.
    + intros i Hi. destruct (Nat.eq_dec i d) as [->|Hid].
      * rewrite upd_nth_error_same by auto. auto.
      * rewrite upd_nth_error_other by lia. apply Hn. lia.
    + apply placed_upd_before; [lia|].
      eapply placed_ws; [|exact HP]. intros w'' Hw''. apply upd_nth_error_other.
      intros <-. contradiction.
  - destruct Hin as [Hin|Hin]; [congruence|].
    exists d', sub'. rewrite upd_nth_error_other by auto. split; auto. split; auto. split.
    + intros i Hi. rewrite upd_nth_error_other; auto.
      destruct (placed_bound _ _ _ _ _ _ _ _ _ eq_refl HP Hin E) as (B1 & _). lia.
    + apply IH; auto.
Qed.

Lemma map_upd_same {A B} (f : A -> B) l i x y : nth_error l i = Some x -> f y = f x ->
  map f (upd l i y) = map f l.
Proof.
  revert i. induction l as [|a l IH]; intros [|i] H E; simpl in *; try discriminate; auto.
  - inversion H; subst. rewrite E. reflexivity.
  - f_equal. apply IH; auto.
Qed.

Lemma cinv_step L subs st w r : cinv L subs st -> wstep st w = Some r ->
  exists st', r = Ok st' /\ cinv L subs st'.
Proof.
  intros (HL & Hs & Hb & order & HN & Ho & HP & Hc) E. unfold wstep in E.
  destruct (nth_error (c_workers st) w) as [[sub|b d sub]|] eqn:Ew; [| |discriminate].
  - inversion E; subst r. eexists. split; [reflexivity|].
    assert (Hw : w < length (c_workers st)) by (apply nth_error_Some; congruence).
    assert (Hnin : ~ In w order).
    { intros Hin. apply Ho in Hin. destruct Hin as (b & d & s & Hx). congruence. }
    assert (Hs' : map sub_of (upd (c_workers st) w (WWrite (c_num st) 0 sub)) = subs).
    { rewrite <- Hs. apply (map_upd_same _ _ _ (WReserve sub)); auto. }
    assert (Lw : wlen subs w = length sub).
    { unfold wlen. f_equal. apply nth_error_nth. rewrite <- Hs. rewrite (map_nth_error sub_of _ _ Ew). reflexivity. }
    unfold cinv. cbn [c_arr c_num c_workers]. split; auto. split; [exact Hs'|]. split.
    { pose proof (list_sum_upd reserved _ _ _ (WWrite (c_num st) 0 sub) Ew) as Q.
      simpl reserved in Q. lia. }
    exists (order ++ [w]). split.
    { apply NoDup_app_intro; auto; [repeat constructor; auto|].
      intros x Hx [<-|[]]. contradiction. }
    split.
    { intros w'. rewrite in_app_iff. destruct (Nat.eq_dec w' w) as [->|Hne].
      - rewrite upd_nth_error_same by auto. split; intros _; eauto. right; left; auto.
      - rewrite upd_nth_error_other by auto. rewrite Ho. split; [intros [H|[H|[]]]; [auto|congruence]|auto]. }
    split.
    { apply (placed_app _ _ _ _ _ subs Hs').
      - eapply placed_ws; [|exact HP]. intros w' Hw'. apply upd_nth_error_other. intros <-. contradiction.
      - simpl. exists 0, sub. rewrite upd_nth_error_same by auto.
        split; [do 2 f_equal; exact Hc|]. split; [lia|]. split; [intros; lia|auto]. }
    rewrite map_app, list_sum_app. simpl. fold (wlen subs). unfold wlen in *. rewrite Lw. lia.
  - destruct (nth_error sub d) as [v|] eqn:Ev; [|discriminate].
    assert (Hw : w < length (c_workers st)) by (apply nth_error_Some; congruence).
    assert (Hin : In w order) by (apply Ho; eauto).
    destruct (placed_bound _ _ subs _ _ _ _ _ _ Hs HP Hin Ew) as (B1 & B2 & B3).
    assert (Hdl : d < length sub) by (apply nth_error_Some; congruence).
    assert (Hlt : b + d < length (c_arr st)).
    { unfold wlen in B2. rewrite <- Hc in B2. lia. }
    rewrite set_Ok in E by auto. inversion E; subst r. cbn [bind]. eexists. split; [reflexivity|].
    assert (Hs' : map sub_of (upd (c_workers st) w (WWrite b (S d) sub)) = subs).
    { rewrite <- Hs. apply (map_upd_same _ _ _ (WWrite b d sub)); auto. }
    unfold cinv. cbn [c_arr c_num c_workers]. split; [rewrite upd_length; auto|]. split; [exact Hs'|]. split.
    { pose proof (list_sum_upd reserved _ _ _ (WWrite b (S d) sub) Ew) as Q. simpl reserved in Q. lia. }
    exists order. split; auto. split.
    { intros w'. destruct (Nat.eq_dec w' w) as [->|Hne].
      - rewrite upd_nth_error_same by auto. split; eauto.
      - rewrite upd_nth_error_other by auto. apply Ho. }
    split; auto. eapply placed_write; eauto.
Qed.

Definition cinit (d : T) (L : nat) (subs : list (list T)) : cstate T :=
  mkC 0 (repeat d L) (map WReserve subs).

Lemma cinv_init d L subs : list_sum (map (@length T) subs) <= L -> cinv L subs (cinit d L subs).
Proof.
  intros H. unfold cinv, cinit. cbn [c_arr c_num c_workers]. split; [apply repeat_length|].
  split; [rewrite map_map; simpl; apply map_id|]. split.
  - rewrite map_map. simpl. exact H.
  - exists []. split; [constructor|]. split; [|split; simpl; auto].
    intros w. split; [intros []|]. intros (b & dd & s & Hx).
    rewrite nth_error_map in Hx. destruct (nth_error subs w); discriminate.
Qed.

Lemma creach_inv L subs st st' : cinv L subs st -> creach st st' -> cinv L subs st'.
Proof.
  intros H R. induction R; auto. specialize (IHR H).
  destruct (cinv_step _ _ _ _ _ IHR H0) as (st' & E & H'). inversion E; subst. auto.
Qed.

Lemma placed_done arr ws subs order off : map sub_of ws = subs ->
  (forall w, In w order -> exists b s, nth_error ws w = Some (WWrite b (length s) s)) ->
  placed arr ws off order -> off + list_sum (map (wlen subs) order) <= length arr ->
  slice arr off (off + list_sum (map (wlen subs) order)) = concat (map (fun w => nth w subs []) order).
Proof.
  intros Hs. revert off. induction order as [|w order IH]; intros off HD HP HL; simpl in *.
  - unfold slice. rewrite Nat.add_0_r, Nat.sub_diag. reflexivity.
  - destruct HP as (d & sub & E & Hd & Hn & HP).
    destruct (HD w (or_introl eq_refl)) as (b & s & E2). rewrite E in E2.
    assert (d = length sub) by (inversion E2; subst; reflexivity). subst d. clear b s E2.
    assert (Ns : nth w subs [] = sub).
    { apply nth_error_nth. rewrite <- Hs. rewrite (map_nth_error sub_of _ _ E). reflexivity. }
    assert (Lw : wlen subs w = length sub) by (unfold wlen; rewrite Ns; reflexivity).
    rewrite Lw in *. rewrite Ns.
    rewrite (slice_split arr off (off + length sub)) by lia. f_equal.
    + apply nth_error_ext. intros i. rewrite nth_error_slice.
      destruct (i <? off + length sub - off) eqn:Q.
      * apply Hn. lia.
      * symmetry. apply nth_error_None. lia.
    + replace (off + (length sub + list_sum (map (wlen subs) order)))
        with (off + length sub + list_sum (map (wlen subs) order)) by lia.
      apply IH; auto. lia.
Qed.

Theorem collect_final d L subs st :
  list_sum (map (@length T) subs) <= L -> creach (cinit d L subs) st -> finished st ->
  exists subs', Permutation subs subs' /\ collected d st = concat subs'.
Proof.
  intros HL HR HF.
  destruct (creach_inv L subs _ _ (cinv_init d L subs HL) HR) as (HA & Hs & Hb & order & HN & Ho & HP & Hc).
  assert (HD : forall w, w < length (c_workers st) ->
     exists b s, nth_error (c_workers st) w = Some (WWrite b (length s) s)).
  { intros w Hw. specialize (HF w). unfold wstep in HF.
    destruct (nth_error (c_workers st) w) as [[s|b dd s]|] eqn:Ew; [discriminate| |].
    - destruct (nth_error s dd) eqn:Es; [discriminate|]. apply nth_error_None in Es.
      assert (Hin : In w order) by (apply Ho; eauto).
      destruct (placed_bound _ _ subs _ _ _ _ _ _ Hs HP Hin Ew) as (_ & _ & B).
      assert (dd = length s) by lia. subst dd. eauto.
    - apply nth_error_None in Ew. lia. }
  assert (HO : forall w, In w order <-> w < length subs).
  { intros w. assert (Ll : length subs = length (c_workers st)) by (rewrite <- Hs, map_length; reflexivity).
    rewrite Ll. rewrite Ho. split.
    - intros (b & dd & s & E). apply nth_error_Some. congruence.
    - intros Hw. destruct (HD w Hw) as (b & s & E). eauto. }
  assert (HPm : Permutation (seq 0 (length subs)) order).
  { apply NoDup_Permutation; auto; [apply seq_NoDup|]. intros w. rewrite in_seq, HO. lia. }
  exists (map (fun w => nth w subs []) order). split.
  - apply perm_trans with (map (fun w => nth w subs []) (seq 0 (length subs))).
    + replace (map (fun w => nth w subs []) (seq 0 (length subs))) with subs; [apply Permutation_refl|].
      apply nth_error_ext. intros i. rewrite nth_error_map.
      destruct (Nat.lt_ge_cases i (length subs)) as [Hi|Hi].
      * rewrite (nth_error_nth' _ 0) by (rewrite seq_length; auto). rewrite seq_nth by auto. simpl.
        apply nth_error_nth'. auto.
      * rewrite (proj2 (nth_error_None subs i)) by auto.
        rewrite (proj2 (nth_error_None (seq 0 (length subs)) i)) by (rewrite seq_length; auto). reflexivity.
    + apply Permutation_map. exact HPm.
  - unfold collected.
    assert (Hb2 : c_num st <= length (c_arr st)) by lia.
    unfold resize. replace (c_num st - length (c_arr st)) with 0 by lia. cbn [repeat]. rewrite app_nil_r.
    assert (PD := placed_done (c_arr st) (c_workers st) subs order 0 Hs).
    simpl in PD. unfold wlen in PD. rewrite <- Hc in PD. rewrite <- PD; auto.
    + unfold slice. rewrite Nat.sub_0_r. reflexivity.
    + intros w Hw. apply HD. apply Ho in Hw. destruct Hw as (b & dd & s & E). apply nth_error_Some. congruence.
Qed.

(** Work left; every step reduces it by one. *)
Definition wleft (w : wstate T) : nat :=
  match w with WReserve s => S (length s) | WWrite _ d s => length s - d end.
Definition cleft st : nat := list_sum (map wleft (c_workers st)).

Lemma wstep_left st w st' : wstep st w = Some (Ok st') -> cleft st = S (cleft st').
Proof.
  unfold wstep, cleft. destruct (nth_error (c_workers st) w) as [[sub|b d sub]|] eqn:Ew; [| |discriminate].
  - intros E. inversion E; subst. cbn [c_workers].
    pose proof (list_sum_upd wleft _ _ _ (WWrite (c_num st) 0 sub) Ew) as Q. simpl wleft in Q. lia.
  - destruct (nth_error sub d) as [v|] eqn:Ev; [|discriminate].
    assert (Hdl : d < length sub) by (apply nth_error_Some; congruence).
    intros E. inversion E as [E1]. apply bind_Ok in E1. destruct E1 as (arr & _ & E1).
    inversion E1; subst. cbn [c_workers].
    pose proof (list_sum_upd wleft _ _ _ (WWrite b (S d) sub) Ew) as Q. simpl wleft in Q. lia.
Qed.
End Collect.
