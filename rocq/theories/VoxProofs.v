(** Proofs about voxel grid downsampling. *)
From Coq Require Import Reals Lra ZifyBool ZifyNat ZifyN.
From Verif Require Import Base BaseProofs Num Vec KdModel KdSpec SortSpec VoxModel VoxSpec.
Open Scope nat_scope.

Lemma foldM_sim {S1 S2 A} (f1 : S1 -> A -> outcome S1) (f2 : S2 -> A -> outcome S2)
    (R : nat -> S1 -> S2 -> Prop) (l : list A) :
  (forall n a s1 s2, In a l -> R (S n) s1 s2 -> forall s2', f2 s2 a = Ok s2' ->
     exists s1', f1 s1 a = Ok s1' /\ R n s1' s2') ->
  forall n s1 s2 s2', R (length l + n) s1 s2 -> foldM f2 l s2 = Ok s2' ->
    exists s1', foldM f1 l s1 = Ok s1' /\ R n s1' s2'.
Proof.
  induction l as [|a l IH]; intros H n s1 s2 s2' HR E; simpl in *.
  - inversion E; subst. eauto.
  - apply bind_Ok in E. destruct E as (t & E1 & E).
    destruct (H (length l + n) a s1 s2 (or_introl eq_refl) HR t E1) as (s1' & Ea & HR').
    rewrite Ea. simpl. eapply IH; eauto.
Qed.

Section Scan.
Context (D : num).
Context (points : list (vec4 D)).

(** The block loop as a recursion over the entries after [prev]. *)
Fixpoint scan (prev : N) (sub : list (vec4 D)) (sum : vec4 D) (l : list (N * nat))
    : outcome (list (vec4 D) * vec4 D) :=
  match l with
  | [] => Ok (sub, sum)
  | e :: l =>
      if (fst e =? INVALID_COORD)%N then scan (fst e) sub sum l
      else
        let (sub, sum) := (if (prev =? fst e)%N then (sub, sum) else (sub ++ [emit sum], vzero)) in
        let* p := get points (snd e) in
        scan (fst e) sub (vadd sum p) l
  end.

Lemma block_loop cp : forall l pre e post sub sum,
  cp = pre ++ e :: l ++ post ->
  foldM (block_step points cp) (seq (length pre + 1) (length l)) (sub, sum)
  = scan (fst e) sub sum l.
Proof.
  induction l as [|e' l IH]; intros pre e post sub sum E; simpl; auto.
  assert (G1 : get cp (length pre + 1) = Ok e').
  { apply get_Ok. rewrite E. rewrite nth_error_app2 by lia.
    replace (length pre + 1 - length pre) with 1 by lia. reflexivity. }
  assert (G0 : get cp (length pre + 1 - 1) = Ok e).
  { apply get_Ok. rewrite E. rewrite nth_error_app2 by lia.
    replace (length pre + 1 - 1 - length pre) with 0 by lia. reflexivity. }
  assert (E' : cp = (pre ++ [e]) ++ e' :: l ++ post).
  { rewrite E. rewrite <- app_assoc. reflexivity. }
  assert (Ls : S (length pre + 1) = length (pre ++ [e]) + 1) by (rewrite app_length; simpl; lia).
  rewrite G1. cbn [bind]. destruct (fst e' =? INVALID_COORD)%N eqn:Ei.
  - cbn [bind]. rewrite Ls. apply (IH (pre ++ [e]) e' post); auto.
  - rewrite G0. cbn [bind]. destruct (fst e =? fst e')%N.
    + destruct (get points (snd e')); cbn [bind]; auto. rewrite Ls. apply (IH _ _ post); auto.
    + destruct (get points (snd e')); cbn [bind]; auto. rewrite Ls. apply (IH _ _ post); auto.
Qed.

(** Groups of equal keys. *)
Fixpoint group (k : N) (cur : list nat) (l : list (N * nat)) : list (N * list nat) :=
  match l with
  | [] => [(k, cur)]
  | e :: l =>
      if (fst e =? INVALID_COORD)%N then group k cur l
      else if (k =? fst e)%N then group k (cur ++ [snd e]) l
      else (k, cur) :: group (fst e) [snd e] l
  end.

Definition valid_entry (e : N * nat) : bool := negb (fst e =? INVALID_COORD)%N.
Definition flat (gs : list (N * list nat)) : list (N * nat) :=
  flat_map (fun g => map (pair (fst g)) (snd g)) gs.

Lemma group_all_invalid k cur l : (forall e, In e l -> fst e = INVALID_COORD) ->
  group k cur l = [(k, cur)].
Proof.
  induction l as [|e l IH]; intros H; simpl; auto.
  rewrite (H e) by (left; auto). rewrite N.eqb_refl. apply IH. intros; apply H; right; auto.
Qed.

Lemma scan_all_invalid prev sub sum l : (forall e, In e l -> fst e = INVALID_COORD) ->
  scan prev sub sum l = Ok (sub, sum).
Proof.
  revert prev. induction l as [|e l IH]; intros prev H; simpl; auto.
  rewrite (H e) by (left; auto). rewrite N.eqb_refl. apply IH. intros; apply H; right; auto.
Qed.

(** Keys bounded by the reserved one: what follows a reserved key is reserved. *)
Definition keys_sorted (k : N) (l : list (N * nat)) : Prop :=
  StronglySorted N.le (k :: map fst l) /\ forall e, In e l -> (fst e <= INVALID_COORD)%N.

Lemma keys_sorted_tail k e l : keys_sorted k (e :: l) -> keys_sorted (fst e) l.
Proof.
  intros [H1 H2]. split.
  - inversion H1; subst. auto.
  - intros; apply H2; right; auto.
Qed.
Lemma keys_sorted_skip k e l : keys_sorted k (e :: l) -> keys_sorted k l.
Proof.
  intros [H1 H2]. split.
  - simpl in *. inversion H1 as [|? ? A B]; subst. inversion A; subst. inversion B; subst.
    constructor; auto.
  - intros; apply H2; right; auto.
Qed.
Lemma keys_sorted_invalid k l : keys_sorted k l -> k = INVALID_COORD ->
  forall e, In e l -> fst e = INVALID_COORD.
Proof.
  intros [H1 H2] -> e Hin. inversion H1; subst. rewrite Forall_forall in H4.
  specialize (H2 e Hin). specialize (H4 (fst e) (in_map fst l e Hin)). lia.
Qed.

Lemma group_spec l : forall k cur, keys_sorted k l -> k <> INVALID_COORD ->
  (exists gs, group k cur l = (k, gs) :: tl (group k cur l)) /\
  StronglySorted N.lt (map fst (group k cur l)) /\
  (forall k' g, In (k', g) (group k cur l) -> k' <> INVALID_COORD) /\
  flat (group k cur l) = map (pair k) cur ++ filter valid_entry l /\
  (cur <> [] -> forall k' g, In (k', g) (group k cur l) -> g <> []).
Proof.
  induction l as [|e l IH]; intros k cur HS Hk; simpl.
  - split; [eauto|]. split; [repeat constructor|].
    split; [intros k' g [E|[]]; congruence|].
    split; [unfold flat; simpl; rewrite !app_nil_r; reflexivity|].
    intros Hc k' g [E|[]]. inversion E; subst; auto.
  - unfold valid_entry at 1. destruct (fst e =? INVALID_COORD)%N eqn:Ei; cbn [negb].
    + apply IH; auto. eapply keys_sorted_skip; eauto.
    + destruct (k =? fst e)%N eqn:Ek.
      * destruct (IH k (cur ++ [snd e]) (keys_sorted_skip _ _ _ HS) Hk) as (A & B & C & F & G).
        split; [exact A|]. split; [exact B|]. split; [exact C|]. split.
        { rewrite F. rewrite map_app, <- app_assoc. simpl.
          replace (k, snd e) with e; [reflexivity|]. destruct e; simpl in *. f_equal. lia. }
        intros _. apply G. destruct cur; discriminate.
      * assert (He : fst e <> INVALID_COORD) by lia.
        destruct (IH (fst e) [snd e] (keys_sorted_tail _ _ _ HS) He) as ((gs & A) & B & C & F & G).
        split; [simpl; eauto|]. split.
        { simpl. constructor; auto.
          assert (Hlt : (k < fst e)%N).
          { destruct HS as [HS _]. simpl in HS. inversion HS as [|? ? _ HF]; subst.
            inversion HF; subst. lia. }
          rewrite A in *. simpl in *. constructor; auto.
          inversion B as [|? ? _ HF]; subst. eapply Forall_impl; [|exact HF]. simpl; intros; lia. }
        split; [intros k' g [E|Hin]; [congruence|eauto]|]. split.
        { unfold flat in *. simpl. rewrite F. simpl. destruct e; reflexivity. }
        intros Hc k' g [E|Hin]; [inversion E; subst; auto|]. eapply G; eauto. discriminate.
Qed.

(** The scan adds up exactly the groups. *)
Lemma scan_spec l : forall k cur sub sum,
  keys_sorted k l -> k <> INVALID_COORD ->
  (forall e, In e l -> snd e < length points) ->
  is_sum (pick points cur) sum -> cur <> [] -> (forall i, In i cur -> i < length points) ->
  exists out s, scan k sub sum l = Ok (sub ++ out, s) /\
    group_means points (group k cur l) (out ++ [emit s]).
Proof.
  assert (PA : forall a b : list nat, pick points (a ++ b) = pick points a ++ pick points b)
    by (intros; unfold pick; apply flat_map_app).
  induction l as [|e l IH]; intros k cur sub sum HS Hk Hb Hsum Hc Hcb; simpl.
  - exists [], sum. rewrite app_nil_r. split; [reflexivity|]. constructor; [|constructor].
    exists sum. auto.
  - destruct (fst e =? INVALID_COORD)%N eqn:Ei.
    + assert (AI : forall e', In e' l -> fst e' = INVALID_COORD).
      { eapply keys_sorted_invalid; [eapply keys_sorted_tail; eauto|lia]. }
      rewrite scan_all_invalid by auto. rewrite group_all_invalid by auto.
      exists [], sum. rewrite app_nil_r. split; [reflexivity|]. constructor; [|constructor].
      exists sum. auto.
    + destruct (get_lt points (snd e)) as (p & Ep); [apply Hb; left; auto|].
      apply get_Ok in Ep as Ep'.
      assert (Hp : pick points [snd e] = [p]).
      { unfold pick. simpl. rewrite Ep'. reflexivity. }
      destruct (k =? fst e)%N eqn:Ek.
      * assert (Eke : fst e = k) by lia. rewrite Ep. cbn [bind]. rewrite Eke.
        apply IH; auto.
        -- eapply keys_sorted_skip; eauto.
        -- intros; apply Hb; right; auto.
        -- rewrite PA, Hp. destruct Hsum as [->|(q & r & E & ->)].
           ++ left. rewrite fold_left_app. reflexivity.
           ++ right. exists q, (r ++ [p]). rewrite E. split; [reflexivity|].
              rewrite fold_left_app. reflexivity.
        -- destruct cur; discriminate.
        -- intros i Hi. apply in_app_iff in Hi. destruct Hi as [Hi|[<-|[]]]; auto.
           apply Hb; left; auto.
      * rewrite Ep. cbn [bind].
        destruct (IH (fst e) [snd e] (sub ++ [emit sum]) (vadd vzero p)) as (out & s & E & G).
        -- eapply keys_sorted_tail; eauto.
        -- lia.
        -- intros; apply Hb; right; auto.
        -- rewrite Hp. left. reflexivity.
        -- discriminate.
        -- intros i [<-|[]]. apply Hb; left; auto.
        -- exists (emit sum :: out), s. split; [rewrite E; rewrite <- app_assoc; reflexivity|].
           simpl. constructor; [|exact G]. exists sum. auto.
Qed.

(** One block. *)
Definition block_groups (seg : list (N * nat)) : list (N * list nat) :=
  match seg with [] => [] | e :: l => group (fst e) [snd e] l end.

Lemma block_points_spec cp pre seg post :
  cp = pre ++ seg ++ post -> seg <> [] ->
  StronglySorted N.le (map fst seg) ->
  (forall e, In e seg -> (fst e <= INVALID_COORD)%N /\ snd e < length points) ->
  exists out, block_points points cp (length pre) (length pre + length seg) = Ok out /\
    group_means points (block_groups seg) out.
Proof.
  intros E Hne HS Hb. destruct seg as [|e l]; [congruence|].
  assert (KS : keys_sorted (fst e) l).
  { split; [exact HS|]. intros e' He'. apply Hb. right; auto. }
  unfold block_points.
  assert (G0 : get cp (length pre) = Ok e).
  { apply get_Ok. rewrite E. rewrite nth_error_app2 by lia. rewrite Nat.sub_diag. reflexivity. }
  rewrite G0. cbn [bind].
  destruct (get_lt points (snd e)) as (p & Ep); [apply Hb; left; auto|].
  apply get_Ok in Ep as Ep'. rewrite Ep. cbn [bind].
  assert (Hp : pick points [snd e] = [p]).
  { unfold pick. simpl. rewrite Ep'. reflexivity. }
  replace (length pre + length (e :: l) - (length pre + 1)) with (length l) by (simpl; lia).
  rewrite (block_loop cp l pre e post) by exact E.
  cbn [block_groups].
  destruct (N.eq_dec (fst e) INVALID_COORD) as [Hi|Hi].
  - rewrite scan_all_invalid, group_all_invalid by (eapply keys_sorted_invalid; eauto).
    cbn [bind app]. eexists. split; [reflexivity|]. constructor; [|constructor].
    exists p. split; auto. cbn [snd]. rewrite Hp. right. exists p, []. auto.
  - destruct (scan_spec l (fst e) [snd e] [] p) as (out & s & Es & G); auto.
    + intros e' He'. apply Hb; right; auto.
    + rewrite Hp. right. exists p, []. auto.
    + discriminate.
    + intros i [<-|[]]. apply Hb; left; auto.
    + rewrite Es. cbn [bind]. eexists. split; [reflexivity|]. exact G.
Qed.

(** The serial loop does what a single block covering everything does. *)
Lemma serial_sim cp n : forall l, 
  forall arr num sum sub sum' sub',
  length arr = n -> num = length sub -> firstn num arr = sub -> sum = sum' ->
  num + length l < n -> (forall i, In i l -> 1 <= i) ->
  forall r, foldM (block_step points cp) l (sub, sum') = Ok r -> r = (sub', snd r) ->
  exists arr', foldM (serial_step points cp) l (arr, num, sum) = Ok (arr', length sub', snd r) /\
    length arr' = n /\ firstn (length sub') arr' = sub' /\ length sub' < n.
Proof.
  induction l as [|i l IH]; intros arr num sum sub sum' sub' La Hn Hf <- Hb Hi r E Er; simpl in *.
  - inversion E; subst. inversion Er; subst. exists arr. cbn [snd]. split; [reflexivity|].
    split; auto. split; auto. lia.
  - apply bind_Ok in E. destruct E as ([sub1 sum1] & E1 & E).
    unfold block_step in E1. unfold serial_step at 1.
    apply bind_Ok in E1. destruct E1 as (e & Ee & E1). rewrite Ee. cbn [bind].
    destruct (fst e =? INVALID_COORD)%N eqn:Ei.
    + inversion E1; subst sub1 sum1. cbn [bind]. eapply IH; eauto; lia.
    + apply bind_Ok in E1. destruct E1 as (pv & Epv & E1). rewrite Epv. cbn [bind].
      destruct (fst pv =? fst e)%N.
      * cbn [bind]. apply bind_Ok in E1. destruct E1 as (p & Ep & E1). rewrite Ep. cbn [bind].
        inversion E1; subst sub1 sum1. eapply IH; eauto; lia.
      * assert (Hlt : num < length arr) by lia.
        rewrite (set_Ok arr num _ Hlt). cbn [bind].
        apply bind_Ok in E1. destruct E1 as (p & Ep & E1). rewrite Ep. cbn [bind].
        inversion E1; subst sub1 sum1. clear E1.
        assert (Lsub : length (sub ++ [emit sum]) = num + 1) by (rewrite app_length; simpl; lia).
        eapply (IH (upd arr num (emit sum)) (num + 1) _ (sub ++ [emit sum])); eauto.
        -- rewrite upd_length. auto.
        -- rewrite (upd_split arr num) by auto.
           rewrite firstn_app. rewrite firstn_length_le by lia.
           replace (num + 1 - num) with 1 by lia. cbn [firstn].
           rewrite firstn_firstn. replace (Nat.min (num + 1) num) with num by lia. rewrite Hf. reflexivity.
        -- lia.
Qed.
End Scan.

Section Sort.
Context (sort : forall A : Type, (A -> A -> bool) -> list A -> list A).
Hypothesis SC : sort_contract sort.
Context (D : num) (key : vec4 D -> outcome N) (points : list (vec4 D)) (keys : nat -> N).
Hypothesis KD : keyed key points keys.
Notation n := (length points).

Lemma key_less_swo l : swo_on key_less l.
Proof. unfold key_less. split; [|split]; intros; lia. Qed.

Definition entries : list (N * nat) := map (fun i => (keys i, i)) (seq 0 n).

Lemma mapM_keys : forall ps off, (forall i p, nth_error ps i = Some p -> key p = Ok (keys (off + i))) ->
  mapM key ps = Ok (map keys (seq off (length ps))).
Proof.
  induction ps as [|p ps IH]; intros off H; simpl; auto.
  rewrite (H 0 p eq_refl). cbn [bind]. rewrite (IH (S off)).
  - cbn [bind]. rewrite Nat.add_0_r. reflexivity.
  - intros i q Hq. replace (S off + i) with (off + S i) by lia. apply H. exact Hq.
Qed.

Lemma coord_pt_entries : coord_pt key points = Ok entries.
Proof.
  unfold coord_pt. rewrite (mapM_keys points 0).
  - cbn [bind]. f_equal. unfold entries.
    generalize (seq 0 n). intros l. induction l; simpl; auto. f_equal. auto.
  - intros i p Hp. apply (KD i p Hp).
Qed.

Notation sorted_entries := (sort _ key_less entries).

Lemma sorted_entries_perm : Permutation entries sorted_entries.
Proof. apply SC. apply key_less_swo. Qed.

Lemma sorted_entries_sorted : StronglySorted N.le (map fst sorted_entries).
Proof.
  destruct (SC _ key_less entries (key_less_swo _)) as [_ HS]. unfold sorted_by in HS.
  induction HS; simpl; constructor; auto.
  rewrite Forall_forall in *. intros k Hk. apply in_map_iff in Hk.
  destruct Hk as (e & <- & He). specialize (H e He). unfold key_less in H. lia.
Qed.

Lemma sorted_entries_length : length sorted_entries = n.
Proof.
  rewrite <- (Permutation_length sorted_entries_perm). unfold entries.
  rewrite map_length, seq_length. reflexivity.
Qed.

Lemma sorted_entries_in e : In e sorted_entries ->
  (fst e <= INVALID_COORD)%N /\ snd e < n /\ fst e = keys (snd e).
Proof.
  intros He. apply (Permutation_in _ (Permutation_sym sorted_entries_perm)) in He.
  unfold entries in He. apply in_map_iff in He. destruct He as (i & <- & Hi).
  apply in_seq in Hi. cbn [fst snd]. split; [|split; [lia|reflexivity]].
  destruct (nth_error points i) as [p|] eqn:E.
  - apply (KD i p E).
  - apply nth_error_None in E. lia.
Qed.

Lemma StronglySorted_app_inv {A} (R : A -> A -> Prop) l1 l2 :
  StronglySorted R (l1 ++ l2) ->
  StronglySorted R l1 /\ StronglySorted R l2 /\ forall x y, In x l1 -> In y l2 -> R x y.
Proof.
  induction l1 as [|a l1 IH]; simpl; intros H.
  - split; [constructor|]. split; auto. intros x y [].
  - inversion H as [|? ? H1 H2]; subst. destruct (IH H1) as (A1 & A2 & A3).
    rewrite Forall_forall in H2. split.
    + constructor; auto. apply Forall_forall. intros x Hx. apply H2. apply in_app_iff; auto.
    + split; auto. intros x y [<-|Hx] Hy; [apply H2; apply in_app_iff; auto|auto].
Qed.

(** ** The blocks of the parallel versions *)
Fixpoint segments (l : list (N * nat)) (sizes : list nat) : list (list (N * nat)) :=
  match sizes with
  | [] => []
  | s :: sizes => firstn s l :: segments (skipn s l) sizes
  end.

Lemma segments_concat sizes : forall l, list_sum sizes = length l -> concat (segments l sizes) = l.
Proof.
  induction sizes as [|s sizes IH]; intros l H; simpl in *.
  - destruct l; [reflexivity|discriminate].
  - rewrite IH by (rewrite skipn_length; lia). apply firstn_skipn.
Qed.

Lemma all_blocks_spec cp sizes : forall pre rest,
  cp = pre ++ rest -> list_sum sizes = length rest -> Forall (fun s => 0 < s) sizes ->
  StronglySorted N.le (map fst rest) ->
  (forall e, In e rest -> (fst e <= INVALID_COORD)%N /\ snd e < n) ->
  exists outs, all_blocks points cp (length pre) sizes = Ok outs /\
    Forall2 (fun seg out => group_means points (block_groups seg) out) (segments rest sizes) outs.
Proof.
  induction sizes as [|s sizes IH]; intros pre rest E Hsum HF HS Hb; simpl in *.
  - exists []. split; [reflexivity|constructor].
  - inversion HF as [|? ? Hs HF']; subst.
    assert (Lf : length (firstn s rest) = s) by (rewrite firstn_length; lia).
    rewrite <- (firstn_skipn s rest) in HS. rewrite map_app in HS.
    apply StronglySorted_app_inv in HS. destruct HS as (HS1 & HS2 & _).
    destruct (block_points_spec D points (pre ++ rest) pre (firstn s rest) (skipn s rest)) as (out & E1 & G1).
    { rewrite firstn_skipn. reflexivity. }
    { intros En. rewrite En in Lf. simpl in Lf. lia. }
    { exact HS1. }
    { intros e He. apply Hb. rewrite <- (firstn_skipn s rest). apply in_app_iff; auto. }
    rewrite Lf in E1. rewrite E1. cbn [bind].
    destruct (IH (pre ++ firstn s rest) (skipn s rest)) as (outs & E2 & G2); auto.
    { rewrite <- app_assoc, firstn_skipn. reflexivity. }
    { rewrite skipn_length. lia. }
    { intros e He. apply Hb. rewrite <- (firstn_skipn s rest). apply in_app_iff; auto. }
    rewrite app_length, Lf in E2. rewrite E2. cbn [bind].
    exists (out :: outs). split; [reflexivity|]. constructor; auto.
Qed.

Lemma parallel_blocks_spec sizes :
  list_sum sizes = n -> Forall (fun s => 0 < s) sizes ->
  exists outs, parallel_blocks key sort points sizes = Ok outs /\
    Forall2 (fun seg out => group_means points (block_groups seg) out)
      (segments sorted_entries sizes) outs.
Proof.
  intros Hs HF. unfold parallel_blocks. rewrite coord_pt_entries. cbn [bind].
  apply (all_blocks_spec sorted_entries sizes [] sorted_entries); auto.
  - rewrite sorted_entries_length. exact Hs.
  - apply sorted_entries_sorted.
  - intros e He. apply sorted_entries_in in He. tauto.
Qed.

Lemma in_range_entry e : In e sorted_entries -> valid_entry e = in_range keys (snd e).
Proof.
  intros He. apply sorted_entries_in in He. destruct He as (_ & _ & E).
  unfold valid_entry, in_range. rewrite E. reflexivity.
Qed.

(** Groups of a whole sorted list starting with a valid key. *)
Lemma groups_voxels :
  (exists i, i < n /\ in_range keys i = true) ->
  voxel_groups n keys (block_groups sorted_entries).
Proof.
  intros (i0 & Hi0 & Hr0).
  assert (Hin0 : In (keys i0, i0) sorted_entries).
  { apply (Permutation_in _ sorted_entries_perm). unfold entries.
    apply in_map_iff. exists i0. split; auto. apply in_seq. lia. }
  pose proof sorted_entries_perm as HP. pose proof sorted_entries_sorted as HS.
  pose proof sorted_entries_in as HI.
  destruct sorted_entries as [|e l] eqn:El; [destruct Hin0|].
  assert (He : fst e <> INVALID_COORD).
  { simpl in HS. inversion HS as [|? ? _ HF]; subst. rewrite Forall_forall in HF.
    intros Hx. unfold in_range in Hr0. destruct Hin0 as [E0|Hin0].
    - rewrite E0 in Hx. cbn [fst] in Hx. lia.
    - specialize (HF _ (in_map fst _ _ Hin0)). cbn [fst] in HF.
      destruct (HI (keys i0, i0) (or_intror Hin0)) as (B & _). cbn [fst] in B. lia. }
  assert (KS : keys_sorted (fst e) l).
  { split; [exact HS|]. intros e' He'. apply HI. right; auto. }
  cbn [block_groups].
  destruct (group_spec l (fst e) [snd e] KS He) as (_ & A & B & F & G).
  assert (F' : flat (group (fst e) [snd e] l) = filter valid_entry (e :: l)).
  { rewrite F. simpl. unfold valid_entry at 2.
    destruct (fst e =? INVALID_COORD)%N eqn:Q; [lia|]. cbn [negb map app].
    destruct e; reflexivity. }
  assert (FP : Permutation (flat (group (fst e) [snd e] l))
                 (map (fun i => (keys i, i)) (filter (in_range keys) (seq 0 n)))).
  { rewrite F'. eapply perm_trans.
    - assert (HPf : forall (f : N * nat -> bool) a b, Permutation a b -> Permutation (filter f a) (filter f b)).
      { clear. intros f a b H. induction H; simpl; auto.
        - destruct (f x); auto.
        - destruct (f x), (f y); auto. apply perm_swap.
        - eapply perm_trans; eauto. }
      apply HPf. apply Permutation_sym. exact HP.
    - unfold entries. clear. induction (seq 0 n) as [|i l IH]; simpl; auto.
      unfold valid_entry at 1, in_range at 1. cbn [fst].
      destruct (negb (keys i =? INVALID_COORD)%N); simpl; auto. }
  split; [exact A|]. split.
  - intros k g Hg. split; [eapply G; eauto; discriminate|]. split; [eapply B; eauto|].
    (* points of the group with key k *)
    assert (S1 : forall gs, StronglySorted N.lt (map fst gs) -> In (k, g) gs ->
       map snd (filter (fun e => (fst e =? k)%N) (flat gs)) = g).
    { clear. intros gs. induction gs as [|[k1 g1] gs IH]; intros Hs Hin; [destruct Hin|].
      simpl in Hs. inversion Hs as [|? ? Hs1 Hs2]; subst.
      unfold flat in *. simpl. rewrite filter_app, map_app.
      assert (Fsame : forall g0, map snd (filter (fun e : N * nat => (fst e =? k)%N) (map (pair k) g0)) = g0).
      { intros g0. induction g0; simpl; auto. rewrite N.eqb_refl. simpl. f_equal; auto. }
      assert (Fother : forall k0 (g0 : list nat), k0 <> k ->
         filter (fun e : N * nat => (fst e =? k)%N) (map (pair k0) g0) = []).
      { intros k0 g0 Hne. induction g0; simpl; auto. destruct (k0 =? k)%N eqn:Q; auto. lia. }
      destruct Hin as [E|Hin].
      - inversion E; subst k1 g1. rewrite Fsame.
        replace (map snd (filter (fun e => (fst e =? k)%N) (flat_map (fun g => map (pair (fst g)) (snd g)) gs)))
          with (@nil nat); [apply app_nil_r|].
        symmetry. clear IH Hs Hs1. induction gs as [|[k2 g2] gs IHg]; simpl; auto.
        simpl in Hs2. inversion Hs2; subst. rewrite filter_app, Fother by lia. simpl. auto.
      - rewrite Fother.
        + simpl. apply IH; auto.
        + rewrite Forall_forall in Hs2. specialize (Hs2 _ (in_map fst _ _ Hin)). simpl in Hs2. lia. }
    specialize (S1 _ A Hg).
    assert (HPk : Permutation g (map snd (filter (fun e => (fst e =? k)%N)
       (map (fun i => (keys i, i)) (filter (in_range keys) (seq 0 n)))))).
    { rewrite <- S1 at 1. apply Permutation_map.
      assert (HPf : forall (f : N * nat -> bool) a b, Permutation a b -> Permutation (filter f a) (filter f b)).
      { clear. intros f a b H. induction H; simpl; auto.
        - destruct (f x); auto.
        - destruct (f x), (f y); auto. apply perm_swap.
        - eapply perm_trans; eauto. }
      apply HPf. exact FP. }
    eapply perm_trans; [exact HPk|].
    assert (Hkne : k <> INVALID_COORD) by (eapply B; eauto).
    clear -Hkne. induction (seq 0 n) as [|i l IH]; simpl; auto.
    unfold in_range at 1. destruct (keys i =? INVALID_COORD)%N eqn:Q1; simpl.
    + destruct (keys i =? k)%N eqn:Q2; [lia|]. exact IH.
    + destruct (keys i =? k)%N eqn:Q2; simpl; auto.
  - intros i Hi Hr.
    assert (Hin : In (keys i, i) (flat (group (fst e) [snd e] l))).
    { apply (Permutation_in _ (Permutation_sym FP)). apply in_map_iff. exists i. split; auto.
      apply filter_In. split; auto. apply in_seq. lia. }
    unfold flat in Hin. apply in_flat_map in Hin. destruct Hin as ([k g] & Hg & Hm).
    apply in_map_iff in Hm. destruct Hm as (j & E & _). inversion E; subst.
    apply in_map_iff. exists (keys i, g). auto.
Qed.

Lemma segments_whole l : segments l [length l] = [l].
Proof. simpl. rewrite firstn_all. reflexivity. Qed.

(** ** The serial version *)
Lemma serial_block : 0 < n ->
  exists out, voxelgrid_sampling key sort points = Ok out /\
    group_means points (block_groups sorted_entries) out.
Proof.
  intros Hn.
  assert (Hne : sorted_entries <> []).
  { intros E. pose proof sorted_entries_length as L. rewrite E in L. simpl in L. lia. }
  destruct (block_points_spec D points sorted_entries [] sorted_entries []) as (out & E & G).
  { rewrite app_nil_r. reflexivity. }
  { exact Hne. }
  { apply sorted_entries_sorted. }
  { intros e He. apply sorted_entries_in in He. tauto. }
  rewrite sorted_entries_length in E. simpl length in E. rewrite Nat.add_0_l in E.
  assert (EV : voxelgrid_sampling key sort points = Ok out).
  { unfold voxelgrid_sampling.
    assert (Hpts : exists p ps, points = p :: ps) by (destruct points; [simpl in Hn; lia|eauto]).
    destruct Hpts as (p' & ps' & Hpts). rewrite Hpts at 1. rewrite coord_pt_entries. cbn [bind].
    unfold block_points in E. apply bind_Ok in E. destruct E as (e0 & E0 & E). rewrite E0. cbn [bind].
    apply bind_Ok in E. destruct E as (p0 & Ep & E). rewrite Ep. cbn [bind].
    apply bind_Ok in E. destruct E as ([sub sum] & Ef & E). inversion E; subst out.
    change (0 + 1) with 1 in Ef.
    destruct (serial_sim D points sorted_entries n (seq 1 (n - 1)) (repeat vzero n) 0 p0 [] p0 sub
      (repeat_length _ _) eq_refl eq_refl eq_refl) with (r := (sub, sum))
      as (arr & Es & La & Hf & Hl); auto.
    { rewrite seq_length. simpl. lia. }
    { intros i Hi. apply in_seq in Hi. lia. }
    rewrite Es. cbn [bind snd]. rewrite set_Ok by lia. cbn [bind]. f_equal.
    unfold resize. rewrite upd_length.
    replace (length sub + 1 - length arr) with 0 by lia. cbn [repeat]. rewrite app_nil_r.
    rewrite (upd_split arr) by lia. rewrite firstn_app. rewrite firstn_length_le by lia.
    replace (length sub + 1 - length sub) with 1 by lia. cbn [firstn].
    rewrite firstn_firstn. replace (Nat.min (length sub + 1) (length sub)) with (length sub) by lia.
    rewrite Hf. reflexivity. }
  exists out. auto.
Qed.

Theorem serial_spec :
  (exists i, i < n /\ in_range keys i = true) ->
  exists out gs, voxelgrid_sampling key sort points = Ok out /\
    voxel_groups n keys gs /\ group_means points gs out.
Proof.
  intros Hv. destruct serial_block as (out & E & G); [destruct Hv as (i & Hi & _); lia|].
  exists out, (block_groups sorted_entries). split; auto. split; auto. apply groups_voxels; auto.
Qed.

(** Nothing in range: one input point comes out, divided by its w. *)
Theorem serial_all_out :
  points <> [] -> (forall i, i < n -> in_range keys i = false) ->
  exists p s, In p points /\ (s = p \/ s = vadd vzero p) /\
    voxelgrid_sampling key sort points = Ok [emit s].
Proof.
  intros Hp Hall.
  destruct serial_block as (out & E & G); [destruct points; [congruence|simpl; lia]|].
  pose proof sorted_entries_length as L. pose proof sorted_entries_sorted as HS.
  pose proof sorted_entries_in as HI.
  destruct sorted_entries as [|e l] eqn:El; [destruct points; [congruence|discriminate]|].
  assert (HK : forall e', In e' (e :: l) -> fst e' = INVALID_COORD).
  { intros e' He'. destruct (HI e' He') as (_ & A & B). specialize (Hall _ A).
    unfold in_range in Hall. rewrite B. lia. }
  cbn [block_groups] in G. rewrite group_all_invalid in G by (intros; apply HK; right; auto).
  inversion G as [|? o ? r (s & Hs & ->) G2]; subst. inversion G2; subst.
  destruct (HI e (or_introl eq_refl)) as (_ & A & _).
  destruct (nth_error points (snd e)) as [p|] eqn:Ep; [|apply nth_error_None in Ep; lia].
  unfold pick in Hs. cbn [snd flat_map] in Hs. rewrite Ep in Hs. cbn [app] in Hs.
  exists p, s. split; [eapply nth_error_In; eauto|]. split; [|exact E].
  destruct Hs as [->|(q & r & Eq & ->)]; [right; reflexivity|]. inversion Eq; subst. left. reflexivity.
Qed.
End Sort.
