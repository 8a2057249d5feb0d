(** The invariant of the flow graph. *)
From Coq Require Import ZifyBool ZifyNat.
From Verif Require Import Base BaseProofs FlowModel FlowSpec.

(** Number of occurrences of an id. *)
Fixpoint cnt (l : list nat) (x : nat) : nat :=
  match l with [] => 0 | a :: l => (if a =? x then 1 else 0) + cnt l x end.
Lemma cnt_app l1 l2 x : cnt (l1 ++ l2) x = cnt l1 x + cnt l2 x.
Proof. induction l1; simpl; auto. lia. Qed.
Lemma cnt_In l x : In x l <-> 0 < cnt l x.
Proof.
  induction l as [|a l IH]; simpl; [lia|]. destruct (a =? x) eqn:E; split; intros H.
  - lia.
  - left. lia.
  - destruct H; [lia|]. apply IH in H. lia.
  - right. apply IH. lia.
Qed.

Lemma firstn_S_snoc {A} (l : list A) : forall n v, nth_error l n = Some v -> firstn (S n) l = firstn n l ++ [v].
Proof.
  induction l as [|a l IH]; intros [|n] v E; try discriminate; simpl in *; [congruence|].
  rewrite <- (IH n v E). reflexivity.
Qed.

Section Flow.
Context (Cloud Tree Pose : Type).
Context (downsample : Cloud -> Cloud) (build : Cloud -> Tree) (estimate_covs : Cloud -> Tree -> Cloud).
Context (register : Cloud -> Cloud -> Tree -> Pose) (mul : Pose -> Pose -> Pose) (identity : Pose).
Notation frame := (frame Cloud Tree Pose).
Notation ref := (ref Cloud Tree Pose).
Notation state := (state Cloud Tree Pose).
Notation step := (step downsample build estimate_covs register mul identity).
Notation runs := (runs downsample build estimate_covs register mul identity).
Notation prep := (prepared downsample build estimate_covs).
Notation motions := (motions downsample build estimate_covs register).
Context (cs : list Cloud) (kept : option ref).

(** What the static pointer may hold before a run. *)
Definition kept_ok : Prop :=
  kept = None \/ exists f t, kept = Some (Old f) /\ fr_tree f = Some t.
Context (KO : kept_ok).

Definition first_motion (c : Cloud) : Pose :=
  match kept with
  | Some (Old f) => match fr_tree f with
                    | Some t => register (fr_points f) (fst (prep c)) t
                    | None => identity
                    end
  | _ => identity
  end.
Definition rels : list Pose := match cs with [] => [] | c :: l => first_motion c :: motions c l end.
Definition expected : list Pose :=
  match cs with [] => [] | c :: l => first_motion c :: poses mul (first_motion c) (motions c l) end.

Lemma motions_length c l : length (motions c l) = length l.
Proof. revert c. induction l; intros; simpl; auto. Qed.
Lemma poses_length T l : length (poses mul T l) = length l.
Proof. revert T. induction l; intros; simpl; auto. Qed.
Lemma rels_length : length rels = length cs.
Proof. unfold rels. destruct cs; simpl; auto. rewrite motions_length. reflexivity. Qed.
Lemma expected_length : length expected = length cs.
Proof. unfold expected. destruct cs; simpl; auto. rewrite poses_length, motions_length. reflexivity. Qed.

Lemma motions_nth c l : forall i a b, nth_error (c :: l) i = Some a -> nth_error l i = Some b ->
  nth_error (motions c l) i = Some (motion register (prep a) (prep b)).
Proof.
  revert c. induction l as [|d l IH]; intros c i a b E1 E2; [destruct i; discriminate|].
  destruct i as [|i]; simpl in *.
  - inversion E1; inversion E2; subst. reflexivity.
  - eapply IH; eauto.
Qed.
Lemma poses_nth T l : forall i m, nth_error l (S i) = Some m ->
  exists P, nth_error (poses mul T l) i = Some P /\ nth_error (poses mul T l) (S i) = Some (mul P m).
Proof.
  revert T. induction l as [|a l IH]; intros T i m E; [discriminate|].
  destruct i as [|i].
  - simpl in E. destruct l as [|b l]; [discriminate|]. inversion E; subst. simpl. eauto.
  - simpl in E. destruct (IH (mul T a) i m E) as (P & H1 & H2). exists P. simpl. auto.
Qed.
Lemma expected_nth i m : nth_error rels (S i) = Some m ->
  exists P, nth_error expected i = Some P /\ nth_error expected (S i) = Some (mul P m).
Proof.
  unfold rels, expected. destruct cs as [|c l]; [discriminate|]. simpl. intros E.
  destruct i as [|i].
  - exists (first_motion c). split; auto. destruct (motions c l); [discriminate|]. simpl in *.
    inversion E; subst. reflexivity.
  - apply poses_nth. exact E.
Qed.
Lemma expected_0 m : nth_error rels 0 = Some m -> nth_error expected 0 = Some m.
Proof. unfold rels, expected. destruct cs; simpl; auto. Qed.

(** The target a frame must be paired with. *)
Definition target (i : nat) : option ref := match i with 0 => kept | S j => Some (New j) end.
(** A frame after k statements of preprocessing. *)
Definition stage (k : nat) (c : Cloud) : frame :=
  match k with
  | 0 => mkFrame c None None
  | 1 => mkFrame (downsample c) None None
  | _ => mkFrame (downsample c) (Some (build (downsample c))) None
  end.
Definition ready (c : Cloud) (T : option Pose) : frame := mkFrame (fst (prep c)) (Some (snd (prep c))) T.

Definition b2 (b : bool) : nat := if b then 1 else 0.

Record Inv (s : state) (p : nat) : Prop := {
  i_fed : length (frames s) <= length cs;
  i_ids1 : forall x, cnt (map fst (pre s)) x + cnt (seq1 s) x + b2 (x <? next1 s) = b2 (x <? length (frames s));
  i_next1 : next1 s = p + length (queue1 s);
  i_queue1 : queue1 s = seq p (length (queue1 s));
  i_last : last s = target p;
  i_ids2 : forall x, cnt (map snd (reg s)) x + cnt (seq2 s) x + b2 (x <? next2 s) = b2 (x <? p);
  i_next2 : next2 s = length (traj s) + length (queue2 s);
  i_queue2 : queue2 s = seq (length (traj s)) (length (queue2 s));
  i_reg : forall t i, In (t, i) (reg s) -> t = target i;
  i_pre : forall i k, In (i, k) (pre s) -> k <= 2 /\
    exists c, nth_error cs i = Some c /\ nth_error (frames s) i = Some (stage k c);
  i_ready : forall i, In i (seq1 s) \/ i < next1 s ->
    exists c T, nth_error cs i = Some c /\ nth_error (frames s) i = Some (ready c T);
  i_T : forall i, In i (seq2 s) \/ i < next2 s ->
    exists f m, nth_error (frames s) i = Some f /\ fr_T f = Some m /\ nth_error rels i = Some m;
  i_traj : traj s = firstn (length (traj s)) expected
}.

Lemma Inv_init : Inv (init kept) 0.
Proof.
  split; simpl; try reflexivity; try lia; try (intros; contradiction).
Qed.

(** Steps left. *)
Definition pre_left (l : list (nat * nat)) : nat := fold_right (fun x a => (8 - snd x) + a) 0 l.
Definition left (s : state) : nat :=
  9 * (length cs - length (frames s)) + pre_left (pre s) + 5 * length (seq1 s) + 4 * length (queue1 s)
  + 3 * length (reg s) + 2 * length (seq2 s) + length (queue2 s).
Lemma pre_left_app l1 l2 : pre_left (l1 ++ l2) = pre_left l1 + pre_left l2.
Proof. induction l1; simpl; auto. lia. Qed.

Lemma pre_left_cons i k l : pre_left ((i, k) :: l) = (8 - k) + pre_left l.
Proof. reflexivity. Qed.
Lemma pre_left_nil : pre_left [] = 0.
Proof. reflexivity. Qed.
Ltac meas := unfold left; cbn [frames pre seq1 queue1 reg seq2 queue2];
  rewrite ?upd_length, ?app_length, ?pre_left_app, ?pre_left_cons, ?pre_left_nil; cbn [length]; lia.

Lemma b2_le b : b2 b <= 1.
Proof. destruct b; simpl; lia. Qed.

(** The motion written for a frame is the specified one. *)
Lemma reg_body_ok fs i p : i < p -> p <= length cs ->
  (forall j, j < p -> exists c T, nth_error cs j = Some c /\ nth_error fs j = Some (ready c T)) ->
  exists m, reg_body register identity fs (target i) i = Ok m /\ nth_error rels i = Some m.
Proof.
  intros Hi Hp R. destruct i as [|i].
  - destruct (R 0 Hi) as (c & T & E1 & E2).
    assert (ER : nth_error rels 0 = Some (first_motion c)).
    { unfold rels. destruct cs as [|c0 l]; [discriminate|]. simpl in *. congruence. }
    exists (first_motion c). split; [|exact ER]. unfold first_motion, target.
    destruct KO as [->|(f & t & -> & Ef)]; [reflexivity|].
    unfold reg_body. cbn [deref bind]. unfold get. rewrite E2. cbn [bind]. rewrite Ef. reflexivity.
  - destruct (R i ltac:(lia)) as (a & Ta & A1 & A2). destruct (R (S i) Hi) as (b & Tb & B1 & B2).
    exists (motion register (prep a) (prep b)). split.
    + unfold target, reg_body, deref, get. rewrite A2, B2. cbn [bind]. reflexivity.
    + unfold rels. destruct cs as [|c0 l]; [discriminate|].
      change (nth_error (motions c0 l) i = Some (motion register (prep a) (prep b))).
      apply motions_nth; auto.
Qed.

Ltac bb := unfold b2 in *; repeat match goal with
  | |- context [if ?c then _ else _] => destruct c eqn:?
  | H : context [if ?c then _ else _] |- _ => destruct c eqn:?
  end; try lia.

Lemma step_inv s p o : Inv s p -> step cs s o ->
  exists s' p', o = Ok s' /\ Inv s' p' /\ left s = 1 + left s'.
Proof.
  intros I H. inversion H; subst; destruct I; simpl in *.
  - (* Feed *)
    assert (LF : length fs < length cs) by (apply nth_error_Some; congruence).
    eexists; exists p. split; [reflexivity|]. split.
    + split; simpl; auto.
      * rewrite app_length. simpl. lia.
      * intros x. rewrite map_app, cnt_app, app_length. cbn [map cnt fst length].
        specialize (i_ids3 x). bb.
      * intros i k Hin. apply in_app_or in Hin. destruct Hin as [Hin|[Hin|[]]].
        -- destruct (i_pre0 i k Hin) as (K & c0 & E1 & E2). split; auto. exists c0. split; auto.
           rewrite nth_error_app1; auto. apply nth_error_Some. congruence.
        -- inversion Hin; subst. split; [lia|]. exists c. split; auto.
           rewrite nth_error_app2, Nat.sub_diag by lia. reflexivity.
      * intros i Hi. destruct (i_ready0 i Hi) as (c0 & T & E1 & E2). exists c0, T. split; auto.
        rewrite nth_error_app1; auto. apply nth_error_Some. congruence.
      * intros i Hi. destruct (i_T0 i Hi) as (f & m & E1 & E2). exists f, m. split; auto.
        rewrite nth_error_app1; auto. apply nth_error_Some. congruence.
    + meas.
  - (* Pre *)
    destruct (i_pre0 i k) as (K & c & E1 & E2); [apply in_or_app; right; left; reflexivity|].
    assert (Li : i < length fs) by (apply nth_error_Some; congruence).
    assert (Q : forall x, cnt (map fst p1) x + b2 (i =? x) + cnt (map fst p2) x + cnt s1 x + b2 (x <? n1) = b2 (x <? length fs)).
    { intros x. specialize (i_ids3 x). rewrite map_app, cnt_app in i_ids3. cbn [map cnt fst] in i_ids3. unfold b2 in *. lia. }
    pose proof (Q i) as Qi. rewrite Nat.eqb_refl in Qi.
    assert (N1 : forall j k', In (j, k') (p1 ++ p2) -> j <> i).
    { intros j k' Hin ->. apply (in_map fst) in Hin. rewrite map_app in Hin. apply cnt_In in Hin.
      rewrite cnt_app in Hin. cbn [fst] in Hin. unfold b2 in Qi. pose proof (b2_le (i <? n1)). pose proof (b2_le (i <? length fs)). unfold b2 in *. lia. }
    assert (N2 : forall j, In j s1 \/ j < n1 -> j <> i).
    { intros j [Hin|Hj] ->.
      - apply cnt_In in Hin. pose proof (b2_le (i <? length fs)). unfold b2 in *. lia.
      - bb. }
    assert (Pn : p <= n1) by lia.
    assert (N3 : forall j, In j s2 \/ j < n2 -> j <> i).
    { intros j Hj. apply N2. right. pose proof (i_ids4 j) as D.
      destruct Hj as [Hj|Hj]; [apply cnt_In in Hj|]; bb. }
    assert (N4 : forall j f', j <> i -> nth_error (upd fs i f') j = nth_error fs j).
    { intros j f' Hj. apply upd_nth_error_other. congruence. }
    unfold get. rewrite E2. cbn [bind].
    assert (PS : exists f', pre_statement downsample build estimate_covs k (stage k c) = Ok f' /\
                   f' = if k <? 2 then stage (k + 1) c else ready c None).
    { destruct k as [|[|[|k]]]; [| | |lia]; eexists; split; reflexivity. }
    destruct PS as (f' & -> & Ef'). cbn [bind]. rewrite set_Ok by exact Li. cbn [bind].
    destruct (k <? 2) eqn:Ek.
    + eexists; exists p. split; [reflexivity|]. split.
      * split; simpl; auto; rewrite ?upd_length; auto.
        -- intros x. rewrite map_app, cnt_app. cbn [map cnt fst]. specialize (Q x). unfold b2 in *. lia.
        -- intros j k' Hin. apply in_app_or in Hin. destruct Hin as [Hin|[Hin|Hin]].
           ++ rewrite N4 by (eapply N1; apply in_or_app; left; exact Hin).
              apply i_pre0. apply in_or_app. left. exact Hin.
           ++ inversion Hin; subst. split; [lia|]. exists c. split; auto. apply upd_nth_error_same. exact Li.
           ++ rewrite N4 by (eapply N1; apply in_or_app; right; exact Hin).
              apply i_pre0. apply in_or_app. right. right. exact Hin.
        -- intros j Hj. rewrite N4 by (apply N2; exact Hj). apply i_ready0. exact Hj.
        -- intros j Hj. rewrite N4 by (apply N3; exact Hj). apply i_T0. exact Hj.
      * meas.
    + eexists; exists p. split; [reflexivity|]. split.
      * split; simpl; auto; rewrite ?upd_length; auto.
        -- intros x. rewrite map_app, !cnt_app. cbn [map cnt fst]. specialize (Q x). unfold b2 in *. lia.
        -- intros j k' Hin. rewrite N4 by (eapply N1; exact Hin). apply i_pre0.
           apply in_app_or in Hin. apply in_or_app. destruct Hin; [left|right; right]; auto.
        -- intros j Hj. destruct (Nat.eq_dec j i) as [->|Nj].
           ++ exists c, None. split; auto. rewrite upd_nth_error_same by exact Li. subst f'. reflexivity.
           ++ rewrite N4 by exact Nj. apply i_ready0. destruct Hj as [Hj|Hj]; auto.
              apply in_app_or in Hj. destruct Hj as [Hj|[Hj|[]]]; [auto|congruence].
        -- intros j Hj. rewrite N4 by (apply N3; exact Hj). apply i_T0. exact Hj.
      * meas.
  - (* Seq1 *)
    eexists; exists p. split; [reflexivity|]. split.
    + split; simpl; auto; rewrite ?app_length; simpl.
      * intros x. specialize (i_ids3 x). rewrite cnt_app in *. cbn [cnt] in i_ids3. bb.
      * lia.
      * replace (length q1 + 1) with (S (length q1)) by lia. rewrite seq_S. rewrite <- i_queue3. f_equal. f_equal. lia.
      * intros i Hi. apply i_ready0. destruct Hi as [Hi|Hi].
        -- left. apply in_app_or in Hi. apply in_or_app. destruct Hi; [left|right; right]; auto.
        -- destruct (Nat.eq_dec i n1) as [->|]; [left; apply in_or_app; right; left; reflexivity|right; lia].
    + meas.
  - (* Pair *)
    assert (E : i = p /\ q1 = seq (S p) (length q1)) by (injection i_queue3; intros; split; assumption).
    destruct E as [-> E]. eexists; exists (S p). split; [reflexivity|]. split.
    + split; simpl; auto.
      * lia.
      * intros x. rewrite map_app, cnt_app. cbn [map cnt snd]. specialize (i_ids4 x). bb.
      * intros t i Hin. apply in_app_or in Hin. destruct Hin as [Hin|[Hin|[]]]; auto.
        inversion Hin; subst. reflexivity.
    + meas.
  - (* Reg *)
    assert (ET : t = target i) by (apply i_reg0; apply in_or_app; right; left; reflexivity). subst t.
    assert (Q : forall x, cnt (map snd r1) x + b2 (i =? x) + cnt (map snd r2) x + cnt s2 x + b2 (x <? n2) = b2 (x <? p)).
    { intros x. specialize (i_ids4 x). rewrite map_app, cnt_app in i_ids4. cbn [map cnt snd] in i_ids4. unfold b2 in *. lia. }
    pose proof (Q i) as Qi. rewrite Nat.eqb_refl in Qi.
    assert (Hip : i < p) by bb.
    assert (Pn : p <= n1) by lia.
    assert (Pc : p <= length cs).
    { destruct p as [|p']; [lia|]. specialize (i_ids3 p'). bb. }
    destruct (reg_body_ok fs i p Hip Pc) as (m & -> & Em).
    { intros j Hj. apply i_ready0. right. lia. }
    cbn [bind]. destruct (i_ready0 i ltac:(right; lia)) as (c & T & E1 & E2).
    assert (Li : i < length fs) by (apply nth_error_Some; congruence).
    unfold get. rewrite E2. cbn [bind]. rewrite set_Ok by exact Li. cbn [bind].
    assert (N4 : forall j f', j <> i -> nth_error (upd fs i f') j = nth_error fs j).
    { intros j f' Hj. apply upd_nth_error_other. congruence. }
    assert (N2 : forall j, In j s2 \/ j < n2 -> j <> i).
    { intros j [Hin|Hj] ->.
      - apply cnt_In in Hin. pose proof (b2_le (i <? p)). unfold b2 in *. lia.
      - bb. }
    eexists; exists p. split; [reflexivity|]. split.
    + split; simpl; auto; rewrite ?upd_length; auto.
      * intros x. rewrite map_app, !cnt_app. cbn [map cnt snd]. specialize (Q x). unfold b2 in *. lia.
      * intros t j Hin. apply i_reg0. apply in_app_or in Hin. apply in_or_app. destruct Hin; [left|right; right]; auto.
      * intros j k Hin. rewrite N4; [apply i_pre0; exact Hin|]. intros ->.
        apply (in_map fst) in Hin. apply cnt_In in Hin. cbn [fst] in Hin. specialize (i_ids3 i). bb.
      * intros j Hj. destruct (Nat.eq_dec j i) as [->|Nj].
        -- exists c, (Some m). split; auto. rewrite upd_nth_error_same by exact Li. reflexivity.
        -- rewrite N4 by exact Nj. apply i_ready0. exact Hj.
      * intros j Hj. destruct (Nat.eq_dec j i) as [->|Nj].
        -- eexists; exists m. split; [apply upd_nth_error_same; exact Li|]. split; auto.
        -- rewrite N4 by exact Nj. apply i_T0. destruct Hj as [Hj|Hj]; auto.
           apply in_app_or in Hj. destruct Hj as [Hj|[Hj|[]]]; [auto|congruence].
    + meas.
  - (* Seq2 *)
    eexists; exists p. split; [reflexivity|]. split.
    + split; simpl; auto; rewrite ?app_length; simpl.
      * intros x. specialize (i_ids4 x). rewrite cnt_app in *. cbn [cnt] in i_ids4. bb.
      * lia.
      * replace (length q2 + 1) with (S (length q2)) by lia. rewrite seq_S. rewrite <- i_queue4. f_equal. f_equal. lia.
      * intros i Hi. apply i_T0. destruct Hi as [Hi|Hi].
        -- left. apply in_app_or in Hi. apply in_or_app. destruct Hi; [left|right; right]; auto.
        -- destruct (Nat.eq_dec i n2) as [->|]; [left; apply in_or_app; right; left; reflexivity|right; lia].
    + meas.
  - (* Out *)
    assert (E : i = length tr /\ q2 = seq (S (length tr)) (length q2)) by (injection i_queue4; intros; split; assumption).
    destruct E as [-> E]. destruct (i_T0 (length tr)) as (f & m & E1 & E2 & E3); [right; lia|].
    unfold get. rewrite E1. cbn [bind]. unfold output. rewrite E2. cbn [bind].
    set (v := match rev tr with [] => m | back :: _ => mul back m end).
    assert (Ev : nth_error expected (length tr) = Some v).
    { unfold v. destruct (rev tr) as [|back l] eqn:ER.
      - assert (tr = []) by (destruct tr; auto; simpl in ER; destruct (rev tr); discriminate). subst tr.
        apply expected_0. exact E3.
      - assert (ETr : tr = rev l ++ [back]) by (rewrite <- (rev_involutive tr), ER; reflexivity).
        assert (EL : length tr = S (length (rev l))) by (rewrite ETr, app_length; simpl; lia).
        rewrite EL in E3. destruct (expected_nth _ _ E3) as (P & H1 & H2). rewrite EL, H2. f_equal. f_equal.
        assert (H3 : nth_error tr (length (rev l)) = Some back) by (rewrite ETr, nth_error_app2, Nat.sub_diag by lia; reflexivity).
        rewrite i_traj0, nth_error_firstn in H3. destruct (_ <? _) eqn:EE; [congruence|]. discriminate. }
    eexists; exists p. split; [reflexivity|]. split.
    + split; simpl; auto; rewrite ?app_length; simpl.
      * lia.
      * replace (length tr + 1) with (S (length tr)) by lia. exact E.
      * replace (length tr + 1) with (S (length tr)) by lia.
        rewrite (firstn_S_snoc _ _ v Ev), <- i_traj0. reflexivity.
    + meas.
Qed.

Lemma in_seq_buffer (l : list nat) n m : (forall x, cnt l x + b2 (x <? n) = b2 (x <? m)) -> l <> [] -> In n l.
Proof.
  intros Q N. destruct l as [|x l]; [congruence|]. apply cnt_In.
  assert (C : 0 < cnt (x :: l) x) by (apply cnt_In; left; reflexivity).
  pose proof (Q x) as Q1. pose proof (Q n) as Q2. bb.
Qed.
Lemma progress s p : Inv s p -> 0 < left s -> exists o, step cs s o.
Proof.
  intros I L. destruct s as [fs la pr s1 n1 q1 r s2 n2 q2 tr]. destruct I; simpl in *.
  destruct (nth_error cs (length fs)) as [c|] eqn:E; [eexists; eapply Feed; exact E|].
  apply nth_error_None in E.
  destruct pr as [|[i k] pr]; [|eexists; apply (Pre _ _ _ _ _ _ _ _ _ _ fs la [] i k pr)].
  destruct s1 as [|x s1'].
  2: { destruct (in_split n1 (x :: s1')) as (l1 & l2 & ->).
       - eapply in_seq_buffer; [exact i_ids3|discriminate].
       - eexists. apply Seq1. }
  destruct q1 as [|i q1]; [|eexists; apply Pair].
  destruct r as [|[t i] r]; [|eexists; apply (Reg _ _ _ _ _ _ _ _ _ _ fs la _ _ _ _ [] t i r)].
  destruct s2 as [|x s2'].
  2: { destruct (in_split n2 (x :: s2')) as (l1 & l2 & ->).
       - eapply in_seq_buffer; [exact i_ids4|discriminate].
       - eexists. apply Seq2. }
  destruct q2 as [|i q2]; [|eexists; apply Out].
  unfold left in L. simpl in L. lia.
Qed.

Lemma runs_inv k s o p : Inv s p -> runs cs k s o ->
  exists s' p', o = Ok s' /\ Inv s' p' /\ left s = k + left s'.
Proof.
  intros I H. revert p I. induction H as [s|k s s1 o H1 H2 IH|s o H1 N]; intros p I.
  - exists s, p. auto.
  - destruct (step_inv s p _ I H1) as (s' & p' & E & I' & L). inversion E; subst s'.
    destruct (IH p' I') as (s2 & p2 & E2 & I2 & L2). exists s2, p2. split; auto. split; auto. lia.
  - destruct (step_inv s p _ I H1) as (s' & p' & -> & I' & L). destruct (N s'). reflexivity.
Qed.

Lemma left_init : left (init kept) = 9 * length cs.
Proof using. clear mul identity. unfold left. simpl. lia. Qed.

Lemma final s p : Inv s p -> left s = 0 ->
  traj s = expected /\ last s = target (length cs) /\
  forall i, i < length cs -> exists c T, nth_error cs i = Some c /\ nth_error (frames s) i = Some (ready c T).
Proof.
  intros I L. unfold left in L. destruct s as [fs la pr s1 n1 q1 r s2 n2 q2 tr]. destruct I; simpl in *.
  assert (pr = []).
  { destruct pr as [|[i k] pr]; auto. destruct (i_pre0 i k) as (K & _); [left; reflexivity|]. rewrite pre_left_cons in L. lia. }
  assert (s1 = []) by (destruct s1; auto; simpl in L; lia).
  assert (q1 = []) by (destruct q1; auto; simpl in L; lia).
  assert (r = []) by (destruct r; auto; simpl in L; lia).
  assert (s2 = []) by (destruct s2; auto; simpl in L; lia).
  assert (q2 = []) by (destruct q2; auto; simpl in L; lia).
  subst. simpl in *. assert (LF : length fs = length cs) by lia.
  assert (B : forall a b, (forall x, b2 (x <? a) = b2 (x <? b)) -> a = b).
  { intros a b Hb. pose proof (Hb a). pose proof (Hb b). bb. }
  apply B in i_ids3. apply B in i_ids4.
  assert (P : p = length cs) by lia. assert (LT : length tr = length cs) by lia.
  split; [|split].
  - rewrite i_traj0, LT. apply firstn_all2. rewrite expected_length. lia.
  - rewrite <- P. reflexivity.
  - intros i Hi. apply i_ready0. right. lia.
Qed.
End Flow.

(** The sequential odometry. *)
Section Online.
Context (Cloud Tree Pose : Type).
Context (downsample : Cloud -> Cloud) (build : Cloud -> Tree) (estimate_covs : Cloud -> Tree -> Cloud).
Context (register : Cloud -> Cloud -> Tree -> Pose) (mul : Pose -> Pose -> Pose) (identity : Pose).
Notation online_run := (online_run downsample build estimate_covs register mul).
Notation prep := (prepared downsample build estimate_covs).
Notation motions := (motions downsample build estimate_covs register).

Lemma online_run_app o cs1 cs2 :
  let (o1, l1) := online_run o cs1 in
  let (o2, l2) := online_run o1 cs2 in
  online_run o (cs1 ++ cs2) = (o2, l1 ++ l2).
Proof.
  revert o. induction cs1 as [|c cs1 IH]; intros o; cbn [FlowModel.online_run app].
  - destruct (online_run o cs2). reflexivity.
  - specialize (IH (online_frame build estimate_covs register mul o (downsample c))).
    destruct (online_run _ cs1) as [o1 l1]. destruct (online_run o1 cs2) as [o2 l2].
    rewrite IH. reflexivity.
Qed.
Lemma online_run_started T c cs :
  snd (online_run (mkOnline T (Some (prep c))) cs) = poses mul T (motions c cs).
Proof.
  revert T c. induction cs as [|d cs IH]; intros T c; [reflexivity|].
  cbn [FlowModel.online_run FlowSpec.motions poses].
  set (o1 := online_frame _ _ _ _ _ _).
  assert (E : o1 = mkOnline (mul T (motion register (prep c) (prep d))) (Some (prep d))) by reflexivity.
  rewrite E. specialize (IH (mul T (motion register (prep c) (prep d))) d).
  destruct (online_run _ cs) as [o2 l]. cbn [snd on_T] in *. rewrite IH. reflexivity.
Qed.
Lemma online_trajectory cs :
  snd (online_run (online_init identity) cs) = trajectory downsample build estimate_covs register mul identity cs.
Proof.
  destruct cs as [|c cs]; [reflexivity|]. cbn [FlowModel.online_run].
  set (o1 := online_frame _ _ _ _ _ _).
  assert (E : o1 = mkOnline identity (Some (prep c))) by reflexivity. rewrite E.
  pose proof (online_run_started identity c cs) as H.
  destruct (online_run _ cs) as [o2 l]. cbn [snd on_T] in *. rewrite H. reflexivity.
Qed.
End Online.
