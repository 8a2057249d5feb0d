(** The voxel map over whole histories of calls. *)
From Coq Require Import ZArith.
From Coq Require Import ZifyBool ZifyNat ZifyN.
From Verif Require Import Base BaseProofs Num Vec F64 FloorModel KnnModel VmapModel VmapSpec
  VmapProofs.

Lemma wrap64_small n : (n < U64)%N -> wrap64 n = n.
Proof. intros H. unfold wrap64. apply N.mod_small. exact H. Qed.

Lemma wrap64_succ n : wrap64 (wrap64 n + 1) = wrap64 (n + 1).
Proof. unfold wrap64. rewrite N.add_mod_idemp_l by (unfold U64; lia). reflexivity. Qed.

Lemma foldM_nil_Ok {A B} (f : B -> A -> outcome B) b : foldM f [] b = Ok b.
Proof. reflexivity. Qed.

Section Hist.
Context (D : num) (C : contents D).
Context (coord_of : vec4 D -> outcome coord).
Context (pose : Type) (act : pose -> item D -> item D).
Notation vmap := (vmap D C).
Notation call := (pose * list (item D))%type.
Notation here := (here coord_of act).
Notation touched := (touched coord_of act).
Notation insert := (@insert D C coord_of pose act).
Notation inserts := (@inserts D C coord_of pose act).
Notation cell_step := (@cell_step D C coord_of pose act).

(** All points of a call have a voxel coordinate. *)
Definition call_ok (k : call) : Prop :=
  forall q, In q (snd k) -> exists c, coord_of (it_pt (act (fst k) q)) = Ok c.

Lemma insert_points_Ok_inv now qs : forall st st',
  foldM (insert_point (C := C) coord_of now) qs st = Ok st' ->
  forall q, In q qs -> exists c, coord_of (it_pt q) = Ok c.
Proof.
  induction qs as [|p qs IH]; intros st st' E q I; [destruct I|].
  cbn [foldM] in E. apply bind_Ok in E. destruct E as (st1 & E1 & E2).
  destruct I as [<-|I]; [|eapply IH; eauto].
  destruct st as [flat idx]. unfold insert_point in E1. apply bind_Ok in E1.
  destruct E1 as (c & Ec & _). eauto.
Qed.

Lemma insert_Ok_inv (st st' : vmap) k : insert st k = Ok st' ->
  call_ok k /\ lru_clear_cycle st <> 0%N.
Proof.
  destruct k as [T pts]. unfold VmapModel.insert. intros E. apply bind_Ok in E.
  destruct E as ([flat idx] & E1 & E2). split.
  - intros q I. cbn [snd fst] in *. eapply insert_points_Ok_inv; [exact E1|]. apply in_map. auto.
  - destruct (N.eqb_spec (lru_clear_cycle st) 0); auto. discriminate.
Qed.

(** Calls that change the map: insert, set_search_offsets, and assignment to the public
    members lru_horizon and lru_clear_cycle. *)
Inductive op : Type :=
| OpInsert (k : call)
| OpOffsets (n : Z)
| OpLru (horizon cycle : N).

Definition do_op (st : vmap) (o : op) : outcome vmap :=
  match o with
  | OpInsert k => insert st k
  | OpOffsets n => Ok (set_search_offsets st n)
  | OpLru h c => Ok (mkVmap D C h c (lru_counter st) (search_offsets st) (flat_voxels st) (voxels st))
  end.

Definition do_ops (st : vmap) (l : list op) : outcome vmap := foldM do_op l st.

Lemma shows_exists (flat : list (voxel D C)) idx : idx_ok flat idx -> exists f, shows flat f.
Proof.
  intros IX.
  exists (fun c => match lookup idx c with
                   | Some i => option_map (fun v => (v_lru v, v_body v)) (nth_error flat i)
                   | None => None
                   end).
  intros c t b. split.
  - intros I. apply In_nth_error in I. destruct I as [i Hi].
    rewrite (proj2 (IX c i)) by (eexists; split; [exact Hi|reflexivity]). rewrite Hi. reflexivity.
  - destruct (lookup idx c) as [i|] eqn:E; [|discriminate].
    apply IX in E. destruct E as [v [E1 E2]]. rewrite E1. simpl. intros E. inversion E.
    subst. apply nth_error_In in E1. destruct v; auto.
Qed.

(** An invariant of every voxel: established for the empty body, kept by adding points of
    the voxel and by finalize. *)
Record body_inv (P : coord -> body C -> Prop) : Prop := mkBodyInv {
  bi_new : forall c q, coord_of (it_pt q) = Ok c -> P c (add C (empty C) q);
  bi_add : forall c b q, P c b -> coord_of (it_pt q) = Ok c -> P c (add C b q);
  bi_fin : forall c b, P c b -> P c (finalize C b)
}.

Lemma cell_step_inv P horizon cycle c n o k : body_inv P ->
  (forall t b, o = Some (t, b) -> P c b) ->
  forall t b, cell_step horizon cycle c n o k = Some (t, b) -> P c b.
Proof.
  intros HP Ho t b. unfold VmapProofs.cell_step.
  assert (ADD : forall qs o, (forall q, In q qs -> falls_in coord_of c q = true) ->
    (forall t b, o = Some (t, b) -> P c b) ->
    forall t b, fold_left (fun o q => cell_add (C := C) n q o) qs o = Some (t, b) -> P c b).
  { clear o Ho t b. induction qs as [|q qs IH]; intros o OK Ho t b; simpl; [apply Ho|].
    apply IH; [intros; apply OK; right; auto|].
    intros t0 b0 E. unfold cell_add in E. inversion E.
    pose proof (OK q (or_introl eq_refl)) as F. unfold falls_in in F.
    destruct (coord_of (it_pt q)) as [c'| | |] eqn:Ec; try discriminate.
    apply coord_eqb_spec in F. subst c'.
    destruct o as [[t1 b1]|]; [apply (bi_add P HP); eauto|apply (bi_new P HP); auto]. }
  specialize (ADD (here c k) o). cbv zeta.
  assert (F : forall q, In q (here c k) -> falls_in coord_of c q = true).
  { intros q I. apply filter_In in I. tauto. }
  specialize (ADD F Ho).
  destruct (fold_left _ (here c k) o) as [[t1 b1]|] eqn:EF.
  - specialize (ADD t1 b1 eq_refl).
    destruct (_ mod _ =? 0)%N; [destruct (_ <? _)%N|]; simpl; intros E; try discriminate;
      inversion E; apply (bi_fin P HP); auto.
  - destruct (_ mod _ =? 0)%N; discriminate.
Qed.

Definition good (P : coord -> body C -> Prop) (st : vmap) : Prop :=
  idx_ok (flat_voxels st) (voxels st) /\
  Forall (fun v => P (v_coord v) (v_body v)) (flat_voxels st).

Lemma good_new P horizon cycle : good P (new_map D C horizon cycle).
Proof.
  split; [|constructor]. intros c i. simpl. split; [discriminate|].
  intros [v [E _]]. destruct i; discriminate.
Qed.

Lemma do_op_good P st o st' : body_inv P -> good P st -> do_op st o = Ok st' -> good P st'.
Proof.
  intros HP [IX FP] E. destruct o as [k|n|h c]; cbn [do_op] in E.
  - destruct (insert_Ok_inv st st' k E) as [OK CY].
    destruct (shows_exists _ _ IX) as [f SH].
    destruct (insert_spec D C coord_of pose act st k f IX SH CY OK) as (st2 & E2 & IX2 & SH2 & _).
    rewrite E in E2. inversion E2; subst st2. split; [exact IX2|].
    apply Forall_forall. intros [t c b] I. simpl. apply SH2 in I.
    eapply cell_step_inv; [exact HP| |exact I].
    intros t0 b0 Ef. apply SH in Ef. rewrite Forall_forall in FP. apply FP in Ef. exact Ef.
  - inversion E. split; auto.
  - inversion E. split; auto.
Qed.

Lemma do_ops_good P l : body_inv P -> forall st st', good P st -> do_ops st l = Ok st' -> good P st'.
Proof.
  intros HP. induction l as [|o l IH]; intros st st' G E.
  - inversion E; subst. auto.
  - unfold do_ops in E. cbn [foldM] in E. apply bind_Ok in E. destruct E as (st1 & E1 & E2).
    eapply IH; [|exact E2]. eapply do_op_good; eauto.
Qed.

(** Completion: nothing but a missing voxel coordinate or a zero clear cycle stops an
    insert. *)
Lemma inserts_complete h : forall st, idx_ok (flat_voxels st) (voxels st) ->
  lru_clear_cycle st <> 0%N -> Forall call_ok h ->
  exists st', inserts st h = Ok st'.
Proof.
  induction h as [|k h IH]; intros st IX CY OK; [eexists; reflexivity|].
  inversion OK; subst. destruct (shows_exists _ _ IX) as [f SH].
  destruct (insert_spec D C coord_of pose act st k f IX SH CY H1) as (st1 & E1 & IX1 & _ & _ & _ & CY1 & _).
  destruct (IH st1) as [st2 E2]; auto; [congruence|].
  exists st2. unfold VmapModel.inserts. cbn [foldM]. rewrite E1. exact E2.
Qed.

(** *** Eviction *)
Definition crun (horizon cycle : N) (c : coord) (h : list call) : N * option (N * body C) :=
  fold_left (fun no k => (wrap64 (fst no + 1), cell_step horizon cycle c (fst no) (snd no) k))
            h (0%N, None).

Lemma crun_snoc horizon cycle c h k :
  crun horizon cycle c (h ++ [k]) =
  (wrap64 (fst (crun horizon cycle c h) + 1),
   cell_step horizon cycle c (fst (crun horizon cycle c h)) (snd (crun horizon cycle c h)) k).
Proof. unfold crun. rewrite fold_left_app. reflexivity. Qed.

Lemma crun_counter horizon cycle c h : fst (crun horizon cycle c h) = wrap64 (N.of_nat (length h)).
Proof.
  induction h as [|k h IH] using rev_ind; [reflexivity|].
  rewrite crun_snoc. cbn [fst]. rewrite IH, wrap64_succ, app_length. simpl. f_equal. lia.
Qed.

Lemma inserts_snoc st h k st' : inserts st (h ++ [k]) = Ok st' <->
  exists st1, inserts st h = Ok st1 /\ insert st1 k = Ok st'.
Proof.
  unfold VmapModel.inserts. rewrite foldM_app. split.
  - intros E. apply bind_Ok in E. destruct E as (st1 & E1 & E2). exists st1. split; auto.
    cbn [foldM] in E2. apply bind_Ok in E2. destruct E2 as (s & E3 & E4). inversion E4; subst. auto.
  - intros (st1 & E1 & E2). rewrite E1. cbn [bind foldM]. rewrite E2. reflexivity.
Qed.

Lemma inserts_spec horizon cycle h : forall st, inserts (new_map D C horizon cycle) h = Ok st ->
  idx_ok (flat_voxels st) (voxels st) /\
  shows (flat_voxels st) (fun c => snd (crun horizon cycle c h)) /\
  lru_counter st = wrap64 (N.of_nat (length h)) /\
  lru_horizon st = horizon /\ lru_clear_cycle st = cycle /\
  search_offsets st = [(0, 0, 0)%Z].
Proof.
  induction h as [|k h IH] using rev_ind; intros st E.
  - inversion E; subst. pose proof (good_new (fun _ _ => True) horizon cycle) as [G _].
    split; [exact G|]. split; [|auto 6].
    intros c t b. simpl. split; [tauto|discriminate].
  - apply inserts_snoc in E. destruct E as (st1 & E1 & E2).
    destruct (IH st1 E1) as (IX & SH & CT & HZ & CY & OF).
    destruct (insert_Ok_inv _ _ _ E2) as [OK CY0].
    destruct (insert_spec D C coord_of pose act st1 k _ IX SH CY0 OK)
      as (st2 & E3 & IX2 & SH2 & CT2 & HZ2 & CY2 & OF2).
    rewrite E2 in E3. inversion E3; subst st2.
    split; [exact IX2|]. split; [|split; [|split; [|split]]]; try congruence.
    + eapply shows_ext; [|exact SH2]. intros c. cbv beta. rewrite crun_snoc, crun_counter, CT, HZ, CY.
      reflexivity.
    + rewrite CT2, CT, wrap64_succ, app_length. simpl. f_equal. lia.
Qed.

Lemma fold_cell_add_ne (n : N) qs : forall (o : option (N * body C)), qs <> [] ->
  exists b, fold_left (fun o q => cell_add (C := C) n q o) qs o = Some (n, b).
Proof.
  induction qs as [|q qs IH]; intros o NE; [congruence|]. simpl.
  destruct qs as [|q' qs].
  - simpl. unfold cell_add. eauto.
  - apply IH. discriminate.
Qed.

Lemma touched_snoc h k t c : touched (h ++ [k]) t c <->
  touched h t c \/ (t = length h /\ here c k <> []).
Proof.
  unfold VmapSpec.touched. split.
  - intros (k' & E & NE). rewrite nth_error_snoc in E. destruct (Nat.eqb_spec t (length h)).
    + inversion E; subst. auto.
    + left. eauto.
  - intros [(k' & E & NE)|[-> NE]].
    + exists k'. split; auto. rewrite nth_error_snoc. destruct (Nat.eqb_spec t (length h)); auto.
      subst. rewrite (proj2 (nth_error_None _ _)) in E by lia. discriminate.
    + exists k. rewrite nth_error_snoc, Nat.eqb_refl. auto.
Qed.
Lemma touched_lt h t c : touched h t c -> t < length h.
Proof. intros (k & E & _). apply nth_error_Some. congruence. Qed.

Lemma survives_S horizon cycle t n : t <= n ->
  (survives horizon cycle t (S n) <->
   survives horizon cycle t n /\
   ((N.of_nat (S n) mod cycle = 0)%N -> (N.of_nat (S n) <= N.of_nat t + horizon)%N)).
Proof.
  intros L. unfold survives. split.
  - intros H. split; intros.
    + apply H; auto. lia.
    + apply H; auto. lia.
  - intros [H1 H2] m0 R E. destruct (Nat.eq_dec m0 (S n)).
    + subst. auto.
    + apply H1; auto. lia.
Qed.

Lemma crun_lru horizon cycle c h : (N.of_nat (length h) + horizon < U64)%N ->
  match snd (crun horizon cycle c h) with
  | Some (t, _) => exists t', t = N.of_nat t' /\ touched h t' c /\
      survives horizon cycle t' (length h) /\ (forall t2, touched h t2 c -> t2 <= t')
  | None => forall t', touched h t' c -> ~ survives horizon cycle t' (length h)
  end.
Proof.
  induction h as [|k h IH] using rev_ind; intros W.
  - simpl. intros t' (k & E & _). destruct t'; discriminate.
  - rewrite app_length in *. simpl in W. replace (length h + length [k]) with (S (length h)) by (simpl; lia).
    specialize (IH ltac:(lia)). rewrite crun_snoc, crun_counter. cbn [snd].
    set (o := snd (crun horizon cycle c h)) in *. unfold VmapProofs.cell_step. cbv zeta.
    rewrite wrap64_succ, (wrap64_small (N.of_nat (length h))) by lia.
    rewrite (wrap64_small (N.of_nat (length h) + 1)) by lia.
    replace (N.of_nat (length h) + 1)%N with (N.of_nat (S (length h))) by lia.
    set (n := length h) in *.
    assert (KEY : forall t b, (forall t2, touched (h ++ [k]) t2 c -> t2 <= t) ->
      touched (h ++ [k]) t c -> survives horizon cycle t n -> t <= n ->
      match option_map (fun tb : N * body C => (fst tb, finalize C (snd tb)))
             (if (N.of_nat (S n) mod cycle =? 0)%N
              then if (wrap64 (N.of_nat t + horizon) <? N.of_nat (S n))%N then None
                   else Some (N.of_nat t, b)
              else Some (N.of_nat t, b)) with
      | Some (t0, _) => exists t' : nat, t0 = N.of_nat t' /\ touched (h ++ [k]) t' c /\
           survives horizon cycle t' (S n) /\ (forall t2, touched (h ++ [k]) t2 c -> t2 <= t')
      | None => forall t', touched (h ++ [k]) t' c -> ~ survives horizon cycle t' (S n)
      end).
    { intros t b MX TO SV L. rewrite wrap64_small by lia.
      destruct (N.eqb_spec (N.of_nat (S n) mod cycle) 0).
      - destruct (N.ltb_spec (N.of_nat t + horizon) (N.of_nat (S n))); cbn [option_map fst snd].
        + intros t' T' S'. pose proof (MX t' T').
          assert (N.of_nat (S n) <= N.of_nat t' + horizon)%N by (apply S'; auto; lia). lia.
        + exists t. split; auto. split; auto. split; auto. apply survives_S; auto.
      - cbn [option_map fst snd]. exists t. split; auto. split; auto. split; auto.
        apply survives_S; auto. split; auto. tauto. }
    destruct (here c k) as [|q qs] eqn:EH.
    + cbn [fold_left]. destruct o as [[t b]|].
      * destruct IH as (t' & -> & T & SV & MX).
        apply KEY; auto.
        -- intros t2 T2. apply touched_snoc in T2. destruct T2 as [T2|[_ NE]]; [auto|congruence].
        -- apply touched_snoc. auto.
        -- apply touched_lt in T. unfold n. lia.
      * assert (Z : (if (N.of_nat (S n) mod cycle =? 0)%N then None else None) = @None (N * body C))
          by (destruct (_ =? _)%N; auto).
        rewrite Z. simpl. intros t' T SV. apply touched_snoc in T.
        destruct T as [T|[_ NE]]; [|congruence].
        apply (IH t' T). apply survives_S in SV; [tauto|]. apply touched_lt in T. unfold n. lia.
    + destruct (fold_cell_add_ne (N.of_nat n) (q :: qs) o) as [b Eb]; [discriminate|].
      rewrite Eb. apply KEY.
      * intros t2 T2. apply touched_lt in T2. rewrite app_length in T2. simpl in T2. unfold n. lia.
      * apply touched_snoc. right. split; auto. rewrite EH. discriminate.
      * intros m0 R. lia.
      * lia.
Qed.

(** The voxel [c] is in the map after history [h]. *)
Definition holds (horizon cycle : N) (h : list call) (c : coord) : Prop :=
  exists st v, inserts (new_map D C horizon cycle) h = Ok st /\ In v (flat_voxels st) /\ v_coord v = c.

Lemma inserts_prefix st h st' m : inserts st h = Ok st' -> exists st1, inserts st (firstn m h) = Ok st1.
Proof.
  rewrite <- (firstn_skipn m h) at 1. unfold VmapModel.inserts. rewrite foldM_app. intros E.
  apply bind_Ok in E. destruct E as (st1 & E1 & _). eauto.
Qed.

Lemma holds_crun horizon cycle h st c : inserts (new_map D C horizon cycle) h = Ok st ->
  (holds horizon cycle h c <-> snd (crun horizon cycle c h) <> None).
Proof.
  intros E. destruct (inserts_spec horizon cycle h st E) as (_ & SH & _). split.
  - intros (st1 & v & E1 & I & Ec). rewrite E in E1. inversion E1; subst st1.
    destruct v as [t c' b]. simpl in Ec. subst c'. apply SH in I. congruence.
  - intros NE. destruct (snd (crun horizon cycle c h)) as [[t b]|] eqn:Ec; [|congruence].
    apply SH in Ec. exists st, (mkVoxel t c b). auto.
Qed.

(** *** Contents *)
Definition batch (c : coord) (b : body C) (k : call) : body C :=
  finalize C (fold_left (add C) (here c k) b).

Lemma fold_cell_add_body (n : N) qs : forall (o : option (N * body C)) t b,
  fold_left (fun o q => cell_add (C := C) n q o) qs o = Some (t, b) ->
  b = fold_left (add C) qs (match o with Some (_, b) => b | None => empty C end).
Proof.
  induction qs as [|q qs IH]; intros o t b E; simpl in *.
  - subst o. auto.
  - apply IH in E. rewrite E. destruct o as [[? ?]|]; reflexivity.
Qed.

Lemma crun_body horizon cycle c h : forall t b, snd (crun horizon cycle c h) = Some (t, b) ->
  exists s, s < length h /\ snd (crun horizon cycle c (firstn s h)) = None /\
    (forall m, s < m <= length h -> snd (crun horizon cycle c (firstn m h)) <> None) /\
    touched h s c /\
    b = fold_left (batch c) (skipn s h) (empty C).
Proof.
  induction h as [|k h IH] using rev_ind; intros t b E; [discriminate|].
  rewrite crun_snoc in E. cbn [snd] in E.
  assert (KEEP : forall s, s < length h -> snd (crun horizon cycle c (firstn s h)) = None ->
     (forall m0, s < m0 <= length h -> snd (crun horizon cycle c (firstn m0 h)) <> None) ->
     (forall m0, s < m0 <= length (h ++ [k]) -> snd (crun horizon cycle c (firstn m0 (h ++ [k]))) <> None)).
  { intros s L _ H m0 R. rewrite app_length in R. simpl in R.
    destruct (Nat.eq_dec m0 (length h + 1)).
    - rewrite firstn_all2 by (rewrite app_length; simpl; lia). rewrite crun_snoc. cbn [snd].
      rewrite E. discriminate.
    - rewrite firstn_app, (proj2 (Nat.sub_0_le m0 (length h))) by lia. simpl. rewrite app_nil_r.
      apply H. lia. }
  pose proof E as EE. unfold VmapProofs.cell_step in E. cbv zeta in E.
  set (o := snd (crun horizon cycle c h)) in *.
  set (n := fst (crun horizon cycle c h)) in *.
  destruct (fold_left (fun o q => cell_add (C := C) n q o) (here c k) o) as [[t1 b1]|] eqn:EF.
  2:{ destruct (_ mod _ =? 0)%N; discriminate. }
  assert (EB : b = finalize C b1).
  { destruct (_ mod _ =? 0)%N; [destruct (_ <? _)%N|]; simpl in E; try discriminate; inversion E; auto. }
  apply fold_cell_add_body in EF.
  destruct o as [[t0 b0]|] eqn:Eo.
  - destruct (IH t0 b0 eq_refl) as (s & L & NO & YES & TO & EB0).
    exists s. rewrite app_length. simpl. split; [lia|]. split; [|split; [|split]].
    + rewrite firstn_app, (proj2 (Nat.sub_0_le s (length h))) by lia. simpl. rewrite app_nil_r. exact NO.
    + intros m0 R. apply (KEEP s L NO YES). rewrite app_length. simpl. auto.
    + apply touched_snoc. auto.
    + rewrite skipn_app, (proj2 (Nat.sub_0_le s (length h))) by lia. simpl.
      rewrite fold_left_app. simpl. rewrite <- EB0. unfold batch. congruence.
  - exists (length h). rewrite app_length. simpl. split; [lia|]. split; [|split; [|split]].
    + rewrite firstn_app, Nat.sub_diag, firstn_all. simpl. rewrite app_nil_r. exact Eo.
    + intros m0 R. replace m0 with (length (h ++ [k])) by (rewrite app_length; simpl; lia).
      rewrite firstn_all, crun_snoc. cbn [snd]. fold o n. rewrite Eo, EE. discriminate.
    + apply touched_snoc. right. split; auto. intros E0.
      unfold VmapProofs.cell_step in EE. cbv zeta in EE. rewrite E0 in EE. cbn [fold_left] in EE.
      destruct (_ mod _ =? 0)%N; discriminate.
    + rewrite skipn_app, Nat.sub_diag, skipn_all. simpl. unfold batch. congruence.
Qed.

Lemma voxel_body horizon cycle h st v :
  inserts (new_map D C horizon cycle) h = Ok st -> In v (flat_voxels st) ->
  exists s, s < length h /\ ~ holds horizon cycle (firstn s h) (v_coord v) /\
    (forall m, s < m <= length h -> holds horizon cycle (firstn m h) (v_coord v)) /\
    touched h s (v_coord v) /\
    v_body v = fold_left (batch (v_coord v)) (skipn s h) (empty C).
Proof.
  intros E I. destruct (inserts_spec horizon cycle h st E) as (_ & SH & _).
  destruct v as [t c b]. apply SH in I. cbn [v_coord v_body].
  destruct (crun_body horizon cycle c h t b I) as (s & L & NO & YES & TO & EB).
  exists s. split; auto. split; [|split; [|split]]; auto.
  - destruct (inserts_prefix _ _ _ s E) as [st1 E1]. rewrite (holds_crun _ _ _ _ c E1). congruence.
  - intros m0 R. destruct (inserts_prefix _ _ _ m0 E) as [st1 E1].
    rewrite (holds_crun _ _ _ _ c E1). auto.
Qed.

End Hist.
