From Verif Require Import Base BaseProofs Num Vec Lin FactorModel EstModel EstSpec.

Section Generic.
Context (D : fld) (knn : vec4 D -> nat -> outcome (list nat)) (eig : m3 D -> m3 D) (of_nat : nat -> car D) (milli : car D).
Notation lw := (local_writes knn eig of_nat milli).

Lemma do_write_points (c c' : cloud D) w : do_write c w = Ok c' -> cl_points c' = cl_points c /\
  length (cl_normals c') = length (cl_normals c) /\ length (cl_covs c') = length (cl_covs c).
Proof.
  destruct w as [i v|i m]; cbn [do_write]; unfold set.
  - destruct (i <? length (cl_normals c)); cbn [bind]; intros H; inversion H; subst. cbn. rewrite upd_length. auto.
  - destruct (i <? length (cl_covs c)); cbn [bind]; intros H; inversion H; subst. cbn. rewrite upd_length. auto.
Qed.
Lemma do_writes_points ws : forall (c c' : cloud D), foldM do_write ws c = Ok c' -> cl_points c' = cl_points c /\
  length (cl_normals c') = length (cl_normals c) /\ length (cl_covs c') = length (cl_covs c).
Proof.
  induction ws as [|w ws IH]; intros c c' H; cbn [foldM] in H; [inversion H; auto|].
  destruct (do_write c w) as [c1| | |] eqn:E; cbn [bind] in H; try discriminate.
  destruct (do_write_points _ _ _ E) as (A1 & A2 & A3). destruct (IH _ _ H) as (B1 & B2 & B3). repeat split; congruence.
Qed.
Lemma lw_points st (c c' : cloud D) k i : cl_points c' = cl_points c -> lw st c' k i = lw st c k i.
Proof. intros E. unfold local_writes. rewrite E. reflexivity. Qed.
Lemma foldM_app {S A : Type} (f : S -> A -> outcome S) l1 l2 s :
  foldM f (l1 ++ l2) s = (let* s' := foldM f l1 s in foldM f l2 s').
Proof. revert s. induction l1 as [|x l1 IH]; intros s; cbn [foldM app bind]; auto. destruct (f s x); cbn [bind]; auto. Qed.

(** The writes of an iteration, as a function once they are known to be defined. *)
Definition lw_list st (c : cloud D) k i : list (write D) := match lw st c k i with Ok ws => ws | _ => [] end.
Lemma lw_slots st (c : cloud D) k i ws : lw st c k i = Ok ws ->
  map slot ws = (if has_normals st then [(true, i)] else []) ++ (if has_covs st then [(false, i)] else []).
Proof.
  unfold local_writes. destruct (get (cl_points c) i) as [p| | |]; cbn [bind]; try discriminate.
  destruct (knn p k) as [found| | |]; cbn [bind]; try discriminate.
  destruct (length found <? 5).
  - intros H. inversion H. destruct st; reflexivity.
  - destruct (mapM (fun j => get (cl_points c) j) found) as [pts| | |]; cbn [bind]; intros H; inversion H. destruct st; reflexivity.
Qed.
Lemma upd_comm {A : Type} (l : list A) : forall i j (a b : A), i <> j -> upd (upd l i a) j b = upd (upd l j b) i a.
Proof. induction l as [|x l IH]; intros [|i] [|j] a b N; cbn; auto; [congruence|]. f_equal. apply IH. congruence. Qed.
Lemma do_write_comm (c : cloud D) w1 w2 : slot w1 <> slot w2 ->
  (let* c1 := do_write c w1 in do_write c1 w2) = (let* c2 := do_write c w2 in do_write c2 w1).
Proof.
  intros N. destruct w1 as [i v|i m], w2 as [j u|j n]; cbn [do_write]; unfold set.
  - assert (i <> j) by (intros ->; apply N; reflexivity).
    destruct (i <? length (cl_normals c)) eqn:E1, (j <? length (cl_normals c)) eqn:E2; cbn [bind do_write cl_normals cl_points cl_covs];
      unfold set; rewrite ?upd_length, ?E1, ?E2; cbn [bind]; auto. rewrite upd_comm; auto.
  - destruct (i <? length (cl_normals c)) eqn:E1, (j <? length (cl_covs c)) eqn:E2; cbn [bind do_write cl_normals cl_points cl_covs];
      unfold set; rewrite ?E1, ?E2; cbn [bind]; auto.
  - destruct (i <? length (cl_covs c)) eqn:E1, (j <? length (cl_normals c)) eqn:E2; cbn [bind do_write cl_normals cl_points cl_covs];
      unfold set; rewrite ?E1, ?E2; cbn [bind]; auto.
  - assert (i <> j) by (intros ->; apply N; reflexivity).
    destruct (i <? length (cl_covs c)) eqn:E1, (j <? length (cl_covs c)) eqn:E2; cbn [bind do_write cl_normals cl_points cl_covs];
      unfold set; rewrite ?upd_length, ?E1, ?E2; cbn [bind]; auto. rewrite upd_comm; auto.
Qed.
Lemma writes_perm ws ws' : Permutation ws ws' -> NoDup (map slot ws) -> forall c : cloud D,
  foldM do_write ws c = foldM do_write ws' c.
Proof.
  induction 1 as [|w l l' P IH|w1 w2 l|l1 l2 l3 P1 IH1 P2 IH2]; intros ND c; auto.
  - cbn [foldM]. destruct (do_write c w); cbn [bind]; auto. apply IH. inversion ND; auto.
  - cbn [foldM]. inversion ND as [|? ? N1 _]; subst. assert (N : slot w2 <> slot w1) by (intros E; apply N1; left; congruence).
    pose proof (do_write_comm c w2 w1 N) as C.
    destruct (do_write c w2) as [c2| | |], (do_write c w1) as [c1| | |]; cbn [bind] in C |- *; try congruence;
      first [rewrite C; reflexivity | rewrite <- C; reflexivity].
  - rewrite IH1; auto. apply IH2. eapply Permutation_NoDup; [apply Permutation_map; exact P1|exact ND].
Qed.

(** * The serial loop as one list of writes *)
Lemma serial_writes st k l : forall c0 c c' : cloud D, cl_points c = cl_points c0 ->
  foldM (estimate_one knn eig of_nat milli st k) l c = Ok c' ->
  (forall i, In i l -> exists ws, lw st c0 k i = Ok ws) /\
  foldM do_write (flat_map (lw_list st c0 k) l) c = Ok c'.
Proof.
  induction l as [|i l IH]; intros c0 c c' E H; cbn [foldM flat_map] in *.
  - split; [intros ? []|exact H].
  - unfold estimate_one at 1 in H. rewrite (lw_points st c0 c k i E) in H. unfold lw_list at 1.
    destruct (lw st c0 k i) as [ws| | |] eqn:L; cbn [bind] in H; try discriminate.
    rewrite foldM_app. destruct (foldM do_write ws c) as [c1| | |] eqn:W; cbn [bind] in H |- *; try discriminate.
    destruct (do_writes_points _ _ _ W) as (P1 & _). destruct (IH c0 c1 c' ltac:(congruence) H) as (A & B).
    split; [|exact B]. intros j [<-|Hj]; eauto.
Qed.
Lemma slots_flat st (c0 : cloud D) k l : (forall i, In i l -> exists ws, lw st c0 k i = Ok ws) -> NoDup l ->
  NoDup (map slot (flat_map (lw_list st c0 k) l)) /\
  forall s, In s (map slot (flat_map (lw_list st c0 k) l)) -> In (snd s) l.
Proof.
  induction l as [|i l IH]; intros E ND; cbn [flat_map map].
  - split; [constructor|intros ? []].
  - inversion ND as [|? ? Ni ND']; subst. destruct (IH (fun j Hj => E j (or_intror Hj)) ND') as (A & B).
    destruct (E i (or_introl eq_refl)) as (ws & L). rewrite map_app.
    assert (Q : map slot (lw_list st c0 k i) = (if has_normals st then [(true, i)] else []) ++ (if has_covs st then [(false, i)] else [])).
    { unfold lw_list. rewrite L. eapply lw_slots. exact L. }
    rewrite Q. split.
    + assert (F : forall b, ~ In (b, i) (map slot (flat_map (lw_list st c0 k) l))) by (intros b Hb; apply Ni; apply (B _ Hb)).
      destruct (has_normals st), (has_covs st); cbn [app]; repeat constructor; auto.
      intros [X|X]; [discriminate X|]. apply (F _ X).
    + intros s Hs. apply in_app_or in Hs. destruct Hs as [Hs|Hs]; [|right; apply B; exact Hs]. left.
      apply in_app_or in Hs. destruct (has_normals st), (has_covs st); destruct Hs as [Hs|Hs]; cbn in Hs;
        try contradiction; destruct Hs as [<-|[]]; reflexivity.
Qed.

(** Conversely. *)
Lemma writes_serial st k l : forall c0 c c' : cloud D, cl_points c = cl_points c0 ->
  (forall i, In i l -> exists ws, lw st c0 k i = Ok ws) ->
  foldM do_write (flat_map (lw_list st c0 k) l) c = Ok c' ->
  foldM (estimate_one knn eig of_nat milli st k) l c = Ok c'.
Proof.
  induction l as [|i l IH]; intros c0 c c' E L H; cbn [foldM flat_map] in *; auto.
  destruct (L i (or_introl eq_refl)) as (ws & Li). rewrite foldM_app in H. unfold lw_list at 1 in H. rewrite Li in H.
  unfold estimate_one at 1. rewrite (lw_points st c0 c k i E), Li. cbn [bind].
  destruct (foldM do_write ws c) as [c1| | |] eqn:W; cbn [bind] in *; try discriminate.
  destruct (do_writes_points _ _ _ W) as (P1 & _). apply (IH c0); [congruence| |exact H]. intros j Hj. apply L. right. exact Hj.
Qed.
(** Writes inside the arrays always succeed. *)
Lemma writes_ok ws : forall (c : cloud D) n, length (cl_normals c) = n -> length (cl_covs c) = n ->
  (forall w, In w ws -> snd (slot w) < n) -> exists c', foldM do_write ws c = Ok c'.
Proof.
  induction ws as [|w ws IH]; intros c n N1 N2 B; cbn [foldM]; eauto.
  assert (E : exists c1, do_write c w = Ok c1).
  { specialize (B w (or_introl eq_refl)). destruct w as [i v|i m]; cbn in B |- *; unfold set.
    - rewrite N1. destruct (i <? n) eqn:E; [|apply Nat.ltb_ge in E; lia]. cbn. eauto.
    - rewrite N2. destruct (i <? n) eqn:E; [|apply Nat.ltb_ge in E; lia]. cbn. eauto. }
  destruct E as (c1 & E). rewrite E. cbn [bind]. destruct (do_write_points _ _ _ E) as (_ & A & B').
  apply (IH c1 n); try congruence. intros w' Hw. apply B. right. exact Hw.
Qed.

(** * The cloud after some writes *)
Definition attr_normal (c : cloud D) i := nth_error (cl_normals c) i.
Definition attr_cov (c : cloud D) i := nth_error (cl_covs c) i.
Lemma write_other (c c' : cloud D) w i : do_write c w = Ok c' ->
  (slot w <> (true, i) -> nth_error (cl_normals c') i = nth_error (cl_normals c) i) /\
  (slot w <> (false, i) -> nth_error (cl_covs c') i = nth_error (cl_covs c) i).
Proof.
  destruct w as [j v|j m]; cbn [do_write slot]; unfold set.
  - destruct (j <? length (cl_normals c)); cbn [bind]; intros H; inversion H; subst; cbn [cl_normals cl_covs].
    split; auto. intros N. apply upd_nth_error_other. congruence.
  - destruct (j <? length (cl_covs c)); cbn [bind]; intros H; inversion H; subst; cbn [cl_normals cl_covs].
    split; auto. intros N. apply upd_nth_error_other. congruence.
Qed.
Lemma write_same (c c' : cloud D) w : do_write c w = Ok c' ->
  match w with WNormal i v => nth_error (cl_normals c') i = Some v | WCov i m => nth_error (cl_covs c') i = Some m end.
Proof.
  destruct w as [j v|j m]; cbn [do_write]; unfold set.
  - destruct (j <? length (cl_normals c)) eqn:E; cbn [bind]; intros H; inversion H; subst; cbn [cl_normals].
    apply upd_nth_error_same. apply Nat.ltb_lt. exact E.
  - destruct (j <? length (cl_covs c)) eqn:E; cbn [bind]; intros H; inversion H; subst; cbn [cl_covs].
    apply upd_nth_error_same. apply Nat.ltb_lt. exact E.
Qed.
Lemma writes_other ws : forall (c c' : cloud D) i, foldM do_write ws c = Ok c' ->
  (~ In (true, i) (map slot ws) -> nth_error (cl_normals c') i = nth_error (cl_normals c) i) /\
  (~ In (false, i) (map slot ws) -> nth_error (cl_covs c') i = nth_error (cl_covs c) i).
Proof.
  induction ws as [|w ws IH]; intros c c' i H; cbn [foldM map] in *; [inversion H; auto|].
  destruct (do_write c w) as [c1| | |] eqn:E; cbn [bind] in H; try discriminate.
  destruct (write_other _ _ _ i E) as (A & B). destruct (IH _ _ i H) as (P & Q). split; intros N.
  - rewrite P, A; auto; intros X; apply N; cbn; auto.
  - rewrite Q, B; auto; intros X; apply N; cbn; auto.
Qed.
Lemma writes_in ws : forall (c c' : cloud D), foldM do_write ws c = Ok c' -> NoDup (map slot ws) -> forall w, In w ws ->
  match w with WNormal i v => nth_error (cl_normals c') i = Some v | WCov i m => nth_error (cl_covs c') i = Some m end.
Proof.
  induction ws as [|w ws IH]; intros c c' H ND w' I; [destruct I|]. cbn [foldM map] in *.
  destruct (do_write c w) as [c1| | |] eqn:E; cbn [bind] in H; try discriminate. inversion ND as [|? ? N1 N2]; subst.
  destruct I as [<-|I]; [|eapply IH; eauto].
  pose proof (write_same _ _ _ E) as S. destruct w as [i v|i m]; cbn [slot] in N1.
  - rewrite (proj1 (writes_other _ _ _ i H) N1). exact S.
  - rewrite (proj2 (writes_other _ _ _ i H) N1). exact S.
Qed.

(** * Parallel runs *)
Definition pending st (c0 : cloud D) k (s : par_state D) : list (write D) :=
  concat (s_active s) ++ flat_map (lw_list st c0 k) (s_todo s).
Definition par_inv st (c0 c' : cloud D) k (s : par_state D) : Prop :=
  cl_points (s_cloud s) = cl_points c0 /\
  (forall i, In i (s_todo s) -> exists ws, lw st c0 k i = Ok ws) /\
  NoDup (map slot (pending st c0 k s)) /\ foldM do_write (pending st c0 k s) (s_cloud s) = Ok c'.

Lemma par_step_inv st c0 c' k s o : par_inv st c0 c' k s -> par_step knn eig of_nat milli st k s o ->
  exists s', o = Ok s' /\ par_inv st c0 c' k s'.
Proof.
  intros (P & L & ND & F) H. unfold pending in ND, F. destruct H as [c l1 i l2 act|c todo a1 w ws a2]; cbn [s_cloud s_todo s_active] in *.
  - destruct (L i ltac:(apply in_or_app; right; left; reflexivity)) as (ws & Lw).
    rewrite (lw_points st c0 c k i P), Lw. cbn [bind]. eexists. split; [reflexivity|].
    assert (PM : Permutation (concat act ++ flat_map (lw_list st c0 k) (l1 ++ i :: l2))
                             (concat (ws :: act) ++ flat_map (lw_list st c0 k) (l1 ++ l2))).
    { rewrite !flat_map_app. cbn [flat_map concat]. unfold lw_list at 2. rewrite Lw.
      apply perm_trans with (concat act ++ (ws ++ (flat_map (lw_list st c0 k) l1 ++ flat_map (lw_list st c0 k) l2))).
      - apply Permutation_app_head. rewrite !app_assoc. apply Permutation_app_tail. apply Permutation_app_comm.
      - rewrite app_assoc. apply Permutation_app_tail. apply Permutation_app_comm. }
    repeat split; cbn [s_cloud s_todo s_active]; auto.
    + intros j Hj. apply L. apply in_app_or in Hj. apply in_or_app. destruct Hj; [left|right; right]; auto.
    + unfold pending. cbn [s_active s_todo]. eapply Permutation_NoDup; [apply Permutation_map; exact PM|exact ND].
    + unfold pending. cbn [s_active s_todo]. rewrite <- F. symmetry. apply writes_perm; auto.
  - assert (PM : Permutation (concat (a1 ++ (w :: ws) :: a2) ++ flat_map (lw_list st c0 k) todo)
                             (w :: concat (a1 ++ ws :: a2) ++ flat_map (lw_list st c0 k) todo)).
    { rewrite app_comm_cons. apply Permutation_app_tail. rewrite !concat_app. cbn [concat].
      cbn [app]. symmetry. apply Permutation_middle. }
    rewrite (writes_perm _ _ PM ND) in F. cbn [foldM] in F.
    destruct (do_write c w) as [c1| | |] eqn:E; cbn [bind] in F; try discriminate. cbn [bind].
    eexists. split; [reflexivity|]. destruct (do_write_points _ _ _ E) as (A & _).
    assert (ND' := Permutation_NoDup (Permutation_map slot PM) ND). cbn [map] in ND'. inversion ND'; subst.
    repeat split; cbn [s_cloud s_todo s_active]; auto. congruence.
Qed.
Lemma par_runs_inv st c0 c' k s o : par_inv st c0 c' k s -> par_runs knn eig of_nat milli st k s o ->
  exists s', o = Ok s' /\ par_inv st c0 c' k s'.
Proof.
  intros I H. induction H as [s|s s1 o H1 H2 IH|s o H1 N]; eauto.
  - destruct (par_step_inv _ _ _ _ _ _ I H1) as (s' & E & I'). inversion E; subst. auto.
  - destruct (par_step_inv _ _ _ _ _ _ I H1) as (s' & E & I'). exfalso. eapply N. eauto.
Qed.
Lemma par_finished_cloud st c0 c' k s : par_inv st c0 c' k s -> par_finished s -> s_cloud s = c'.
Proof.
  intros (_ & _ & _ & F) (T & A). unfold pending in F. rewrite T in F. cbn [flat_map] in F.
  assert (C : concat (s_active s) = []).
  { clear F. induction A as [|ws l E _ IH]; cbn; auto. rewrite E, IH. reflexivity. }
  rewrite C in F. cbn in F. inversion F. reflexivity.
Qed.
(** Steps left. *)
Definition par_measure (s : par_state D) : nat := length (concat (s_active s)) + 3 * length (s_todo s).
Lemma lw_length st (c : cloud D) k i ws : lw st c k i = Ok ws -> length ws <= 2.
Proof.
  intros H. apply lw_slots in H. rewrite <- (map_length slot), H, app_length.
  destruct (has_normals st), (has_covs st); cbn; lia.
Qed.
Lemma par_step_measure st k s s' : par_step knn eig of_nat milli st k s (Ok s') -> par_measure s' < par_measure s.
Proof.
  intros H. remember (Ok s') as o eqn:E. unfold par_measure.
  destruct H as [c l1 i l2 act|c todo a1 w ws a2]; cbn [s_cloud s_todo s_active].
  - destruct (lw st c k i) as [ws| | |] eqn:L; cbn [bind] in E; try discriminate. inversion E; subst. cbn [s_todo s_active concat].
    apply lw_length in L. rewrite !app_length. cbn [length]. lia.
  - destruct (do_write c w) as [c1| | |]; cbn [bind] in E; try discriminate. inversion E; subst. cbn [s_todo s_active].
    rewrite !concat_app. cbn [concat]. rewrite !app_length. cbn [length]. lia.
Qed.
Lemma par_progress st c0 c' k s : par_inv st c0 c' k s -> par_finished s \/ exists s', par_step knn eig of_nat milli st k s (Ok s').
Proof.
  intros I. destruct s as [c todo act]. destruct todo as [|i todo].
  - assert (H : Forall (fun ws : list (write D) => ws = []) act \/ exists a1 w ws a2, act = a1 ++ (w :: ws) :: a2).
    { clear. induction act as [|[|w ws] act [IH|(a1 & w' & ws' & a2 & ->)]]; auto.
      - right. exists ([] :: a1), w', ws', a2. reflexivity.
      - right. exists [], w, ws, act. reflexivity.
      - right. exists [], w, ws, (a1 ++ (w' :: ws') :: a2). reflexivity. }
    destruct H as [H|(a1 & w & ws & a2 & ->)]; [left; split; auto|right].
    pose proof (ParWrite D knn eig of_nat milli st k c [] a1 w ws a2) as S.
    destruct (par_step_inv _ _ _ _ _ _ I S) as (s' & E & _). rewrite E in S. eauto.
  - right. pose proof (ParStart D knn eig of_nat milli st k c [] i todo act) as S. cbn [app] in S.
    destruct (par_step_inv _ _ _ _ _ _ I S) as (s' & E & _). rewrite E in S. eauto.
Qed.
Lemma par_completes st c0 c' k s : par_inv st c0 c' k s ->
  exists s', par_runs knn eig of_nat milli st k s (Ok s') /\ par_finished s'.
Proof.
  remember (par_measure s) as n eqn:E. revert s E. induction n as [n IH] using lt_wf_ind. intros s -> I.
  destruct (par_progress _ _ _ _ _ I) as [F|(s1 & H)].
  - exists s. split; [constructor|exact F].
  - destruct (par_step_inv _ _ _ _ _ _ I H) as (s2 & E2 & I2). inversion E2; subst s2.
    destruct (IH _ (par_step_measure _ _ _ _ H) s1 eq_refl I2) as (s' & A & B). exists s'. split; auto.
    eapply ParMore; eauto.
Qed.
End Generic.

Lemma resize_length {A : Type} (j : A) l n : length (resize j l n) = n.
Proof. unfold resize. rewrite app_length, firstn_length, repeat_length. lia. Qed.
Lemma resize_same {A : Type} (j : A) l : resize j l (length l) = l.
Proof. unfold resize. rewrite firstn_all, Nat.sub_diag. cbn. apply app_nil_r. Qed.

(** * The serial result *)
Lemma resize_nth {A : Type} (j : A) l n i a : nth_error l i = Some a -> i < n -> nth_error (resize j l n) i = Some a.
Proof.
  intros H L. unfold resize. rewrite nth_error_app1.
  - rewrite nth_error_firstn. destruct (Nat.ltb_spec i n); [exact H|lia].
  - assert (i < length l) by (apply nth_error_Some; congruence). rewrite firstn_length. lia.
Qed.
Section Result.
Context {D : fld} (knn : vec4 D -> nat -> outcome (list nat)) (eig : m3 D -> m3 D) (of_nat : nat -> car D) (milli : car D).
Notation lw := (local_writes knn eig of_nat milli).
Lemma estimate_writes st jp jn jc k (c c' : cloud D) : estimate knn eig of_nat milli st jp jn jc k c = Ok c' ->
  let n := length (cl_points c) in
  cl_points c' = cl_points c /\ length (cl_normals c') = n /\ length (cl_covs c') = n /\
  (has_normals st = false -> cl_normals c' = resize jn (cl_normals c) n) /\
  (has_covs st = false -> cl_covs c' = resize jc (cl_covs c) n) /\
  forall i, i < n -> exists ws, lw st c k i = Ok ws /\ forall w, In w ws ->
    match w with WNormal i v => nth_error (cl_normals c') i = Some v | WCov i m => nth_error (cl_covs c') i = Some m end.
Proof.
  intros H n. unfold estimate in H. fold n in H.
  assert (P0 : cl_points (cloud_resize jp jn jc c n) = cl_points c) by (cbn [cloud_resize cl_points]; apply resize_same).
  destruct (serial_writes D knn eig of_nat milli st k (seq 0 n) c _ c' P0 H) as [L F].
  destruct (do_writes_points D _ _ _ F) as (P & LN & LC). rewrite P0 in P.
  destruct (slots_flat D knn eig of_nat milli st c k (seq 0 n) L (seq_NoDup n 0)) as [ND _].
  unfold cloud_resize in LN, LC. cbn [cl_normals cl_covs] in LN, LC.
  rewrite (resize_length jn) in LN. rewrite (resize_length jc) in LC.
  assert (SL : forall s, In s (map slot (flat_map (lw_list D knn eig of_nat milli st c k) (seq 0 n))) ->
    exists i, In s ((if has_normals st then [(true, i)] else []) ++ (if has_covs st then [(false, i)] else []))).
  { intros s I. apply in_map_iff in I as (w & <- & I). apply in_flat_map in I as (i & I1 & I2).
    destruct (L i I1) as (ws & E). unfold lw_list in I2. rewrite E in I2. exists i. rewrite <- (lw_slots D knn eig of_nat milli st c k i ws E).
    apply in_map. exact I2. }
  split; [exact P|]. split; [exact LN|]. split; [exact LC|]. split; [|split].
  - intros HN. apply nth_error_ext. intros i.
    destruct (writes_other D _ _ _ i F) as [O _]. cbn [cloud_resize cl_normals] in O. apply O.
    intros I. destruct (SL _ I) as (i' & I'). rewrite HN in I'. cbn in I'. destruct (has_covs st); cbn in I'; intuition discriminate.
  - intros HN. apply nth_error_ext. intros i.
    destruct (writes_other D _ _ _ i F) as [_ O]. cbn [cloud_resize cl_covs] in O. apply O.
    intros I. destruct (SL _ I) as (i' & I'). rewrite HN, app_nil_r in I'. destruct (has_normals st); cbn in I'; intuition discriminate.
  - intros i Hi. destruct (L i) as (ws & E); [apply in_seq; lia|]. exists ws. split; [exact E|]. intros w I.
    apply (writes_in D _ _ _ F ND). apply in_flat_map. exists i. split; [apply in_seq; lia|]. unfold lw_list. rewrite E. exact I.
Qed.
Lemma estimate_total st jp jn jc k (c : cloud D) :
  (forall p, In p (cl_points c) -> exists found, knn p k = Ok found /\ Forall (fun j => j < length (cl_points c)) found) ->
  exists c', estimate knn eig of_nat milli st jp jn jc k c = Ok c'.
Proof.
  intros K. set (n := length (cl_points c)) in *. unfold estimate. fold n.
  assert (P0 : cl_points (cloud_resize jp jn jc c n) = cl_points c) by (cbn [cloud_resize cl_points]; apply resize_same).
  assert (L : forall i, In i (seq 0 n) -> exists ws, lw st c k i = Ok ws).
  { intros i I. apply in_seq in I. unfold local_writes. destruct (nth_error (cl_points c) i) as [p|] eqn:E; [|apply nth_error_None in E; lia].
    rewrite (proj2 (get_Ok _ _ _) E). cbn [bind]. destruct (K p (nth_error_In _ _ E)) as (found & -> & B). cbn [bind].
    destruct (length found <? 5); [eauto|]. assert (M : exists pts, mapM (fun j => get (cl_points c) j) found = Ok pts).
    { clear -B. induction B as [|j l J B (pts & IH)]; cbn [mapM]; eauto. fold n in J.
      destruct (nth_error (cl_points c) j) as [q|] eqn:E; [|apply nth_error_None in E; lia].
      rewrite (proj2 (get_Ok _ _ _) E), IH. cbn [bind]. eauto. }
    destruct M as (pts & ->). cbn [bind]. eauto. }
  destruct (slots_flat D knn eig of_nat milli st c k (seq 0 n) L (seq_NoDup n 0)) as [_ B].
  destruct (writes_ok D knn of_nat (flat_map (lw_list D knn eig of_nat milli st c k) (seq 0 n)) (cloud_resize jp jn jc c n) n) as (c' & F).
  - cbn. apply resize_length.
  - cbn. apply resize_length.
  - intros w I. specialize (B (slot w) (in_map slot _ _ I)). apply in_seq in B. lia.
  - exists c'. eapply writes_serial; eauto.
Qed.
End Result.
