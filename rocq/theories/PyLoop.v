(** Parallel loops whose iterations write to cells of their own. *)
From Coq Require Import ZArith.
From Verif Require Import Base BaseProofs PyModel.
Open Scope nat_scope.

Section Loop.
Context {M W : Type} (do_write : M -> W -> outcome M) (body : nat -> outcome (list W)) (n : nat).
(** [good]: memory of the right size; [holds mem w]: what w writes is in mem. *)
Context (good : M -> Prop) (holds : M -> W -> Prop) (writes : nat -> list W).
Hypothesis body_ok : forall i, i < n -> body i = Ok (writes i).
Hypothesis write_ok : forall mem i w, good mem -> i < n -> In w (writes i) ->
  exists mem', do_write mem w = Ok mem' /\ good mem' /\ holds mem' w.
Hypothesis agree : forall mem mem' i j w w', i < n -> j < n -> In w (writes i) -> In w' (writes j) ->
  good mem -> do_write mem w' = Ok mem' -> holds mem w -> holds mem' w.

Notation step := (loop_step do_write body).
Notation runs := (loop_runs do_write body).

Definition loop_inv (s : loop_state (M := M) (W := W)) : Prop :=
  good (l_mem s) /\ Forall (fun i => i < n) (l_todo s) /\
  Forall (fun ws => forall w, In w ws -> exists i, i < n /\ In w (writes i)) (l_active s) /\
  forall i w, i < n -> In w (writes i) -> holds (l_mem s) w \/ In i (l_todo s) \/ In w (concat (l_active s)).

Lemma loop_step_inv s o : loop_inv s -> step s o -> exists s', o = Ok s' /\ loop_inv s'.
Proof using body_ok write_ok agree.
  intros (G & T & A & H) S. destruct S as [mem l1 i l2 act|mem todo a1 w ws a2]; cbn [l_mem l_todo l_active] in *.
  - assert (Hi : i < n) by (rewrite Forall_forall in T; apply T; apply in_elt).
    rewrite (body_ok i Hi). cbn [bind]. eexists. split; [reflexivity|]. unfold loop_inv. cbn [l_mem l_todo l_active].
    split; [exact G|]. split. { rewrite Forall_app in *. destruct T as [T1 T2]. inversion T2; auto. }
    split. { constructor; [|exact A]. intros w Hw. exists i. auto. }
    intros i' w Hi' Hw. destruct (H i' w Hi' Hw) as [X|[X|X]]; auto.
    + apply in_app_or in X. destruct X as [X|[<-|X]].
      * right; left. apply in_or_app; auto.
      * right; right. cbn [concat]. apply in_or_app; auto.
      * right; left. apply in_or_app; auto.
    + right; right. cbn [concat]. apply in_or_app; auto.
  - assert (Hw : exists i, i < n /\ In w (writes i)).
    { rewrite Forall_forall in A. apply (A (w :: ws)); [apply in_elt|left; reflexivity]. }
    destruct Hw as (i & Hi & Hw). destruct (write_ok mem i w G Hi Hw) as (mem' & E & G' & HH).
    rewrite E. cbn [bind]. eexists. split; [reflexivity|]. unfold loop_inv. cbn [l_mem l_todo l_active].
    split; [exact G'|]. split; [exact T|]. split.
    { rewrite Forall_app in *. destruct A as [A1 A2]. split; [exact A1|]. inversion A2 as [|x y B1 B2]; subst.
      constructor; [|exact B2]. intros v Hv. apply B1. right. exact Hv. }
    intros i' w' Hi' Hw'. destruct (H i' w' Hi' Hw') as [X|[X|X]]; auto.
    + left. apply (agree mem mem' i' i w' w); auto.
    + rewrite concat_app in X. cbn [concat] in X. rewrite concat_app. cbn [concat].
      apply in_app_or in X. destruct X as [X|X]; [right; right; apply in_or_app; auto|].
      cbn [app] in X. destruct X as [<-|X]; [left; exact HH|].
      right; right. apply in_or_app; auto.
Qed.

Lemma loop_runs_inv s o : loop_inv s -> runs s o -> exists s', o = Ok s' /\ loop_inv s'.
Proof using body_ok write_ok agree.
  intros I R. induction R as [s|s s1 o H1 R IH|s o H1 N].
  - eauto.
  - destruct (loop_step_inv _ _ I H1) as (s' & E & I'). injection E as <-. auto.
  - destruct (loop_step_inv _ _ I H1) as (s' & E & I'). exfalso. eapply N; eauto.
Qed.

Lemma loop_init_inv mem : good mem -> loop_inv (loop_init mem n).
Proof using.
  clear body_ok write_ok agree body do_write. intros G. split; [exact G|]. split. { apply Forall_forall. intros i Hi. apply in_seq in Hi. lia. }
  split; [constructor|]. intros i w Hi _. right; left. apply in_seq. lia.
Qed.

(** Whatever the schedule, the loop ends with everything written. *)
Lemma loop_ends_holds mem o : good mem -> loop_ends do_write body mem n o ->
  exists mem', o = Ok mem' /\ good mem' /\ forall i w, i < n -> In w (writes i) -> holds mem' w.
Proof using body_ok write_ok agree.
  intros G (e & R & F & ->). destruct (loop_runs_inv _ _ (loop_init_inv mem G) R) as (s & -> & I & _ & _ & H).
  cbn [bind]. exists (l_mem s). split; [reflexivity|]. split; [exact I|]. intros i w Hi Hw.
  destruct (F s eq_refl) as [F1 F2]. destruct (H i w Hi Hw) as [X|[X|X]]; auto.
  - rewrite F1 in X. destruct X.
  - apply in_concat in X. destruct X as (ws & Hws & X). rewrite Forall_forall in F2. rewrite (F2 ws Hws) in X. destruct X.
Qed.

(** Some schedule ends. *)
Lemma drain todo ws : (forall w, In w ws -> exists i, i < n /\ In w (writes i)) -> forall mem acts, good mem ->
  exists mem', good mem' /\ forall o, runs (mkLoop mem' todo ([] :: acts)) o -> runs (mkLoop mem todo (ws :: acts)) o.
Proof using body_ok write_ok agree.
  intros A. induction ws as [|w ws IH]; intros mem acts G.
  - exists mem. auto.
  - destruct (A w (or_introl eq_refl)) as (i & Hi & Hw). destruct (write_ok mem i w G Hi Hw) as (m1 & E & G1 & _).
    destruct (IH (fun v Hv => A v (or_intror Hv)) m1 acts G1) as (m2 & G2 & R). exists m2. split; [exact G2|].
    intros o Ho. eapply LoopMore; [|apply R; exact Ho].
    pose proof (LoopWrite do_write body mem todo [] w ws acts) as S. rewrite E in S. exact S.
Qed.
Lemma all_drain l : Forall (fun i => i < n) l -> forall mem acts, good mem -> Forall (fun ws => ws = []) acts ->
  exists s, runs (mkLoop mem l acts) (Ok s) /\ loop_finished s.
Proof using body_ok write_ok agree.
  induction 1 as [|i l Hi F IH]; intros mem acts G A.
  - eexists. split; [apply LoopHere|]. split; auto.
  - destruct (drain l (writes i)) with (mem := mem) (acts := acts) as (m1 & G1 & R); eauto.
    destruct (IH m1 ([] :: acts) G1) as (s & Rs & Fs); [constructor; auto|].
    exists s. split; [|exact Fs]. eapply LoopMore; [|apply R; exact Rs].
    pose proof (LoopStart do_write body mem [] i l acts) as S. rewrite (body_ok i Hi) in S. exact S.
Qed.
Lemma loop_can_end mem : good mem -> exists o, loop_ends do_write body mem n o.
Proof using body_ok write_ok agree.
  intros G. destruct (all_drain (seq 0 n)) with (mem := mem) (acts := @nil (list W)) as (s & R & F); auto.
  { apply Forall_forall. intros i Hi. apply in_seq in Hi. lia. }
  exists (Ok (l_mem s)). exists (Ok s). split; [exact R|]. split; [|reflexivity].
  intros s' E. injection E as <-. exact F.
Qed.
End Loop.

(** If an iteration cannot be carried out, the loop does not end normally. *)
Section Failing.
Context {M W : Type} (do_write : M -> W -> outcome M) (body : nat -> outcome (list W)).
Lemma todo_stays i s o : (forall ws, body i <> Ok ws) -> loop_runs do_write body s o -> In i (l_todo s) ->
  forall s', o = Ok s' -> In i (l_todo s').
Proof.
  intros B R. induction R as [s|s s1 o H1 R IH|s o H1 N]; intros Hi s' E.
  - injection E as <-. exact Hi.
  - apply IH; auto. clear IH R. remember (Ok s1) as o1 eqn:Q.
    destruct H1 as [mem l1 j l2 act|mem todo a1 w ws a2]; apply bind_Ok in Q; destruct Q as (x & Q1 & Q2);
      injection Q2 as <-; cbn [l_todo] in *; auto.
    apply in_app_or in Hi. destruct Hi as [Hi|[->|Hi]]; [apply in_or_app; auto| |apply in_or_app; auto].
    exfalso. eapply B; eauto.
  - exfalso. eapply N; eauto.
Qed.
Lemma loop_never_ends mem n i o : i < n -> (forall ws, body i <> Ok ws) -> loop_ends do_write body mem n o ->
  forall x, o <> Ok x.
Proof.
  intros Hi B (e & R & F & ->) x E. apply bind_Ok in E. destruct E as (s & -> & _).
  destruct (F s eq_refl) as [F1 _].
  pose proof (todo_stays i _ _ B R) as T. cbn [l_todo loop_init] in T. specialize (T ltac:(apply in_seq; lia) s eq_refl).
  rewrite F1 in T. destruct T.
Qed.
Lemma loop_can_fail mem n i : i < n -> body i = UB -> loop_ends do_write body mem n UB.
Proof.
  intros Hi B. exists UB. split; [|split; [discriminate|reflexivity]].
  unfold loop_init. replace (seq 0 n) with (seq 0 i ++ i :: seq (S i) (n - S i)).
  - apply LoopFail; [|discriminate]. pose proof (LoopStart do_write body mem (seq 0 i) i (seq (S i) (n - S i)) []) as S.
    rewrite B in S. exact S.
  - change (i :: seq (S i) (n - S i)) with (seq i (S (n - S i))). rewrite <- seq_app. f_equal. lia.
Qed.
End Failing.
