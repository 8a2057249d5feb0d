(** One schedule of each parallel stage, to show that runtimes exist. *)
From Verif Require Import Base BaseProofs Num Vec F64 KdF64 FloorModel Lin FactorModel KnnModel KdModel VoxModel VoxPar EstModel PipeModel.

(** Collection: the first worker that can move does. *)
Section Drive.
Context {T : Type}.
Fixpoint find_step (st : cstate T) (ws : list nat) : option (nat * outcome (cstate T)) :=
  match ws with
  | [] => None
  | w :: ws => match wstep st w with Some e => Some (w, e) | None => find_step st ws end
  end.
Fixpoint drive (fuel : nat) (st : cstate T) : outcome (cstate T) :=
  match fuel with
  | 0 => Ok st
  | S fuel =>
      match find_step st (seq 0 (length (c_workers st))) with
      | None => Ok st
      | Some (_, e) => let* st := e in drive fuel st
      end
  end.

Lemma find_step_some st ws w e : find_step st ws = Some (w, e) -> wstep st w = Some e.
Proof.
  induction ws as [|x ws IH]; cbn [find_step]; [discriminate|]. destruct (wstep st x) eqn:E; [|exact IH].
  intros H. injection H as <- <-. exact E.
Qed.
Lemma find_step_none st ws : find_step st ws = None -> forall w, In w ws -> wstep st w = None.
Proof.
  induction ws as [|x ws IH]; cbn [find_step]; [intros _ w []|]. destruct (wstep st x) eqn:E; [discriminate|].
  intros H w [<-|Hw]; auto.
Qed.
Lemma find_step_finished st : find_step st (seq 0 (length (c_workers st))) = None -> finished st.
Proof.
  intros H w. destruct (Nat.lt_ge_cases w (length (c_workers st))) as [L|L].
  - apply (find_step_none _ _ H). apply in_seq. lia.
  - unfold wstep. rewrite (proj2 (nth_error_None _ _) L). reflexivity.
Qed.

Lemma drive_ok fuel : forall st0 st, creach st0 st -> cleft T st <= fuel ->
  (exists st', drive fuel st = Ok st' /\ creach st0 st' /\ finished st') \/
  (exists st' w e, creach st0 st' /\ wstep st' w = Some e /\ (forall s, e <> Ok s) /\ drive fuel st = e).
Proof.
  induction fuel as [|fuel IH]; intros st0 st R L; cbn [drive].
  - destruct (find_step st (seq 0 (length (c_workers st)))) as [[w e]|] eqn:E.
    + apply find_step_some in E. destruct e as [st'| | |]; [apply (wstep_left T) in E; lia|right..];
        (eexists st, w, _; split; [exact R|]; split; [exact E|]; split; [discriminate|]).
      all: exfalso; unfold wstep in E; destruct (nth_error (c_workers st) w) as [[sub|b d sub]|] eqn:Ew; try discriminate;
        destruct (nth_error sub d) as [v|] eqn:Ed; try discriminate;
        assert (LW : 0 < cleft T st); [|lia].
      all: unfold cleft; clear -Ew Ed; revert w Ew; induction (c_workers st) as [|x l IH]; intros [|w] Ew; try discriminate;
        cbn [map list_sum fold_right]; fold (list_sum (map (wleft T) l));
        [injection Ew as ->; cbn [wleft]; assert (d < length sub) by (apply nth_error_Some; congruence); lia|specialize (IH w Ew); lia].
    + left. exists st. split; [reflexivity|]. split; [exact R|]. apply find_step_finished. exact E.
  - destruct (find_step st (seq 0 (length (c_workers st)))) as [[w e]|] eqn:E.
    + apply find_step_some in E. destruct e as [st'| | |]; cbn [bind].
      * apply IH; [eapply creach_step; eauto|]. apply (wstep_left T) in E. lia.
      * right. exists st, w, UB. repeat split; auto; discriminate.
      * right. exists st, w, Abort. repeat split; auto; discriminate.
      * right. exists st, w, OutOfFuel. repeat split; auto; discriminate.
    + left. exists st. split; [reflexivity|]. split; [exact R|]. apply find_step_finished. exact E.
Qed.
End Drive.

Section Sample.
Context (m : int_mode) (sort_omp : forall A : Type, (A -> A -> bool) -> list A -> list A).
Context (jn : vec4 Ffld) (jc : m4 Ffld).
Definition drive_sample (threads : Z) (resolution : f64) (c : cloud Ffld) : outcome (cloud Ffld) :=
  let points : list (vec4 Fnum) := cl_points c in
  let* subs := parallel_blocks (D := Fnum) (voxel_key m (inv_leaf resolution)) sort_omp points
                  (omp_sizes (length points) (length points) 1024) in
  let st := cinit (vec4 Fnum) vzero (length points) subs in
  let* st := drive (cleft _ st) st in Ok (bare jn jc (collected vzero st)).
Lemma drive_sample_ok threads resolution c : sampled_omp m sort_omp jn jc resolution c (drive_sample threads resolution c).
Proof.
  unfold sampled_omp, drive_sample.
  destruct (parallel_blocks _ _ _ _) as [subs| | |] eqn:E; cbn [bind]; [left|right; split; [discriminate|reflexivity]..].
  match goal with |- context [drive (cleft _ ?x) ?x] =>
    destruct (drive_ok (cleft _ x) x x (creach_refl _ _) (le_n _)) as [(st & -> & R & Fi)|(st & w & e & R & W & N & ->)] end.
  - exists subs, st. split; [reflexivity|]. split; [exact R|]. left. split; [exact Fi|]. reflexivity.
  - exists subs, st. split; [reflexivity|]. split; [exact R|]. right. exists w, e. split; [exact W|]. split; [exact N|].
    destruct e as [s| | |]; try reflexivity. destruct (N s). reflexivity.
Qed.
End Sample.

(** Estimation: the points in order. *)
Section Est.
Context (knn : vec4 Ffld -> nat -> outcome (list nat)) (eig : m3 Ffld -> m3 Ffld) (of_nat : nat -> f64) (milli : f64).
Notation runs := (par_runs (D := Ffld) knn eig of_nat milli).

Lemma write_all st k todo rest ws : forall c c' e, foldM do_write ws c = Ok c' ->
  runs st k (mkPar (D := Ffld) c' todo ([] :: rest)) e -> runs st k (mkPar (D := Ffld) c todo (ws :: rest)) e.
Proof.
  induction ws as [|w ws IH]; intros c c' e H R; cbn [foldM] in H.
  - injection H as <-. exact R.
  - apply bind_Ok in H. destruct H as (c1 & E & H). eapply ParMore; [|eapply IH; eauto].
    pose proof (ParWrite Ffld knn eig of_nat milli st k c todo [] w ws rest) as P. rewrite E in P. exact P.
Qed.
Lemma write_fails st k todo rest ws (e : outcome (par_state Ffld)) : forall c,
  (forall c', foldM do_write ws c <> Ok c') -> (let* _ := foldM do_write ws c in e) = e -> (forall s, e <> Ok s) ->
  runs st k (mkPar (D := Ffld) c todo (ws :: rest)) e.
Proof.
  induction ws as [|w ws IH]; intros c H Q N; cbn [foldM] in H, Q.
  - destruct (H c). reflexivity.
  - pose proof (ParWrite Ffld knn eig of_nat milli st k c todo [] w ws rest) as P. cbn [app] in P.
    destruct (do_write c w) as [c1| | |] eqn:E; cbn [bind] in H, Q, P.
    + eapply ParMore; [exact P|]. apply IH; auto.
    + rewrite <- Q in *. apply ParFail; [exact P|discriminate].
    + rewrite <- Q in *. apply ParFail; [exact P|discriminate].
    + rewrite <- Q in *. apply ParFail; [exact P|discriminate].
Qed.

Lemma estimate_run st k todo : forall c rest, Forall (fun ws => ws = []) rest ->
  exists e, runs st k (mkPar (D := Ffld) c todo rest) e /\ (forall s, e = Ok s -> par_finished s) /\
    foldM (estimate_one (D := Ffld) knn eig of_nat milli st k) todo c = (let* s := e in Ok (s_cloud s)).
Proof.
  induction todo as [|i todo IH]; intros c rest F.
  - eexists. split; [apply ParHere|]. split; [|reflexivity]. intros s H. injection H as <-. split; [reflexivity|exact F].
  - pose proof (ParStart Ffld knn eig of_nat milli st k c [] i todo rest) as P. cbn [app] in P.
    cbn [foldM]. unfold estimate_one at 1.
    destruct (local_writes knn eig of_nat milli st c k i) as [ws| | |] eqn:E; cbn [bind] in *.
    2-4: eexists; split; [apply ParFail; [exact P|discriminate]|]; split; [discriminate|reflexivity].
    destruct (foldM do_write ws c) as [c'| | |] eqn:Ew; cbn [bind].
    + destruct (IH c' ([] :: rest) (Forall_cons _ eq_refl F)) as (e & R & Fi & Q). exists e. split; [|split; assumption].
      eapply ParMore; [exact P|]. eapply write_all; eauto.
    + exists UB. split; [|split; [discriminate|reflexivity]]. eapply ParMore; [exact P|]. apply write_fails; rewrite ?Ew; try discriminate; reflexivity.
    + exists Abort. split; [|split; [discriminate|reflexivity]]. eapply ParMore; [exact P|]. apply write_fails; rewrite ?Ew; try discriminate; reflexivity.
    + exists OutOfFuel. split; [|split; [discriminate|reflexivity]]. eapply ParMore; [exact P|]. apply write_fails; rewrite ?Ew; try discriminate; reflexivity.
Qed.
End Est.

Lemma estimate_all_ok order eig of_nat milli jp jn jc c tree n :
  estimated_omp order eig of_nat milli jp jn jc c tree n (estimate_all order eig of_nat milli jp jn jc c tree n).
Proof.
  unfold estimated_omp, estimate_all, EstModel.estimate, par_init.
  destruct (estimate_run (tree_knn order c tree) eig of_nat milli Both (Z.to_nat n) (seq 0 (length (cl_points c)))
    (cloud_resize jp jn jc c (length (cl_points c))) [] (Forall_nil _)) as (e & R & Fi & Q).
  exists e. split; [exact R|]. split; [exact Fi|exact Q].
Qed.
