(** What is expected of an optimizer run, read off its event log. *)
From Verif Require Import Base Num Vec Lin FactorModel OptModel.

Section Spec.
Context {D : fld} {F : Type} (err : pose D -> list F -> outcome (car D)) (exp6 : v6 D -> pose D).

Definition is_lin (ev : event D F) : bool := match ev with Linearized _ _ _ => true | _ => false end.
Definition is_try (ev : event D F) : bool := match ev with Tried _ _ _ _ _ _ => true | _ => false end.
Definition linearizations (log : list (event D F)) : nat := length (filter is_lin log).
Definition trials (log : list (event D F)) : nat := length (filter is_try log).

(** The pose after the logged steps. *)
Definition moved (T : pose D) (ev : event D F) : pose D :=
  match ev with Tried _ _ T' _ _ true => T' | Stepped _ T' => T' | _ => T end.
Definition final_pose (T : pose D) (log : list (event D F)) : pose D := fold_left moved log T.
(** The factors after the logged linearisations. *)
Definition relinearized (fs : list F) (ev : event D F) : list F :=
  match ev with Linearized _ fs' _ => fs' | _ => fs end.
Definition final_factors (fs : list F) (log : list (event D F)) : list F := fold_left relinearized log fs.

(** Replay of a log from pose T and factors fs: linearisations happen at the current pose, a
    trial pose is the current pose composed with the increment of its step, and a trial is
    accepted exactly when its error is not larger than the current pose's, for the same
    correspondences. *)
Fixpoint monotone_log (T : pose D) (fs : list F) (log : list (event D F)) : Prop :=
  match log with
  | [] => True
  | Linearized T1 fs1 _ :: l => T1 = T /\ monotone_log T fs1 l
  | Tried _ delta T' _ _ acc :: l =>
      T' = pose_mul T (exp6 delta) /\
      (exists e_old e_new, err T fs = Ok e_old /\ err T' fs = Ok e_new /\ acc = nle e_new e_old) /\
      monotone_log (if acc then T' else T) fs l
  | Stepped delta T' :: l => T' = pose_mul T (exp6 delta) /\ monotone_log T' fs l
  end.

(** The error reported by linearize is the error of the linearised factors at that pose. *)
Definition errors_agree (lin : pose D -> list F -> outcome (list F * sys D)) : Prop :=
  forall T fs fs' s, lin T fs = Ok (fs', s) -> err T fs' = Ok (se s).
(** A general factor that adds no error (NullFactor, RestrictDoFFactor). *)
Definition no_error (g : general D) : Prop :=
  (forall T e, upd_err g T e = e) /\ (forall T s, se (upd_sys g T s) = se s).
(** A general factor whose error at pose T is [c T]. *)
Definition adds_error (g : general D) (c : pose D -> car D) : Prop :=
  (forall T e, upd_err g T e = nadd e (c T)) /\ (forall T s, se (upd_sys g T s) = nadd (se s) (c T)).
End Spec.
