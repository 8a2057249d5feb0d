(** A point cloud as its history: every attribute of point i is the value set last since the
    index last came into existence. *)
From Verif Require Import Base CloudModel.

Section Spec.
Context {V M : Type}.
(** Size after a history, newest call first. *)
Fixpoint size_of (h : list (op V M)) : nat :=
  match h with [] => 0 | Resize n :: _ => n | _ :: h => size_of h end.
(** [sets o] is the index and value an operation writes to the attribute in question. *)
Fixpoint last_set {X : Type} (sets : op V M -> option (nat * X)) (h : list (op V M)) (i : nat) : option X :=
  match h with
  | [] => None
  | o :: h =>
      match o with
      | Resize n => if i <? n then last_set sets h i else None
      | _ => match sets o with
             | Some (j, x) => if i =? j then Some x else last_set sets h i
             | None => last_set sets h i
             end
      end
  end.
Definition sets_point (o : op V M) : option (nat * V) := match o with SetPoint i v => Some (i, v) | _ => None end.
Definition sets_normal (o : op V M) : option (nat * V) := match o with SetNormal i v => Some (i, v) | _ => None end.
Definition sets_cov (o : op V M) : option (nat * M) := match o with SetCov i m => Some (i, m) | _ => None end.
Definition index_of (o : op V M) : option nat :=
  match o with Resize _ => None | SetPoint i _ | SetNormal i _ | SetCov i _ => Some i end.
(** Every write was inside the cloud of its time. *)
Fixpoint in_range (h : list (op V M)) : Prop :=
  match h with [] => True | o :: h => (match index_of o with Some i => i < size_of h | None => True end) /\ in_range h end.
(** Cloud c holds exactly what the history says. *)
Definition represents (h : list (op V M)) (c : pcloud V M) : Prop :=
  let n := size_of h in
  pc_points c = map (last_set sets_point h) (seq 0 n) /\
  pc_normals c = map (last_set sets_normal h) (seq 0 n) /\
  pc_covs c = map (last_set sets_cov h) (seq 0 n).
End Spec.
