(** What choosing a split axis may look at. *)
From Verif Require Import Base.

(** [idx] are the positions of the range that are read: valid, distinct, at least one and fewer
    than twice [max]; all of them if the range is shorter than that. *)
Definition sampled (n max : nat) (idx : list nat) : Prop :=
  NoDup idx /\ Forall (fun i => i < n) idx /\ 1 <= length idx < 2 * max /\ (n < 2 * max -> idx = seq 0 n).
(** The result depends on nothing else. *)
Definition depends_only_on {A B : Type} (find : list A -> outcome B) (range : list A) (idx : list nat) : Prop :=
  forall range', length range' = length range ->
  (forall i, In i idx -> nth_error range' i = nth_error range i) -> find range' = find range.
