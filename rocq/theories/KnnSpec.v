(** Independent specification of "the k best candidates, first come first served". *)
From Verif Require Import Base Num.

Section Spec.
Context (D : num).
Notation cand := (N * car D)%type.

(** Candidates ordered by distance, none strictly before a larger one. *)
Definition ascending (l : list cand) : Prop :=
  StronglySorted (fun a b => nlt (snd b) (snd a) = false) l.

(** Same distance as far as [<] can tell. *)
Definition same_dist (a b : cand) : bool :=
  negb (nlt (snd a) (snd b)) && negb (nlt (snd b) (snd a)).

(** [S] is the stable sort of [L] by distance: an ascending rearrangement that keeps
    candidates of equal distance in their original order. *)
Definition stable_sort_of (L S : list cand) : Prop :=
  Permutation L S /\ ascending S /\
  forall c, In c L -> filter (same_dist c) S = filter (same_dist c) L.

(** Candidates the container accepts at all: distance below DBL_MAX. *)
Definition reachable_dist (c : cand) : bool := nlt (snd c) nmaxv.

End Spec.
Arguments ascending {D}.
Arguments same_dist {D}.
Arguments stable_sort_of {D}.
Arguments reachable_dist {D}.
