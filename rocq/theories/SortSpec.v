(** Contract of std::sort and friends. *)
From Verif Require Import Base KdSpec.

(** No later element is less than an earlier one. *)
Definition sorted_by {A : Type} (lt : A -> A -> bool) (l : list A) : Prop :=
  StronglySorted (fun a b => lt b a = false) l.

(** std::sort(first, last, lt) ([alg.sort]): a sorted permutation, for strict weak orders. *)
Definition sort_contract (sort : forall A : Type, (A -> A -> bool) -> list A -> list A) : Prop :=
  forall A (lt : A -> A -> bool) l, swo_on lt l ->
    Permutation l (sort A lt l) /\ sorted_by lt (sort A lt l).

(** std::partition(first, last, p) ([alg.partitions]): a permutation with the elements
    satisfying p in front of those that do not; returns the boundary. *)
Definition partition_contract {A : Type} (part : (A -> bool) -> list A -> list A * nat) : Prop :=
  forall p l l' k, part p l = (l', k) ->
    Permutation l l' /\ k <= length l' /\
    Forall (fun x => p x = true) (firstn k l') /\
    Forall (fun x => p x = false) (skipn k l').

(** std::sort at one element type. *)
Definition sort_contract_at {A : Type} (sort : (A -> A -> bool) -> list A -> list A) : Prop :=
  forall lt l, swo_on lt l -> Permutation l (sort lt l) /\ sorted_by lt (sort lt l).

(** std::inplace_merge(first, first + k, last, lt) ([alg.merge]): two consecutive sorted
    ranges become one sorted range. *)
Definition merge_contract {A : Type} (merge : (A -> A -> bool) -> nat -> list A -> list A) : Prop :=
  forall lt k l, swo_on lt l -> k <= length l ->
    sorted_by lt (firstn k l) -> sorted_by lt (skipn k l) ->
    Permutation l (merge lt k l) /\ sorted_by lt (merge lt k l).

(** [s] consists of the elements of [l] at strictly increasing positions. *)
Definition selects {A : Type} (l : list A) (ps : list nat) (s : list A) : Prop :=
  StronglySorted lt ps /\ Forall2 (fun p x => nth_error l p = Some x) ps s.

(** std::sample ([alg.random.sample]) on a forward range: min(n, size) elements, each
    position at most once, in their original order, whatever the generator. *)
Definition sample_contract {A RNG : Type} (sample : RNG -> list A -> nat -> list A) : Prop :=
  forall rng l n, exists ps, selects l ps (sample rng l n) /\ length ps = Nat.min n (length l).

(** Stable sort by a numeric key: ascending, and elements with equal keys keep their order. *)
Definition stable_sorted_by {A : Type} (key : A -> N) (l l' : list A) : Prop :=
  StronglySorted (fun x y => (key x <= key y)%N) l' /\
  forall k, filter (fun x => (key x =? k)%N) l' = filter (fun x => (key x =? k)%N) l.
