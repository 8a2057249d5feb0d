(** What the classes of the template example are meant to do. *)
From Verif Require Import Base Num KdSpec.

Section Spec.
Context (D : num).
Notation entry := (nat * car D)%type.

(** std::priority_queue ([container.adaptors], [alg.heap.operations]): whatever the layout
    ([heap] holds of the vectors that push and pop produce), push adds the element, and pop
    removes one that no other exceeds, provided the order is a strict weak one on the elements. *)
Definition nearer (a b : entry) : bool := nlt (snd a) (snd b).
Definition queue_contract (push : entry -> list entry -> list entry) (pop : list entry -> outcome (entry * list entry)) : Prop :=
  exists heap : list entry -> Prop, heap [] /\
    (forall x q, heap q -> swo_on nearer (x :: q) -> heap (push x q) /\ Permutation (x :: q) (push x q)) /\
    (forall q, heap q -> q <> [] -> swo_on nearer q -> exists top q', pop q = Ok (top, q') /\ heap q' /\
       Permutation q (top :: q') /\ forall y, In y q -> nearer top y = false).

(** [res] are the [k] points, of those numbered 0 .. n-1 at distances [dist], nearest to the
    query, nearest first; all of them if there are fewer. *)
Definition nearest_k (dist : nat -> car D) (n k : nat) (res : list entry) : Prop :=
  NoDup (map fst res) /\
  (forall i d, In (i, d) res -> i < n /\ d = dist i) /\
  StronglySorted (fun a b => nlt (snd b) (snd a) = false) res /\
  length res = Nat.min k n /\
  (forall j, j < n -> ~ In j (map fst res) -> forall c, In c res -> nlt (dist j) (snd c) = false).
End Spec.
Arguments nearer {D}. Arguments queue_contract {D}. Arguments nearest_k {D}.

(** A queue meeting the contract: remove the first greatest element. *)
Section Instance.
Context (D : num).
Fixpoint pop_list (q : list (nat * car D)) : outcome ((nat * car D) * list (nat * car D)) :=
  match q with
  | [] => UB
  | [x] => Ok (x, [])
  | x :: q' => let* (top, rest) := pop_list q' in if nearer x top then Ok (top, x :: rest) else Ok (x, q')
  end.
Definition push_list (x : nat * car D) (q : list (nat * car D)) : list (nat * car D) := x :: q.
End Instance.
Arguments pop_list {D}. Arguments push_list {D}.
