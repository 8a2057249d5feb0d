(** What a reduction should compute. *)
From Verif Require Import Base.

Section Spec.
Context {F S : Type} (zero : S) (plus : S -> S -> S) (lin : nat -> F -> outcome (F * option S)).

Definition accepted (rs : list (option S)) : list S :=
  flat_map (fun r => match r with Some s => [s] | None => [] end) rs.
Definition sum_all (l : list S) : S := fold_right plus zero l.

(** Every factor was linearised exactly once, from its initial state, with its own index;
    [rs] are the returned systems. *)
Definition linearized_once (fs fs' : list F) (rs : list (option S)) : Prop :=
  length fs' = length fs /\ length rs = length fs /\
  forall i f, nth_error fs i = Some f ->
    exists f' r, lin i f = Ok (f', r) /\ nth_error fs' i = Some f' /\ nth_error rs i = Some r.

Record comm_monoid : Prop := mkCM {
  cm_assoc : forall a b c, plus a (plus b c) = plus (plus a b) c;
  cm_comm : forall a b, plus a b = plus b a;
  cm_zero : forall a, plus zero a = a
}.

(** No factor's linearize hits undefined behaviour. *)
Definition all_defined (fs : list F) : Prop :=
  forall i f, nth_error fs i = Some f -> exists f' r, lin i f = Ok (f', r).
End Spec.
