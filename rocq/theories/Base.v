(** Shared vocabulary of the model: outcomes of C++ calls and bounds-checked
    arrays.  Undefined behaviour is a distinct outcome and is never absorbed. *)
From Coq Require Export List Arith ZArith NArith Lia Bool Permutation Sorted.
From Coq Require Import ZifyBool ZifyNat ZifyN.
Export ListNotations.

(** Result of a C++ call.
    [UB]: undefined behaviour (out-of-bounds access, division by zero, reading an
    uninitialised object, signed overflow).  [Abort]: the program called abort().
    [OutOfFuel]: the fuel of the model's recursion ran out (no C++ counterpart). *)
Inductive outcome (A : Type) : Type :=
| Ok (a : A)
| UB
| Abort
| OutOfFuel.
Arguments Ok {A} a.
Arguments UB {A}.
Arguments Abort {A}.
Arguments OutOfFuel {A}.

Definition bind {A B : Type} (x : outcome A) (f : A -> outcome B) : outcome B :=
  match x with
  | Ok a => f a
  | UB => UB
  | Abort => Abort
  | OutOfFuel => OutOfFuel
  end.

Notation "'let*' x ':=' e 'in' f" := (bind e (fun x => f))
  (at level 200, x pattern, e at level 100, f at level 200, right associativity).

(** Bounds-checked [operator[]] on std::vector / pointers to buffers. *)
Definition get {A : Type} (l : list A) (i : nat) : outcome A :=
  match nth_error l i with
  | Some a => Ok a
  | None => UB
  end.

Fixpoint upd {A : Type} (l : list A) (i : nat) (v : A) : list A :=
  match l, i with
  | [], _ => []
  | _ :: t, O => v :: t
  | x :: t, S j => x :: upd t j v
  end.

(** Bounds-checked assignment through [operator[]]. *)
Definition set {A : Type} (l : list A) (i : nat) (v : A) : outcome (list A) :=
  if i <? length l then Ok (upd l i v) else UB.

(** [mapM f l]: evaluate [f] on every element in order, stopping at the first failure. *)
Fixpoint mapM {A B : Type} (f : A -> outcome B) (l : list A) : outcome (list B) :=
  match l with
  | [] => Ok []
  | x :: t => let* y := f x in let* ys := mapM f t in Ok (y :: ys)
  end.

(** [foldM f l s]: loop body [f] run over [l], threading the state. *)
Fixpoint foldM {S A : Type} (f : S -> A -> outcome S) (l : list A) (s : S) : outcome S :=
  match l with
  | [] => Ok s
  | x :: t => let* s' := f s x in foldM f t s'
  end.

(** Sub-range [first,last) of a vector. *)
Definition slice {A : Type} (l : list A) (first last : nat) : list A :=
  firstn (last - first) (skipn first l).

(** Overwrite the sub-range starting at [first] by [s] (same length). *)
Definition put_slice {A : Type} (l : list A) (first : nat) (s : list A) : list A :=
  firstn first l ++ s ++ skipn (first + length s) l.
