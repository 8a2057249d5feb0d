(** Specification for the maps of one program: the same calls with every map held by value,
    so that a copy is a separate map. *)
From Coq Require Import ZArith.
From Verif Require Import Base Num Vec KnnModel VmapModel HeapModel.

Section Spec.
Context (D : num) (C : contents D) (coord_of : vec4 D -> outcome coord).
Context (pose : Type) (act : pose -> item D -> item D).

Definition vstep (ms : list (vmap D C)) (o : wop D pose) : outcome (list (vmap D C)) :=
  match o with
  | WNew horizon cycle => Ok (ms ++ [new_map D C horizon cycle])
  | WCopy i => let* m := get ms i in Ok (ms ++ [m])
  | WInsert i call =>
      let* m := get ms i in
      let* m := insert coord_of pose act m call in
      set ms i m
  | WOffsets i n => let* m := get ms i in set ms i (set_search_offsets m n)
  end.
Definition vrun (ops : list (wop D pose)) : outcome (list (vmap D C)) := foldM vstep ops [].

Definition no_copy (o : wop D pose) : Prop := match o with WCopy _ => False | _ => True end.

End Spec.
Arguments vstep {D C}.
Arguments vrun {D}.
Arguments no_copy {D pose}.
