(** Symmetric, positive (semi)definite and orthonormal matrices over the reals. *)
From Coq Require Import Reals.
From Verif Require Import Base Num Vec RNum Lin.
Open Scope R_scope.

Definition sym3 (W : m3 Rfld) : Prop := tr3 W = W.
Definition psd3 (W : m3 Rfld) : Prop := forall x, 0 <= dot3 x (mv3 W x).
Definition spd3 (W : m3 Rfld) : Prop := forall x, x <> zero3 -> 0 < dot3 x (mv3 W x).
(** Orthonormal with determinant one. *)
Definition rotation (m : m3 Rfld) : Prop := mm3 (tr3 m) m = id3 /\ det3 m = 1.
Definition sym6 (H : m6 Rfld) : Prop := tr6 H = H.
Definition psd6 (H : m6 Rfld) : Prop := forall d, 0 <= dot6 d (mv6 H d).
