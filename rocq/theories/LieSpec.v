(** What "exponential" and "rigid" mean, independently of the closed forms in the code. *)
From Coq Require Import Reals.
From Coquelicot Require Import Coquelicot.
From Verif Require Import Base Num Vec RNum Lin.
Open Scope R_scope.

(** Entrywise derivatives of vector and matrix valued functions. *)
Definition dv3 (f : R -> v3 Rfld) (t : R) (l : v3 Rfld) : Prop :=
  is_derive (fun s => p0 (f s) : R) t (p0 l) /\ is_derive (fun s => p1 (f s) : R) t (p1 l) /\
  is_derive (fun s => p2 (f s) : R) t (p2 l).
Definition dm3 (f : R -> m3 Rfld) (t : R) (l : m3 Rfld) : Prop :=
  dv3 (fun s => r0 (f s)) t (r0 l) /\ dv3 (fun s => r1 (f s)) t (r1 l) /\ dv3 (fun s => r2 (f s)) t (r2 l).

(** The motion with constant body twist [a], starting at the identity: X' = X a^.  The
    exponential of t a is X(t). *)
Definition flow (a : v6 Rfld) (X : R -> pose Rfld) : Prop :=
  X 0 = pose_id /\
  forall t, dm3 (fun s => rot (X s)) t (mm3 (rot (X t)) (skew (rv a))) /\
            dv3 (fun s => tra (X s)) t (mv3 (rot (X t)) (tv a)).
