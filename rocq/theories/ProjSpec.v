(** What projective search should return, without reference to the index image. *)
From Coq Require Import ZArith.
From Verif Require Import Base Num Vec ProjModel.
Local Open Scope Z_scope.

Section Spec.
Context (P : Type).
Context (pix : P -> outcome (Z * Z)).

(** The point that speaks for a pixel: the last point of the cloud that falls on it. *)
Definition owner (pts : list P) (u v : Z) (i : nat) : Prop :=
  exists p, nth_error pts i = Some p /\ pix p = Ok (u, v) /\
            forall j q, (i < j)%nat -> nth_error pts j = Some q -> pix q <> Ok (u, v).

(** Image coordinate [x'] stands for coordinate [x] under a border mode: the same one, or,
    when the image repeats, one image width away. *)
Definition reaches (b : border) (x width x' : Z) : Prop :=
  0 <= x' < width /\
  match b with
  | BorderClamp => x' = x
  | BorderRepeat => exists t, -1 <= t <= 1 /\ x' = x + t * width
  end.

(** Pixel (u', v') lies in the search window around (u, v). *)
Definition visible (bh bv : border) (cols rows wh wv u v u' v' : Z) : Prop :=
  exists du dv, - wh <= du <= wh /\ - wv <= dv <= wv /\
    reaches bh (u + du) cols u' /\ reaches bv (v + dv) rows v'.

(** The window fits the image: a repeating direction is not shorter than the window. *)
Definition fits (b : border) (w width : Z) : Prop :=
  match b with BorderClamp => True | BorderRepeat => 2 * w + 1 <= width end.

(** A candidate (index, distance) names a point of the cloud and its true distance. *)
Definition genuine {D : num} (dist : P -> P -> car D) (pts : list P) (query : P)
  (c : N * car D) : Prop :=
  exists p, nth_error pts (N.to_nat (fst c)) = Some p /\ snd c = dist p query.

(** The caller may change the window after construction (public fields). *)
Definition with_windows (s : projective P) (wh wv : Z) : projective P :=
  mkProj (pr_points s) (pr_cols s) (pr_rows s) (pr_map s) wh wv.

End Spec.
Arguments owner {P}.
Arguments genuine {P D}.
Arguments with_windows {P}.

(** An evaluation order of the squared norm of the first three components. *)
Definition head_sum (t : sumtree) : Prop := Permutation (sum_leaves t) [0; 1; 2]%nat.
