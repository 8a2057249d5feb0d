(** Homogeneous 4-vectors over a number system and the arithmetic Eigen performs on
    them in the search code. *)
From Verif Require Import Base Num.

Section Vec.
Context (D : num).

(** Eigen::Vector4d *)
Record vec4 : Type := V4 { vx : car D; vy : car D; vz : car D; vw : car D }.

(** Eigen operator[] on a Vector4d for an index in 0..3. *)
Definition vcomp (v : vec4) (i : nat) : car D :=
  match i with
  | 0 => vx v
  | 1 => vy v
  | 2 => vz v
  | _ => vw v
  end.

Definition vmap2 (f : car D -> car D -> car D) (a b : vec4) : vec4 :=
  V4 (f (vx a) (vx b)) (f (vy a) (vy b)) (f (vz a) (vz b)) (f (vw a) (vw b)).

Definition vadd := vmap2 nadd.
Definition vsub := vmap2 nsub.
(** cwiseProduct *)
Definition vmul := vmap2 nmul.
(** v / s *)
Definition vdivs (a : vec4) (s : car D) : vec4 :=
  V4 (ndiv (vx a) s) (ndiv (vy a) s) (ndiv (vz a) s) (ndiv (vw a) s).
Definition vzero : vec4 := V4 nzero nzero nzero nzero.

(** An evaluation order for squaredNorm() of a 4-vector.  Eigen vectorises the
    reduction, and the compiler may contract a*a+b into a fused multiply-add, so the
    order is not fixed by the source; theorems quantify over all of them. *)
Inductive sumtree : Type :=
| SSq (i : nat)                       (* v[i]*v[i] *)
| SAdd (l r : sumtree)                (* l + r *)
| SFma (i : nat) (t : sumtree).       (* fma(v[i], v[i], t) *)

Context (fma : car D -> car D -> car D -> car D).

Fixpoint sum_eval (t : sumtree) (v : vec4) : car D :=
  match t with
  | SSq i => nmul (vcomp v i) (vcomp v i)
  | SAdd l r => nadd (sum_eval l v) (sum_eval r v)
  | SFma i t => fma (vcomp v i) (vcomp v i) (sum_eval t v)
  end.

(** (a - b).squaredNorm() *)
Definition sq_dist (t : sumtree) (a b : vec4) : car D := sum_eval t (vsub a b).

End Vec.
Arguments V4 {D}.
Arguments vx {D}.
Arguments vy {D}.
Arguments vz {D}.
Arguments vw {D}.
Arguments vcomp {D}.
Arguments vadd {D}.
Arguments vsub {D}.
Arguments vmul {D}.
Arguments vdivs {D}.
Arguments vzero {D}.
Arguments sum_eval {D}.
Arguments sq_dist {D}.

Fixpoint sum_leaves (t : sumtree) : list nat :=
  match t with
  | SSq i => [i]
  | SAdd l r => sum_leaves l ++ sum_leaves r
  | SFma i t => i :: sum_leaves t
  end.

(** The order computes the squared norm: each of the four components exactly once. *)
Definition full_sum (t : sumtree) : Prop := Permutation (sum_leaves t) [0; 1; 2; 3].

(** Eigen's packet (2-wide) order: (x*x + z*z) + (y*y + w*w). *)
Definition eigen_order : sumtree := SAdd (SAdd (SSq 0) (SSq 2)) (SAdd (SSq 1) (SSq 3)).
