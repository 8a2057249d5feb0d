(** The same points in another order. *)
From Coq Require Import Reals List Permutation.
From Verif Require Import Base Num Vec RNum Lin FactorModel.
Open Scope nat_scope.

(** Two indices stand for the same point, with the same attributes. *)
Definition same_data {I J : Type} (v : view Rfld I) (w : view Rfld J) (i : I) (j : J) : Prop :=
  at_point v i = at_point w j /\ at_normal v i = at_normal w j /\ at_cov v i = at_cov w j.
(** The target again, under any other numbering. *)
Definition renumbered (target target' : view Rfld N) : Prop :=
  (forall j p, at_point target' j = Ok p -> exists i, same_data target' target j i) /\
  (forall i p, at_point target i = Ok p -> exists j, same_data target' target j i).
(** The source again, point [i] is number [nth i order] before. *)
Definition rearranged (order : list nat) (source source' : view Rfld nat) : Prop :=
  Permutation (seq 0 (length order)) order /\ forall i, i < length order -> same_data source' source i (nth i order 0).

(** A cloud in another order; an attribute is set for all points or for none. *)
Definition sized (c : cloud Rfld) : Prop :=
  (length (cl_normals c) = length (cl_points c) \/ cl_normals c = []) /\ (length (cl_covs c) = length (cl_points c) \/ cl_covs c = []).
Definition pick {A : Type} (order : list nat) (l : list A) : list A :=
  flat_map (fun i => match nth_error l i with Some a => [a] | None => [] end) order.
Definition shuffled (order : list nat) (c c' : cloud Rfld) : Prop :=
  Permutation (seq 0 (length (cl_points c))) order /\
  cl_points c' = pick order (cl_points c) /\ cl_normals c' = pick order (cl_normals c) /\ cl_covs c' = pick order (cl_covs c).
(** A rejector that decides by the distance. *)
Definition by_distance (reject reject' : pose Rfld -> N -> nat -> car Rfld -> bool) : Prop :=
  forall T ti si ti' si' d, reject T ti si d = reject' T ti' si' d.
