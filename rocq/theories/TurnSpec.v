(** Estimation in another coordinate frame. *)
From Coq Require Import Reals List Permutation.
From Verif Require Import Base Num Vec RNum Lin LinSpec FactorModel EstModel EstSpec MoveSpec.
Open Scope R_scope.

(** Length is kept (rotations, and mirrored frames as well). *)
Definition orthonormal (m : m3 Rfld) : Prop := mm3 (tr3 m) m = id3.
(** A unit direction in which the points vary least, and the case that there is one such line. *)
Definition flattest (pts : list (vec4 Rfld)) (u : v3 Rfld) : Prop :=
  dot3 u u = 1 /\ forall w : v3 Rfld, dot3 w w = 1 -> variance_along u pts <= variance_along w pts.
Definition flat_once (pts : list (vec4 Rfld)) : Prop :=
  forall u v, flattest pts u -> flattest pts v -> v = u \/ v = opp3 u.
(** The two searches find the same points, in any order. *)
Definition same_neighbours (G : pose Rfld) (knn knn' : vec4 Rfld -> nat -> outcome (list nat)) (k : nat) (points : list (vec4 Rfld)) : Prop :=
  forall p found found', In p points -> knn p k = Ok found -> knn' (pose_pt G p) k = Ok found' -> Permutation found found'.
(** The neighbourhoods of a cloud that are large enough to be used. *)
Definition usable (knn : vec4 Rfld -> nat -> outcome (list nat)) (k : nat) (c : cloud Rfld) (pts : list (vec4 Rfld)) : Prop :=
  exists i p found, neighbourhood knn k c i p found pts /\ (5 <= length found)%nat.

(** The [n] nearest points of the cloud, as a set of indices; a query with a clear cut has only
    one such set. *)
Definition nearest_set (points : list (vec4 Rfld)) (q : vec4 Rfld) (n : nat) (found : list nat) : Prop :=
  NoDup found /\ length found = Nat.min n (length points) /\ Forall (fun j => (j < length points)%nat) found /\
  forall i j p p', In i found -> ~ In j found -> nth_error points i = Some p -> nth_error points j = Some p' -> sq_gap p q <= sq_gap p' q.
Definition clear_cut (points : list (vec4 Rfld)) (q : vec4 Rfld) (n : nat) : Prop :=
  (length points <= n)%nat \/
  exists near radius, NoDup near /\ length near = n /\ Forall (fun j => (j < length points)%nat) near /\
    (forall j p, nth_error points j = Some p -> (In j near -> sq_gap p q < radius) /\ (~ In j near -> radius < sq_gap p q)).
(** A search in a cloud, asked at a point of the cloud, returns a set of nearest points. *)
Definition exact_knn (points : list (vec4 Rfld)) (knn : vec4 Rfld -> nat -> outcome (list nat)) (k : nat) : Prop :=
  forall q found, In q points -> knn q k = Ok found -> nearest_set points q k found.
(** No two points are so far apart that their squared distance reaches the largest double. *)
Definition spread (points : list (vec4 Rfld)) : Prop := forall p q, In p points -> In q points -> (sq_gap p q < nmaxv (n := Rnum)).
