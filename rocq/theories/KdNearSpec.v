(** Nearest-neighbour answers that may miss a point by rounding only. *)
From Coq Require Import Reals.
From Flocq Require Import Core BinarySingleNaN.
From Verif Require Import Base Num Vec F64 KnnSpec KdModel KdSpec.
Open Scope nat_scope.

(** As [is_knn] (KdSpec), but a point left out may be nearer than a reported distance [d] if
    [excused] allows it. *)
Definition nearly_knn {D : num} (dist : nat -> car D) (excused : nat -> car D -> Prop) (n k : nat) (res : list (N * car D)) : Prop :=
  NoDup (map fst res) /\
  (forall i d, In (i, d) res -> exists j, j < n /\ i = N.of_nat j /\ d = dist j) /\
  StronglySorted (fun a b => nlt (snd b) (snd a) = false) res /\
  length res = Nat.min k (length (filter (fun j => nlt (dist j) nmaxv) (seq 0 n))) /\
  (forall j, j < n -> ~ In (N.of_nat j) (map fst res) ->
     forall c, In c res -> nlt (dist j) (snd c) = false \/ excused j (snd c)).

(** The exact distance between two points with double coordinates. *)
Definition euclid (p q : vec4 Fnum) : R :=
  sqrt ((B2R (vx p) - B2R (vx q)) ^ 2 + (B2R (vy p) - B2R (vy q)) ^ 2 + (B2R (vz p) - B2R (vz q)) ^ 2).
(** All four coordinates are finite and at most [M] in magnitude. *)
Definition within (M : R) (p : vec4 Fnum) : Prop :=
  forall x, In x [vx p; vy p; vz p; vw p] -> is_finite x = true /\ (Rabs (B2R x) <= M)%R.
(** A direction of length at most 1 + tau. *)
Definition direction (tau : R) (n : vec3 Fnum) : Prop :=
  (forall x, In x [n0 n; n1 n; n2 n] -> is_finite x = true) /\
  (B2R (n0 n) ^ 2 + B2R (n1 n) ^ 2 + B2R (n2 n) ^ 2 <= (1 + tau) ^ 2)%R.
(** The reported squared distance [d] exceeds the exact one of point [p] by rounding only. *)
Definition by_rounding (M tau : R) (query p : vec4 Fnum) (d : f64) : Prop :=
  (sqrt (B2R d) <= (1 + bpow radix2 (-51)) * (1 + tau) * euclid p query + bpow radix2 (-47) * M)%R.
