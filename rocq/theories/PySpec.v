(** What the Python interface should do, in terms of arrays and answers. *)
From Coq Require Import ZArith.
From Flocq Require Import IEEE754.BinarySingleNaN.
From Verif Require Import Base Num Vec F64 F64Proofs KdF64 KdSpec PyModel.
Open Scope nat_scope.

(** An array of n rows of three or four numbers. *)
Definition well_shaped (a : matrix) : Prop :=
  (m_cols a = 3 \/ m_cols a = 4) /\ Forall (fun r => length r = m_cols a) (m_rows a).
(** The point a row stands for. *)
Definition denoted (r : list f64) : vec4 Fnum :=
  match r with
  | x :: y :: z :: _ => V4 (D := Fnum) x y z (f64_of 1 0)
  | _ => V4 (D := Fnum) (f64_of 0 0) (f64_of 0 0) (f64_of 0 0) (f64_of 1 0)
  end.
(** The fourth column, if there is one, holds ones. *)
Definition unit_weights (a : matrix) : Prop :=
  m_cols a = 4 -> forall r, In r (m_rows a) -> nth_error r 3 = Some (f64_of 1 0).
(** An array a tree can be built from: at least one row, not more than node indices, finite. *)
Definition indexable (a : matrix) : Prop :=
  well_shaped a /\ m_rows a <> [] /\ (N.of_nat (length (m_rows a)) <= 4294967295)%N /\
  forall r, In r (m_rows a) -> vfinite (denoted r).

(** Nothing found is reported as index -1 (as a 64-bit unsigned number) at the largest double. *)
Definition none_index : N := 18446744073709551615%N.
Definition none_dist : f64 := nmaxv (n := Fnum).

(** Answer to a nearest-neighbour query over points: found, index, squared distance. *)
Definition nearest_answer (sqd : vec4 Fnum -> vec4 Fnum -> f64) (points : list (vec4 Fnum)) (q : vec4 Fnum)
  (ans : nat * N * f64) : Prop :=
  let '(found, i, d) := ans in
  (found = 1 /\ (exists p, nth_error points (N.to_nat i) = Some p /\ d = sqd p q) /\
   forall p, In p points -> nlt (n := Fnum) (sqd p q) d = false) \/
  (found = 0 /\ i = none_index /\ d = none_dist /\
   forall p, In p points -> nlt (n := Fnum) (sqd p q) none_dist = false).

(** Answer to a k-nearest-neighbour query: the k nearest, padded. *)
Definition knn_answer (sqd : vec4 Fnum -> vec4 Fnum -> f64) (points : list (vec4 Fnum)) (q : vec4 Fnum) (k : nat)
  (ans : list N * list f64) : Prop :=
  exists res, is_knn (dist_to (D := Fnum) sqd points q) (length points) k res /\
    fst ans = map fst res ++ repeat none_index (k - length res) /\
    snd ans = map snd res ++ repeat none_dist (k - length res).
