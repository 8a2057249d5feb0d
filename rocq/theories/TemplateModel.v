(** The user-defined classes of src/example/03_registration_template.cpp. *)
From Verif Require Import Base Num Vec Lin FactorModel EstModel.

Section Template.
Context (D : fld).
Notation K := (car D).

(** MyPoint and MyPointCloud, 03_registration_template.cpp:64-71.  The 36 features are a list. *)
Record my_point : Type := mkMy { my_pos : v3 D; my_normal : v3 D; my_features : list K }.
(** Traits<MyPointCloud>::point, normal, set_point, set_normal, :89-97, 109-111. *)
Definition to_point (p : my_point) : vec4 D := V4 (p0 (my_pos p)) (p1 (my_pos p)) (p2 (my_pos p)) fone.
Definition to_normal (p : my_point) : vec4 D := V4 (p0 (my_normal p)) (p1 (my_normal p)) (p2 (my_normal p)) nzero.
Definition my_at_point (c : list my_point) (i : nat) : outcome (vec4 D) := let* p := get c i in Ok (to_point p).
Definition my_at_normal (c : list my_point) (i : nat) : outcome (vec4 D) := let* p := get c i in Ok (to_normal p).
Definition my_set_point (c : list my_point) (i : nat) (pt : vec4 D) : outcome (list my_point) :=
  let* p := get c i in set c i (mkMy (head pt) (my_normal p) (my_features p)).
Definition my_set_normal (c : list my_point) (i : nat) (n : vec4 D) : outcome (list my_point) :=
  let* p := get c i in set c i (mkMy (my_pos p) (head n) (my_features p)).
(** The cloud as the library sees it through these functions (it has no covariances). *)
Definition my_cloud (c : list my_point) : cloud D := mkCloud (map to_point c) (map to_normal c) [].

(** std::priority_queue of (index, squared distance) with the smaller distance as the smaller
    element.  The list is the underlying vector; [push] and [pop] are the standard library's.
    [pop] gives top() and the queue after pop(). *)
Notation entry := (nat * K)%type.
Context (push : entry -> list entry -> list entry) (pop : list entry -> outcome (entry * list entry)).

(** The squared distance of :130. *)
Definition my_dist (pt : vec4 D) (p : my_point) : K :=
  let d := sub3 (my_pos p) (head pt) in dot3 d d.
(** int to size_t, and size_t to int (implementation-defined before C++20; modulo 2^32 with
    every compiler). *)
Definition size_of_int (k : Z) : Z := (k mod 2 ^ 64)%Z.
Definition int_of_size (k : Z) : Z := ((k + 2 ^ 31) mod 2 ^ 32 - 2 ^ 31)%Z.
(** The loop body of :129-135; the comparison of size() with the int k converts k to size_t. *)
Definition my_visit (points : list my_point) (pt : vec4 D) (k : Z) (q : list entry) (i : nat) : outcome (list entry) :=
  let* p := get points i in
  let q := push (i, my_dist pt p) q in
  if (size_of_int k <? Z.of_nat (length q))%Z then let* (top, q) := pop q in Ok q else Ok q.
(** :139-143. *)
Fixpoint my_drain (fuel : nat) (q : list entry) (indices : list nat) (dists : list K) : outcome (list nat * list K) :=
  match q with
  | [] => Ok (indices, dists)
  | _ =>
      match fuel with
      | 0 => OutOfFuel
      | S fuel =>
          let* (top, q') := pop q in
          let* indices := set indices (length q - 1) (fst top) in
          let* dists := set dists (length q - 1) (snd top) in
          my_drain fuel q' indices dists
      end
  end.
(** MyNearestNeighborSearch::knn_search, :123-146; [indices] and [dists] are the caller's
    buffers. *)
Definition my_knn_search (points : list my_point) (pt : vec4 D) (k : Z) (indices : list nat) (dists : list K)
  : outcome (nat * list nat * list K) :=
  let* q := foldM (my_visit points pt k) (seq 0 (length points)) [] in
  let* (indices, dists) := my_drain (length q) q indices dists in
  Ok (length q, indices, dists).
(** Traits<MyNearestNeighborSearch>::knn_search, :164-166. *)
Definition my_traits_knn (points : list my_point) (pt : vec4 D) (k : Z) (indices : list nat) (dists : list K)
  : outcome (nat * list nat * list K) := my_knn_search points pt (int_of_size k) indices dists.
(** As called by estimate_local_features, normal_estimation.hpp:67-71: buffers of k elements. *)
Definition my_neighbors (points : list my_point) (pt : vec4 D) (k : nat) : outcome (list nat) :=
  let* (n, indices, _) := my_traits_knn points pt (Z.of_nat k) (repeat 0 k) (repeat nzero k) in
  Ok (firstn n indices).
(** As called by the factors through the fallback of ann/traits.hpp:55-57: k = 1, one index and
    one distance whose initial values [i0], [d0] are not initialised. *)
Definition my_nearest (points : list my_point) (i0 : nat) (d0 : K) (pt : vec4 D) : outcome (option (N * K)) :=
  let* (n, indices, dists) := my_traits_knn points pt 1 [i0] [d0] in
  if n =? 0 then Ok None
  else let* i := get indices 0 in let* d := get dists 0 in Ok (Some (N.of_nat i, d)).

(** MyCorrespondenceRejector::operator(), :191-205.  Both feature vectors are the target's, as
    lines 198 and 199 have it.  The order of the additions of the dot product is not modelled. *)
Definition feature_dot (a b : list K) : K := fold_left (fun s xy => nadd s (nmul (fst xy) (snd xy))) (combine a b) nzero.
Definition my_reject (max_dist_sq min_feature : K) (target source : list my_point) (T : pose D) (ti si : nat) (sq_dist : K)
  : outcome bool :=
  if nlt max_dist_sq sq_dist then Ok true
  else
    let* target_point := get target ti in
    let target_features := my_features target_point in
    let source_features := my_features target_point in
    Ok (nlt (feature_dot target_features source_features) min_feature).

(** MyGeneralFactor, :225-252: a penalty on the first two diagonal entries. *)
Definition my_general (lambda : K) : general D :=
  let mask := P6 (P3 fone fone nzero) (P3 nzero nzero nzero) in
  mkGeneral (fun _ s => mkSys (madd6 (sH s) (mscale6 lambda (diag6 mask))) (sb s) (se s)) (fun _ e => e).

(** Normal estimation in example2, :282-288: the search for the source cloud is built from the
    target, as line 283 has it.  [junk] as in EstModel; 10 neighbours there.  (The loop
    runs under OpenMP there; the order of its iterations does not matter, C34.) *)
Context (eig : m3 D -> m3 D) (of_nat : nat -> K) (milli : K).
Definition example2_source (jp jn : vec4 D) (jc : m4 D) (k : nat) (target source : list my_point) : outcome (cloud D) :=
  estimate (my_neighbors target) eig of_nat milli Normals jp jn jc k (my_cloud source).
Definition example2_target (jp jn : vec4 D) (jc : m4 D) (k : nat) (target : list my_point) : outcome (cloud D) :=
  estimate (my_neighbors target) eig of_nat milli Normals jp jn jc k (my_cloud target).
End Template.
Arguments mkMy {D}. Arguments my_pos {D}. Arguments my_normal {D}. Arguments my_features {D}.
Arguments to_point {D}. Arguments to_normal {D}. Arguments my_at_point {D}. Arguments my_at_normal {D}.
Arguments my_set_point {D}. Arguments my_set_normal {D}. Arguments my_cloud {D}. Arguments my_dist {D}.
Arguments my_visit {D}. Arguments my_drain {D}. Arguments my_knn_search {D}. Arguments my_traits_knn {D}.
Arguments my_neighbors {D}. Arguments my_nearest {D}. Arguments feature_dot {D}. Arguments my_reject {D}.
Arguments my_general {D}. Arguments example2_source {D}. Arguments example2_target {D}.
