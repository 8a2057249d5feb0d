(** The per-point factors of the Python module, src/python/factors.cpp, and the loop a Python
    program writes around them (src/test/python_test.py:155-164). *)
From Verif Require Import Base Num Vec Lin FactorModel.

Section PyFactor.
Context (D : fld).
Notation K := (car D).
(** KdTree<PointCloud> of the target, the two clouds. *)
Context (nn : vec4 D -> outcome (option (N * K))) (target : view D N) (source : view D nat).

(** DistanceRejector with set_max_distance, factors.cpp:30-33. *)
Definition set_max_distance (dist : K) : pose D -> N -> nat -> K -> bool := distance_rejector (nmul dist dist).
Context (reject : pose D -> N -> nat -> K -> bool).

(** linearize, factors.cpp:54-67, 115-128, 176-189 (the three are the same text): the object is
    changed in place, the result is (success, H, b, e) with zeros where the factor wrote nothing.
    T is a rigid transformation; a source index that is no size_t is refused by pybind. *)
Definition py_linearize (k : kind) (f : factor D) (T : pose D) (i : nat) : outcome (factor D * (bool * m6 D * v6 D * K)) :=
  let* (f', r) := linearize nn reject target source k T i f in
  match r with
  | Some s => Ok (f', (true, sH s, sb s, se s))
  | None => Ok (f', (false, mzero6, zero6, nzero))
  end.
(** python_test.py:155-164: one factor object for all points, accepted results are added up. *)
Definition py_sum (k : kind) (f : factor D) (T : pose D) (size : nat) : outcome (factor D * (m6 D * v6 D * K)) :=
  foldM (fun st i =>
    let '(f, (sum_H, sum_b, sum_e)) := st in
    let* (f', r) := py_linearize k f T i in
    let '(succ, H, b, e) := r in
    Ok (f', if succ then (madd6 sum_H H, add6 sum_b b, nadd sum_e e) else (sum_H, sum_b, sum_e)))
    (seq 0 size) (f, (mzero6, zero6, nzero)).
End PyFactor.
Arguments set_max_distance {D}. Arguments py_linearize {D}. Arguments py_sum {D}.
