(** NormalProjection::find_axis, include/small_gicp/ann/projection.hpp:71-95. *)
From Verif Require Import Base Num Vec Lin KdModel EstModel.

Section Axis.
Context (D : fld) (eig : m3 D -> m3 D).

(** The loop of projection.hpp:79-84; only the upper left block of sum_sq is used later. *)
Definition normal_sums (range : list (vec4 D)) (positions : list nat) : outcome (vec4 D * m3 D) :=
  foldM (fun (s : vec4 D * m3 D) i =>
           let* pt := get range i in
           Ok (vadd (fst s) pt, madd3 (snd s) (outer3 (head pt) (head pt))))
        positions (vzero, mzero3).
(** projection.hpp:86-94: the third eigenvector of the covariance block.  [eig] is
    SelfAdjointEigenSolver::computeDirect, returning the eigenvector matrix. *)
Definition normal_find (max_scan_count : Z) (range : list (vec4 D)) : outcome (v3 D) :=
  let* (step, steps) := scan_plan (length range) max_scan_count in
  let* (sum_pt, sum_sq) := normal_sums range (scan_positions step steps) in
  let mean := div3 (head sum_pt) (vw sum_pt) in
  let cov := mdiv3 (msub3 sum_sq (outer3 mean (head sum_pt))) (vw sum_pt) in
  Ok (c2 (eig cov)).
End Axis.
Arguments normal_sums {D}. Arguments normal_find {D}.
