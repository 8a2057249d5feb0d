(** Normal and covariance estimation: util/normal_estimation.hpp, _omp.hpp, _tbb.hpp, and the
    storage of PointCloud, points/point_cloud.hpp. *)
From Verif Require Import Base Num Vec Lin FactorModel.

Section Est.
Context (D : fld).
Notation K := (car D).

(** std::vector::resize; [junk] fills new elements (Eigen does not initialise them). *)
Definition resize {A : Type} (junk : A) (l : list A) (n : nat) : list A :=
  firstn n l ++ repeat junk (n - length l).
(** PointCloud::resize, point_cloud.hpp:43-49. *)
Definition cloud_resize (jp jn : vec4 D) (jc : m4 D) (c : cloud D) (n : nat) : cloud D :=
  mkCloud (resize jp (cl_points c) n) (resize jn (cl_normals c) n) (resize jc (cl_covs c) n).

(** What the code takes from elsewhere: knn_search of the tree (the indices written, nearest
    first), SelfAdjointEigenSolver::computeDirect (the eigenvector matrix), size_t to double,
    and the constant 1e-3. *)
Context (knn : vec4 D -> nat -> outcome (list nat)) (eig : m3 D -> m3 D) (of_nat : nat -> K) (milli : K).

(** VectorXd::normalized(): unchanged if the squared norm is not positive. *)
Definition normalized (v : v3 D) : v3 D :=
  let z := dot3 v v in
  if nlt nzero z then P3 (ndiv (p0 v) (fsqrt z)) (ndiv (p1 v) (fsqrt z)) (ndiv (p2 v) (fsqrt z)) else v.
Definition dot4 (a b : vec4 D) : K :=
  nadd (nadd (nmul (vx a) (vx b)) (nmul (vy a) (vy b))) (nadd (nmul (vz a) (vz b)) (nmul (vw a) (vw b))).
Definition vopp (v : vec4 D) : vec4 D := V4 (fopp (vx v)) (fopp (vy v)) (fopp (vz v)) (fopp (vw v)).

(** NormalSetter, normal_estimation.hpp:13-26. *)
Definition normal_invalid : vec4 D := vzero.
Definition normal_of (V : m3 D) (p : vec4 D) : vec4 D :=
  let u := normalized (c0 V) in
  let normal := V4 (p0 u) (p1 u) (p2 u) nzero in
  if nlt nzero (dot4 p normal) then vopp normal else normal.

(** CovarianceSetter, normal_estimation.hpp:31-46. *)
Definition cov_invalid : m4 D := B4 id3 zero3 zero3 nzero.
Definition cov_of (V : m3 D) : m4 D :=
  B4 (mm3 (mm3 V (diag3 (P3 milli fone fone))) (tr3 V)) zero3 zero3 nzero.

(** The upper left 3x3 block of cov, normal_estimation.hpp:77-88 (only this block is used).
    Sums start at zero and run over the neighbours in order. *)
Definition sum_points (pts : list (vec4 D)) : v3 D := fold_left (fun a p => add3 a (head p)) pts zero3.
Definition sum_cross (pts : list (vec4 D)) : m3 D := fold_left (fun a p => madd3 a (outer3 (head p) (head p))) pts mzero3.
Definition div3 (v : v3 D) (s : K) : v3 D := P3 (ndiv (p0 v) s) (ndiv (p1 v) s) (ndiv (p2 v) s).
Definition mdiv3 (m : m3 D) (s : K) : m3 D := M3 (div3 (r0 m) s) (div3 (r1 m) s) (div3 (r2 m) s).
Definition scatter (pts : list (vec4 D)) : m3 D :=
  let n := of_nat (length pts) in
  let mean := div3 (sum_points pts) n in
  mdiv3 (msub3 (sum_cross pts) (outer3 mean (sum_points pts))) n.

(** Which Setter. *)
Inductive setter : Type := Normals | Covs | Both.
Inductive write : Type := WNormal (i : nat) (v : vec4 D) | WCov (i : nat) (m : m4 D).
Definition invalid_writes (st : setter) (i : nat) : list write :=
  match st with
  | Normals => [WNormal i normal_invalid]
  | Covs => [WCov i cov_invalid]
  | Both => [WNormal i normal_invalid; WCov i cov_invalid]
  end.
Definition valid_writes (st : setter) (i : nat) (p : vec4 D) (V : m3 D) : list write :=
  match st with
  | Normals => [WNormal i (normal_of V p)]
  | Covs => [WCov i (cov_of V)]
  | Both => [WNormal i (normal_of V p); WCov i (cov_of V)]
  end.
(** estimate_local_features for one point, normal_estimation.hpp:66-92, up to its writes. *)
Definition local_writes (st : setter) (c : cloud D) (k i : nat) : outcome (list write) :=
  let* p := get (cl_points c) i in
  let* found := knn p k in
  if length found <? 5 then Ok (invalid_writes st i)
  else
    let* pts := mapM (fun j => get (cl_points c) j) found in
    Ok (valid_writes st i p (eig (scatter pts))).
Definition do_write (c : cloud D) (w : write) : outcome (cloud D) :=
  match w with
  | WNormal i v => let* ns := set (cl_normals c) i v in Ok (mkCloud (cl_points c) ns (cl_covs c))
  | WCov i m => let* cs := set (cl_covs c) i m in Ok (mkCloud (cl_points c) (cl_normals c) cs)
  end.
Definition estimate_one (st : setter) (k : nat) (c : cloud D) (i : nat) : outcome (cloud D) :=
  let* ws := local_writes st c k i in foldM do_write ws c.

(** estimate_local_features over a cloud, normal_estimation.hpp:94-110. *)
Definition estimate (st : setter) (jp jn : vec4 D) (jc : m4 D) (k : nat) (c : cloud D) : outcome (cloud D) :=
  let n := length (cl_points c) in
  foldM (estimate_one st k) (seq 0 n) (cloud_resize jp jn jc c n).

(** The OpenMP and TBB loops (normal_estimation_omp.hpp:9-27, normal_estimation_tbb.hpp:11-32):
    some iterations are not started, some have computed their values and have writes left; any
    of them may do the next step. *)
Record par_state : Type := mkPar { s_cloud : cloud D; s_todo : list nat; s_active : list (list write) }.
Definition par_init (jp jn : vec4 D) (jc : m4 D) (c : cloud D) : par_state :=
  let n := length (cl_points c) in mkPar (cloud_resize jp jn jc c n) (seq 0 n) [].
Inductive par_step (st : setter) (k : nat) : par_state -> outcome par_state -> Prop :=
| ParStart : forall c l1 i l2 act,
    par_step st k (mkPar c (l1 ++ i :: l2) act)
      (let* ws := local_writes st c k i in Ok (mkPar c (l1 ++ l2) (ws :: act)))
| ParWrite : forall c todo a1 w ws a2,
    par_step st k (mkPar c todo (a1 ++ (w :: ws) :: a2))
      (let* c' := do_write c w in Ok (mkPar c' todo (a1 ++ ws :: a2))).
Inductive par_runs (st : setter) (k : nat) : par_state -> outcome par_state -> Prop :=
| ParHere : forall s, par_runs st k s (Ok s)
| ParMore : forall s s1 o, par_step st k s (Ok s1) -> par_runs st k s1 o -> par_runs st k s o
| ParFail : forall s o, par_step st k s o -> (forall s1, o <> Ok s1) -> par_runs st k s o.
Definition par_finished (s : par_state) : Prop := s_todo s = [] /\ Forall (fun ws => ws = []) (s_active s).

End Est.
Arguments resize {A}. Arguments cloud_resize {D}. Arguments normalized {D}. Arguments dot4 {D}. Arguments vopp {D}.
Arguments normal_invalid {D}. Arguments normal_of {D}. Arguments cov_invalid {D}. Arguments cov_of {D}.
Arguments sum_points {D}. Arguments sum_cross {D}. Arguments div3 {D}. Arguments mdiv3 {D}. Arguments scatter {D}.
Arguments WNormal {D}. Arguments WCov {D}. Arguments invalid_writes {D}. Arguments valid_writes {D}.
Arguments local_writes {D}. Arguments do_write {D}. Arguments estimate_one {D}. Arguments estimate {D}.
Arguments mkPar {D}. Arguments s_cloud {D}. Arguments s_todo {D}. Arguments s_active {D}.
Arguments par_init {D}. Arguments par_step {D}. Arguments par_runs {D}. Arguments par_finished {D}.
