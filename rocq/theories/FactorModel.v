(** Per-point factors, rejectors, robust kernels and general factors:
    include/small_gicp/factors/*.hpp, registration/rejector.hpp. *)
From Verif Require Import Base Num Vec Lin.

Section Factor.
Context (D : fld).
Notation K := (car D).

(** A point cloud as the traits see it: points, normals and 4x4 covariances.  An attribute
    that was never set is an empty list, reading it is out of range. *)
Record cloud : Type := mkCloud {
  cl_points : list (vec4 D); cl_normals : list (vec4 D); cl_covs : list (m4 D)
}.

(** traits::point / traits::normal / traits::cov of anything usable as a point cloud, by
    index (points/traits.hpp:38-54).  A target may also be a voxel map, whose indices are
    packed 64-bit values. *)
Record view (I : Type) : Type := mkView {
  at_point : I -> outcome (vec4 D); at_normal : I -> outcome (vec4 D); at_cov : I -> outcome (m4 D)
}.
Definition cloud_view (c : cloud) : view nat :=
  mkView nat (get (cl_points c)) (get (cl_normals c)) (get (cl_covs c)).
Definition cloud_viewN (c : cloud) : view N :=
  mkView N (fun i => get (cl_points c) (N.to_nat i)) (fun i => get (cl_normals c) (N.to_nat i))
           (fun i => get (cl_covs c) (N.to_nat i)).

(** Linearised system (H, b, e). *)
Record sys : Type := mkSys { sH : m6 D; sb : v6 D; se : K }.
Definition sys_zero : sys := mkSys mzero6 zero6 nzero.
Definition sys_add (x y : sys) : sys :=
  mkSys (madd6 (sH x) (sH y)) (add6 (sb x) (sb y)) (nadd (se x) (se y)).

(** Which factor class: icp_factor.hpp, plane_icp_factor.hpp, gicp_factor.hpp. *)
Inductive kind : Type := ICP | PlaneICP | GICP.

(** Members of the factor classes.  target_index == SIZE_MAX is None; mahalanobis is the
    upper left 3x3 block (its other entries stay zero; only GICPFactor has it). *)
Record factor : Type := mkFactor { f_target : option N; f_source : nat; f_maha : m3 D }.

(** Constructors, gicp_factor.hpp:20-23, icp_factor.hpp:17, plane_icp_factor.hpp:17.
    source_index starts as SIZE_MAX; no code reads it before linearize sets it. *)
Definition factor_init : factor := mkFactor None 0 mzero3.

(** traits::nearest_neighbor_search(tree, pt, &index, &sq_dist): None is "0 found"; the
    search structure is a parameter (kd-tree, voxel map, projective search). *)
Context (nn : vec4 D -> outcome (option (N * K))).
(** The rejector's operator()(…, target_index, source_index, sq_dist); true rejects. *)
Context (reject : pose D -> N -> nat -> K -> bool).
Context (target : view N) (source : view nat).

(** Residual target_point - T * source_point. *)
Definition residual (T : pose D) (ti : N) (si : nat) : outcome (vec4 D) :=
  let* q := at_point _ target ti in
  let* p := at_point _ source si in
  Ok (vsub q (pose_pt T p)).

(** J of icp_factor.hpp:45-47 / gicp_factor.hpp:64-66: rotation block T.linear() * skew(p),
    translation block -T.linear(). *)
Definition point_jac (T : pose D) (p : vec4 D) : jac D :=
  Jac (mm3 (rot T) (skew (head p))) (mopp3 (rot T)).
(** plane_icp_factor.hpp:48-50: rows scaled by the normal. *)
Definition plane_jac (T : pose D) (n p : vec4 D) : jac D :=
  Jac (mm3 (mm3 (diag3 (head n)) (rot T)) (skew (head p))) (mm3 (diag3 (head n)) (mopp3 (rot T))).

(** 0.5 * r^T * M * r, gicp_factor.hpp:70, 88 *)
Definition quad (M : m3 D) (r : v3 D) : K := nmul fhalf (dot3 r (mv3 M r)).

(** Fused covariance and its inverse, gicp_factor.hpp:59-60. *)
Definition fused_cov (T : pose D) (ct cs : m4 D) : m4 D :=
  madd4 ct (mm4 (mm4 (pose_mat T) cs) (tr4 (pose_mat T))).
Definition maha_of (T : pose D) (ct cs : m4 D) : m3 D := inv3 (b33 (fused_cov T ct cs)).

(** The part of linearize after a correspondence was accepted. *)
Definition linearize_at (k : kind) (T : pose D) (ti : N) (si : nat) (f : factor) : outcome (factor * sys) :=
  let* r := residual T ti si in
  let* p := at_point _ source si in
  match k with
  | ICP =>
      let J := point_jac T p in
      Ok (mkFactor (Some ti) si (f_maha f),
          mkSys (jtj J) (jtr J (head r)) (nmul fhalf (sqnorm4 r)))
  | PlaneICP =>
      let* n := at_normal _ target ti in
      let err := vmul n r in
      let J := plane_jac T n p in
      Ok (mkFactor (Some ti) si (f_maha f),
          mkSys (jtj J) (jtr J (head err)) (nmul fhalf (sqnorm4 err)))
  | GICP =>
      let* ct := at_cov _ target ti in
      let* cs := at_cov _ source si in
      let M := maha_of T ct cs in
      let J := point_jac T p in
      Ok (mkFactor (Some ti) si M,
          mkSys (jwj J M) (jtr J (mv3 M (head r))) (quad M (head r)))
  end.

(** linearize, icp_factor.hpp:19-54, plane_icp_factor.hpp:19-57, gicp_factor.hpp:34-73.
    The result is the updated factor and, if it returned true, the written (H, b, e). *)
Definition linearize (k : kind) (T : pose D) (si : nat) (f : factor) : outcome (factor * option sys) :=
  let* p := at_point _ source si in
  let* found := nn (pose_pt T p) in
  match found with
  | None => Ok (mkFactor None si (f_maha f), None)
  | Some (ti, d) =>
      if reject T ti si d then Ok (mkFactor None si (f_maha f), None)
      else let* (f', s) := linearize_at k T ti si f in Ok (f', Some s)
  end.

(** error, icp_factor.hpp:56-64, plane_icp_factor.hpp:59-69, gicp_factor.hpp:80-89. *)
Definition error (k : kind) (T : pose D) (f : factor) : outcome K :=
  match f_target f with
  | None => Ok nzero
  | Some ti =>
      let* r := residual T ti (f_source f) in
      match k with
      | ICP => Ok (nmul fhalf (sqnorm4 r))
      | PlaneICP => let* n := at_normal _ target ti in Ok (nmul fhalf (sqnorm4 (vmul n r)))
      | GICP => Ok (quad (f_maha f) (head r))
      end
  end.

(** inlier, icp_factor.hpp:66 (the same in every factor). *)
Definition inlier (f : factor) : bool := match f_target f with Some _ => true | None => false end.

(** RobustFactor, robust_kernel.hpp:55-106, over any factor and any kernel weight. *)
Definition scale_sys (w : K) (s : sys) : sys := mkSys (mscale6 w (sH s)) (scale6 w (sb s)) (nmul (se s) w).
Definition linearize_robust (weight : K -> K) (k : kind) (T : pose D) (si : nat) (f : factor)
  : outcome (factor * option sys) :=
  let* (f', r) := linearize k T si f in
  match r with
  | None => Ok (f', None)
  | Some s => Ok (f', Some (scale_sys (weight (fsqrt (se s))) s))
  end.
Definition error_robust (weight : K -> K) (k : kind) (T : pose D) (f : factor) : outcome K :=
  let* e := error k T f in Ok (nmul (weight (fsqrt e)) e).

End Factor.

(** Rejectors, registration/rejector.hpp:13-32.  a > b is b < a. *)
Definition null_rejector {D : fld} : pose D -> N -> nat -> car D -> bool := fun _ _ _ _ => false.
Definition distance_rejector {D : fld} (max_dist_sq : car D) : pose D -> N -> nat -> car D -> bool :=
  fun _ _ _ sq_dist => nlt max_dist_sq sq_dist.

(** Huber::weight, robust_kernel.hpp:24-27; Cauchy::weight, robust_kernel.hpp:47. *)
Definition huber {D : fld} (c e : car D) : car D :=
  let e_abs := fabs e in if nlt e_abs c then fone else ndiv c e_abs.
Definition cauchy {D : fld} (c e : car D) : car D := ndiv c (nadd c (nmul e e)).

(** General factors, general_factor.hpp:11-76: what update_linearized_system does to
    (H, b, e) at pose T, and what update_error does to e. *)
Record general (D : fld) : Type := mkGeneral {
  upd_sys : pose D -> sys D -> sys D;
  upd_err : pose D -> car D -> car D
}.
Arguments mkGeneral {D}.
Arguments upd_sys {D}.
Arguments upd_err {D}.
Definition null_factor {D : fld} : general D := mkGeneral (fun _ s => s) (fun _ e => e).
(** RestrictDoFFactor, general_factor.hpp:43-75: H += lambda * diag(|mask - 1|). *)
Definition mask_penalty {D : fld} (mask : v6 D) : v6 D :=
  let g x := fabs (nsub x fone) in
  let h v := P3 (g (p0 v)) (g (p1 v)) (g (p2 v)) in
  P6 (h (rv mask)) (h (tv mask)).
Definition restrict_dof {D : fld} (lambda : car D) (mask : v6 D) : general D :=
  mkGeneral (fun _ s => mkSys _ (madd6 (sH _ s) (mscale6 lambda (diag6 (mask_penalty mask)))) (sb _ s) (se _ s))
            (fun _ e => e).

Arguments mkCloud {D}. Arguments cl_points {D}. Arguments cl_normals {D}. Arguments cl_covs {D}.
Arguments mkView {D I}. Arguments at_point {D I}. Arguments at_normal {D I}. Arguments at_cov {D I}.
Arguments cloud_view {D}. Arguments cloud_viewN {D}.
Arguments mkSys {D}. Arguments sH {D}. Arguments sb {D}. Arguments se {D}.
Arguments sys_zero {D}. Arguments sys_add {D}.
Arguments mkFactor {D}. Arguments f_target {D}. Arguments f_source {D}. Arguments f_maha {D}.
Arguments factor_init {D}. Arguments residual {D}. Arguments point_jac {D}. Arguments plane_jac {D}.
Arguments quad {D}. Arguments fused_cov {D}. Arguments maha_of {D}.
Arguments linearize_at {D}. Arguments linearize {D}. Arguments error {D}. Arguments inlier {D}.
Arguments scale_sys {D}. Arguments linearize_robust {D}. Arguments error_robust {D}.
