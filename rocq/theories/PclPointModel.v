(** pcl::PointCloud as a point cloud of the library: include/small_gicp/pcl/pcl_point_traits.hpp
    over the point types of pcl_point.hpp.  PCL keeps floats, the library works with doubles. *)
From Coq Require Import ZArith List.
From Flocq Require Import IEEE754.BinarySingleNaN.
From Verif Require Import Base Num F64 F32 Vec Lin CloudModel.
Import ListNotations.
Open Scope nat_scope.
Local Open Scope list_scope.

(** float arithmetic; the traits only use the carrier. *)
Definition Snum : num := {|
  car := f32; nzero := B754_zero false; nmaxv := Bmax_float;
  nadd := Bplus mode_NE; nsub := Bminus mode_NE; nmul := Bmult mode_NE; ndiv := Bdiv mode_NE;
  nlt := fun x y => Bltb x y; nle := fun x y => Bleb x y |}.
Definition Sfld : fld :=
  mkFld Snum (@Bopp 24 128) (fun x => Bsqrt mode_NE x) (@Babs 24 128)
    (binary_normalize 24 128 _ _ mode_NE 1 0 false) (binary_normalize 24 128 _ _ mode_NE 1 (-1) false).

(** Eigen's cast<float>() and cast<double>(), component by component. *)
Definition cast4 {A B : num} (f : car A -> car B) (v : vec4 A) : vec4 B := V4 (f (vx v)) (f (vy v)) (f (vz v)) (f (vw v)).
Definition cast_v3 {A B : fld} (f : car A -> car B) (v : v3 A) : v3 B := P3 (f (p0 v)) (f (p1 v)) (f (p2 v)).
Definition cast_m3 {A B : fld} (f : car A -> car B) (m : m3 A) : m3 B := M3 (cast_v3 f (r0 m)) (cast_v3 f (r1 m)) (cast_v3 f (r2 m)).
Definition cast_m4 {A B : fld} (f : car A -> car B) (m : m4 A) : m4 B :=
  B4 (cast_m3 f (b33 m)) (cast_v3 f (b34 m)) (cast_v3 f (b43 m)) (f (b44 m)).

(** PointNormalCovariance, pcl_point.hpp; PointCovariance has no normal. *)
Record ppoint : Type := mkPP { pp_point : vec4 Snum; pp_normal : vec4 Snum; pp_cov : m4 Sfld }.
Definition pcl_cloud : Type := list ppoint.
(** points.at(i), which throws beyond the end. *)
Definition pcl_at (c : pcl_cloud) (i : nat) : outcome ppoint :=
  match nth_error c i with Some p => Ok p | None => Abort end.
Definition pcl_put (c : pcl_cloud) (i : nat) (f : ppoint -> ppoint) : outcome pcl_cloud :=
  let* p := pcl_at c i in Ok (upd c i (f p)).

Section Traits.
(** A point as resize() makes it; which values it holds depends on the point type. *)
Context (blank : ppoint).
(** resize, set_point, set_normal, set_cov, pcl_point_traits.hpp:22, 28-30. *)
Definition pcl_apply (c : pcl_cloud) (o : op (vec4 Fnum) (m4 Ffld)) : outcome pcl_cloud :=
  match o with
  | Resize n => Ok (firstn n c ++ repeat blank (n - length c))
  | SetPoint i v => pcl_put c i (fun p => mkPP (cast4 (A := Fnum) (B := Snum) narrow v) (pp_normal p) (pp_cov p))
  | SetNormal i v => pcl_put c i (fun p => mkPP (pp_point p) (cast4 (A := Fnum) (B := Snum) narrow v) (pp_cov p))
  | SetCov i m => pcl_put c i (fun p => mkPP (pp_point p) (pp_normal p) (cast_m4 (A := Ffld) (B := Sfld) narrow m))
  end.
Definition pcl_run (ops : list (op (vec4 Fnum) (m4 Ffld))) (c : pcl_cloud) : outcome pcl_cloud := foldM pcl_apply ops c.
End Traits.
(** point, normal, cov, pcl_point_traits.hpp:32-34. *)
Definition pcl_point (c : pcl_cloud) (i : nat) : outcome (vec4 Fnum) := let* p := pcl_at c i in Ok (cast4 (A := Snum) (B := Fnum) widen (pp_point p)).
Definition pcl_normal (c : pcl_cloud) (i : nat) : outcome (vec4 Fnum) := let* p := pcl_at c i in Ok (cast4 (A := Snum) (B := Fnum) widen (pp_normal p)).
Definition pcl_cov (c : pcl_cloud) (i : nat) : outcome (m4 Ffld) := let* p := pcl_at c i in Ok (cast_m4 (A := Sfld) (B := Ffld) widen (pp_cov p)).
(** size, has_points, has_normals, has_covs, pcl_point_traits.hpp:21, 24-26. *)
Definition pcl_size (c : pcl_cloud) : nat := length c.
Definition pcl_has_points (c : pcl_cloud) : bool := negb (match c with [] => true | _ => false end).
Definition pcl_has_normals (c : pcl_cloud) : bool := negb (match c with [] => true | _ => false end).
Definition pcl_has_covs (c : pcl_cloud) : bool := negb (match c with [] => true | _ => false end).
