(** A pose that is already an exact alignment, in double precision. *)
From Coq Require Import Reals ZArith.
From Flocq Require Import Core IEEE754.BinarySingleNaN.
From Verif Require Import Base Num Vec Lin F64 KdF64 FactorModel OptModel NanMap.
Open Scope R_scope.

(** A property of every entry. *)
Definition all3 (P : f64 -> Prop) (v : v3 Ffld) : Prop := P (p0 v) /\ P (p1 v) /\ P (p2 v).
Definition allm (P : f64 -> Prop) (a : m3 Ffld) : Prop := all3 P (r0 a) /\ all3 P (r1 a) /\ all3 P (r2 a).
Definition all6 (P : f64 -> Prop) (v : v6 Ffld) : Prop := all3 P (rv v) /\ all3 P (tv v).
Definition allm6 (P : f64 -> Prop) (a : m6 Ffld) : Prop := allm P (brr a) /\ allm P (brt a) /\ allm P (btr a) /\ allm P (btt a).
(** A finite double of magnitude at most 2^a. *)
Definition upto (a : Z) (x : f64) : Prop := is_finite x = true /\ Rabs (B2R x) <= bpow radix2 a.

(** The same pose up to the signs of zeros. *)
Definition same3 (a b : v3 Ffld) : Prop := same (p0 a) (p0 b) /\ same (p1 a) (p1 b) /\ same (p2 a) (p2 b).
Definition same_pose (A B : pose Ffld) : Prop :=
  same3 (r0 (rot A)) (r0 (rot B)) /\ same3 (r1 (rot A)) (r1 (rot B)) /\ same3 (r2 (rot A)) (r2 (rot B)) /\ same3 (tra A) (tra B).

(** At pose T every source point, moved as the program moves it, is a target point. *)
Definition lands_exactly (target source : cloud Ffld) (T : pose Ffld) : Prop :=
  forall p, In p (cl_points source) -> exists q, In q (cl_points target) /\ same4 q (pose_pt T p).
(** Coordinates of target points and moved source points that are not equal differ by at
    least 2^-500 (which any two different doubles of magnitude above 2^-447 do). *)
Definition apart (x y : f64) : Prop := same x y \/ bpow radix2 (-500) <= Rabs (B2R x - B2R y).
Definition told_apart (target source : cloud Ffld) (T : pose Ffld) : Prop :=
  forall (p q : vec4 Fnum), In p (cl_points source) -> In q (cl_points target) ->
    let m : vec4 Fnum := pose_pt (D := Ffld) T p in
    apart (vx q) (vx m) /\ apart (vy q) (vy m) /\ apart (vz q) (vz m) /\ apart (vw q) (vw m).
(** Coordinates, pose and attributes far from overflow. *)
Definition in_range (k : kind) (target source : cloud Ffld) (T : pose Ffld) : Prop :=
  (forall p, In p (cl_points source) -> all3 (upto 20) (head p) /\ is_finite (vw p) = true) /\
  allm (upto 2) (rot T) /\ all3 (fun x => is_finite x = true) (tra T) /\
  match k with
  | ICP => True
  | PlaneICP => forall n, In n (cl_normals target) -> all3 (upto 10) (head n) /\ is_finite (vw n) = true
  | GICP => forall i j ct cs, nth_error (cl_covs target) i = Some ct -> nth_error (cl_covs source) j = Some cs ->
      allm (upto 40) (maha_of T ct cs)
  end /\
  (Z.of_nat (length (cl_points source)) < 2 ^ 32)%Z.

(** The linear solver answers zero to zero when the matrix is far from overflow, the
    exponential map maps zero to the identity. *)
Definition answers_zero (solve : m6 Ffld -> v6 Ffld -> v6 Ffld) : Prop :=
  forall H b, allm6 (upto 128) H -> all6 isz b -> all6 isz (solve H b).
Definition zero_to_identity (exp6 : v6 Ffld -> pose Ffld) : Prop :=
  forall d, all6 isz d -> same_pose (exp6 d) pose_id.

(** What the start must lead to. *)
Definition kept64 (T : pose Ffld) (n : nat) (r : result Ffld) : Prop :=
  same_pose (r_T r) T /\ r_converged r = true /\ r_iterations r = 0%nat /\ r_inliers r = n /\ all6 isz (r_b r) /\ isz (r_error r).
