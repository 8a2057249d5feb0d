(** Independent specification of voxel grid downsampling. *)
From Coq Require Import Reals.
From Verif Require Import Base Num Vec RNum VoxModel.
Open Scope nat_scope.

Section Spec.
Context (D : num).

(** [s] is a sum of the vectors [l], added up one after the other, with or without an
    initial zero. *)
Definition is_sum (l : list (vec4 D)) (s : vec4 D) : Prop :=
  s = fold_left vadd l vzero \/
  exists p r, l = p :: r /\ s = fold_left vadd r p.

(** Points with the given positions. *)
Definition pick (points : list (vec4 D)) (g : list nat) : list (vec4 D) :=
  flat_map (fun i => match nth_error points i with Some p => [p] | None => [] end) g.

(** Output [out] consists of the normalised sums of the groups [gs]. *)
Definition group_means (points : list (vec4 D)) (gs : list (N * list nat))
    (out : list (vec4 D)) : Prop :=
  Forall2 (fun g o => exists s, is_sum (pick points (snd g)) s /\ o = emit s) gs out.

(** Every point's key, given by [keys]. *)
Definition keyed (key : vec4 D -> outcome N) (points : list (vec4 D)) (keys : nat -> N) : Prop :=
  forall i p, nth_error points i = Some p -> key p = Ok (keys i) /\ (keys i <= INVALID_COORD)%N.

Definition in_range (keys : nat -> N) (i : nat) : bool := negb (keys i =? INVALID_COORD)%N.

(** [gs] lists the occupied voxels: ascending distinct keys, each with all its points. *)
Definition voxel_groups (n : nat) (keys : nat -> N) (gs : list (N * list nat)) : Prop :=
  StronglySorted N.lt (map fst gs) /\
  (forall k g, In (k, g) gs -> g <> [] /\ k <> INVALID_COORD /\
     Permutation g (filter (fun i => (keys i =? k)%N) (seq 0 n))) /\
  (forall i, i < n -> in_range keys i = true -> In (keys i) (map fst gs)).

End Spec.
Arguments is_sum {D}.
Arguments pick {D}.
Arguments group_means {D}.
Arguments keyed {D}.

(** Exact mean of a list of homogeneous points with w = 1. *)
Definition Rsum (l : list R) : R := fold_right Rplus 0%R l.
Definition mean (l : list R) : R := (Rsum l / INR (length l))%R.
Definition mean4 (l : list (vec4 Rnum)) : vec4 Rnum :=
  V4 (D := Rnum) (mean (map vx l)) (mean (map vy l)) (mean (map vz l)) 1%R.

(** * Grid cells of IEEE points *)
From Flocq Require Import Core.
From Flocq Require Import IEEE754.BinarySingleNaN.
From Verif Require Import F64.

(** Cell number along one axis: floor of the (rounded) product with 1/leaf_size. *)
Definition axis_cell (inv x : f64) : Z := Zfloor (B2R (f64_mul x inv)).
Definition in_axis (inv x : f64) : Prop :=
  is_finite (f64_mul x inv) = true /\ (-1048576 <= axis_cell inv x < 1048576)%Z.

Definition cell (inv : f64) (p : vec4 Fnum) : Z * Z * Z :=
  (axis_cell inv (vx p), axis_cell inv (vy p), axis_cell inv (vz p)).

(** The program tests all four homogeneous coordinates. *)
Definition in_grid (inv : f64) (p : vec4 Fnum) : Prop :=
  in_axis inv (vx p) /\ in_axis inv (vy p) /\ in_axis inv (vz p) /\ in_axis inv (vw p).

(** Lexicographic order on cells, z first. *)
Definition cell_lt (a b : Z * Z * Z) : Prop :=
  let '(x1, y1, z1) := a in let '(x2, y2, z2) := b in
  (z1 < z2 \/ z1 = z2 /\ (y1 < y2 \/ y1 = y2 /\ x1 < x2))%Z.

(** Decidable versions. *)
Definition in_axisb (inv x : f64) : bool :=
  is_finite (f64_mul x inv) && (-1048576 <=? axis_cell inv x)%Z && (axis_cell inv x <? 1048576)%Z.
Definition in_gridb (inv : f64) (p : vec4 Fnum) : bool :=
  in_axisb inv (vx p) && in_axisb inv (vy p) && in_axisb inv (vz p) && in_axisb inv (vw p).
Definition cell_eqb (a b : Z * Z * Z) : bool :=
  let '(x1, y1, z1) := a in let '(x2, y2, z2) := b in
  (x1 =? x2)%Z && (y1 =? y2)%Z && (z1 =? z2)%Z.
(** [p] is a point of the voxel [c]. *)
Definition in_voxel (inv : f64) (c : Z * Z * Z) (p : vec4 Fnum) : bool :=
  in_gridb inv p && cell_eqb (cell inv p) c.

(** No undefined integer operation happens for the point: always on x86; by the C++
    standard only for coordinates that fit an int with room for the offset. *)
Definition safe_axis (inv x : f64) : Prop :=
  is_finite (f64_mul x inv) = true /\ (-2147483648 <= axis_cell inv x <= 2147483647 - 1048576)%Z.
Definition safe (m : FloorModel.int_mode) (inv : f64) (p : vec4 Fnum) : Prop :=
  m = FloorModel.X86 \/
  safe_axis inv (vx p) /\ safe_axis inv (vy p) /\ safe_axis inv (vz p) /\ safe_axis inv (vw p).

(** Approximate mean: how far a computed coordinate may be from the exact mean of [n]
    doubles with mean magnitude [m]. *)
Definition mean_err (n : nat) (m : R) : R :=
  (((1 + bpow radix2 (-53)) ^ S n - 1) * m + bpow radix2 (-1075))%R.

Definition axis_mean (f : vec4 Fnum -> f64) (l : list (vec4 Fnum)) : R :=
  mean (map (fun p => B2R (f p)) l).
Definition axis_mean_abs (f : vec4 Fnum -> f64) (l : list (vec4 Fnum)) : R :=
  mean (map (fun p => Rabs (B2R (f p))) l).

Definition approx_axis (f : vec4 Fnum -> f64) (l : list (vec4 Fnum)) (o : vec4 Fnum) : Prop :=
  is_finite (f o) = true /\
  (Rabs (B2R (f o) - axis_mean f l) <= mean_err (length l) (axis_mean_abs f l))%R.

(** [o] is the centroid of the points [l], up to rounding; its w is exactly 1. *)
Definition approx_mean (l : list (vec4 Fnum)) (o : vec4 Fnum) : Prop :=
  approx_axis vx l o /\ approx_axis vy l o /\ approx_axis vz l o /\ vw o = f64_of 1 0.

(** A usable point: w = 1 and coordinates of moderate size. *)
Definition usable (p : vec4 Fnum) : Prop :=
  vw p = f64_of 1 0 /\
  forall f : vec4 Fnum -> f64, f = vx \/ f = vy \/ f = vz ->
    is_finite (f p) = true /\ (Rabs (B2R (f p)) <= bpow radix2 900)%R.
