(** What downsampling a cloud of doubles should give. *)
From Coq Require Import Reals.
From Flocq Require Import Core IEEE754.BinarySingleNaN.
From Verif Require Import Base Num Vec F64 VoxModel VoxSpec.
Open Scope nat_scope.

(** The in-range points are split into non-empty groups, each inside one voxel, and the output
    has one point per group, its centroid up to rounding (with w exactly 1). *)
Definition summarised (inv : f64) (points out : list (vec4 Fnum)) : Prop :=
  exists groups : list (list (vec4 Fnum)),
    (forall g, In g groups -> g <> [] /\ exists c, forall p, In p g -> in_grid inv p /\ cell inv p = c) /\
    Permutation (concat groups) (filter (in_gridb inv) points) /\
    Forall2 approx_mean groups out.

(** One group per voxel. *)
Definition summarised_once (inv : f64) (points out : list (vec4 Fnum)) : Prop :=
  exists groups : list (list (vec4 Fnum)),
    (forall g, In g groups -> g <> [] /\ exists c, forall p, In p g -> in_grid inv p /\ cell inv p = c) /\
    (forall i j g h p q, nth_error groups i = Some g -> nth_error groups j = Some h -> In p g -> In q h ->
       cell inv p = cell inv q -> i = j) /\
    Permutation (concat groups) (filter (in_gridb inv) points) /\
    Forall2 approx_mean groups out.

(** A point as the library expects it, homogeneous with w = 1. *)
Definition homogeneous (p : vec4 Fnum) : Prop := vw p = f64_of 1 0.
(** Voxels per unit of length. *)
Definition per_unit (leaf_size : f64) : f64 := f64_div (f64_of 1 0) leaf_size.
(** 1 / leaf_size is a number and not absurdly small. *)
Definition moderate (inv : f64) : Prop := is_finite inv = true /\ (bpow radix2 (-800) <= B2R inv)%R.

(** The nearest of a list of points, with its distance; None when all are out of reach (their
    squared distances overflow). *)
Definition nearest_in (sqd : vec4 Fnum -> vec4 Fnum -> f64) (points : list (vec4 Fnum)) (q : vec4 Fnum) (found : option (N * f64)) : Prop :=
  match found with
  | None => forall p, In p points -> nlt (n := Fnum) (sqd p q) nmaxv = false
  | Some (i, d) => exists p, nth_error points (N.to_nat i) = Some p /\ d = sqd p q /\
      forall p', In p' points -> nlt (n := Fnum) (sqd p' q) d = false
  end.
