(** How accurate the statistics of a Gaussian voxel are in doubles. *)
From Coq Require Import Reals ZArith List.
From Flocq Require Import Core IEEE754.BinarySingleNaN.
From Verif Require Import Base Num Vec F64 F64Proofs VoxSpec VmapModel VmapSpec.
Open Scope nat_scope.

(** The component of a matrix of doubles. *)
Definition entry_at (a : mat4 Fnum) (i j : nat) : f64 :=
  vcomp (D := Fnum) (match i with 0 => row0 a | 1 => row1 a | 2 => row2 a | _ => row3 a end) j.

(** Error of a mean of n numbers of magnitude at most M, gathered in c insertions. *)
Definition accuracy (n c : nat) (M : R) : R :=
  (INR (n + 2 * c) * bpow radix2 (-52) * M + INR c * bpow radix2 (-1073))%R.

(** A number of magnitude at most M, and a double close to the mean of a list of numbers. *)
Definition within (M : R) (x : f64) : Prop := finite x /\ (Rabs (B2R x) <= M)%R.
Definition near_mean (n c : nat) (M : R) (x : f64) (l : list f64) : Prop :=
  finite x /\ (Rabs (B2R x - mean (map B2R l)) <= accuracy n c M)%R.

(** How many of the insertions put a point into the voxel. *)
Definition visits {pose} (coord_of : vec4 Fnum -> outcome coord) (act : pose -> item Fnum -> item Fnum) (co : coord)
  (h : list (pose * list (item Fnum))) : nat :=
  length (filter (fun k => match here coord_of act co k with [] => false | _ => true end) h).
