(** Points and poses with a coordinate that is not a number. *)
From Flocq Require Import IEEE754.BinarySingleNaN.
From Verif Require Import Base Num Vec Lin F64.

Definition isnan (x : f64) : Prop := is_nan x = true.

(** One of the three coordinates is not a number. *)
Definition bad (p : vec4 Ffld) : Prop := isnan (vx p) \/ isnan (vy p) \/ isnan (vz p).
Definition bad3 (p : v3 Ffld) : Prop := isnan (p0 p) \/ isnan (p1 p) \/ isnan (p2 p).

(** One entry of a pose is not a number. *)
Definition bad_pose (T : pose Ffld) : Prop :=
  (bad3 (r0 (rot T)) \/ bad3 (r1 (rot T)) \/ bad3 (r2 (rot T))) \/ bad3 (tra T).
