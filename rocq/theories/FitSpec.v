(** How far a cloud is from the target at a pose, over the reals. *)
From Coq Require Import Reals List.
From Verif Require Import Base Num Vec RNum Lin FactorModel MoveSpec.
Open Scope R_scope.

(** Squared distance to the nearest target point, but not more than [far]. *)
Definition capped (far : R) (target : list (vec4 Rfld)) (q : vec4 Rfld) : R :=
  fold_right (fun p m => Rmin (sq_gap p q) m) far target.
(** The sum of it over the source points at pose T. *)
Definition misfit (far : R) (target source : list (vec4 Rfld)) (T : pose Rfld) : R :=
  fold_right (fun p s => capped far target (pose_pt T p) + s) 0 source.
(** A rejector that drops exactly the correspondences whose squared distance exceeds [limit]
    (distances below the largest number). *)
Definition rejects_beyond (limit : R) (reject : pose Rfld -> N -> nat -> car Rfld -> bool) : Prop :=
  forall T ti si d, (d : R) < nmaxv (n := Rnum) -> (reject T ti si d = true <-> limit < d).
