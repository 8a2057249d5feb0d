(** What a scan-to-scan odometry trajectory is. *)
From Verif Require Import Base.

Section Spec.
Context (Cloud Tree Pose : Type).
Context (downsample : Cloud -> Cloud) (build : Cloud -> Tree) (estimate_covs : Cloud -> Tree -> Cloud).
Context (register : Cloud -> Cloud -> Tree -> Pose) (mul : Pose -> Pose -> Pose) (identity : Pose).

(** A preprocessed scan: the cloud with covariances and the search tree. *)
Definition prepared (c : Cloud) : Cloud * Tree :=
  let d := downsample c in let t := build d in (estimate_covs d t, t).
(** Motion from one preprocessed scan to another. *)
Definition motion (a b : Cloud * Tree) : Pose := register (fst a) (fst b) (snd a).
(** Poses of a sequence of motions started at T. *)
Fixpoint poses (T : Pose) (motions : list Pose) : list Pose :=
  match motions with [] => [] | m :: l => mul T m :: poses (mul T m) l end.
(** Motions between consecutive scans. *)
Fixpoint motions (a : Cloud) (cs : list Cloud) : list Pose :=
  match cs with [] => [] | b :: l => motion (prepared a) (prepared b) :: motions b l end.
(** The trajectory: the first pose, then one pose per further scan. *)
Definition trajectory_from (T0 : Pose) (cs : list Cloud) : list Pose :=
  match cs with [] => [] | c :: l => T0 :: poses T0 (motions c l) end.
Definition trajectory (cs : list Cloud) : list Pose := trajectory_from identity cs.
End Spec.
Arguments prepared {Cloud Tree}. Arguments motion {Cloud Tree Pose}. Arguments poses {Pose}.
Arguments motions {Cloud Tree Pose}. Arguments trajectory_from {Cloud Tree Pose}. Arguments trajectory {Cloud Tree Pose}.
