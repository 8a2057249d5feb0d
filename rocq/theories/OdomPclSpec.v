(** What odometry on the PCL interface should do: register each frame against the one before and
    chain the motions. *)
From Coq Require Import ZArith List.
From Verif Require Import Base Num Vec F64 F32 Lin PclPointSpec.
Open Scope nat_scope.

(** What is left of a motion kept in floats. *)
Definition kept_pose (A B : pose Ffld) : Prop := kept_m3 (rot A) (rot B) /\ kept_v3 (tra A) (tra B).
(** The chain of motions after [prev], seen from the pose [T]. *)
Fixpoint chain {C R} (register : C -> C -> outcome R) (motion : R -> pose Ffld) (T : pose Ffld) (prev : C) (frames : list C) : outcome (list (pose Ffld)) :=
  match frames with
  | [] => Ok []
  | f :: fs => let* r := register prev f in let T' := pose_mul T (motion r) in let* l := chain register motion T' f fs in Ok (T' :: l)
  end.
(** The frames that are really used: a refused one is replaced by the one before the last. *)
Fixpoint effective {C} (accepted : C -> bool) (before prev : C) (frames : list C) : list C :=
  match frames with
  | [] => []
  | f :: fs => let g := if accepted f then f else before in g :: effective accepted prev g fs
  end.
(** One registration of the library between two clouds, each with its own tree and covariances;
    at least 5 neighbours and one thread are used. *)
Definition register {C tree cov base R : Type} (build : C -> tree) (estimate : C -> tree -> Z -> list cov)
  (run_gicp : base -> Z -> C -> list cov -> tree -> C -> list cov -> pose Ffld -> outcome R) (b : base) (k n : Z) (target source : C) : outcome R :=
  let cov_of c := estimate c (build c) (Z.max 5 k) in
  run_gicp b (Z.max 1 n) target (cov_of target) (build target) source (cov_of source) pose_id.
