(** What the trajectories of the Python odometry example are. *)
From Coq Require Import ZArith.
From Verif Require Import Base Num Vec F64 Lin FactorModel OptModel VoxSpec KdF64 EstModel EstF64Spec PipeSpec PyModel PySpec.
Open Scope nat_scope.

(** One file: at least one row, not more than node indices, every point inside the grid. *)
Definition frame_fine (a : matrix) : Prop :=
  well_shaped a /\ unit_weights a /\ m_rows a <> [] /\ (N.of_nat (length (m_rows a)) <= 4294967295)%N /\
  forall r, In r (m_rows a) -> in_grid (per_unit (f64_of 1 (-2))) (denoted r).

Section Track.
(** The product of two motions and the inverse of one. *)
Context (mul : pose Ffld -> pose Ffld -> pose Ffld) (inv : pose Ffld -> pose Ffld).
Context (prepared : matrix -> cloud Ffld -> Prop).

(** Frame by frame: each frame is registered against the one before it, starting from the motion
    found for that one ([M]), and the motions multiply up. *)
Fixpoint pairwise (registered : cloud Ffld -> cloud Ffld -> pose Ffld -> pose Ffld -> Prop) (prev : option (cloud Ffld)) (M T : pose Ffld)
  (frames : list matrix) (traj : list (pose Ffld)) : Prop :=
  match frames, traj with
  | [], [] => True
  | a :: frames, T' :: traj => exists c, prepared a c /\
      match prev with
      | None => T' = T /\ pairwise registered (Some c) M T' frames traj
      | Some p => exists M', registered p c M M' /\ T' = mul T M' /\ pairwise registered (Some c) M' T' frames traj
      end
  | _, _ => False
  end.

(** Against the map of all frames before (history [h], at the poses reported for them), starting
    from the last pose moved on by the last motion. *)
Fixpoint mapwise (registered : list (pose Ffld * cloud Ffld) -> cloud Ffld -> pose Ffld -> pose Ffld -> Prop) (h : list (pose Ffld * cloud Ffld)) (M T : pose Ffld)
  (frames : list matrix) (traj : list (pose Ffld)) : Prop :=
  match frames, traj with
  | [], [] => True
  | a :: frames, T' :: traj => exists c, prepared a c /\
      match h with
      | [] => T' = T /\ mapwise registered [(T', c)] M T' frames traj
      | _ => registered h c (mul T M) T' /\ mapwise registered (h ++ [(T', c)]) (mul (inv T) T') T' frames traj
      end
  | _, _ => False
  end.
End Track.
