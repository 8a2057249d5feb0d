(** What an odometry trajectory is. *)
From Coq Require Import ZArith.
From Verif Require Import Base Num Vec F64 FloorModel Lin FactorModel VoxModel VoxSpec VmapModel OptModel OptSpec HelperSpec PipeModel PipeSpec KdF64 EstModel EstF64Spec.
Open Scope nat_scope.

(** Raw points of one frame: homogeneous, few enough for 32-bit node indices, some of them inside
    the downsampling grid. *)
Record frame_ok (m : int_mode) (resolution : f64) (points : list (vec4 Fnum)) : Prop := mkFrame {
  fr_safe : forall p, In p points -> safe m (per_unit resolution) p;
  fr_homogeneous : forall p, In p points -> homogeneous p;
  fr_length : (N.of_nat (length points) <= 4294967295)%N;
  fr_some : exists p, In p points /\ in_grid (per_unit resolution) p
}.

(** The frame as it is registered: one point per voxel, each with the covariance of its k nearest. *)
Record framed (order : sumtree) (eig : m3 Ffld -> m3 Ffld) (of_nat : nat -> f64) (milli : f64) (k : nat) (resolution : f64)
  (points : list (vec4 Fnum)) (c : cloud Ffld) : Prop := mkFramed {
  fd_points : summarised_once (per_unit resolution) points (cl_points c);
  fd_nonempty : points <> [] -> cl_points c <> [];
  fd_covs : length (cl_covs c) = length (cl_points c);
  fd_estimated : estimated (fsqd order) eig of_nat milli Covs k c
}.

(** What of a cloud goes into a voxel map. *)
Definition items_of (c : cloud Ffld) : list (item Fnum) :=
  map (fun pc => mkItem (D := Fnum) (fst pc) vzero (to_rows (snd pc))) (combine (cl_points c) (cl_covs c)).

Section Track.
Context (framed : list (vec4 Fnum) -> cloud Ffld -> Prop).

(** Scan to scan: [registered p c r] says that r results from registering c against p from the
    identity.  The first pose is the initial one; each later one is the one before it composed
    with the motion from the frame before. *)
Fixpoint scan_track (registered : cloud Ffld -> cloud Ffld -> result Ffld -> Prop) (prev : option (cloud Ffld)) (T0 : pose Ffld)
  (frames : list (list (vec4 Fnum))) (traj : list (pose Ffld)) : Prop :=
  match frames, traj with
  | [], [] => True
  | points :: frames, T :: traj => exists c, framed points c /\
      match prev with
      | None => T = T0
      | Some p => exists r, registered p c r /\ T = pose_mul T0 (r_T r)
      end /\ scan_track registered (Some c) T frames traj
  | _, _ => False
  end.

(** Scan to model: [registered h T0 c r] says that r results from registering c against the map of
    history h (poses and clouds, oldest first) from pose T0.  The first pose is the initial one;
    each later one is where its frame fits the map of all frames before it. *)
Fixpoint model_track (registered : list (pose Ffld * cloud Ffld) -> pose Ffld -> cloud Ffld -> result Ffld -> Prop)
  (h : list (pose Ffld * cloud Ffld)) (T0 : pose Ffld) (frames : list (list (vec4 Fnum))) (traj : list (pose Ffld)) : Prop :=
  match frames, traj with
  | [], [] => True
  | points :: frames, T :: traj => exists c, framed points c /\
      match h with
      | [] => T = T0
      | _ :: _ => exists r, registered h T0 c r /\ T = r_T r
      end /\ model_track registered (h ++ [(T, c)]) T frames traj
  | _, _ => False
  end.
End Track.

(** All points of all frames together. *)
Definition total (frames : list (list (vec4 Fnum))) : nat := list_sum (map (@length _) frames).
