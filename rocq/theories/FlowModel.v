(** Flow-graph odometry: src/benchmark/odometry_benchmark_small_gicp_tbb_flow.cpp, and the
    sequential odometry of src/benchmark/odometry_benchmark_small_gicp.cpp with the loop of
    include/small_gicp/benchmark/benchmark_odom.hpp. *)
From Verif Require Import Base.

Section Flow.
Context (Cloud Tree Pose : Type).
(** voxelgrid_sampling(points, downsampling_resolution), KdTree(points),
    estimate_covariances(points, tree, num_neighbors) (the cloud it leaves behind), and
    registration.align(target points, source points, target tree, Identity).T_target_source;
    Isometry3d product and identity. *)
Context (downsample : Cloud -> Cloud) (build : Cloud -> Tree) (estimate_covs : Cloud -> Tree -> Cloud).
Context (register : Cloud -> Cloud -> Tree -> Pose).
Context (mul : Pose -> Pose -> Pose) (identity : Pose).

(** InputFrame, tbb_flow.cpp:16-23.  kdtree starts null, T_last_current uninitialised; the
    stopwatch is left out. *)
Record frame : Type := mkFrame { fr_points : Cloud; fr_tree : option Tree; fr_T : option Pose }.

(** An InputFrame::Ptr: a frame of this run, by id, or one kept from an earlier run. *)
Inductive ref : Type := New (id : nat) | Old (f : frame).

(** State of the graph.  [last] is the static last_frame.  A task of the preprocessing node
    carries the number of statements it has executed, a task of the registration node its
    pair.  The sequencers hold a buffer and the id they emit next; the serial nodes have a
    queue. *)
Record state : Type := mkState {
  frames : list frame; last : option ref;
  pre : list (nat * nat);
  seq1 : list nat; next1 : nat; queue1 : list nat;
  reg : list (option ref * nat);
  seq2 : list nat; next2 : nat; queue2 : list nat;
  traj : list Pose
}.

Definition init (kept : option ref) : state := mkState [] kept [] [] 0 [] [] [] 0 [] [].

(** One statement of the preprocessing body, tbb_flow.cpp:58-64. *)
Definition pre_statement (k : nat) (f : frame) : outcome frame :=
  match k with
  | 0 => Ok (mkFrame (downsample (fr_points f)) (fr_tree f) (fr_T f))
  | 1 => Ok (mkFrame (fr_points f) (Some (build (fr_points f))) (fr_T f))
  | _ => match fr_tree f with
         | Some t => Ok (mkFrame (estimate_covs (fr_points f) t) (fr_tree f) (fr_T f))
         | None => UB
         end
  end.

(** Dereferencing a frame pointer. *)
Definition deref (fs : list frame) (r : ref) : outcome frame :=
  match r with New i => get fs i | Old f => Ok f end.

(** The registration body, tbb_flow.cpp:78-93: the value written to T_last_current. *)
Definition reg_body (fs : list frame) (target : option ref) (i : nat) : outcome Pose :=
  match target with
  | None => Ok identity
  | Some r =>
      let* t := deref fs r in
      let* s := get fs i in
      match fr_tree t with
      | Some tree => Ok (register (fr_points t) (fr_points s) tree)
      | None => UB
      end
  end.

(** The output body, tbb_flow.cpp:99-105 (statistics and drawing left out). *)
Definition output (traj : list Pose) (f : frame) : outcome (list Pose) :=
  match fr_T f with
  | None => UB
  | Some T => Ok (traj ++ [match rev traj with [] => T | back :: _ => mul back T end])
  end.

(** What any thread may do next when the frames [cs] are being fed. *)
Inductive step (cs : list Cloud) : state -> outcome state -> Prop :=
| Feed : forall fs la p s1 n1 q1 r s2 n2 q2 tr c,          (* lines 139-149 *)
    nth_error cs (length fs) = Some c ->
    step cs (mkState fs la p s1 n1 q1 r s2 n2 q2 tr)
      (Ok (mkState (fs ++ [mkFrame c None None]) la (p ++ [(length fs, 0)]) s1 n1 q1 r s2 n2 q2 tr))
| Pre : forall fs la p1 i k p2 s1 n1 q1 r s2 n2 q2 tr,     (* lines 58-64 *)
    step cs (mkState fs la (p1 ++ (i, k) :: p2) s1 n1 q1 r s2 n2 q2 tr)
      (let* f := get fs i in
       let* f' := pre_statement k f in
       let* fs' := set fs i f' in
       Ok (if k <? 2 then mkState fs' la (p1 ++ (i, k + 1) :: p2) s1 n1 q1 r s2 n2 q2 tr
           else mkState fs' la (p1 ++ p2) (s1 ++ [i]) n1 q1 r s2 n2 q2 tr))
| Seq1 : forall fs la p l1 n1 l2 q1 r s2 n2 q2 tr,         (* line 67 *)
    step cs (mkState fs la p (l1 ++ n1 :: l2) n1 q1 r s2 n2 q2 tr)
      (Ok (mkState fs la p (l1 ++ l2) (n1 + 1) (q1 ++ [n1]) r s2 n2 q2 tr))
| Pair : forall fs la p s1 n1 i q1 r s2 n2 q2 tr,          (* lines 70-75 *)
    step cs (mkState fs la p s1 n1 (i :: q1) r s2 n2 q2 tr)
      (Ok (mkState fs (Some (New i)) p s1 n1 q1 (r ++ [(la, i)]) s2 n2 q2 tr))
| Reg : forall fs la p s1 n1 q1 r1 t i r2 s2 n2 q2 tr,     (* lines 78-93 *)
    step cs (mkState fs la p s1 n1 q1 (r1 ++ (t, i) :: r2) s2 n2 q2 tr)
      (let* T := reg_body fs t i in
       let* f := get fs i in
       let* fs' := set fs i (mkFrame (fr_points f) (fr_tree f) (Some T)) in
       Ok (mkState fs' la p s1 n1 q1 (r1 ++ r2) (s2 ++ [i]) n2 q2 tr))
| Seq2 : forall fs la p s1 n1 q1 r l1 n2 l2 q2 tr,         (* line 96 *)
    step cs (mkState fs la p s1 n1 q1 r (l1 ++ n2 :: l2) n2 q2 tr)
      (Ok (mkState fs la p s1 n1 q1 r (l1 ++ l2) (n2 + 1) (q2 ++ [n2]) tr))
| Out : forall fs la p s1 n1 q1 r s2 n2 i q2 tr,           (* lines 99-105 *)
    step cs (mkState fs la p s1 n1 q1 r s2 n2 (i :: q2) tr)
      (let* f := get fs i in
       let* tr' := output tr f in
       Ok (mkState fs la p s1 n1 q1 r s2 n2 q2 tr')).

(** [k] steps in a row. *)
Inductive runs (cs : list Cloud) : nat -> state -> outcome state -> Prop :=
| Run0 : forall s, runs cs 0 s (Ok s)
| RunS : forall k s s1 o, step cs s (Ok s1) -> runs cs k s1 o -> runs cs (S k) s o
| RunX : forall s o, step cs s o -> (forall s1, o <> Ok s1) -> runs cs 1 s o.

(** graph.wait_for_all() returns when nothing is left to do, line 152. *)
Definition finished (cs : list Cloud) (s : state) : Prop := forall o, ~ step cs s o.

(** What the static last_frame keeps alive after a run, line 71. *)
Definition kept_after (s : state) : option ref :=
  match last s with
  | Some (New i) => match nth_error (frames s) i with Some f => Some (Old f) | None => None end
  | r => r
  end.

(** SmallGICPOnlineOdometryEstimation::estimate(points), small_gicp.cpp:15-44: state T and
    target, one downsampled frame. *)
Record online : Type := mkOnline { on_T : Pose; on_target : option (Cloud * Tree) }.
Definition online_init : online := mkOnline identity None.
Definition online_frame (o : online) (points : Cloud) : online :=
  let tree := build points in
  let points := estimate_covs points tree in
  match on_target o with
  | None => mkOnline (on_T o) (Some (points, tree))
  | Some (tp, tree0) => mkOnline (mul (on_T o) (register tp points tree0)) (Some (points, tree))
  end.
(** OnlineOdometryEstimation::estimate(points), benchmark_odom.hpp:50-83. *)
Fixpoint online_run (o : online) (cs : list Cloud) : online * list Pose :=
  match cs with
  | [] => (o, [])
  | c :: cs =>
      let o1 := online_frame o (downsample c) in
      let (o2, l) := online_run o1 cs in
      (o2, on_T o1 :: l)
  end.
End Flow.
Arguments mkFrame {Cloud Tree Pose}. Arguments fr_points {Cloud Tree Pose}. Arguments fr_tree {Cloud Tree Pose}.
Arguments fr_T {Cloud Tree Pose}. Arguments New {Cloud Tree Pose}. Arguments Old {Cloud Tree Pose}.
Arguments mkState {Cloud Tree Pose}. Arguments frames {Cloud Tree Pose}. Arguments last {Cloud Tree Pose}.
Arguments pre {Cloud Tree Pose}. Arguments seq1 {Cloud Tree Pose}. Arguments next1 {Cloud Tree Pose}.
Arguments queue1 {Cloud Tree Pose}. Arguments reg {Cloud Tree Pose}. Arguments seq2 {Cloud Tree Pose}.
Arguments next2 {Cloud Tree Pose}. Arguments queue2 {Cloud Tree Pose}. Arguments traj {Cloud Tree Pose}.
Arguments init {Cloud Tree Pose}. Arguments pre_statement {Cloud Tree Pose}. Arguments deref {Cloud Tree Pose}.
Arguments reg_body {Cloud Tree Pose}. Arguments output {Cloud Tree Pose}. Arguments step {Cloud Tree Pose}.
Arguments runs {Cloud Tree Pose}. Arguments finished {Cloud Tree Pose}. Arguments kept_after {Cloud Tree Pose}.
Arguments mkOnline {Cloud Tree Pose}. Arguments on_T {Cloud Tree Pose}. Arguments on_target {Cloud Tree Pose}.
Arguments online_init {Cloud Tree Pose}. Arguments online_frame {Cloud Tree Pose}. Arguments online_run {Cloud Tree Pose}.
