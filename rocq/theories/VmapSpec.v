(** What a user expects of a voxel map with least-recently-used eviction, stated from the
    insertion history alone. *)
From Coq Require Import ZArith.
From Verif Require Import Base Num Vec VmapModel.

Section Spec.
Context {D : num} (coord_of : vec4 D -> outcome coord).
Context {pose : Type} (act : pose -> item D -> item D).

(** The (transformed) point lies in voxel [c]. *)
Definition falls_in (c : coord) (q : item D) : bool :=
  match coord_of (it_pt q) with Ok c' => coord_eqb c' c | _ => false end.

(** The points one insert call puts into voxel [c]. *)
Definition here (c : coord) (call : pose * list (item D)) : list (item D) :=
  filter (falls_in c) (map (act (fst call)) (snd call)).

(** Insert number [t] (counted from 0) of history [h] put a point into [c]. *)
Definition touched (h : list (pose * list (item D))) (t : nat) (c : coord) : Prop :=
  exists call, nth_error h t = Some call /\ here c call <> [].

(** No clear cycle after insert [t], up to and including the one that ends insert [n],
    finds the voxel older than the horizon. *)
Definition survives (horizon cycle : N) (t n : nat) : Prop :=
  forall m, t < m <= n -> (N.of_nat m mod cycle = 0)%N ->
  (N.of_nat m <= N.of_nat t + horizon)%N.

End Spec.

Section SearchSpec.
Context {D : num} {C : contents D} (dist : vec4 D -> vec4 D -> car D).

(** [e] is the answer entry (packed index, squared distance to [q]) of a point stored in a
    voxel of the map whose coordinate is one of [cs]. *)
Definition entry_of (st : vmap D C) (cs : list coord) (q : vec4 D) (e : N * car D) : Prop :=
  exists i v j p,
    nth_error (flat_voxels st) i = Some v /\ In (v_coord v) cs /\
    nth_error (stored C (v_body v)) j = Some p /\
    e = (N.lor (N.shiftl (N.of_nat i) 32) (N.of_nat j), dist p q).

(** Fewer than 2^32 voxels and fewer than 2^32 points per voxel. *)
Definition sizes_ok (st : vmap D C) : Prop :=
  (N.of_nat (length (flat_voxels st)) <= 4294967296)%N /\
  Forall (fun v => (N.of_nat (length (stored C (v_body v))) <= 4294967296)%N) (flat_voxels st).

End SearchSpec.
