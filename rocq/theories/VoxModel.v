(** Model of voxel grid downsampling: include/small_gicp/util/downsampling.hpp,
    downsampling_omp.hpp and downsampling_tbb.hpp. *)
From Coq Require Import ZArith.
From Verif Require Import Base Num Vec F64 FloorModel KdModel.

(** downsampling.hpp:31-34 (same constants in the omp/tbb files). *)
Definition INVALID_COORD : N := 18446744073709551615%N.
Definition COORD_OFFSET : Z := 1048576%Z.      (* 1 << 20 *)
Definition COORD_MASK : Z := 2097151%Z.        (* (1 << 21) - 1 *)

(** downsampling.hpp:38, one component of
    fast_floor(traits::point(points, i) * inv_leaf_size) + coord_offset. *)
Definition voxel_coord (m : int_mode) (inv_leaf_size x : f64) : outcome Z :=
  let* f := fast_floor m (f64_mul x inv_leaf_size) in int_result m (f + COORD_OFFSET)%Z.

(** downsampling.hpp:38-50 (omp:40-53, tbb:41-55): range check on all four components,
    then packing of x, y and z. *)
Definition voxel_key (m : int_mode) (inv_leaf_size : f64) (p : vec4 Fnum) : outcome N :=
  let* a := voxel_coord m inv_leaf_size (vx p) in
  let* b := voxel_coord m inv_leaf_size (vy p) in
  let* c := voxel_coord m inv_leaf_size (vz p) in
  let* d := voxel_coord m inv_leaf_size (vw p) in
  let bad z := ((z <? 0) || (COORD_MASK <? z))%Z in
  if bad a || bad b || bad c || bad d then Ok INVALID_COORD
  else
    let part z s := (Z.shiftl (Z.land z COORD_MASK) (21 * s))%Z in
    Ok (Z.to_N (Z.lor (Z.lor (part a 0%Z) (part b 1%Z)) (part c 2%Z))).

Section Sampling.
Context (D : num).
Context (key : vec4 D -> outcome N).                (* voxel_key, or any other keying *)
Context (sort : forall A : Type, (A -> A -> bool) -> list A -> list A).  (* std::sort *)

(** downsampling.hpp:36-50: coord_pt. *)
Definition coord_pt (points : list (vec4 D)) : outcome (list (N * nat)) :=
  let* keys := mapM key points in Ok (combine keys (seq 0 (length points))).

(** downsampling.hpp:53: comparator. *)
Definition key_less (a b : N * nat) : bool := (fst a <? fst b)%N.

(** sum_pt / sum_pt.w() *)
Definition emit (s : vec4 D) : vec4 D := vdivs s (vw s).

(** downsampling.hpp:56-76: one pass over the sorted entries.  State: output array,
    num_points, sum_pt.  Simplification: only the points of the output cloud are
    modelled (traits::resize also resizes its normal/covariance arrays). *)
Definition serial_step (points : list (vec4 D)) (cp : list (N * nat))
    (s : list (vec4 D) * nat * vec4 D) (i : nat) : outcome (list (vec4 D) * nat * vec4 D) :=
  let '(arr, num, sum) := s in
  let* e := get cp i in
  if (fst e =? INVALID_COORD)%N then Ok s
  else
    let* prev := get cp (i - 1) in
    let* (arr, num, sum) :=
      (if (fst prev =? fst e)%N then Ok (arr, num, sum)
       else let* arr := set arr num (emit sum) in Ok (arr, num + 1, vzero)) in
    let* p := get points (snd e) in
    Ok (arr, num, vadd sum p).

Definition voxelgrid_sampling (points : list (vec4 D)) : outcome (list (vec4 D)) :=
  match points with
  | [] => Ok []
  | _ =>
      let n := length points in
      let* cp := coord_pt points in
      let cp := sort _ key_less cp in
      let* e0 := get cp 0 in
      let* p0 := get points (snd e0) in
      let* (arr, num, sum) :=
        foldM (serial_step points cp) (seq 1 (n - 1)) (repeat vzero n, 0, p0) in
      let* arr := set arr num (emit sum) in
      Ok (resize arr (num + 1) vzero)
  end.

(** downsampling_omp.hpp:71-86 / tbb:68-82: the body of one block [first,last) up to the
    slot reservation; returns sub_points. *)
Definition block_step (points : list (vec4 D)) (cp : list (N * nat))
    (s : list (vec4 D) * vec4 D) (i : nat) : outcome (list (vec4 D) * vec4 D) :=
  let '(sub, sum) := s in
  let* e := get cp i in
  if (fst e =? INVALID_COORD)%N then Ok s
  else
    let* prev := get cp (i - 1) in
    let (sub, sum) := (if (fst prev =? fst e)%N then (sub, sum) else (sub ++ [emit sum], vzero)) in
    let* p := get points (snd e) in
    Ok (sub, vadd sum p).

Definition block_points (points : list (vec4 D)) (cp : list (N * nat)) (first last : nat)
    : outcome (list (vec4 D)) :=
  let* e0 := get cp first in
  let* p0 := get points (snd e0) in
  let* (sub, sum) := foldM (block_step points cp) (seq (first + 1) (last - (first + 1))) ([], p0) in
  Ok (sub ++ [emit sum]).

(** The sorted entries and the sub_points of every block; [sizes] are the block lengths
    (OpenMP: 1024 each, the last shorter; TBB: any splitting).  The parallel sort is
    [sort] (quick_sort_omp, tbb::parallel_sort). *)
Fixpoint all_blocks (points : list (vec4 D)) (cp : list (N * nat)) (first : nat)
    (sizes : list nat) : outcome (list (list (vec4 D))) :=
  match sizes with
  | [] => Ok []
  | s :: sizes =>
      let* sub := block_points points cp first (first + s) in
      let* subs := all_blocks points cp (first + s) sizes in
      Ok (sub :: subs)
  end.

Definition parallel_blocks (points : list (vec4 D)) (sizes : list nat)
    : outcome (list (list (vec4 D))) :=
  let* cp := coord_pt points in all_blocks points (sort _ key_less cp) 0 sizes.

(** Block lengths of the OpenMP loop (downsampling_omp.hpp:66-71). *)
Fixpoint omp_sizes (fuel n block : nat) : list nat :=
  match fuel with
  | O => []
  | S fuel => if n =? 0 then [] else Nat.min block n :: omp_sizes fuel (n - block) block
  end.

End Sampling.

(** * Collection of the blocks' outputs (downsampling_omp.hpp:88-91, tbb:84-87) *)
Section Collect.
Context (T : Type).

(** A worker that finished its block: it still has to reserve its slots, or is writing
    its sub-points [done..] from slot [begin]. *)
Inductive wstate : Type :=
| WReserve (sub : list T)
| WWrite (begin : nat) (done : nat) (sub : list T).

Record cstate : Type := mkC { c_num : nat; c_arr : list T; c_workers : list wstate }.

(** One step of worker [w]: num_points.fetch_add(sub_points.size()), or one set_point. *)
Definition wstep (st : cstate) (w : nat) : option (outcome cstate) :=
  match nth_error (c_workers st) w with
  | Some (WReserve sub) =>
      Some (Ok (mkC (c_num st + length sub) (c_arr st)
                    (upd (c_workers st) w (WWrite (c_num st) 0 sub))))
  | Some (WWrite b d sub) =>
      match nth_error sub d with
      | Some v => Some (let* arr := set (c_arr st) (b + d) v in
                        Ok (mkC (c_num st) arr (upd (c_workers st) w (WWrite b (S d) sub))))
      | None => None
      end
  | None => None
  end.

(** Reachable states; every interleaving of the workers is a sequence of worker numbers. *)
Inductive creach : cstate -> cstate -> Prop :=
| creach_refl st : creach st st
| creach_step st st1 st2 w :
    creach st st1 -> wstep st1 w = Some (Ok st2) -> creach st st2.

Definition finished (st : cstate) : Prop := forall w, wstep st w = None.

(** traits::resize(downsampled, num_points) after all workers finished. *)
Definition collected (d : T) (st : cstate) : list T := resize (c_arr st) (c_num st) d.

End Collect.
Arguments WReserve {T}.
Arguments WWrite {T}.
Arguments mkC {T}.
Arguments c_num {T}.
Arguments c_arr {T}.
Arguments c_workers {T}.
Arguments wstep {T}.
Arguments creach {T}.
Arguments finished {T}.
Arguments collected {T}.
Arguments key_less /.
Arguments emit {D}.
Arguments coord_pt {D}.
Arguments serial_step {D}.
Arguments voxelgrid_sampling {D}.
Arguments block_step {D}.
Arguments block_points {D}.
Arguments all_blocks {D}.
Arguments parallel_blocks {D}.
