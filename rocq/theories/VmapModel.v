(** Model of the incremental voxel map: include/small_gicp/ann/incremental_voxelmap.hpp,
    flat_container.hpp and gaussian_voxelmap.hpp. *)
From Coq Require Import ZArith.
From Verif Require Import Base Num Vec F64 FloorModel KnnModel.

(** Eigen::Vector3i *)
Definition coord : Type := (Z * Z * Z)%type.
Definition coord_eqb (a b : coord) : bool :=
  let '(x, y, z) := a in let '(x', y', z') := b in ((x =? x') && (y =? y') && (z =? z'))%Z.

(** Unsigned 64-bit arithmetic on size_t. *)
Definition U64 : N := 18446744073709551616%N.
Definition wrap64 (n : N) : N := (n mod U64)%N.

(** incremental_voxelmap.hpp:60 (and 99, 123): fast_floor(pt * inv_leaf_size).head<3>().
    All four components are converted; the fourth is dropped. *)
Definition voxel_of (m : int_mode) (inv_leaf_size : f64) (p : vec4 Fnum) : outcome coord :=
  let* x := fast_floor m (f64_mul (vx p) inv_leaf_size) in
  let* y := fast_floor m (f64_mul (vy p) inv_leaf_size) in
  let* z := fast_floor m (f64_mul (vz p) inv_leaf_size) in
  let* w := fast_floor m (f64_mul (vw p) inv_leaf_size) in
  Ok (x, y, z).

(** std::unordered_map<Vector3i, size_t> as an association list searched from the front:
    an entry put in front replaces any older entry for the same key.  The XOR hash of
    util/vector3i_hash.hpp only affects bucket placement and is not modelled. *)
Definition index_map : Type := list (coord * nat).
Fixpoint lookup (m : index_map) (c : coord) : option nat :=
  match m with
  | [] => None
  | (c', i) :: m' => if coord_eqb c' c then Some i else lookup m' c
  end.

Section Map.
Context (D : num).

(** One point of an input cloud together with its normal and its 4x4 covariance (rows). *)
Record mat4 : Type := M4 { row0 : vec4 D; row1 : vec4 D; row2 : vec4 D; row3 : vec4 D }.
Record item : Type := mkItem { it_pt : vec4 D; it_normal : vec4 D; it_cov : mat4 }.

(** What the map needs from VoxelContents: default constructor, add (with the settings
    applied and the point already transformed), finalize, and the (point index, stored
    point) sequence its knn_search pushes and its traits::point reads. *)
Record contents : Type := mkContents {
  body : Type;
  empty : body;
  add : body -> item -> body;
  finalize : body -> body;
  stored : body -> list (vec4 D)
}.

Context (C : contents).
(** Point to voxel coordinate ([voxel_of] for doubles), and squaredNorm of a difference. *)
Context (coord_of : vec4 D -> outcome coord) (dist : vec4 D -> vec4 D -> car D).
Context (m : int_mode).
(** Poses and their action: T * point, T * normal, T * cov * T^T,
    incremental_voxelmap.hpp:59, flat_container.hpp:51-57, gaussian_voxelmap.hpp:41. *)
Context (pose : Type) (act : pose -> item -> item).

(** std::pair<VoxelInfo, VoxelContents>, incremental_voxelmap.hpp:21-31, 205 *)
Record voxel : Type := mkVoxel { v_lru : N; v_coord : coord; v_body : body C }.

(** The members of IncrementalVoxelMap, incremental_voxelmap.hpp:191-207 (voxel_setting is
    part of [add], inv_leaf_size of [coord_of]). *)
Record vmap : Type := mkVmap {
  lru_horizon : N; lru_clear_cycle : N; lru_counter : N;
  search_offsets : list coord;
  flat_voxels : list voxel;
  voxels : index_map
}.

(** incremental_voxelmap.hpp:59-73: one point of the loop in insert. *)
Definition insert_point (now : N) (st : list voxel * index_map) (q : item)
  : outcome (list voxel * index_map) :=
  let '(flat, idx) := st in
  let* c := coord_of (it_pt q) in
  let '(i, flat, idx) :=
    match lookup idx c with
    | Some i => (i, flat, idx)
    | None => (length flat, flat ++ [mkVoxel now c (empty C)], (c, length flat) :: idx)
    end in
  let* v := get flat i in
  let* flat := set flat i (mkVoxel now (v_coord v) (add C (v_body v) q)) in
  Ok (flat, idx).

(** incremental_voxelmap.hpp:82-85: rebuild of the index. *)
Definition reindex (flat : list voxel) : index_map :=
  fold_left (fun idx iv => (v_coord (snd iv), fst iv) :: idx)
            (combine (seq 0 (length flat)) flat) [].

(** incremental_voxelmap.hpp:78: the removal predicate, with size_t wrap-around. *)
Definition expired (horizon now : N) (v : voxel) : bool := (wrap64 (v_lru v + horizon) <? now)%N.

(** insert, incremental_voxelmap.hpp:55-92. *)
Definition insert (st : vmap) (call : pose * list item) : outcome vmap :=
  let '(T, points) := call in
  let* (flat, idx) :=
    foldM (insert_point (lru_counter st)) (map (act T) points) (flat_voxels st, voxels st) in
  let now := wrap64 (lru_counter st + 1) in
  let* (flat, idx) :=
    (if (lru_clear_cycle st =? 0)%N then UB          (* integer remainder by zero *)
     else if (now mod lru_clear_cycle st =? 0)%N then
       let flat := filter (fun v => negb (expired (lru_horizon st) now v)) flat in
       Ok (flat, reindex flat)
     else Ok (flat, idx)) in
  let flat := map (fun v => mkVoxel (v_lru v) (v_coord v) (finalize C (v_body v))) flat in
  Ok (mkVmap (lru_horizon st) (lru_clear_cycle st) now (search_offsets st) flat idx).

(** set_search_offsets, incremental_voxelmap.hpp:156-185.  The 27 case appends. *)
Definition cube27 : list coord :=
  flat_map (fun i => flat_map (fun j => map (fun k => (i, j, k)) [-1; 0; 1]%Z) [-1; 0; 1]%Z)
           [-1; 0; 1]%Z.
Definition star7 : list coord :=
  [(0, 0, 0); (1, 0, 0); (0, 1, 0); (0, 0, 1); (-1, 0, 0); (0, -1, 0); (0, 0, -1)]%Z.
Definition next_offsets (old : list coord) (n : Z) : list coord :=
  if (n =? 7)%Z then star7
  else if (n =? 27)%Z then old ++ cube27
  else [(0, 0, 0)%Z].
Definition set_search_offsets (st : vmap) (n : Z) : vmap :=
  mkVmap (lru_horizon st) (lru_clear_cycle st) (lru_counter st)
         (next_offsets (search_offsets st) n) (flat_voxels st) (voxels st).

(** Constructor, incremental_voxelmap.hpp:45, with the two LRU members then set by the
    user (defaults 100 and 10). *)
Definition new_map (horizon cycle : N) : vmap :=
  mkVmap horizon cycle 0 (next_offsets [] 1) [] [].

(** Packed indices, incremental_voxelmap.hpp:150-152. *)
Definition calc_index (voxel_id point_id : nat) : N :=
  N.lor (wrap64 (N.shiftl (N.of_nat voxel_id) 32)) (N.of_nat point_id).
Definition voxel_id (i : N) : nat := N.to_nat (N.shiftr i 32).
Definition point_id (i : N) : nat := N.to_nat (N.land i 4294967295).

(** center + offset, incremental_voxelmap.hpp:105, 130 *)
Definition shift (center offset : coord) : outcome coord :=
  let '(x, y, z) := center in
  let '(dx, dy, dz) := offset in
  let* x := int_result m (x + dx) in
  let* y := int_result m (y + dy) in
  let* z := int_result m (z + dz) in
  Ok (x, y, z).

(** Traits<VoxelContents>::knn_search(voxel, pt, result) through the index transform:
    flat_container.hpp:97-106, gaussian_voxelmap.hpp:86-88. *)
Definition search_voxel (pt : vec4 D) (vi : nat) (v : voxel) (r : knn_result D)
  : outcome (knn_result D) :=
  foldM (fun r jp => push r (calc_index vi (fst jp)) (dist (snd jp) pt))
        (combine (seq 0 (length (stored C (v_body v)))) (stored C (v_body v))) r.

(** The loop over search_offsets, incremental_voxelmap.hpp:104-115, 129-140. *)
Definition search_loop (st : vmap) (pt : vec4 D) (r : knn_result D) : outcome (knn_result D) :=
  let* center := coord_of pt in
  foldM (fun r off =>
           let* c := shift center off in
           match lookup (voxels st) c with
           | None => Ok r
           | Some vi => let* v := get (flat_voxels st) vi in search_voxel pt vi v r
           end) (search_offsets st) r.

(** nearest_neighbor_search, incremental_voxelmap.hpp:98-118. *)
Definition nearest_neighbor_search (st : vmap) (pt : vec4 D) : outcome (knn_result D) :=
  let* r := knn_init D (Some 1) (-1)%Z in search_loop st pt r.

(** knn_search, incremental_voxelmap.hpp:126-147.  k is a size_t converted to int. *)
Definition knn_search (st : vmap) (k : N) (pt : vec4 D) : outcome (knn_result D) :=
  let* r := knn_init D None (wrap32 (Z.of_N k)) in search_loop st pt r.

(** traits::point on the map, incremental_voxelmap.hpp:216-221. *)
Definition map_point (st : vmap) (i : N) : outcome (vec4 D) :=
  let* v := get (flat_voxels st) (voxel_id i) in get (stored C (v_body v)) (point_id i).

(** size(), incremental_voxelmap.hpp:48 *)
Definition map_size (st : vmap) : nat := length (flat_voxels st).

(** point_indices and voxel_points, incremental_voxelmap.hpp:244-270. *)
Definition point_indices (st : vmap) : list N :=
  flat_map (fun iv => map (calc_index (fst iv)) (seq 0 (length (stored C (v_body (snd iv))))))
           (combine (seq 0 (length (flat_voxels st))) (flat_voxels st)).
Definition voxel_points (st : vmap) : list (vec4 D) :=
  flat_map (fun v => stored C (v_body v)) (flat_voxels st).

(** A history of insert calls. *)
Definition inserts (st : vmap) (h : list (pose * list item)) : outcome vmap := foldM insert h st.

End Map.

Arguments M4 {D}.
Arguments row0 {D}.
Arguments row1 {D}.
Arguments row2 {D}.
Arguments row3 {D}.
Arguments mkItem {D}.
Arguments it_pt {D}.
Arguments it_normal {D}.
Arguments it_cov {D}.
Arguments body {D}.
Arguments empty {D}.
Arguments add {D}.
Arguments finalize {D}.
Arguments stored {D}.
Arguments mkVoxel {D C}.
Arguments v_lru {D C}.
Arguments v_coord {D C}.
Arguments v_body {D C}.
Arguments lru_horizon {D C}.
Arguments lru_clear_cycle {D C}.
Arguments lru_counter {D C}.
Arguments search_offsets {D C}.
Arguments flat_voxels {D C}.
Arguments voxels {D C}.
Arguments insert_point {D C}.
Arguments reindex {D C}.
Arguments expired {D C}.
Arguments insert {D C}.
Arguments inserts {D C}.
Arguments set_search_offsets {D C}.
Arguments search_voxel {D C}.
Arguments search_loop {D C}.
Arguments nearest_neighbor_search {D C}.
Arguments knn_search {D C}.
Arguments map_point {D C}.
Arguments map_size {D C}.
Arguments point_indices {D C}.
Arguments voxel_points {D C}.

Section FlatContainer.
Context (D : num) (dist : vec4 D -> vec4 D -> car D).

(** struct FlatContainer<HasNormals, HasCovs>, flat_container.hpp:20-115.  The arrays that a
    template flag turns off stay empty. *)
Record flat_container : Type := mkFlat {
  fc_points : list (vec4 D); fc_normals : list (vec4 D); fc_covs : list (mat4 D)
}.

(** FlatContainer::add, flat_container.hpp:44-60, of an already transformed point. *)
Definition flat_add (has_normals has_covs : bool) (min_sq_dist : car D) (max_points : nat)
    (b : flat_container) (q : item D) : flat_container :=
  if (max_points <=? length (fc_points b))
     || existsb (fun p => nlt (dist p (it_pt q)) min_sq_dist) (fc_points b)
  then b
  else mkFlat (fc_points b ++ [it_pt q])
              (if has_normals then fc_normals b ++ [it_normal q] else fc_normals b)
              (if has_covs then fc_covs b ++ [it_cov q] else fc_covs b).

Definition flat_contents (hn hc : bool) (min_sq_dist : car D) (max_points : nat) : contents D :=
  mkContents D flat_container (mkFlat [] [] []) (flat_add hn hc min_sq_dist max_points)
             (fun b => b) fc_points.

End FlatContainer.
Arguments mkFlat {D}.
Arguments fc_points {D}.
Arguments fc_normals {D}.
Arguments fc_covs {D}.
Arguments flat_add {D}.
Arguments flat_contents {D}.

Section Gaussian.
Context (D : num) (of_count : nat -> car D).      (* conversion of num_points to double *)

Definition vscale (f : car D -> car D) (v : vec4 D) : vec4 D :=
  V4 (f (vx v)) (f (vy v)) (f (vz v)) (f (vw v)).
Definition mmap (f : vec4 D -> vec4 D) (a : mat4 D) : mat4 D :=
  M4 (f (row0 a)) (f (row1 a)) (f (row2 a)) (f (row3 a)).
Definition madd (a b : mat4 D) : mat4 D :=
  M4 (vadd (row0 a) (row0 b)) (vadd (row1 a) (row1 b)) (vadd (row2 a) (row2 b))
     (vadd (row3 a) (row3 b)).
Definition mzero : mat4 D := M4 vzero vzero vzero vzero.

(** struct GaussianVoxel, gaussian_voxelmap.hpp:15-62. *)
Record gaussian : Type := mkGauss {
  finalized : bool; num_points : nat; g_mean : vec4 D; g_cov : mat4 D
}.

(** GaussianVoxel::add, gaussian_voxelmap.hpp:31-42. *)
Definition gauss_add (g : gaussian) (q : item D) : gaussian :=
  let up x := nmul x (of_count (num_points g)) in
  let g := if finalized g
           then mkGauss false (num_points g) (vscale up (g_mean g)) (mmap (vscale up) (g_cov g))
           else g in
  mkGauss (finalized g) (num_points g + 1) (vadd (g_mean g) (it_pt q)) (madd (g_cov g) (it_cov q)).

(** GaussianVoxel::finalize, gaussian_voxelmap.hpp:45-53. *)
Definition gauss_finalize (g : gaussian) : gaussian :=
  if finalized g then g
  else
    let down x := ndiv x (of_count (num_points g)) in
    mkGauss true (num_points g) (vscale down (g_mean g)) (mmap (vscale down) (g_cov g)).

Definition gauss_contents : contents D :=
  mkContents D gaussian (mkGauss false 0 vzero mzero) gauss_add gauss_finalize
             (fun g => [g_mean g]).

End Gaussian.
Arguments vscale {D}.
Arguments mmap {D}.
Arguments madd {D}.
Arguments mzero {D}.
Arguments mkGauss {D}.
Arguments finalized {D}.
Arguments num_points {D}.
Arguments g_mean {D}.
Arguments g_cov {D}.
Arguments gauss_add {D}.
Arguments gauss_finalize {D}.
Arguments gauss_contents {D}.
