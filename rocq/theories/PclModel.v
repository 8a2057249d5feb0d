(** Model of RegistrationPCL: include/small_gicp/pcl/pcl_registration_impl.hpp (class in
    pcl_registration.hpp, covariance proxy in pcl_proxy.hpp).  The object keeps search trees,
    covariances and voxel maps between calls; the model follows which inputs each was made from.
    The computations themselves (tree building, covariance estimation, voxel map insertion and
    registration, modelled elsewhere) are parameters here. *)
From Coq Require Import ZArith.
From Verif Require Import Base F64.

Inductive side : Type := Src | Tgt.
Inductive kind : Type := GICP | VGICP.

Section Pcl.
(** Point clouds, their size, and the point clouds a program has (by address). *)
Context (cloud : Type) (size : cloud -> nat).
Definition ptr : Type := nat.
Context (tree cov vmap result guess base : Type).
(** KdTree construction (:47, 59); estimate_covariances_omp (:210-215), which resizes the
    covariance vector to the cloud; GaussianVoxelMap(resolution) and insert (:228-235);
    Registration::align with a tree (:226) and with a voxel map (:237).  [base] stands for the
    settings held by pcl::Registration, rotation_epsilon_ and verbose_. *)
Context (build : cloud -> tree).
Context (estimate : cloud -> tree -> Z -> list cov).
Context (make_map : f64 -> cloud -> list cov -> vmap).
Context (run_gicp : base -> Z -> cloud -> list cov -> tree -> cloud -> list cov -> guess -> outcome result).
Context (run_vgicp : base -> Z -> vmap -> cloud -> list cov -> guess -> outcome result).
(** Whether pcl::Registration::setInput* takes the cloud (PCL refuses empty targets). *)
Context (accepts : side -> cloud -> bool).

(** The members that belong to one of the two clouds, pcl_registration.hpp:102-109 and
    input_ / target_ of the base class. *)
Record cache : Type := mkCache {
  c_cloud : option ptr; c_tree : option tree; c_covs : list cov; c_map : option vmap
}.
(** num_threads_, k_correspondences_, voxel_resolution_, registration_type_, base class. *)
Record params : Type := mkParams {
  p_threads : Z; p_k : Z; p_res : f64; p_kind : kind; p_base : base
}.
Record state : Type := mkState {
  st_mem : ptr -> cloud; st_src : cache; st_tgt : cache; st_par : params
}.

Definition cache_of (st : state) (s : side) : cache :=
  match s with Src => st_src st | Tgt => st_tgt st end.
Definition with_cache (st : state) (s : side) (c : cache) : state :=
  match s with
  | Src => mkState (st_mem st) c (st_tgt st) (st_par st)
  | Tgt => mkState (st_mem st) (st_src st) c (st_par st)
  end.
Definition with_params (st : state) (p : params) : state :=
  mkState (st_mem st) (st_src st) (st_tgt st) p.

(** Constructor, :23-35. *)
Definition no_cache : cache := mkCache None None [] None.
Definition init_params (b : base) : params := mkParams 4 20 (f64_of 1 0) GICP b.
Definition init (mem : ptr -> cloud) (b : base) : state :=
  mkState mem no_cache no_cache (init_params b).

(** Public calls.  [Mutate] is the user changing a cloud of the program in place;
    [SetType None] is any string other than "GICP" and "VGICP"; [SetBase] is any setter of the
    base class, setRotationEpsilon or setVerbosity; [SetInput s None] passes a null pointer. *)
Inductive call : Type :=
| SetInput (s : side) (p : option ptr)
| SetCovs (s : side) (l : list cov)
| Swap
| Clear (s : side)
| SetThreads (n : Z)
| SetK (k : Z)
| SetRes (r : f64)
| SetType (t : option kind)
| SetBase (b : base)
| Mutate (p : ptr) (c : cloud)
| Align (g : guess).

(** setNumThreads :136-144, setCorrespondenceRandomness / setNumNeighborsForCovariance
    :146-158, setVoxelResolution :160-168 (which tests the member, not its argument),
    setRegistrationType :175-184. *)
Definition set_params (p : params) (o : call) : params :=
  match o with
  | SetThreads n => mkParams (if (n <=? 0)%Z then 1%Z else n) (p_k p) (p_res p) (p_kind p) (p_base p)
  | SetK k => mkParams (p_threads p) (if (k <? 5)%Z then 5%Z else k) (p_res p) (p_kind p) (p_base p)
  | SetRes r => mkParams (p_threads p) (p_k p)
                  (if f64_le (p_res p) (f64_of 0 0) then f64_of 1 0 else r) (p_kind p) (p_base p)
  | SetType (Some t) => mkParams (p_threads p) (p_k p) (p_res p) t (p_base p)
  | SetBase b => mkParams (p_threads p) (p_k p) (p_res p) (p_kind p) b
  | _ => p
  end.

Definition ptr_eqb (p q : option ptr) : bool :=
  match p, q with
  | Some a, Some b => a =? b
  | None, None => true
  | _, _ => false
  end.

(** setInputSource / setInputTarget, :40-62. *)
Definition set_input (st : state) (s : side) (p : option ptr) : outcome state :=
  let c := cache_of st s in
  if ptr_eqb (c_cloud c) p then Ok st
  else
    match p with
    | None => UB                                          (* the base class or the tree reads it *)
    | Some a =>
        let held := if accepts s (st_mem st a) then Some a else c_cloud c in
        match held with
        | None => UB                                      (* KdTree from a null pointer *)
        | Some b => Ok (with_cache st s (mkCache held (Some (build (st_mem st b))) [] None))
        end
    end.

(** setSourceCovariances / setTargetCovariances, :64-92. *)
Definition set_covs (st : state) (s : side) (l : list cov) : state :=
  let c := cache_of st s in
  match c_cloud c with
  | None => st
  | Some a => if length l =? size (st_mem st a)
              then with_cache st s (mkCache (c_cloud c) (c_tree c) l (c_map c)) else st
  end.

(** :210-215, for one side. *)
Definition fill_covs (st : state) (c : cache) (a : ptr) (t : tree) : list cov :=
  if length (c_covs c) =? size (st_mem st a) then c_covs c
  else estimate (st_mem st a) t (p_k (st_par st)).

(** computeTransformation, :201-246, entered from pcl::Registration::align, which returns
    without calling it when a cloud is missing.  Transforming the source into the output cloud
    (and the exception when the output is one of the inputs) is not modelled. *)
Definition align (st : state) (g : guess) : outcome (state * option result) :=
  match c_cloud (st_src st), c_cloud (st_tgt st) with
  | Some a, Some b =>
      match c_tree (st_src st), c_tree (st_tgt st) with
      | Some ta, Some tb =>
          let cs := fill_covs st (st_src st) a ta in
          let ct := fill_covs st (st_tgt st) b tb in
          let p := st_par st in
          match p_kind p with
          | GICP =>
              let* r := run_gicp (p_base p) (p_threads p) (st_mem st b) ct tb (st_mem st a) cs g in
              Ok (mkState (st_mem st) (mkCache (Some a) (Some ta) cs (c_map (st_src st)))
                          (mkCache (Some b) (Some tb) ct (c_map (st_tgt st))) p, Some r)
          | VGICP =>
              let mt := match c_map (st_tgt st) with
                        | Some m => m | None => make_map (p_res p) (st_mem st b) ct end in
              let ms := match c_map (st_src st) with
                        | Some m => m | None => make_map (p_res p) (st_mem st a) cs end in
              let* r := run_vgicp (p_base p) (p_threads p) mt (st_mem st a) cs g in
              Ok (mkState (st_mem st) (mkCache (Some a) (Some ta) cs (Some ms))
                          (mkCache (Some b) (Some tb) ct (Some mt)) p, Some r)
          end
      | _, _ => UB                                         (* null tree dereferenced *)
      end
  | _, _ => Ok (st, None)
  end.

Definition step (st : state) (o : call) : outcome (state * option result) :=
  match o with
  | SetInput s p => let* st := set_input st s p in Ok (st, None)
  | SetCovs s l => Ok (set_covs st s l, None)
  | Swap => Ok (mkState (st_mem st) (st_tgt st) (st_src st) (st_par st), None)      (* :112-118 *)
  | Clear s => Ok (with_cache st s no_cache, None)                                  (* :120-134 *)
  | Mutate p c => Ok (mkState (fun q => if q =? p then c else st_mem st q)
                              (st_src st) (st_tgt st) (st_par st), None)
  | Align g => align st g
  | o => Ok (with_params st (set_params (st_par st) o), None)
  end.

(** The results of the align calls of a history, in order. *)
Definition run (st : state) (ops : list call) : outcome (state * list result) :=
  foldM (fun '(st, out) o =>
           let* (st, r) := step st o in
           Ok (st, match r with Some r => out ++ [r] | None => out end)) ops (st, []).

End Pcl.
Arguments mkCache {tree cov vmap}.
Arguments c_cloud {tree cov vmap}.
Arguments c_tree {tree cov vmap}.
Arguments c_covs {tree cov vmap}.
Arguments c_map {tree cov vmap}.
Arguments no_cache {tree cov vmap}.
Arguments mkParams {base}.
Arguments p_threads {base}.
Arguments p_k {base}.
Arguments p_res {base}.
Arguments p_kind {base}.
Arguments p_base {base}.
Arguments init_params {base}.
Arguments mkState {cloud tree cov vmap base}.
Arguments st_mem {cloud tree cov vmap base}.
Arguments st_src {cloud tree cov vmap base}.
Arguments st_tgt {cloud tree cov vmap base}.
Arguments st_par {cloud tree cov vmap base}.
Arguments cache_of {cloud tree cov vmap base}.
Arguments with_cache {cloud tree cov vmap base}.
Arguments with_params {cloud tree cov vmap base}.
Arguments init {cloud tree cov vmap base}.
Arguments SetInput {cloud cov guess base}.
Arguments SetCovs {cloud cov guess base}.
Arguments Swap {cloud cov guess base}.
Arguments Clear {cloud cov guess base}.
Arguments SetThreads {cloud cov guess base}.
Arguments SetK {cloud cov guess base}.
Arguments SetRes {cloud cov guess base}.
Arguments SetType {cloud cov guess base}.
Arguments SetBase {cloud cov guess base}.
Arguments Mutate {cloud cov guess base}.
Arguments Align {cloud cov guess base}.
Arguments set_params {cloud cov guess base}.
Arguments set_input {cloud tree cov vmap base}.
Arguments set_covs {cloud} size {tree cov vmap base}.
Arguments fill_covs {cloud} size {tree cov vmap base}.
Arguments align {cloud} size {tree cov vmap result guess base}.
Arguments step {cloud} size {tree cov vmap result guess base}.
Arguments run {cloud} size {tree cov vmap result guess base}.
