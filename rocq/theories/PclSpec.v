(** Specification of RegistrationPCL: the same calls answered by an object that keeps nothing
    between calls but the inputs and settings the user gave, and computes the rest anew in every
    align. *)
From Coq Require Import ZArith.
From Verif Require Import Base F64 PclModel.

Section Spec.
Context (cloud : Type) (size : cloud -> nat).
Context (tree cov vmap result guess base : Type).
Context (build : cloud -> tree).
Context (estimate : cloud -> tree -> Z -> list cov).
Context (make_map : f64 -> cloud -> list cov -> vmap).
Context (run_gicp : base -> Z -> cloud -> list cov -> tree -> cloud -> list cov -> guess -> outcome result).
Context (run_vgicp : base -> Z -> vmap -> cloud -> list cov -> guess -> outcome result).
Context (accepts : side -> cloud -> bool).
Notation call := (call cloud cov guess base).

(** One input: the cloud and the covariances the user set for it, if any. *)
Record input : Type := mkInput {
  i_cloud : option ptr; i_covs : option (list cov);
  (* for [allowed] only: an align ran with this input; a VGICP align did *)
  i_used : bool; i_mapped : bool
}.
Record inputs : Type := mkInputs {
  in_mem : ptr -> cloud; in_src : input; in_tgt : input; in_par : params base
}.
Definition no_input : input := mkInput None None false false.
Definition first_inputs (mem : ptr -> cloud) (b : base) : inputs :=
  mkInputs mem no_input no_input (init_params b).

Definition input_of (x : inputs) (s : side) : input :=
  match s with Src => in_src x | Tgt => in_tgt x end.
Definition with_input (x : inputs) (s : side) (i : input) : inputs :=
  match s with
  | Src => mkInputs (in_mem x) i (in_tgt x) (in_par x)
  | Tgt => mkInputs (in_mem x) (in_src x) i (in_par x)
  end.

(** The covariances of an input: the user's, or estimated from its cloud with the current k. *)
Definition covs_of (x : inputs) (i : input) (a : ptr) : list cov :=
  match i_covs i with
  | Some l => l
  | None => estimate (in_mem x a) (build (in_mem x a)) (p_k (in_par x))
  end.

Definition mark (k : kind) (i : input) : input :=
  mkInput (i_cloud i) (i_covs i) true
          (i_mapped i || match k with GICP => false | VGICP => true end).

Definition ref_align (x : inputs) (g : guess) : outcome (inputs * option result) :=
  match i_cloud (in_src x), i_cloud (in_tgt x) with
  | Some a, Some b =>
      let p := in_par x in
      let cs := covs_of x (in_src x) a in
      let ct := covs_of x (in_tgt x) b in
      let* r :=
        match p_kind p with
        | GICP => run_gicp (p_base p) (p_threads p) (in_mem x b) ct (build (in_mem x b)) (in_mem x a) cs g
        | VGICP => run_vgicp (p_base p) (p_threads p) (make_map (p_res p) (in_mem x b) ct) (in_mem x a) cs g
        end in
      Ok (mkInputs (in_mem x) (mark (p_kind p) (in_src x)) (mark (p_kind p) (in_tgt x)) p, Some r)
  | _, _ => Ok (x, None)
  end.

Definition ref_step (x : inputs) (o : call) : outcome (inputs * option result) :=
  match o with
  | SetInput s p =>
      let i := input_of x s in
      if ptr_eqb (i_cloud i) p then Ok (x, None)
      else match p with
           | None => UB
           | Some a =>
               match (if accepts s (in_mem x a) then Some a else i_cloud i) with
               | None => UB
               | held => Ok (with_input x s (mkInput held None false false), None)
               end
           end
  | SetCovs s l =>
      let i := input_of x s in
      match i_cloud i with
      | None => Ok (x, None)
      | Some a => if length l =? size (in_mem x a)
                  then Ok (with_input x s (mkInput (i_cloud i) (Some l) (i_used i) (i_mapped i)), None)
                  else Ok (x, None)
      end
  | Swap => Ok (mkInputs (in_mem x) (in_tgt x) (in_src x) (in_par x), None)
  | Clear s => Ok (with_input x s no_input, None)
  | Mutate p c => Ok (mkInputs (fun q => if q =? p then c else in_mem x q)
                               (in_src x) (in_tgt x) (in_par x), None)
  | Align g => ref_align x g
  | o => Ok (mkInputs (in_mem x) (in_src x) (in_tgt x) (set_params (in_par x) o), None)
  end.

Definition ref_run (x : inputs) (ops : list call) : outcome (inputs * list result) :=
  foldM (fun '(x, out) o =>
           let* (x, r) := ref_step x o in
           Ok (x, match r with Some r => out ++ [r] | None => out end)) ops (x, []).

(** Calls after which nothing kept from earlier calls can be out of date: the neighbour count is
    not changed once an align ran with a cloud that is still set; the voxel resolution and a
    cloud's covariances are not changed once a VGICP align ran with it; clouds that are set are
    not modified in place. *)
Definition allowed (x : inputs) (o : call) : bool :=
  match o with
  | SetK _ => negb (i_used (in_src x)) && negb (i_used (in_tgt x))
  | SetRes _ => negb (i_mapped (in_src x)) && negb (i_mapped (in_tgt x))
  | SetCovs s _ => negb (i_mapped (input_of x s))
  | Mutate p _ => negb (ptr_eqb (i_cloud (in_src x)) (Some p)) &&
                  negb (ptr_eqb (i_cloud (in_tgt x)) (Some p))
  | _ => true
  end.
(** Every call of the history is allowed where it is made. *)
Fixpoint disciplined (x : inputs) (ops : list call) : bool :=
  match ops with
  | [] => true
  | o :: ops => allowed x o && match ref_step x o with
                               | Ok (x, _) => disciplined x ops
                               | _ => true
                               end
  end.

End Spec.
Arguments mkInput {cov}.
Arguments i_cloud {cov}.
Arguments i_covs {cov}.
Arguments i_used {cov}.
Arguments i_mapped {cov}.
Arguments no_input {cov}.
Arguments mkInputs {cloud cov base}.
Arguments in_mem {cloud cov base}.
Arguments in_src {cloud cov base}.
Arguments in_tgt {cloud cov base}.
Arguments in_par {cloud cov base}.
Arguments first_inputs {cloud cov base}.
Arguments input_of {cloud cov base}.
Arguments with_input {cloud cov base}.
Arguments covs_of {cloud tree cov base}.
Arguments mark {cov}.
Arguments ref_align {cloud tree cov vmap result guess base}.
Arguments ref_step {cloud} size {tree cov vmap result guess base}.
Arguments ref_run {cloud} size {tree cov vmap result guess base}.
Arguments allowed {cloud cov guess base}.
Arguments disciplined {cloud} size {tree cov vmap result guess base}.
