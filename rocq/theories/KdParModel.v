(** Model of the parallel kd-tree builders: include/small_gicp/ann/kdtree_omp.hpp (OpenMP
    tasks) and kdtree_tbb.hpp (tbb::parallel_invoke).  Both run the create_node body of the
    sequential builder with an atomic node counter and spawn the two children as tasks
    when N > 512.  A build is a tree of running calls; [psteps] lists every step any
    worker could take next, so all interleavings (for any number of threads) are
    sequences of such steps.

    Step granularity: the fetch-and-add of the counter, the permutation of the own index
    range (find_axis + nth_element), and each write of the own node are separate steps. *)
From Verif Require Import Base Num KnnModel KdModel.

Section KdPar.
Context (D : num) (pt : Type).
Context (P : Type) (papply : P -> pt -> car D) (find_axis : list pt -> outcome P).
Context (nth_element : (nat -> nat -> bool) -> nat -> list nat -> list nat).
Context (points : list pt) (max_leaf_size : Z).

(** Control state of one create_node call (kdtree_omp.hpp:51-97, kdtree_tbb.hpp:36-79). *)
Inductive proc : Type :=
| PCall (first last : nat)                         (* about to execute node_count++ *)
| PHave (id : nat) (first last : nat)              (* owns node id *)
| PSplit (id : nat) (first last : nat) (proj : P) (thresh : car D)  (* range permuted *)
| PFork (id : nat) (l r : proc)                    (* children *)
| PPend (first last : nat)                         (* right child not started yet *)
| PDone                                            (* child finished, link written *)
| PRet (id : N).                                   (* call returned node index *)

(** Threshold for spawning tasks: kdtree_omp.hpp:82-85, kdtree_tbb.hpp:67. *)
Definition spawns (n : nat) : bool := (512 <? N.of_nat n)%N.

Fixpoint psteps (st : bstate D P) (p : proc) : list (outcome (bstate D P * proc)) :=
  match p with
  | PCall f l =>      (* omp:59 / tbb:45 *)
      [Ok (mkB (b_nodes st) (b_indices st) (S (b_count st)), PHave (N.to_nat (u32 (b_count st))) f l)]
  | PHave id f l =>
      if is_leaf_size max_leaf_size (l - f) then          (* omp:63-69 / tbb:49-55 *)
        [let* nodes := set_ntype (b_nodes st) id (NLeaf (u32 f) (u32 l)) in
         Ok (mkB nodes (b_indices st) (b_count st), PRet (N.of_nat id))]
      else                                                (* omp:72-75 / tbb:58-61 *)
        [let* (proj, sl', thresh) :=
            split_range papply find_axis nth_element points (slice (b_indices st) f l) in
         Ok (mkB (b_nodes st) (put_slice (b_indices st) f sl') (b_count st),
             PSplit id f l proj thresh)]
  | PSplit id f l proj thresh =>                          (* omp:78-79 / tbb:64-65, then fork *)
      [let* nodes := set_ntype (b_nodes st) id (NSub proj thresh) in
       let m := f + (l - f) / 2 in
       Ok (mkB nodes (b_indices st) (b_count st),
           PFork id (PCall f m) (if spawns (l - f) then PCall m l else PPend m l))]
  | PFork id pl pr =>
      (match pl with
       | PRet c => [let* nodes := set_left (b_nodes st) id c in
                    Ok (mkB nodes (b_indices st) (b_count st), PFork id PDone pr)]
       | _ => map (fun o => let* (st', pl') := o in Ok (st', PFork id pl' pr)) (psteps st pl)
       end) ++
      (match pr with
       | PRet c => [let* nodes := set_right (b_nodes st) id c in
                    Ok (mkB nodes (b_indices st) (b_count st), PFork id pl PDone)]
       | PPend m l => match pl with PDone => [Ok (st, PFork id PDone (PCall m l))] | _ => [] end
       | PDone => match pl with PDone => [Ok (st, PRet (N.of_nat id))] | _ => [] end
       | _ => map (fun o => let* (st', pr') := o in Ok (st', PFork id pl pr')) (psteps st pr)
       end)
  | PPend _ _ | PDone | PRet _ => []
  end.

(** Memory locations shared between workers: the fields of a node and the index slots
    (the counter is atomic, the points are only read). *)
Inductive loc : Type :=
| LType (id : nat) | LLeft (id : nat) | LRight (id : nat) | LIdx (i : nat).

(** Locations each enabled step reads or writes, aligned with [psteps]. *)
Fixpoint touches (p : proc) : list (loc -> Prop) :=
  match p with
  | PCall _ _ => [fun _ => False]
  | PHave id f l =>
      [fun x => if is_leaf_size max_leaf_size (l - f) then x = LType id
                else exists i, x = LIdx i /\ f <= i < l]
  | PSplit id _ _ _ _ => [fun x => x = LType id]
  | PFork id pl pr =>
      (match pl with
       | PRet _ => [fun x => x = LLeft id]
       | _ => touches pl
       end) ++
      (match pr with
       | PRet _ => [fun x => x = LRight id]
       | PPend _ _ => match pl with PDone => [fun _ => False] | _ => [] end
       | PDone => match pl with PDone => [fun _ => False] | _ => [] end
       | _ => touches pr
       end)
  | PPend _ _ | PDone | PRet _ => []
  end.

(** Content of a location. *)
Definition read_loc (st : bstate D P) (x : loc) : option (node_data D P + N + nat) :=
  match x with
  | LType i => option_map (fun nd => inl (inl (ntype nd))) (nth_error (b_nodes st) i)
  | LLeft i => option_map (fun nd => inl (inr (left nd))) (nth_error (b_nodes st) i)
  | LRight i => option_map (fun nd => inl (inr (right nd))) (nth_error (b_nodes st) i)
  | LIdx i => option_map inr (nth_error (b_indices st) i)
  end.

(** Runs: [prun st p k st' p'] takes k steps. *)
Inductive prun : bstate D P -> proc -> nat -> bstate D P -> proc -> Prop :=
| prun_0 st p : prun st p 0 st p
| prun_S st p st1 p1 k st2 p2 :
    prun st p k st1 p1 -> In (Ok (st2, p2)) (psteps st1 p1) -> prun st p (S k) st2 p2.

(** build_tree, kdtree_omp.hpp:26-47 / kdtree_tbb.hpp:19-28: start state and result. *)
Definition par_init : bstate D P :=
  mkB (repeat node0 (length points)) (seq 0 (length points)) 0.
Definition par_start : proc := PCall 0 (length points).
Definition par_tree (st : bstate D P) (root : N) : kdtree D P :=
  mkTree (b_indices st) (Some root) (resize (b_nodes st) (b_count st) node0).

End KdPar.
Arguments PCall {D P}.
Arguments PHave {D P}.
Arguments PSplit {D P}.
Arguments PFork {D P}.
Arguments PPend {D P}.
Arguments PDone {D P}.
Arguments PRet {D P}.
Arguments psteps {D pt P}.
Arguments touches {D P}.
Arguments read_loc {D P}.
Arguments prun {D pt P}.
Arguments par_init {D pt P}.
Arguments par_start {D pt P}.
Arguments par_tree {D P}.
