(** Model of several incremental voxel maps living in one program: flat_voxels is a vector of
    std::shared_ptr to voxels (incremental_voxelmap.hpp:205), so a map holds addresses and the
    implicit copy constructor copies addresses, not voxels.  [VmapModel] holds voxels by value;
    the theorems of Prop_Heap relate the two. *)
From Coq Require Import ZArith.
From Verif Require Import Base Num Vec KnnModel VmapModel.

Section Heap.
Context (D : num) (C : contents D) (coord_of : vec4 D -> outcome coord).
Context (pose : Type) (act : pose -> item D -> item D).

(** The voxels allocated so far; the address of a voxel is its position.  Freeing is not
    modelled: a voxel is freed when no map holds it, so no map can see the difference. *)
Definition heap : Type := list (voxel D C).

(** The members of IncrementalVoxelMap, incremental_voxelmap.hpp:191-207, with flat_voxels as
    addresses.  voxel_setting is part of [add] and inv_leaf_size of [coord_of]; they are
    the same for all maps of one program here. *)
Record hmap : Type := mkHmap {
  h_horizon : N; h_cycle : N; h_counter : N;
  h_offsets : list coord;
  h_flat : list nat;
  h_index : index_map
}.

(** incremental_voxelmap.hpp:59-73: one point of the loop in insert. *)
Definition hinsert_point (now : N) (st : heap * list nat * index_map) (q : item D)
  : outcome (heap * list nat * index_map) :=
  let '(h, flat, idx) := st in
  let* c := coord_of (it_pt q) in
  let '(i, h, flat, idx) :=
    match lookup idx c with
    | Some i => (i, h, flat, idx)
    | None => (length flat, h ++ [mkVoxel now c (empty C)],        (* std::make_shared *)
               flat ++ [length h], (c, length flat) :: idx)
    end in
  let* a := get flat i in
  let* v := get h a in
  let* h := set h a (mkVoxel now (v_coord v) (add C (v_body v) q)) in
  Ok (h, flat, idx).

(** incremental_voxelmap.hpp:88-90: finalize through the pointers. *)
Definition hfinalize (h : heap) (flat : list nat) : outcome heap :=
  foldM (fun h a => let* v := get h a in
                    set h a (mkVoxel (v_lru v) (v_coord v) (finalize C (v_body v)))) flat h.

(** insert, incremental_voxelmap.hpp:55-92. *)
Definition hinsert (h : heap) (st : hmap) (call : pose * list (item D)) : outcome (heap * hmap) :=
  let '(T, points) := call in
  let* (h, flat, idx) :=
    foldM (hinsert_point (h_counter st)) (map (act T) points) (h, h_flat st, h_index st) in
  let now := wrap64 (h_counter st + 1) in
  let* (flat, idx) :=
    (if (h_cycle st =? 0)%N then UB          (* integer remainder by zero *)
     else if (now mod h_cycle st =? 0)%N then
       let* vs := mapM (get h) flat in
       let kept := filter (fun av => negb (expired (h_horizon st) now (snd av)))
                          (combine flat vs) in
       Ok (map fst kept, reindex (map snd kept))
     else Ok (flat, idx)) in
  let* h := hfinalize h flat in
  Ok (h, mkHmap (h_horizon st) (h_cycle st) now (h_offsets st) flat idx).

(** What a map shows: the map with its pointers followed. *)
Definition view (h : heap) (st : hmap) : outcome (vmap D C) :=
  let* vs := mapM (get h) (h_flat st) in
  Ok (mkVmap D C (h_horizon st) (h_cycle st) (h_counter st) (h_offsets st) vs (h_index st)).

(** Calls on the maps of a program; maps are numbered in order of creation.
    [WNew]: the constructor (:45) and the LRU members set by the user; [WCopy]: the implicit
    copy constructor; [WInsert]: insert; [WOffsets]: set_search_offsets (:156-185).  There is no
    copy assignment: the const member inv_leaf_size deletes it. *)
Inductive wop : Type :=
| WNew (horizon cycle : N)
| WCopy (i : nat)
| WInsert (i : nat) (call : pose * list (item D))
| WOffsets (i : nat) (n : Z).

(** The program with shared voxels. *)
Definition world : Type := (heap * list hmap)%type.
Definition wstep (w : world) (o : wop) : outcome world :=
  let '(h, ms) := w in
  match o with
  | WNew horizon cycle => Ok (h, ms ++ [mkHmap horizon cycle 0 (next_offsets [] 1) [] []])
  | WCopy i => let* m := get ms i in Ok (h, ms ++ [m])
  | WInsert i call =>
      let* m := get ms i in
      let* (h, m) := hinsert h m call in
      let* ms := set ms i m in
      Ok (h, ms)
  | WOffsets i n =>
      let* m := get ms i in
      let* ms := set ms i (mkHmap (h_horizon m) (h_cycle m) (h_counter m)
                                  (next_offsets (h_offsets m) n) (h_flat m) (h_index m)) in
      Ok (h, ms)
  end.
Definition wrun (ops : list wop) : outcome world := foldM wstep ops ([], []).

End Heap.
Arguments mkHmap.
Arguments hinsert_point {D C}.
Arguments hfinalize {D C}.
Arguments hinsert {D C}.
Arguments view {D C}.
Arguments WNew {D pose}.
Arguments WCopy {D pose}.
Arguments WInsert {D pose}.
Arguments WOffsets {D pose}.
Arguments wstep {D C}.
Arguments wrun {D}.
