(** Model of include/small_gicp/ann/kdtree.hpp (sequential builder and search) and of
    AxisAlignedProjection in include/small_gicp/ann/projection.hpp. *)
From Verif Require Import Base Num Vec KnnModel.

(** int -> size_t conversion (64 bit). *)
Definition size_t_of_int (z : Z) : N := Z.to_N (z mod 2 ^ 64).
(** size_t -> uint32_t conversion. *)
Definition u32 (n : nat) : N := (N.of_nat n mod 4294967296)%N.
(** size_t -> int conversion (two's complement wrap). *)
Definition int_of_size_t (n : N) : Z :=
  let m := (Z.of_N n mod 2 ^ 32)%Z in if (m <? 2 ^ 31)%Z then m else (m - 2 ^ 32)%Z.

(** INVALID_NODE, kdtree.hpp:53. *)
Definition INVALID_NODE : N := 4294967295%N.

(** * Split-axis selection *)
Section Projection.
Context (D : num).

(** projection.hpp:37: step = N < max_scan_count ? 1 : N / max_scan_count, with the int
    max_scan_count converted to size_t; projection.hpp:38: num_steps = N / step.  A zero
    max_scan_count divides by zero; the int loop counter of line 39 overflows when
    num_steps exceeds INT_MAX. *)
Definition scan_plan (n : nat) (max_scan_count : Z) : outcome (N * N) :=
  let nn := N.of_nat n in
  let m := size_t_of_int max_scan_count in
  let* step := (if (nn <? m)%N then Ok 1%N else if (m =? 0)%N then UB else Ok (nn / m)%N) in
  if (step =? 0)%N then UB
  else let steps := (nn / step)%N in
       if (2147483647 <? steps)%N then UB else Ok (step, steps).

(** Positions (relative to first) visited by the loop of projection.hpp:39-40. *)
Definition scan_positions (step steps : N) : list nat :=
  map (fun i => (N.to_nat step * i)%nat) (seq 0 (N.to_nat steps)).

(** projection.hpp:46-49: variance per axis and the axis choice. *)
Definition choose_axis (sum_pt sum_sq : vec4 D) : nat :=
  let mean := vdivs sum_pt (vw sum_pt) in
  let var := vsub sum_sq (vmul mean sum_pt) in
  if nlt (vy var) (vx var)
  then (if nlt (vz var) (vx var) then 0 else 2)
  else (if nlt (vz var) (vy var) then 1 else 2).

(** AxisAlignedProjection::find_axis, projection.hpp:32-50, over the points of the
    range (already fetched through the index list). *)
Definition axis_find (max_scan_count : Z) (range : list (vec4 D)) : outcome nat :=
  let* (step, steps) := scan_plan (length range) max_scan_count in
  let* sums := foldM (fun (s : vec4 D * vec4 D) i =>
                        let* pt := get range i in
                        Ok (vadd (fst s) pt, vadd (snd s) (vmul pt pt)))
                     (scan_positions step steps) (vzero, vzero) in
  Ok (choose_axis (fst sums) (snd sums)).

(** AxisAlignedProjection::operator(), projection.hpp:23: pt[axis]. *)
Definition axis_apply (axis : nat) (p : vec4 D) : car D := vcomp p axis.

(** NormalProjection, projection.hpp:58-101: the stored direction and its operator()
    (line 64), normal.dot(pt.head<3>()), evaluated left to right.  The direction itself
    comes from an eigen-solver, which theorems quantify over. *)
Record vec3 : Type := V3 { n0 : car D; n1 : car D; n2 : car D }.
Definition normal_apply (n : vec3) (p : vec4 D) : car D :=
  nadd (nadd (nmul (n0 n) (vx p)) (nmul (n1 n) (vy p))) (nmul (n2 n) (vz p)).

End Projection.
Arguments V3 {D}.
Arguments n0 {D}.
Arguments n1 {D}.
Arguments n2 {D}.
Arguments normal_apply {D}.
Arguments choose_axis {D}.
Arguments axis_find {D}.
Arguments axis_apply {D}.

(** * The tree *)
Section KdTree.
Context (D : num).
Context (pt : Type).                              (* traits::point() result *)
Context (sqd : pt -> pt -> car D).                (* (p - q).squaredNorm() *)
Context (P : Type) (papply : P -> pt -> car D).   (* Projection, operator() *)
Context (find_axis : list pt -> outcome P).       (* Projection::find_axis on the range *)
Context (nth_element : (nat -> nat -> bool) -> nat -> list nat -> list nat).

(** KdTreeNode, kdtree.hpp:57-71; the union is a tagged value, reading the wrong member is UB. *)
Inductive node_data : Type :=
| NUninit
| NLeaf (first last : N)
| NSub (proj : P) (thresh : car D).
Record node : Type := mkNode { ntype : node_data; left : N; right : N }.
Definition node0 : node := mkNode NUninit INVALID_NODE INVALID_NODE.

(** Builder-visible state: nodes, indices and the node counter. *)
Record bstate : Type := mkB { b_nodes : list node; b_indices : list nat; b_count : nat }.

Definition set_ntype (nodes : list node) (id : nat) (t : node_data) : outcome (list node) :=
  let* n := get nodes id in set nodes id (mkNode t (left n) (right n)).
Definition set_left (nodes : list node) (id : nat) (c : N) : outcome (list node) :=
  let* n := get nodes id in set nodes id (mkNode (ntype n) c (right n)).
Definition set_right (nodes : list node) (id : nat) (c : N) : outcome (list node) :=
  let* n := get nodes id in set nodes id (mkNode (ntype n) (left n) c).

(** kdtree.hpp:115: comparator of nth_element.  [point_at] is only applied to indices
    that have been fetched successfully before (see [split_range]). *)
Definition proj_less (points : list pt) (proj : P) (i j : nat) : bool :=
  match nth_error points i, nth_error points j with
  | Some a, Some b => nlt (papply proj a) (papply proj b)
  | _, _ => false
  end.

(** kdtree.hpp:112-119 on the range [sl]: choose the projection, run nth_element around
    N/2 and read the threshold at the median. *)
Definition split_range (points : list pt) (sl : list nat) : outcome (P * list nat * car D) :=
  let* range := mapM (get points) sl in
  let* proj := find_axis range in
  let sl' := nth_element (proj_less points proj) (length sl / 2) sl in
  let* mi := get sl' (length sl / 2) in
  let* mp := get points mi in
  Ok (proj, sl', papply proj mp).

Section Build.
Context (points : list pt) (max_leaf_size : Z).

(** kdtree.hpp:103: N <= max_leaf_size with int converted to size_t. *)
Definition is_leaf_size (n : nat) : bool := (N.of_nat n <=? size_t_of_int max_leaf_size)%N.

(** create_node, kdtree.hpp:96-126. *)
Fixpoint create_node (fuel : nat) (st : bstate) (first last : nat) : outcome (bstate * N) :=
  match fuel with
  | O => OutOfFuel
  | S fuel =>
      let n := last - first in
      let node_index := u32 (b_count st) in
      let st := mkB (b_nodes st) (b_indices st) (S (b_count st)) in
      let id := N.to_nat node_index in
      if is_leaf_size n then
        let* nodes := set_ntype (b_nodes st) id (NLeaf (u32 first) (u32 last)) in
        Ok (mkB nodes (b_indices st) (b_count st), node_index)
      else
        let* (proj, sl', thresh) := split_range points (slice (b_indices st) first last) in
        let* nodes := set_ntype (b_nodes st) id (NSub proj thresh) in
        let st := mkB nodes (put_slice (b_indices st) first sl') (b_count st) in
        let median := first + n / 2 in
        let* (st, l) := create_node fuel st first median in
        let* nodes := set_left (b_nodes st) id l in
        let st := mkB nodes (b_indices st) (b_count st) in
        let* (st, r) := create_node fuel st median last in
        let* nodes := set_right (b_nodes st) id r in
        Ok (mkB nodes (b_indices st) (b_count st), node_index)
  end.

(** UnsafeKdTree data members, kdtree.hpp:236-240; [root] is uninitialised after
    construction from an empty cloud. *)
Record kdtree : Type := mkTree { t_indices : list nat; t_root : option N; t_nodes : list node }.

(** std::vector::resize *)
Definition resize {A} (l : list A) (n : nat) (d : A) : list A :=
  firstn n l ++ repeat d (n - length l).

(** build_tree (kdtree.hpp:80-88) behind the UnsafeKdTree constructor (146-153). *)
Definition build_tree : outcome kdtree :=
  match points with
  | [] => Ok (mkTree [] None [])
  | _ =>
      let n := length points in
      let* (st, root) :=
         create_node (S n) (mkB (repeat node0 n) (seq 0 n) 0) 0 n in
      Ok (mkTree (b_indices st) (Some root) (resize (b_nodes st) (b_count st) node0))
  end.
End Build.

Section Search.
Context (points : list pt) (tree : kdtree) (query : pt) (epsilon : car D).

(** Leaf scan, kdtree.hpp:200-203. *)
Definition scan_leaf (first last : nat) (result : knn_result D) : outcome (knn_result D) :=
  foldM (fun r i => let* j := get (t_indices tree) i in
                    let* p := get points j in
                    push r (N.of_nat j) (sqd p query))
        (seq first (last - first)) result.

(** knn_search(query, node_index, result, setting), kdtree.hpp:194-233. *)
Fixpoint search (fuel : nat) (node_index : N) (result : knn_result D)
  : outcome (knn_result D * bool) :=
  match fuel with
  | O => OutOfFuel
  | S fuel =>
      let* nd := get (t_nodes tree) (N.to_nat node_index) in
      if (left nd =? INVALID_NODE)%N then
        match ntype nd with
        | NLeaf f l =>
            let* r := scan_leaf (N.to_nat f) (N.to_nat l) result in
            let* ful := fulfilled epsilon r in
            Ok (r, negb ful)
        | _ => UB
        end
      else
        match ntype nd with
        | NSub proj thresh =>
            let val := papply proj query in
            let diff := nsub val thresh in
            let cut_sq_dist := nmul diff diff in
            let best_child := if nlt diff nzero then left nd else right nd in
            let other_child := if nlt diff nzero then right nd else left nd in
            let* (r, go) := search fuel best_child result in
            if negb go then Ok (r, false)
            else
              let* w := worst_distance r in
              if nlt cut_sq_dist w then search fuel other_child r
              else Ok (r, true)
        | _ => UB
        end
  end.

(** knn_search overloads, kdtree.hpp:172-189: [sn] is the static template argument,
    [k] the dynamic count; returns the filled result (num_found, indices, distances).
    Simplification: recursion depth is bounded by the number of nodes (proved enough). *)
Definition knn_search (sn : option nat) (k : Z) : outcome (knn_result D) :=
  let* r := knn_init D sn k in
  match t_root tree with
  | None => UB
  | Some root => let* (r, _) := search (S (length (t_nodes tree))) root r in Ok r
  end.

(** nearest_neighbor_search, kdtree.hpp:161-163. *)
Definition nearest_neighbor_search : outcome (knn_result D) := knn_search (Some 1) (-1).

(** KdTree::knn_search / Traits (kdtree.hpp:272-274, 289-302): size_t k narrowed to int. *)
Definition knn_search_api (k : N) : outcome (knn_result D) :=
  knn_search None (int_of_size_t k).

End Search.
End KdTree.

Arguments NUninit {D P}.
Arguments NLeaf {D P}.
Arguments NSub {D P}.
Arguments mkNode {D P}.
Arguments ntype {D P}.
Arguments left {D P}.
Arguments right {D P}.
Arguments node0 {D P}.
Arguments mkB {D P}.
Arguments b_nodes {D P}.
Arguments b_indices {D P}.
Arguments b_count {D P}.
Arguments set_ntype {D P}.
Arguments set_left {D P}.
Arguments set_right {D P}.
Arguments mkTree {D P}.
Arguments t_indices {D P}.
Arguments t_root {D P}.
Arguments t_nodes {D P}.
Arguments proj_less {D pt P}.
Arguments split_range {D pt P}.
Arguments create_node {D pt P}.
Arguments build_tree {D pt P}.
Arguments scan_leaf {D pt} sqd {P}.
Arguments search {D pt} sqd {P}.
Arguments knn_search {D pt} sqd {P}.
Arguments nearest_neighbor_search {D pt} sqd {P}.
Arguments knn_search_api {D pt} sqd {P}.
