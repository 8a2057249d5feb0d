(** Independent specifications for nearest-neighbour search and the std:: algorithms used. *)
From Verif Require Import Base Num KnnSpec KdModel.

(** [lt] is a strict weak order on the elements of [l] (precondition of std algorithms). *)
Definition swo_on {A : Type} (lt : A -> A -> bool) (l : list A) : Prop :=
  (forall x, In x l -> lt x x = false) /\
  (forall x y z, In x l -> In y l -> In z l -> lt x y = true -> lt y z = true -> lt x z = true) /\
  (forall x y z, In x l -> In y l -> In z l -> lt x y = false -> lt y z = false -> lt x z = false).

(** Contract of std::nth_element(first, first+n, last, lt) ([alg.nth.element]): a
    permutation in which no element at or after position n is less than an element
    before it, and the element at position n is the one a full sort would put there,
    i.e. none of the elements after it is less than it. *)
Definition nth_element_contract {A : Type}
    (ne : (A -> A -> bool) -> nat -> list A -> list A) : Prop :=
  forall lt n l, n < length l -> swo_on lt l ->
    Permutation l (ne lt n l) /\
    (forall i j x y, i < n -> n <= j ->
      nth_error (ne lt n l) i = Some x -> nth_error (ne lt n l) j = Some y -> lt y x = false) /\
    (forall j x y, n <= j ->
      nth_error (ne lt n l) n = Some x -> nth_error (ne lt n l) j = Some y -> lt y x = false).

(** [res] (index, distance pairs) is a correct answer of a k-nearest-neighbour query
    over points 0..n-1 whose distances to the query are [dist]. *)
Definition is_knn {D : num} (dist : nat -> car D) (n k : nat) (res : list (N * car D)) : Prop :=
  (* genuine, distinct points with their true distances *)
  NoDup (map fst res) /\
  (forall i d, In (i, d) res -> exists j, j < n /\ i = N.of_nat j /\ d = dist j) /\
  (* sorted ascending *)
  StronglySorted (fun a b => nlt (snd b) (snd a) = false) res /\
  (* as many as possible *)
  length res = Nat.min k (length (filter (fun j => nlt (dist j) nmaxv) (seq 0 n))) /\
  (* nothing nearer was left out *)
  (forall j, j < n -> ~ In (N.of_nat j) (map fst res) ->
     forall c, In c res -> nlt (dist j) (snd c) = false).

(** The answer is [res], followed by unused slots. *)
Definition knn_buffers {D : num} (k : nat) (res : list (N * car D))
    (found : nat) (idx : list N) (dst : list (car D)) : Prop :=
  found = length res /\
  idx = map fst res ++ repeat 18446744073709551615%N (k - length res) /\
  dst = map snd res ++ repeat nmaxv (k - length res).

(** Distance of point number [j] to the query. *)
Definition dist_to {D : num} {pt : Type} (sqd : pt -> pt -> car D) (points : list pt)
    (query : pt) (j : nat) : car D :=
  match nth_error points j with Some p => sqd p query | None => nzero end.

(** [res] is an acceptable early-terminated answer: [k] distinct genuine points in
    ascending order whose distances are all below [epsilon]. *)
Definition is_early_knn {D : num} (dist : nat -> car D) (n k : nat) (epsilon : car D)
    (res : list (N * car D)) : Prop :=
  length res = k /\
  NoDup (map fst res) /\
  (forall i d, In (i, d) res -> exists j, j < n /\ i = N.of_nat j /\ d = dist j) /\
  StronglySorted (fun a b => nlt (snd b) (snd a) = false) res /\
  (forall c, In c res -> nlt (snd c) epsilon = true).

(** Indices stored in the leaves of a node array, leaf after leaf. *)
Definition leaf_points {D : num} {P : Type} (tree : kdtree D P) : list nat :=
  flat_map (fun nd => match ntype nd with
                      | NLeaf f l => slice (t_indices tree) (N.to_nat f) (N.to_nat l)
                      | _ => [] end) (t_nodes tree).

(** Every leaf range has at least one and at most [m] points. *)
Definition leaves_bounded {D : num} {P : Type} (m : N) (tree : kdtree D P) : Prop :=
  forall nd f l, In nd (t_nodes tree) -> ntype nd = NLeaf f l -> (f < l)%N /\ (l - f <= m)%N.

(** Child links of inner nodes stay inside the node array; leaves have none. *)
Definition links_ok {D : num} {P : Type} (tree : kdtree D P) : Prop :=
  forall nd, In nd (t_nodes tree) ->
    match ntype nd with
    | NUninit => False
    | NLeaf _ _ => left nd = INVALID_NODE /\ right nd = INVALID_NODE
    | NSub _ _ => N.to_nat (left nd) < length (t_nodes tree) /\
                  N.to_nat (right nd) < length (t_nodes tree)
    end.
