(** The kd-tree over the reals as the search of a registration. *)
From Coq Require Import Reals Lra Psatz.
From Verif Require Import Base BaseProofs Num Vec RNum Lin LinSpec FactorModel KnnModel KdModel KdSpec KdReal KdThms MoveSpec.
Open Scope nat_scope.

(** traits::nearest_neighbor_search on the tree, kdtree.hpp:161-163, 261-263, 296-298, over the
    reals: None for "0 found", otherwise the first entry. *)
Definition real_tree_nn (order : sumtree) (points : list (vec4 Rfld)) (tree : kdtree Rnum (vec3 Rnum))
  : vec4 Rfld -> outcome (option (N * car Rfld)) := fun q =>
  let* r := KdModel.nearest_neighbor_search (rsqd order) (normal_apply (D := Rnum)) points tree q (nzero (n := Rnum)) in
  if num_found_neighbors r =? 0 then Ok None
  else let* i := get (indices r) 0 in let* d := get (distances r) 0 in Ok (Some (i, d)).

Section Tree.
Context (order : sumtree) (FS : full_sum order) (ne : (nat -> nat -> bool) -> nat -> list nat -> list nat) (NE : nth_element_contract ne).
Context (find_axis : list (vec4 Rnum) -> outcome (vec3 Rnum)).
Context (AX : forall range, range <> [] -> exists n, find_axis range = Ok n /\ short n).
Context (c : cloud Rfld) (max_leaf_size : Z) (L : (3 <= size_t_of_int max_leaf_size)%N) (NZ : cl_points c <> [])
  (SM : (N.of_nat (length (cl_points c)) <= 4294967295)%N).

Lemma dist_gap j p q : nth_error (cl_points c) j = Some p -> dist_to (D := Rnum) (rsqd order) (cl_points c) q j = sq_gap p q.
Proof using FS. unfold dist_to. intros E. match goal with |- context [nth_error ?a ?b] => change (nth_error a b) with (nth_error (cl_points c) j) end. rewrite E. apply rsqd_eq. exact FS. Qed.
Lemma view_point i p : at_point (cloud_viewN c) i = Ok p <-> nth_error (cl_points c) (N.to_nat i) = Some p.
Proof using. clear. cbn [cloud_viewN at_point]. apply get_Ok. Qed.

Lemma real_tree_exact tree : build_tree (normal_apply (D := Rnum)) find_axis ne (cl_points c) max_leaf_size = Ok tree ->
  exact_search (cloud_viewN c) (real_tree_nn order (cl_points c) tree).
Proof using FS NE AX L NZ SM.
  intros B q. destruct (kd_normal_real order FS ne NE find_axis AX (cl_points c) max_leaf_size q NZ L SM) as (tree' & rk & B' & R1 & R2).
  assert (tree' = tree) as -> by congruence. unfold real_tree_nn, KdModel.nearest_neighbor_search.
  destruct (knn_init Rnum (Some 1) (-1)) as [r0| | |] eqn:E0; try discriminate.
  assert (K : buffer_size r0 = 1) by (injection E0 as <-; reflexivity).
  destruct (R2 (Some 1) (-1)%Z r0 E0 ltac:(lia)) as (r & -> & (B1 & B2 & B3)). rewrite K in B1, B2, B3. cbn [bind].
  specialize (R1 1). destruct R1 as (I1 & I2 & I3 & I4 & I5). rewrite B1.
  destruct rk as [|[i d] rk]; cbn [firstn length map app repeat Nat.sub] in *.
  - exists None. split; [reflexivity|]. intros j p Ej. apply view_point in Ej. rewrite <- (dist_gap _ _ q Ej).
    assert (Lj : N.to_nat j < length (cl_points c)) by (apply nth_error_Some; congruence).
    match type of I4 with context [filter ?f ?l] => destruct (filter f l) as [|x xs] eqn:EF; [|simpl in I4; discriminate I4] end.
    apply Rlt_bool_false_iff. destruct (nlt (n := Rnum) (dist_to (D := Rnum) (rsqd order) (cl_points c) q (N.to_nat j)) nmaxv) eqn:EN; [|exact EN].
    exfalso. assert (In (N.to_nat j) []) by (rewrite <- EF; apply filter_In; split; [apply in_seq; split; [apply Nat.le_0_l|exact Lj]|exact EN]). destruct H.
  - exists (Some (i, d)). split. { change (1 =? 0) with false. cbv iota. rewrite B2, B3. reflexivity. }
    destruct (I2 i d (or_introl eq_refl)) as (j & Lj & -> & ->).
    destruct (nth_error (cl_points c) j) as [p|] eqn:Ep; [|apply nth_error_None in Ep; destruct (Nat.lt_irrefl j); eapply Nat.lt_le_trans; [exact Lj|exact Ep]].
    assert (MIN : forall j' p', nth_error (cl_points c) j' = Some p' -> (sq_gap p q <= sq_gap p' q)%R).
    { intros j' p' E'. rewrite <- (dist_gap _ _ q Ep), <- (dist_gap _ _ q E').
      destruct (Nat.eq_dec j' j) as [->|NJ]; [apply Rle_refl|]. apply Rlt_bool_false_iff.
      apply (I5 j') with (c := (N.of_nat j, dist_to (D := Rnum) (rsqd order) (cl_points c) q j)).
      - apply (proj1 (nth_error_Some (cl_points c) j')). rewrite E'. discriminate.
      - cbn [fst In]. intros [E|[]]. apply NJ. lia.
      - left. reflexivity. }
    assert (AP : at_point (cloud_viewN c) (N.of_nat j) = Ok p) by (apply view_point; rewrite Nnat.Nat2N.id; exact Ep).
    split; [exists p; split; [exact AP|]|split].
    + intros j' p' E'. apply view_point in E'. eapply MIN. exact E'.
    + match type of I4 with context [filter ?f ?l] => destruct (filter f l) as [|x xs] eqn:EF; [simpl in I4; discriminate I4|] end.
      assert (IX : In x (x :: xs)) by (left; reflexivity). rewrite <- EF in IX. apply filter_In in IX. destruct IX as (IX & LX).
      apply in_seq in IX. destruct (nth_error (cl_points c) x) as [px|] eqn:Epx; [|apply nth_error_None in Epx; destruct (Nat.lt_irrefl x); eapply Nat.lt_le_trans; [exact (proj2 IX)|exact Epx]].
      apply Rlt_bool_iff in LX. rewrite (dist_gap _ _ q Epx) in LX. rewrite (dist_gap _ _ q Ep).
      eapply Rle_lt_trans; [apply (MIN _ _ Epx)|exact LX].
    + exists p. split; [exact AP|]. apply dist_gap. exact Ep.
Qed.
End Tree.

Lemma get_map {A B : Type} (f : A -> B) l i : get (map f l) i = (let* a := get l i in Ok (f a)).
Proof. unfold get. rewrite nth_error_map. destruct (nth_error l i); reflexivity. Qed.
Lemma moved_cloud_view G c : moved_view G (cloud_viewN c) (cloud_viewN (moved_cloud G c)).
Proof. intros i. cbn [cloud_viewN moved_cloud at_point at_normal at_cov cl_points cl_normals cl_covs]. rewrite !get_map. auto. Qed.
