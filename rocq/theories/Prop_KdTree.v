(** C01, C02, C03, C05, C07: kd-tree construction and search. *)
From Coq Require Import Reals.
From Flocq Require Import IEEE754.BinarySingleNaN.
From Verif Require Import Base BaseProofs Num Vec F64 F64Proofs RNum KnnModel KnnSpec
  KdModel KdSpec KdProofs KdTop KdF64 KdReal KdThms NthElement.
Open Scope nat_scope.

(** Assumptions shared by the double-precision theorems: any squaredNorm evaluation order
    (vectorised, reassociated or with fused multiply-add), any conforming
    std::nth_element, a non-empty cloud of finite points below the 32-bit node limit,
    max_leaf_size at least 3 after conversion to size_t, positive max_scan_count. *)
Definition kd_env (order : sumtree) (ne : (nat -> nat -> bool) -> nat -> list nat -> list nat)
    (points : list (vec4 Fnum)) (max_leaf_size max_scan_count : Z) : Prop :=
  full_sum order /\ nth_element_contract ne /\
  points <> [] /\ (forall p, In p points -> vfinite p) /\
  (N.of_nat (length points) <= 4294967295)%N /\
  (3 <= size_t_of_int max_leaf_size)%N /\ (0 < max_scan_count <= 2 ^ 30)%Z.

(** C05: construction terminates without touching memory outside the node buffer, fills
    every allocated node, and its leaves hold every point index exactly once. *)
Theorem C05_kdtree_build_covers :
  forall order ne points max_leaf_size max_scan_count,
  kd_env order ne points max_leaf_size max_scan_count ->
  exists tree,
    build_tree axis_apply (axis_find max_scan_count) ne points max_leaf_size = Ok tree /\
    t_root tree = Some 0%N /\ 1 <= length (t_nodes tree) <= length points /\
    Permutation (leaf_points tree) (seq 0 (length points)) /\
    links_ok tree /\ leaves_bounded (size_t_of_int max_leaf_size) tree.
Proof.
  intros order ne points L m (FS & NE & H1 & H2 & H3 & H4 & H5).
  destruct (kd_build_f64 order ne NE points L m H2 H5 H1 H4 H3) as (tree & E & WF & R & Nn).
  exists tree. split; [exact E|]. split; [exact R|]. split; [exact Nn|].
  exact (kd_wf_facts points L m H5 tree WF).
Qed.

(** C01 and C02: on the tree built from a cloud, one ranking of the points answers the
    queries of every size k and the nearest-neighbour query; each prefix of it is a
    correct k-nearest answer in the machine's own squared distances. *)
Theorem C01_kdtree_knn_exact :
  forall order ne points max_leaf_size max_scan_count query,
  kd_env order ne points max_leaf_size max_scan_count -> vfinite query ->
  exists tree ranking,
    build_tree axis_apply (axis_find max_scan_count) ne points max_leaf_size = Ok tree /\
    (forall k, is_knn (dist_to (fsqd order) points query) (length points) k (firstn k ranking)) /\
    (forall k, (0 < k)%Z -> exists r,
       knn_search (fsqd order) axis_apply points tree query (nzero (n := Fnum)) None k = Ok r /\
       knn_buffers (Z.to_nat k) (firstn (Z.to_nat k) ranking)
         (num_found_neighbors r) (indices r) (distances r)).
Proof.
  intros order ne points L m query (FS & NE & H1 & H2 & H3 & H4 & H5) Hq.
  destruct (kd_build_f64 order ne NE points L m H2 H5 H1 H4 H3) as (tree & E & WF & _).
  destruct (kd_exact_f64 order FS points L m H2 H5 tree query WF Hq) as (rk & K1 & K2).
  exists tree, rk. split; [exact E|]. split; [exact K1|]. intros k Hk.
  destruct (K2 None k {| static_n := None; capacity := k; num_found_neighbors := 0;
      indices := repeat INVALID (Z.to_nat k); distances := repeat nmaxv (Z.to_nat k) |})
    as (r & A & B).
  - unfold knn_init. destruct (Z.leb_spec k 0); [lia|reflexivity].
  - simpl. unfold buffer_size. simpl. lia.
  - exists r. split; [exact A|exact B].
Qed.

Theorem C02_kdtree_nearest_is_first_of_knn :
  forall order ne points max_leaf_size max_scan_count query,
  kd_env order ne points max_leaf_size max_scan_count -> vfinite query ->
  exists tree,
    build_tree axis_apply (axis_find max_scan_count) ne points max_leaf_size = Ok tree /\
    exists nn, nearest_neighbor_search (fsqd order) axis_apply points tree query
                 (nzero (n := Fnum)) = Ok nn /\
    forall k, (0 < k)%Z -> exists r,
      knn_search (fsqd order) axis_apply points tree query (nzero (n := Fnum)) None k = Ok r /\
      firstn 1 (indices r) = indices nn /\ firstn 1 (distances r) = distances nn /\
      num_found_neighbors nn = Nat.min 1 (num_found_neighbors r).
Proof.
  intros order ne points L m query (FS & NE & H1 & H2 & H3 & H4 & H5) Hq.
  destruct (kd_build_f64 order ne NE points L m H2 H5 H1 H4 H3) as (tree & E & WF & _).
  destruct (kd_exact_f64 order FS points L m H2 H5 tree query WF Hq) as (rk & K1 & K2).
  exists tree. split; [exact E|].
  destruct (K2 (Some 1) (-1)%Z {| static_n := Some 1; capacity := -1; num_found_neighbors := 0;
      indices := repeat INVALID 1; distances := repeat nmaxv 1 |}) as (nn & An & Bn).
  { reflexivity. } { unfold buffer_size; simpl; lia. }
  exists nn. split; [exact An|]. intros k Hk.
  destruct (K2 None k {| static_n := None; capacity := k; num_found_neighbors := 0;
      indices := repeat INVALID (Z.to_nat k); distances := repeat nmaxv (Z.to_nat k) |})
    as (r & A & B).
  { unfold knn_init. destruct (Z.leb_spec k 0); [lia|reflexivity]. }
  { unfold buffer_size; simpl; lia. }
  exists r. split; [exact A|].
  change (buffer_size _) with 1 in Bn at 1. change (buffer_size _) with (Z.to_nat k) in B at 1.
  cbn [buffer_size static_n capacity] in Bn, B.
  destruct B as (B1 & B2 & B3). destruct Bn as (N1 & N2 & N3).
  assert (Hk' : exists k', Z.to_nat k = S k') by (exists (Z.to_nat k - 1); lia).
  destruct Hk' as (k' & Ek). rewrite Ek in *.
  rewrite B1, B2, B3, N1, N2, N3. unfold buffer_size; simpl Z.to_nat; simpl static_n; cbv iota.
  cbn [capacity]. rewrite ?Ek.
  destruct rk as [|c rk]; simpl; auto.
Qed.

(** C03: with a finite epsilon the answer is exact or consists of k distinct points in
    ascending order, all closer than epsilon. *)
Theorem C03_kdtree_epsilon :
  forall order ne points max_leaf_size max_scan_count query epsilon k,
  kd_env order ne points max_leaf_size max_scan_count -> vfinite query ->
  is_finite epsilon = true -> (0 < k)%Z ->
  exists tree r res,
    build_tree axis_apply (axis_find max_scan_count) ne points max_leaf_size = Ok tree /\
    knn_search (fsqd order) axis_apply points tree query epsilon None k = Ok r /\
    knn_buffers (Z.to_nat k) res (num_found_neighbors r) (indices r) (distances r) /\
    (is_knn (dist_to (fsqd order) points query) (length points) (Z.to_nat k) res \/
     is_early_knn (dist_to (fsqd order) points query) (length points) (Z.to_nat k) epsilon res).
Proof.
  intros order ne points L m query eps k (FS & NE & H1 & H2 & H3 & H4 & H5) Hq He Hk.
  destruct (kd_build_f64 order ne NE points L m H2 H5 H1 H4 H3) as (tree & E & WF & _).
  destruct (kd_eps_f64 order FS points L m H2 H5 tree query eps None k
    {| static_n := None; capacity := k; num_found_neighbors := 0;
      indices := repeat INVALID (Z.to_nat k); distances := repeat nmaxv (Z.to_nat k) |} WF Hq He)
    as (r & res & A & B & C).
  - unfold knn_init. destruct (Z.leb_spec k 0); [lia|reflexivity].
  - unfold buffer_size; simpl; lia.
  - exists tree, r, res. auto.
Qed.

(** C07: over exact reals the search is exact for splits along arbitrary directions of
    norm at most one (NormalProjection). *)
Theorem C07_normal_projection_exact :
  forall order ne find_axis points max_leaf_size query,
  full_sum order -> nth_element_contract ne ->
  (forall range, range <> [] -> exists n, find_axis range = Ok n /\ short n) ->
  points <> [] -> (3 <= size_t_of_int max_leaf_size)%N ->
  (N.of_nat (length points) <= 4294967295)%N ->
  exists tree ranking,
    build_tree (normal_apply (D := Rnum)) find_axis ne points max_leaf_size = Ok tree /\
    (forall k, is_knn (dist_to (rsqd order) points query) (length points) k (firstn k ranking)) /\
    forall sn k r0, knn_init Rnum sn k = Ok r0 -> 0 < buffer_size r0 ->
    exists r,
      knn_search (rsqd order) (normal_apply (D := Rnum)) points tree query (nzero (n := Rnum)) sn k = Ok r /\
      knn_buffers (buffer_size r0) (firstn (buffer_size r0) ranking)
        (num_found_neighbors r) (indices r) (distances r).
Proof.
  intros order ne fa points L query FS NE U H1 H2 H3.
  exact (kd_normal_real order FS ne NE fa U points L query H1 H2 H3).
Qed.

(** * Non-vacuity and concrete runs *)
Definition fpt (x y z : Z) : vec4 Fnum :=
  V4 (D := Fnum) (f64_of x 0) (f64_of y 0) (f64_of z 0) (f64_of 1 0).
Definition cloud7 : list (vec4 Fnum) :=
  [fpt 0 0 0; fpt 5 1 0; fpt 2 2 2; fpt 9 0 1; fpt 4 4 4; fpt 7 7 0; fpt 1 8 3].

Lemma fpt_finite x y z : is_finite (f64_of x 0) = true -> is_finite (f64_of y 0) = true ->
  is_finite (f64_of z 0) = true -> vfinite (fpt x y z).
Proof. intros. repeat split; auto. Qed.

Lemma eigen_order_full : full_sum eigen_order.
Proof. unfold full_sum, eigen_order; simpl. constructor. apply perm_swap. Qed.

Example kd_env_inhabited : kd_env eigen_order sort_nth_element cloud7 3 128.
Proof.
  split; [apply eigen_order_full|]. split; [apply sort_nth_element_contract|].
  split; [discriminate|]. split.
  { intros p Hp. unfold cloud7 in Hp; cbn [In] in Hp.
    repeat (destruct Hp as [<-|Hp]; [apply fpt_finite; vm_compute; reflexivity|]). destruct Hp. }
  split; [vm_compute; discriminate|]. split; [vm_compute; discriminate|]. vm_compute. split; congruence.
Qed.

Example kd_run :
  (let* t := build_tree axis_apply (axis_find 128) sort_nth_element cloud7 3 in
   let* r := knn_search (fsqd eigen_order) axis_apply cloud7 t (fpt 3 3 3) (nzero (n := Fnum)) None 3 in
   Ok (length (t_nodes t), num_found_neighbors r, indices r, map B2SF (distances r)))
  = Ok (5, 3, [2%N; 4%N; 1%N],
        map B2SF [f64_of 3 0; f64_of 3 0; f64_of 17 0]).
Proof. vm_compute. reflexivity. Qed.

Example C07_env_inhabited :
  exists find_axis : list (vec4 Rnum) -> outcome (vec3 Rnum),
  forall range, range <> [] -> exists n, find_axis range = Ok n /\ short n.
Proof.
  exists (fun _ => Ok (V3 (D := Rnum) 0%R 1%R 0%R)). intros range _. eexists. split; [reflexivity|].
  unfold short; simpl. rewrite !Rmult_0_l, Rmult_1_l, Rplus_0_l, Rplus_0_r. apply Rle_refl.
Qed.

(** * Refutations outside the hypotheses *)

(** max_leaf_size 1, 2 or 0 makes construction write past the node buffer, which is sized
    by the number of points. *)
Theorem C05_leaf_size_1_refuted :
  exists points, length points = 2 /\ (forall p, In p points -> vfinite p) /\
    build_tree axis_apply (axis_find 128) sort_nth_element points 1 = UB.
Proof.
  exists [fpt 0 0 0; fpt 1 0 0]. split; [reflexivity|]. split.
  - intros p [<-|[<-|[]]]; apply fpt_finite; vm_compute; reflexivity.
  - apply is_UB_eq. vm_compute. reflexivity.
Qed.

Theorem C05_leaf_size_2_refuted :
  exists points, length points = 6 /\ (forall p, In p points -> vfinite p) /\
    build_tree axis_apply (axis_find 128) sort_nth_element points 2 = UB.
Proof.
  exists [fpt 0 0 0; fpt 1 0 0; fpt 2 0 0; fpt 3 0 0; fpt 4 0 0; fpt 5 0 0].
  split; [reflexivity|]. split.
  - intros p Hp. cbn [In] in Hp.
    repeat (destruct Hp as [<-|Hp]; [apply fpt_finite; vm_compute; reflexivity|]). destruct Hp.
  - apply is_UB_eq. vm_compute. reflexivity.
Qed.

Theorem C05_leaf_size_0_refuted :
  exists points, length points = 1 /\ (forall p, In p points -> vfinite p) /\
    build_tree axis_apply (axis_find 128) sort_nth_element points 0 = UB.
Proof.
  exists [fpt 0 0 0]. split; [reflexivity|]. split.
  - intros p [<-|[]]; apply fpt_finite; vm_compute; reflexivity.
  - apply is_UB_eq. vm_compute. reflexivity.
Qed.

(** A scan count of zero divides by zero for every non-empty cloud that needs a split. *)
Theorem C05_zero_scan_count_refuted :
  forall ne (points : list (vec4 Fnum)) max_leaf_size, points <> [] ->
  (size_t_of_int max_leaf_size < N.of_nat (length points))%N ->
  build_tree axis_apply (axis_find 0) ne points max_leaf_size = UB.
Proof.
  intros ne points L Hne HL. unfold build_tree.
  destruct points as [|p0 pts]; [congruence|]. set (ps := p0 :: pts) in *.
  assert (Hf : is_leaf_size L (length ps) = false) by (unfold is_leaf_size; apply N.leb_gt; lia).
  cbn [create_node]. cbn [b_count b_indices b_nodes]. rewrite Nat.sub_0_r, Hf.
  unfold split_range.
  assert (Hs : slice (seq 0 (length ps)) 0 (length ps) = seq 0 (length ps)).
  { unfold slice. rewrite Nat.sub_0_r. cbn [skipn]. apply firstn_all2. rewrite seq_length. lia. }
  rewrite Hs. rewrite (mapM_get_Ok ps _ p0) by (intros i Hi; apply in_seq in Hi; lia).
  cbn [bind]. unfold axis_find, scan_plan.
  change (size_t_of_int 0) with 0%N. destruct (N.of_nat _ <? 0)%N eqn:E.
  - apply N.ltb_lt in E. lia.
  - reflexivity.
Qed.

(** A tree built from an empty cloud has no root; any query reads it uninitialised. *)
Theorem C05_empty_cloud_search_refuted :
  forall order ne L m query eps k, (0 < k)%Z ->
  exists tree, build_tree axis_apply (axis_find m) ne [] L = Ok tree /\
    knn_search (fsqd order) axis_apply [] tree query eps None k = UB.
Proof.
  intros order ne L m query eps k Hk. eexists. split; [reflexivity|].
  unfold knn_search, knn_init. destruct (Z.leb_spec k 0); [lia|]. reflexivity.
Qed.

(** In doubles NormalProjection is not exact: the rounded dot products make the split
    distance exceed the true one, and the nearest point is pruned. *)
Definition normal_witness : vec3 Fnum :=
  V3 (D := Fnum) (f64_of 5404319552844595 (-53)) (f64_of 3602879701896397 (-52)) (f64_of 0 0).
Definition normal_cloud : list (vec4 Fnum) :=
  [ fpt 0 0 0;
    V4 (D := Fnum) (f64_of 4797389134312243 (-42)) (f64_of 4427953227379507 (-43)) (f64_of 0 0) (f64_of 1 0);
    V4 (D := Fnum) (f64_of 4797389134312243 (-42)) (f64_of 4427953227379507 (-43)) (f64_of 121 (-26)) (f64_of 1 0);
    fpt 2000 1500 0 ].

Theorem C07_normal_projection_double_refuted :
  exists tree nn,
    build_tree (normal_apply (D := Fnum)) (fun _ => Ok normal_witness) sort_nth_element normal_cloud 3 = Ok tree /\
    nearest_neighbor_search (fsqd eigen_order) (normal_apply (D := Fnum)) normal_cloud tree
      (fpt 1101 517 0) (nzero (n := Fnum)) = Ok nn /\
    exists d, distances nn = [d] /\
      nlt (dist_to (fsqd eigen_order) normal_cloud (fpt 1101 517 0) 1) d = true.
Proof.
  destruct (outcome_witness
    (let* tree := build_tree (normal_apply (D := Fnum)) (fun _ => Ok normal_witness)
                    sort_nth_element normal_cloud 3 in
     let* nn := nearest_neighbor_search (fsqd eigen_order) (normal_apply (D := Fnum)) normal_cloud tree
      (fpt 1101 517 0) (nzero (n := Fnum)) in Ok (tree, nn))
    (fun tn => match distances (snd tn) with
       [d] => nlt (dist_to (fsqd eigen_order) normal_cloud (fpt 1101 517 0) 1) d | _ => false end))
    as ((tree & nn) & E & T); [vm_compute; reflexivity|].
  apply bind_Ok in E. destruct E as (tree' & E1 & E). apply bind_Ok in E.
  destruct E as (nn' & E2 & E). inversion E; subst tree' nn'. cbn [snd] in T.
  exists tree, nn. split; [exact E1|]. split; [exact E2|].
  destruct (distances nn) as [|d [|? ?]]; [discriminate T| |discriminate T]. exists d. split; [reflexivity|exact T].
Qed.

Print Assumptions C01_kdtree_knn_exact.
Print Assumptions C02_kdtree_nearest_is_first_of_knn.
Print Assumptions C03_kdtree_epsilon.
Print Assumptions C05_kdtree_build_covers.
Print Assumptions C07_normal_projection_exact.
Print Assumptions C07_normal_projection_double_refuted.
