(** C04: the k-best container. *)
From Flocq Require Import IEEE754.BinarySingleNaN.
From Verif Require Import Base BaseProofs Num KnnModel KnnSpec KnnProofs F64 F64Proofs.

(** C04, IEEE doubles: pushing any sequence of non-NaN distances into a fresh container
    leaves exactly the first k of the stable distance order (ties keep arrival order) of
    the candidates below DBL_MAX, ascending, unused slots untouched. *)
Theorem C04_knn_result_keeps_k_best :
  forall (sn : option nat) (kn : Z) (r0 : knn_result Fnum) (L : list (N * f64)),
  knn_init Fnum sn kn = Ok r0 -> 0 < buffer_size r0 ->
  Forall (fun c => is_nan (snd c) = false) L ->
  exists r S,
    push_all r0 L = Ok r /\
    stable_sort_of (D := Fnum) (filter (reachable_dist (D := Fnum)) L) S /\
    let k := buffer_size r0 in
    let kept := firstn k S in
    buffer_size r = k /\
    num_found_neighbors r = length kept /\
    indices r = map fst kept ++ repeat INVALID (k - length kept) /\
    distances r = map snd kept ++ repeat f64_max (k - length kept).
Proof. exact (push_all_topk Fnum notnan f64_order). Qed.

(** The same for exact integers. *)
Theorem C04_knn_result_keeps_k_best_Z :
  forall (sn : option nat) (kn : Z) (r0 : knn_result Znum) (L : list (N * Z)),
  knn_init Znum sn kn = Ok r0 -> 0 < buffer_size r0 ->
  Forall (fun _ => True) L ->
  exists r S,
    push_all r0 L = Ok r /\
    stable_sort_of (D := Znum) (filter (reachable_dist (D := Znum)) L) S /\
    let k := buffer_size r0 in
    let kept := firstn k S in
    buffer_size r = k /\
    num_found_neighbors r = length kept /\
    indices r = map fst kept ++ repeat INVALID (k - length kept) /\
    distances r = map snd kept ++ repeat (2 ^ 1024)%Z (k - length kept).
Proof. exact (push_all_topk Znum (fun _ => True) Znum_order). Qed.

(** Non-vacuity: a dynamic container of 2 receiving 4 candidates with a tie. *)
Example C04_example :
  (let* r0 := knn_init Znum None 2 in
   let* r := push_all r0 [(10%N, 5%Z); (11%N, 3%Z); (12%N, 3%Z); (13%N, 9%Z)] in
   Ok (buffer_size r0, num_found_neighbors r, indices r, distances r))
  = Ok (2, 2, [11%N; 12%N], [3%Z; 3%Z]).
Proof. vm_compute. reflexivity. Qed.

Example C04_example_f64 :
  exists r0, knn_init Fnum (Some 1) (-1) = Ok r0 /\ 0 < buffer_size r0 /\
    Forall (fun c : N * f64 => is_nan (snd c) = false) [(0%N, f64_of 3 0); (1%N, f64_of 1 0)].
Proof. eexists. split; [reflexivity|]. split; [vm_compute; auto|]. repeat constructor. Qed.

(** NaN distances are outside the guarantee for a reason: a NaN candidate passes the
    `distance >= worst_distance()` test, is stored, and then blocks nearer points. *)
Theorem C04_nan_distance_breaks_order_refuted :
  exists (L : list (N * f64)) r0 r,
    knn_init Fnum None 1 = Ok r0 /\ push_all r0 L = Ok r /\
    (exists c, In c L /\ is_nan (snd c) = false /\ reachable_dist (D := Fnum) c = true) /\
    num_found_neighbors r = 1 /\ map is_nan (distances r) = [true].
Proof.
  exists [(0%N, f64_of 1 0); (1%N, f64_nan)].
  destruct (outcome_witness
    (let* r0 := knn_init Fnum None 1 in push_all r0 [(0%N, f64_of 1 0); (1%N, f64_nan)])
    (fun r => (num_found_neighbors r =? 1) && forallb is_nan (distances r) &&
              (length (distances r) =? 1))) as (r & E & T); [vm_compute; reflexivity|].
  apply bind_Ok in E. destruct E as (r0 & E0 & E).
  exists r0, r. split; [exact E0|]. split; [exact E|]. split.
  - exists (0%N, f64_of 1 0). split; [left; reflexivity|]. split; vm_compute; reflexivity.
  - apply andb_true_iff in T. destruct T as [T T3]. apply andb_true_iff in T. destruct T as [T1 T2].
    apply Nat.eqb_eq in T1, T3. split; [exact T1|].
    destruct (distances r) as [|d [|? ?]]; try discriminate. simpl in T2.
    rewrite andb_true_r in T2. simpl. rewrite T2. reflexivity.
Qed.

(** A requested size of zero or less stops the program instead of searching. *)
Theorem C04_bad_k_aborts :
  forall k : Z, (k <= 0)%Z -> knn_init Fnum None k = Abort.
Proof. intros k H. unfold knn_init. destruct (Z.leb_spec k 0); auto. lia. Qed.

Print Assumptions C04_knn_result_keeps_k_best.
Print Assumptions C04_knn_result_keeps_k_best_Z.
Print Assumptions C04_nan_distance_breaks_order_refuted.
Print Assumptions C04_bad_k_aborts.
