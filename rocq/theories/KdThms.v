(** Assembled kd-tree results for doubles (axis-aligned) and reals (any direction). *)
From Coq Require Import Reals Lra ZifyBool ZifyNat ZifyN.
From Flocq Require Import Core IEEE754.BinarySingleNaN.
From Verif Require Import Base BaseProofs Num Vec F64 F64Proofs RNum KnnModel KnnSpec KnnProofs
  KdModel KdSpec KdProofs KdSearchProofs KdTop KdF64 KdReal.

Open Scope nat_scope.

Section F64.
Context (order : sumtree) (FS : full_sum order).
Context (nth_element : (nat -> nat -> bool) -> nat -> list nat -> list nat).
Hypothesis NE : nth_element_contract nth_element.
Context (points : list (vec4 Fnum)) (max_leaf_size max_scan_count : Z).
Hypothesis points_finite : forall p, In p points -> vfinite p.
Hypothesis scan_pos : (0 < max_scan_count <= 2 ^ 30)%Z.

Notation build := (build_tree axis_apply (axis_find max_scan_count) nth_element points max_leaf_size).
Notation pg := (fun a => a < 3).

Lemma papply_ok_f64 : forall pr (p : vec4 Fnum), pr < 3 -> vfinite p -> notnan (axis_apply pr p).
Proof. intros pr p _ Hp. apply finite_notnan. apply vcomp_finite; auto. Qed.

Lemma axis_total_f64 : forall range : list (vec4 Fnum), range <> [] ->
  length range <= length points -> (forall p, In p range -> In p points) ->
  exists pr, axis_find max_scan_count range = Ok pr /\ pr < 3.
Proof. intros range Hr _ _. apply axis_find_ok; auto. Qed.

Definition kd_wf_f64 (tree : kdtree Fnum nat) : Prop :=
  wf_tree Fnum (vec4 Fnum) nat axis_apply pg points max_leaf_size tree.

Lemma kd_build_f64 :
  points <> [] -> (3 <= size_t_of_int max_leaf_size)%N ->
  (N.of_nat (length points) <= INVALID_NODE)%N ->
  exists tree, build = Ok tree /\ kd_wf_f64 tree /\
    t_root tree = Some 0%N /\ 1 <= length (t_nodes tree) <= length points.
Proof.
  intros H1 H2 H3.
  apply (build_tree_wf Fnum notnan f64_order (vec4 Fnum) (fsqd order) nat axis_apply
    (axis_find max_scan_count) nth_element vfinite pg NE (fsqd_ok order) papply_ok_f64
    points max_leaf_size points_finite axis_total_f64 H1 H2 H3).
Qed.

Lemma kd_wf_facts tree : kd_wf_f64 tree ->
  Permutation (leaf_points tree) (seq 0 (length points)) /\
  links_ok tree /\ leaves_bounded (size_t_of_int max_leaf_size) tree.
Proof.
  intros H. split.
  - eapply (wf_leaf_points _ _ _ _ (axis_find max_scan_count)); [apply axis_total_f64|exact H].
  - eapply (wf_links _ _ _ _ (axis_find max_scan_count)); [apply axis_total_f64|exact H].
Qed.

Lemma kd_exact_f64 tree query : kd_wf_f64 tree -> vfinite query ->
  exists ranking,
    (forall k, is_knn (dist_to (fsqd order) points query) (length points) k (firstn k ranking)) /\
    forall sn k r0, knn_init Fnum sn k = Ok r0 -> 0 < buffer_size r0 ->
    exists r,
      knn_search (fsqd order) axis_apply points tree query (nzero (n := Fnum)) sn k = Ok r /\
      knn_buffers (buffer_size r0) (firstn (buffer_size r0) ranking)
        (num_found_neighbors r) (indices r) (distances r).
Proof.
  intros WF Hq.
  apply (knn_search_exact Fnum notnan f64_order (vec4 Fnum) (fsqd order) nat axis_apply
    (axis_find max_scan_count) vfinite pg (fsqd_ok order) papply_ok_f64
    points max_leaf_size points_finite axis_total_f64 tree query _ WF Hq (axis_prune order FS query Hq)).
  - intros j Hj. unfold dist_to. destruct (nth_error points j) as [p|] eqn:E.
    + apply fsqd_nonneg; auto. apply points_finite. eapply nth_error_In; eauto.
    + apply nth_error_None in E. lia.
  - vm_compute. reflexivity.
Qed.

Lemma kd_eps_f64 tree query epsilon sn k r0 : kd_wf_f64 tree -> vfinite query ->
  finite epsilon -> knn_init Fnum sn k = Ok r0 -> 0 < buffer_size r0 ->
  exists r res,
    knn_search (fsqd order) axis_apply points tree query epsilon sn k = Ok r /\
    knn_buffers (buffer_size r0) res (num_found_neighbors r) (indices r) (distances r) /\
    (is_knn (dist_to (fsqd order) points query) (length points) (buffer_size r0) res \/
     is_early_knn (dist_to (fsqd order) points query) (length points) (buffer_size r0) epsilon res).
Proof.
  intros WF Hq He.
  apply (knn_search_epsilon Fnum notnan f64_order (vec4 Fnum) (fsqd order) nat axis_apply
    (axis_find max_scan_count) vfinite pg (fsqd_ok order) papply_ok_f64
    points max_leaf_size points_finite axis_total_f64 tree query epsilon WF Hq (axis_prune order FS query Hq)).
  - apply finite_notnan; auto.
  - apply f64_lt_val_false; [reflexivity|apply finite_notnan; auto|].
    rewrite finite_val by auto. change (@nmaxv Fnum) with f64_max.
    assert (Hm : is_finite f64_max = true) by reflexivity.
    rewrite (finite_val f64_max) by exact Hm.
    pose proof (Bleb_correct 53 1024 epsilon f64_max He Hm) as C.
    assert (B : (Rabs (B2R epsilon) <= B2R f64_max)%R).
    { pose proof (abs_B2R_le_emax_minus_prec 53 1024 prec53 epsilon) as A.
      eapply Rle_trans; [exact A|]. apply Req_le.
      unfold f64_max, Bmax_float. rewrite B2R_SF2B. unfold SF2R, F2R.
      cbn [Defs.Fnum Defs.Fexp cond_Zopp].
      change (IZR _) with 9007199254740991%R.
      replace (bpow radix2 1024) with (9007199254740992 * bpow radix2 (1024 - 53))%R; [lra|].
      change 9007199254740992%R with (bpow radix2 53). rewrite <- bpow_plus. f_equal. }
    eapply Rle_trans; [apply Rle_abs|exact B].
Qed.
End F64.

Section Real.
Context (order : sumtree) (FS : full_sum order).
Context (nth_element : (nat -> nat -> bool) -> nat -> list nat -> list nat).
Hypothesis NE : nth_element_contract nth_element.
Context (find_axis : list (vec4 Rnum) -> outcome (vec3 Rnum)).
Hypothesis unit_dir : forall range, range <> [] -> exists n, find_axis range = Ok n /\ short n.
Context (points : list (vec4 Rnum)) (max_leaf_size : Z).

Lemma kd_normal_real query :
  points <> [] -> (3 <= size_t_of_int max_leaf_size)%N ->
  (N.of_nat (length points) <= INVALID_NODE)%N ->
  exists tree ranking,
    build_tree (normal_apply (D := Rnum)) find_axis nth_element points max_leaf_size = Ok tree /\
    (forall k, is_knn (dist_to (rsqd order) points query) (length points) k (firstn k ranking)) /\
    forall sn k r0, knn_init Rnum sn k = Ok r0 -> 0 < buffer_size r0 ->
    exists r,
      knn_search (rsqd order) (normal_apply (D := Rnum)) points tree query (nzero (n := Rnum)) sn k = Ok r /\
      knn_buffers (buffer_size r0) (firstn (buffer_size r0) ranking)
        (num_found_neighbors r) (indices r) (distances r).
Proof.
  intros H1 H2 H3.
  assert (AT : forall range : list (vec4 Rnum), range <> [] ->
     length range <= length points -> (forall p, In p range -> In p points) ->
     exists pr, find_axis range = Ok pr /\ short pr) by (intros; apply unit_dir; auto).
  destruct (build_tree_wf Rnum (fun _ => True) Rnum_order (vec4 Rnum) (rsqd order) (vec3 Rnum)
     (normal_apply (D := Rnum)) find_axis nth_element (fun _ => True) short NE
     (fun _ _ _ _ => I) (fun _ _ _ _ => I) points max_leaf_size (fun _ _ => I) AT H1 H2 H3)
    as (tree & E & WF & _).
  destruct (knn_search_exact Rnum (fun _ => True) Rnum_order (vec4 Rnum) (rsqd order) (vec3 Rnum)
     (normal_apply (D := Rnum)) find_axis (fun _ => True) short
     (fun _ _ _ _ => I) (fun _ _ _ _ => I) points max_leaf_size (fun _ _ => I) AT
     tree query (nzero (n := Rnum)) WF I (normal_prune order query FS)) as (ranking & R1 & R2).
  - intros j Hj. cbn [nlt nzero Rnum]. apply Rlt_bool_false_iff. unfold dist_to.
    destruct (nth_error points j) as [p|]; [|cbn; lra].
    rewrite (rsqd_eq order p query FS).
    repeat apply Rplus_le_le_0_compat; apply pow2_ge_0.
  - cbn [nlt nzero nmaxv Rnum]. apply Rlt_bool_false_iff. apply bpow_ge_0.
  - exists tree, ranking. auto.
Qed.
End Real.
