(** C06: the OpenMP and TBB kd-tree builders. *)
From Coq Require Import ZArith.
From Verif Require Import Base BaseProofs Num Vec F64 F64Proofs KnnModel KnnSpec
  KdModel KdSpec KdProofs KdTop KdF64 KdThms KdParModel KdParProofs NthElement Prop_KdTree.
Open Scope nat_scope.

Section C06.
Context (order : sumtree) (ne : (nat -> nat -> bool) -> nat -> list nat -> list nat).
Context (points : list (vec4 Fnum)) (max_leaf_size max_scan_count : Z).

(** Steps available in a configuration, and configurations reachable by some schedule. *)
Definition omp_steps := psteps axis_apply (axis_find max_scan_count) ne points max_leaf_size.
Definition omp_run := prun axis_apply (axis_find max_scan_count) ne points max_leaf_size
  (par_init points) (par_start points).

(** Whatever the interleaving of the workers: no step leaves the buffers, work never
    blocks before the root call returns, the number of steps is bounded, concurrently
    enabled steps touch disjoint memory, and on completion the tree covers every point
    and answers every query exactly like the sequentially built one. *)
Theorem C06_parallel_build_schedule_independent :
  kd_env order ne points max_leaf_size max_scan_count ->
  exists seqtree,
    build_tree axis_apply (axis_find max_scan_count) ne points max_leaf_size = Ok seqtree /\
    forall k st p, omp_run k st p ->
      k <= 9 * length points /\
      (forall o, In o (omp_steps st p) -> exists st' p', o = Ok (st', p')) /\
      ((exists root, p = PRet root) \/ omp_steps st p <> []) /\
      (forall i j F G x, i < j ->
         nth_error (touches max_leaf_size p) i = Some F ->
         nth_error (touches max_leaf_size p) j = Some G -> F x -> G x -> False) /\
      (forall i F st' p', nth_error (touches max_leaf_size p) i = Some F ->
         nth_error (omp_steps st p) i = Some (Ok (st', p')) ->
         forall x, ~ F x -> read_loc st' x = read_loc st x) /\
      forall root, p = PRet root ->
        let tree := par_tree st root in
        Permutation (leaf_points tree) (seq 0 (length points)) /\
        links_ok tree /\ leaves_bounded (size_t_of_int max_leaf_size) tree /\
        t_indices tree = t_indices seqtree /\
        length (t_nodes tree) = length (t_nodes seqtree) /\
        forall query epsilon sn q,
          knn_search (fsqd order) axis_apply points tree query epsilon sn q =
          knn_search (fsqd order) axis_apply points seqtree query epsilon sn q.
Proof.
  intros (FS & NE & H1 & H2 & H3 & H4 & H5).
  destruct (par_build Fnum notnan f64_order (vec4 Fnum) (fsqd order) nat axis_apply
    (axis_find max_scan_count) ne vfinite (fun a => a < 3) NE (fsqd_ok order) papply_ok_f64
    points max_leaf_size H2 (axis_total_f64 points max_scan_count H5) H1 H4 H3)
    as (seqtree & E & H).
  exists seqtree. split; [exact E|]. intros k st p Hr.
  destruct (H k st p Hr) as (A1 & A2 & A3 & A4 & A5 & A6).
  split; [exact A1|]. split; [exact A2|]. split; [exact A3|]. split; [exact A4|].
  split; [exact A5|]. intros root Hp tree.
  destruct (A6 root Hp) as (B1 & B2 & B3 & B4).
  destruct (kd_wf_facts points max_leaf_size max_scan_count H5 _ B1) as (F1 & F2 & F3).
  repeat (split; [assumption|]). exact B4.
Qed.

(** Every partial schedule can be completed, so the result above is reached. *)
Theorem C06_parallel_build_completes :
  kd_env order ne points max_leaf_size max_scan_count ->
  forall k st p, omp_run k st p -> exists k' st' root, k <= k' /\ omp_run k' st' (PRet root).
Proof.
  intros Henv. destruct (C06_parallel_build_schedule_independent Henv) as (sq & _ & H).
  intros k. remember (9 * length points - k) as m eqn:Em.
  revert k Em. induction m as [m IH] using lt_wf_ind. intros k Em st p Hr.
  destruct (H k st p Hr) as (A1 & A2 & [(root & ->)|A3] & _).
  - exists k, st, root. auto.
  - destruct (omp_steps st p) as [|o os] eqn:Eo; [congruence|].
    destruct (A2 o) as (st1 & p1 & ->); [left; auto|].
    assert (Hr1 : omp_run (S k) st1 p1).
    { econstructor; [exact Hr|]. fold (omp_steps st p). rewrite Eo. left; auto. }
    pose proof (proj1 (H _ _ _ Hr1)) as A1'.
    destruct (IH (9 * length points - S k)) with (k := S k) (st := st1) (p := p1)
      as (k' & st' & root & Hk & Hr'); auto; [lia|].
    exists k', st', root. split; [lia|exact Hr'].
Qed.
End C06.

(** * A build with more than 512 points, run under two schedules (integer coordinates). *)
Fixpoint drive (pick : nat -> nat) (ne : (nat -> nat -> bool) -> nat -> list nat -> list nat)
    (points : list Z) (fuel : nat) (st : bstate Znum unit) (p : proc Znum unit)
    : outcome (bstate Znum unit * proc Znum unit) :=
  match fuel with
  | O => Ok (st, p)
  | S fuel =>
      let os := psteps (D := Znum) (fun _ x => x) (fun _ => Ok tt) ne points 100 st p in
      match nth_error os (pick (length os)) with
      | Some o => let* (st, p) := o in drive pick ne points fuel st p
      | None => Ok (st, p)
      end
  end.
Definition line600 : list Z := map (fun i => (Z.of_nat i * 37 mod 601)%Z) (seq 1 600).
Definition final_ids (pick : nat -> nat) : outcome (list (N * N)) :=
  let* (st, p) := drive pick sort_nth_element line600 1000 (par_init line600) (par_start line600) in
  match p with
  | PRet root => Ok ((root, 0%N) :: map (fun nd => (left nd, right nd))
                     (t_nodes (par_tree (D := Znum) (P := unit) st root)))
  | _ => Abort
  end.

(** Two schedules number the nodes differently ... *)
Example C06_schedules_differ :
  exists a b, final_ids (fun _ => 0) = Ok a /\ final_ids (fun n => n - 1) = Ok b /\
              length a = length b /\ a <> b.
Proof.
  destruct (outcome_witness (final_ids (fun _ => 0)) (fun a => match a with
     | _ :: (l, r) :: _ => (l =? 1)%N && (r =? 8)%N && (length a =? 16) | _ => false end)) as (a & Ea & Ta).
  { vm_compute. reflexivity. }
  destruct (outcome_witness (final_ids (fun n => n - 1)) (fun a => match a with
     | _ :: (l, r) :: _ => (l =? 8)%N && (r =? 1)%N && (length a =? 16) | _ => false end)) as (b & Eb & Tb).
  { vm_compute. reflexivity. }
  exists a, b. split; [exact Ea|]. split; [exact Eb|].
  destruct a as [|x [|[l1 r1] a]]; try discriminate Ta.
  destruct b as [|y [|[l2 r2] b]]; try discriminate Tb.
  apply andb_prop in Ta. destruct Ta as [Ta La]. apply andb_prop in Ta. destruct Ta as [Ta1 Ta2].
  apply andb_prop in Tb. destruct Tb as [Tb Lb]. apply andb_prop in Tb. destruct Tb as [Tb1 Tb2].
  apply Nat.eqb_eq in La. apply Nat.eqb_eq in Lb.
  apply N.eqb_eq in Ta1. apply N.eqb_eq in Tb1. subst l1 l2.
  split; [congruence|]. intros E. injection E. intros. congruence.
Qed.

Example C06_env : kd_env eigen_order sort_nth_element cloud7 3 128.
Proof. exact kd_env_inhabited. Qed.

Print Assumptions C06_parallel_build_schedule_independent.
Print Assumptions C06_parallel_build_completes.
