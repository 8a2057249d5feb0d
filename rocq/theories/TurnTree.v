(** The k nearest points from the kd-tree over the reals. *)
From Coq Require Import Reals Lra Psatz Permutation Sorted.
From Verif Require Import Base BaseProofs Num Vec RNum Lin LinSpec FactorModel KnnModel KdModel KdSpec KdReal KdThms MoveSpec MoveTree TurnSpec TurnProofs.
Open Scope nat_scope.

(** traits::knn_search on the tree as normal_estimation.hpp:65-69 uses it, kdtree.hpp:272-274,
    289-302, over the reals: the indices of the entries found. *)
Definition real_tree_knn (order : sumtree) (points : list (vec4 Rfld)) (tree : kdtree Rnum (vec3 Rnum)) (q : vec4 Rfld) (k : nat)
  : outcome (list nat) :=
  let* r := knn_search_api (rsqd order) (normal_apply (D := Rnum)) points tree q (nzero (n := Rnum)) (N.of_nat k) in
  Ok (map N.to_nat (firstn (num_found_neighbors r) (indices r))).

Section Tree.
Context (order : sumtree) (FS : full_sum order) (ne : (nat -> nat -> bool) -> nat -> list nat -> list nat) (NE : nth_element_contract ne).
Context (find_axis : list (vec4 Rnum) -> outcome (vec3 Rnum)).
Context (AX : forall range, range <> [] -> exists n, find_axis range = Ok n /\ short n).
Context (c : cloud Rfld) (max_leaf_size : Z) (L : (3 <= size_t_of_int max_leaf_size)%N) (NZ : cl_points c <> [])
  (SM : (N.of_nat (length (cl_points c)) <= 4294967295)%N) (SP : spread (cl_points c)).

Lemma filter_all {A : Type} (f : A -> bool) l : (forall x, In x l -> f x = true) -> filter f l = l.
Proof using. clear. induction l as [|x l IH]; intros H; cbn; [reflexivity|]. rewrite (H x) by (left; reflexivity). f_equal. apply IH. intros y Y. apply H. right. exact Y. Qed.
Lemma NoDup_to_nat (l : list N) : NoDup l -> NoDup (map N.to_nat l).
Proof using. clear. induction 1 as [|x l H ND IH]; cbn; constructor; auto. intros I. apply in_map_iff in I. destruct I as (y & E & Y). apply H. assert (x = y) as -> by lia. exact Y. Qed.

Lemma real_tree_knn_exact tree q k : build_tree (normal_apply (D := Rnum)) find_axis ne (cl_points c) max_leaf_size = Ok tree ->
  (0 < Z.of_nat k < 2 ^ 31)%Z -> In q (cl_points c) ->
  exists found, real_tree_knn order (cl_points c) tree q k = Ok found /\ nearest_set (cl_points c) q k found.
Proof using FS NE AX L NZ SM SP.
  intros B Hk IQ. destruct (kd_normal_real order FS ne NE find_axis AX (cl_points c) max_leaf_size q NZ L SM) as (tree' & rk & B' & R1 & R2).
  assert (tree' = tree) as -> by congruence. unfold real_tree_knn, knn_search_api.
  assert (EI : int_of_size_t (N.of_nat k) = Z.of_nat k).
  { clear - Hk. unfold int_of_size_t. rewrite nat_N_Z. rewrite Z.mod_small by lia. destruct (Z.ltb_spec (Z.of_nat k) (2 ^ 31)); lia. }
  rewrite EI.
  destruct (knn_init Rnum None (Z.of_nat k)) as [r0| | |] eqn:E0;
    [|unfold knn_init in E0; destruct (Z.leb_spec (Z.of_nat k) 0); [lia|discriminate]..].
  assert (K : buffer_size r0 = k).
  { clear - E0 Hk. unfold knn_init in E0; destruct (Z.leb_spec (Z.of_nat k) 0); [lia|]. injection E0 as <-. unfold buffer_size. cbn. lia. }
  destruct (R2 None (Z.of_nat k) r0 E0 ltac:(rewrite K; clear - Hk; lia)) as (r & -> & (B1 & B2 & B3)). cbn [bind]. rewrite K in B1, B2, B3.
  specialize (R1 k). set (res := firstn k rk) in *. clearbody res. clear R2 B3 rk.
  eexists. split; [reflexivity|]. destruct R1 as (I1 & I2 & _ & I4 & I5).
  assert (EX : firstn (num_found_neighbors r) (indices r) = map fst res).
  { rewrite B1, B2. rewrite <- (map_length fst res) at 1. rewrite firstn_app, Nat.sub_diag, firstn_all, firstn_O, app_nil_r. reflexivity. }
  rewrite EX. clear EX.
  assert (PT : forall i d, In (i, d) res -> exists j p, i = N.of_nat j /\ nth_error (cl_points c) j = Some p /\ d = sq_gap p q).
  { intros i d I. destruct (I2 i d I) as (j & Lj & -> & ->). destruct (nth_error (cl_points c) j) as [p|] eqn:Ep.
    - exists j, p. split; [reflexivity|]. split; [exact Ep|]. apply (dist_gap order FS c). exact Ep.
    - apply nth_error_None in Ep. destruct (Nat.lt_irrefl j). eapply Nat.lt_le_trans; [exact Lj|exact Ep]. }
  split; [apply NoDup_to_nat; exact I1|]. split; [|split].
  - rewrite !map_length, I4. rewrite filter_all; [rewrite seq_length; reflexivity|]. intros j J. apply in_seq in J. destruct J as (_ & J).
    destruct (nth_error (cl_points c) j) as [p|] eqn:Ep; [|apply nth_error_None in Ep; destruct (Nat.lt_irrefl j); eapply Nat.lt_le_trans; [exact J|exact Ep]].
    apply Rlt_bool_iff. rewrite (dist_gap order FS c _ _ q Ep). apply SP; [eapply nth_error_In; exact Ep|exact IQ].
  - apply Forall_forall. intros x X. apply in_map_iff in X. destruct X as (y & <- & Y). apply in_map_iff in Y. destruct Y as ((i & d) & <- & I).
    destruct (PT i d I) as (j & p & -> & Ep & _). cbn [fst]. rewrite Nnat.Nat2N.id. apply nth_error_Some. congruence.
  - intros i j p p' Ii Ij Ei Ej. apply in_map_iff in Ii. destruct Ii as (y & <- & Y). apply in_map_iff in Y. destruct Y as ((i' & d) & <- & I).
    destruct (PT i' d I) as (j' & p2 & -> & Ep & ->). cbn [fst] in Ei. rewrite Nnat.Nat2N.id in Ei. assert (p2 = p) as -> by congruence.
    rewrite <- (dist_gap order FS c _ _ q Ej). apply Rlt_bool_false_iff.
    apply (I5 j) with (c := (N.of_nat j', (sq_gap p q : car Rnum))).
    + apply (proj1 (nth_error_Some (cl_points c) j)). rewrite Ej. discriminate.
    + intros F. apply Ij. apply in_map_iff. exists (N.of_nat j). split; [apply Nnat.Nat2N.id|exact F].
    + exact I.
Qed.
End Tree.

Lemma spread_moved G points : orthonormal (rot G) -> Forall (fun p : vec4 Rfld => vw p = 1%R) points -> spread points -> spread (map (pose_pt G) points).
Proof.
  intros O H S p q P Q. apply in_map_iff in P, Q. destruct P as (p0 & <- & P). destruct Q as (q0 & <- & Q).
  rewrite Forall_forall in H. rewrite gap_moved; auto.
Qed.
