(** C79: the kd-tree with normal-direction splitting in doubles. *)
From Coq Require Import Reals Lra.
From Flocq Require Import Core IEEE754.BinarySingleNaN.
From Verif Require Import Base BaseProofs Num Vec F64 F64Proofs F64Err KnnModel KnnSpec
  KdModel KdSpec KdTop KdF64 NthElement KdNearSpec KdNear KdNearDist Prop_KdTree.
Open Scope nat_scope.

Lemma filter_all {A : Type} (f : A -> bool) l : (forall x, In x l -> f x = true) -> filter f l = l.
Proof. induction l as [|x l IH]; intros H; [reflexivity|]. cbn [filter]. rewrite (H x (or_introl eq_refl)), IH; [reflexivity|intros y Hy; apply H; right; exact Hy]. Qed.

(** Splitting directions as the eigensolver returns them: every one of length at most 1 + tau. *)
Definition near_env (M tau : R) (ne : (nat -> nat -> bool) -> nat -> list nat -> list nat)
    (find_axis : list (vec4 Fnum) -> outcome (vec3 Fnum)) (points : list (vec4 Fnum)) (max_leaf_size : Z) : Prop :=
  (bpow radix2 (-400) <= M <= bpow radix2 400)%R /\ (0 <= tau <= 1)%R /\ nth_element_contract ne /\
  (forall range, range <> [] -> exists n, find_axis range = Ok n /\ direction tau n) /\
  (forall p, In p points -> within M p) /\ points <> [] /\
  (3 <= size_t_of_int max_leaf_size)%N /\ (N.of_nat (length points) <= 4294967295)%N.

Theorem C79_normal_splitting : forall M tau order ne find_axis points max_leaf_size,
  near_env M tau ne find_axis points max_leaf_size ->
  exists tree, build_tree (normal_apply (D := Fnum)) find_axis ne points max_leaf_size = Ok tree /\
    forall query sn k r0, within M query -> knn_init Fnum sn k = Ok r0 -> 0 < buffer_size r0 ->
    exists r res,
      knn_search (fsqd order) (normal_apply (D := Fnum)) points tree query (nzero (n := Fnum)) sn k = Ok r /\
      knn_buffers (buffer_size r0) res (num_found_neighbors r) (indices r) (distances r) /\
      nearly_knn (dist_to (fsqd order) points query)
        (fun j d => exists p, nth_error points j = Some p /\ by_rounding M tau query p d)
        (length points) (buffer_size r0) res.
Proof.
  intros M tau order ne fa points L (H1 & H2 & H3 & H4 & H5 & H6 & H7 & H8).
  exact (kd_normal_near M tau order ne fa points L H1 H2 H3 H4 H5 H6 H7 H8).
Qed.

(** The nearest neighbour: exactly one point is reported, with its own distance, and no point of
    the cloud is nearer by more than rounding. *)
Theorem C79_nearest : forall M tau order ne find_axis points max_leaf_size,
  near_env M tau ne find_axis points max_leaf_size -> full_sum order ->
  exists tree, build_tree (normal_apply (D := Fnum)) find_axis ne points max_leaf_size = Ok tree /\
    forall query, within M query -> (forall p, In p points -> vw p = vw query) ->
    exists r j q,
      nearest_neighbor_search (fsqd order) (normal_apply (D := Fnum)) points tree query (nzero (n := Fnum)) = Ok r /\
      num_found_neighbors r = 1 /\ indices r = [N.of_nat j] /\ nth_error points j = Some q /\
      distances r = [fsqd order q query] /\
      forall p, In p points -> by_rounding M tau query p (fsqd order q query).
Proof.
  intros M tau order ne fa points L Env FS. pose proof Env as (H1 & H2 & H3 & H4 & H5 & H6 & H7 & H8).
  destruct (C79_normal_splitting M tau order ne fa points L Env) as (tree & E & S).
  exists tree. split; [exact E|]. intros query Hq W.
  destruct (S query (Some 1) (-1)%Z {| static_n := Some 1; capacity := -1; num_found_neighbors := 0;
      indices := repeat INVALID 1; distances := repeat nmaxv 1 |} Hq) as (r & res & A & (B1 & B2 & B3) & C1 & C2 & C3 & C4 & C5).
  { reflexivity. } { unfold buffer_size; simpl; lia. }
  unfold buffer_size in *. cbn [static_n] in *.
  assert (Reach : forall j, j < length points -> nlt (dist_to (fsqd order) points query j) nmaxv = true).
  { intros j Hj. unfold dist_to. destruct (nth_error points j) as [p|] eqn:Ej; [|apply nth_error_None in Ej; lia].
    apply nth_error_In in Ej. apply (fsqd_reach M order H1 FS p query); auto. }
  rewrite filter_all in C4 by (intros j Hj; apply Reach; apply in_seq in Hj; lia).
  rewrite seq_length in C4. assert (0 < length points) by (destruct points; [congruence|cbn; lia]).
  replace (Nat.min 1 (length points)) with 1 in C4 by lia. rewrite C4 in *. cbn [Nat.sub repeat] in *. rewrite app_nil_r in *.
  destruct res as [|(i, d) [|? ?]]; try discriminate C4. cbn [map fst snd] in *.
  destruct (C2 i d (or_introl eq_refl)) as (j & Hj & -> & Ed). unfold dist_to in Ed.
  destruct (nth_error points j) as [q|] eqn:Ej; [|apply nth_error_None in Ej; lia]. subst d.
  assert (Fq : within M q) by (apply H5; eapply nth_error_In; eauto).
  exists r, j, q. split; [exact A|]. split; [exact B1|]. split; [exact B2|]. split; [exact Ej|]. split; [exact B3|].
  intros p Hp. assert (Okd : notnan (fsqd order q query)) by (apply fsqd_ok; eapply within_vfinite; eassumption).
  assert (Pd : (0 <= val (fsqd order q query))%R).
  { pose proof (fsqd_nonneg order q query (within_vfinite M q Fq) (within_vfinite M query Hq)) as Z. apply f64_lt_val_false in Z; [exact Z|exact Okd|reflexivity]. }
  destruct (In_nth_error _ _ Hp) as (j' & Ej').
  assert (Hj' : j' < length points) by (apply nth_error_Some; congruence).
  destruct (Nat.eq_dec j' j) as [->|Ne].
  - rewrite Ej in Ej'. injection Ej' as ->. apply (by_rounding_of_le M tau order H1 H2 FS); auto. apply (ol_irrefl _ _ f64_order). exact Okd.
  - destruct (C5 j' Hj') with (c := (N.of_nat j, fsqd order q query)) as [Le|(p' & Ep & Hr)].
    + intros [Q|[]]. apply Nat2N.inj in Q. congruence.
    + left. reflexivity.
    + unfold dist_to in Le. rewrite Ej' in Le. apply (by_rounding_of_le M tau order H1 H2 FS); auto.
    + rewrite Ej' in Ep. injection Ep as <-. exact Hr.
Qed.

(** * Non-vacuity: the cloud of [C07_normal_projection_double_refuted], where a nearer point is missed. *)
Definition small_float (k : Z) (x : f64) : bool :=
  match x with
  | B754_zero _ => true
  | B754_finite _ m e _ => (e <=? k)%Z && (Zpos m <=? 2 ^ (k - e))%Z
  | _ => false
  end.
Lemma small_float_ok k x : small_float k x = true -> is_finite x = true /\ (Rabs (B2R x) <= bpow radix2 k)%R.
Proof.
  unfold small_float. destruct x as [s|s| |s m e B]; cbn [is_finite B2R]; try discriminate; intros H; (split; [reflexivity|]).
  - rewrite Rabs_R0. apply bpow_ge_0.
  - apply andb_true_iff in H. destruct H as (H1 & H2). apply Z.leb_le in H1, H2.
    rewrite <- F2R_Zabs, abs_cond_Zopp. cbn [Z.abs]. unfold F2R. cbn [Defs.Fnum Defs.Fexp].
    replace k with ((k - e) + e)%Z by lia. rewrite bpow_plus. apply Rmult_le_compat_r; [apply bpow_ge_0|].
    rewrite <- IZR_Zpower by lia. apply IZR_le. exact H2.
Qed.
Lemma within_small k (p : vec4 Fnum) : forallb (small_float k) [vx p; vy p; vz p; vw p] = true -> within (bpow radix2 k) p.
Proof. intros H x Hx. rewrite forallb_forall in H. apply small_float_ok, H, Hx. Qed.

Lemma normal_witness_direction : direction (bpow radix2 (-50)) normal_witness.
Proof.
  split.
  - intros x [<-|[<-|[<-|[]]]]; vm_compute; reflexivity.
  - replace (B2R (n0 normal_witness)) with (F2R (Float radix2 5404319552844595 (-53))) by (vm_compute; reflexivity).
    replace (B2R (n1 normal_witness)) with (F2R (Float radix2 7205759403792794 (-53))) by (vm_compute; reflexivity).
    replace (B2R (n2 normal_witness)) with 0%R by (vm_compute; reflexivity).
    unfold F2R. cbn [Defs.Fnum Defs.Fexp].
    change (bpow radix2 (-53)) with (/ 9007199254740992)%R. change (bpow radix2 (-50)) with (/ 1125899906842624)%R. lra.
Qed.
Lemma normal_cloud_env : near_env (bpow radix2 11) (bpow radix2 (-50)) sort_nth_element (fun _ => Ok normal_witness) normal_cloud 3.
Proof.
  split; [split; apply bpow_le; lia|]. split; [split; [apply bpow_ge_0|apply (bpow_le radix2 (-50) 0); lia]|].
  split; [apply sort_nth_element_contract|]. split; [intros; eexists; split; [reflexivity|apply normal_witness_direction]|].
  split; [intros p Hp; apply within_small; unfold normal_cloud in Hp; cbn [In] in Hp;
          repeat (destruct Hp as [<-|Hp]; [vm_compute; reflexivity|]); destruct Hp|].
  split; [discriminate|]. split; vm_compute; discriminate.
Qed.
(** There the answer is not [is_knn], and the missed point is excused by the bound. *)
Example C79_case : exists tree r res d,
  build_tree (normal_apply (D := Fnum)) (fun _ => Ok normal_witness) sort_nth_element normal_cloud 3 = Ok tree /\
  knn_search (fsqd eigen_order) (normal_apply (D := Fnum)) normal_cloud tree (fpt 1101 517 0) (nzero (n := Fnum)) (Some 1) (-1) = Ok r /\
  distances r = [d] /\ map snd res = [d] /\
  nearly_knn (dist_to (fsqd eigen_order) normal_cloud (fpt 1101 517 0))
    (fun j d => exists p, nth_error normal_cloud j = Some p /\ by_rounding (bpow radix2 11) (bpow radix2 (-50)) (fpt 1101 517 0) p d) 4 1 res /\
  nlt (dist_to (fsqd eigen_order) normal_cloud (fpt 1101 517 0) 1) d = true.
Proof.
  destruct (C79_normal_splitting _ _ eigen_order _ _ _ _ normal_cloud_env) as (tree & E & S).
  destruct C07_normal_projection_double_refuted as (tree' & nn & E' & N & d & Ed & Ld).
  rewrite E in E'. injection E' as <-.
  destruct (S (fpt 1101 517 0) (Some 1) (-1)%Z {| static_n := Some 1; capacity := -1; num_found_neighbors := 0;
      indices := repeat INVALID 1; distances := repeat nmaxv 1 |}) as (r & res & A & B & C).
  { apply within_small. vm_compute. reflexivity. } { reflexivity. } { unfold buffer_size; simpl; lia. }
  unfold nearest_neighbor_search in N. rewrite N in A. injection A as ->.
  exists tree, r, res, d. split; [exact E|]. split; [exact N|]. split; [exact Ed|]. split; [|split; [exact C|exact Ld]].
  destruct B as (_ & _ & B). destruct C as (_ & _ & _ & L & _). cbn [buffer_size static_n] in B, L. unfold buffer_size in B, L. cbn [static_n] in B, L.
  assert (C4 : length (filter (fun j => nlt (dist_to (fsqd eigen_order) normal_cloud (fpt 1101 517 0) j) nmaxv) (seq 0 (length normal_cloud))) = 4)
    by (vm_compute; reflexivity).
  rewrite C4 in L. change (Nat.min 1 4) with 1 in L. rewrite L in B. cbn [Nat.sub repeat] in B. rewrite app_nil_r in B. congruence.
Qed.

Example C79_nearest_case : exists tree r j q,
  build_tree (normal_apply (D := Fnum)) (fun _ => Ok normal_witness) sort_nth_element normal_cloud 3 = Ok tree /\
  nearest_neighbor_search (fsqd eigen_order) (normal_apply (D := Fnum)) normal_cloud tree (fpt 1101 517 0) (nzero (n := Fnum)) = Ok r /\
  indices r = [N.of_nat j] /\ nth_error normal_cloud j = Some q /\
  forall p, In p normal_cloud -> by_rounding (bpow radix2 11) (bpow radix2 (-50)) (fpt 1101 517 0) p (fsqd eigen_order q (fpt 1101 517 0)).
Proof.
  destruct (C79_nearest _ _ eigen_order _ _ _ _ normal_cloud_env eigen_order_full) as (tree & E & S).
  destruct (S (fpt 1101 517 0)) as (r & j & q & A & _ & B & C & _ & F).
  - apply within_small. vm_compute. reflexivity.
  - intros p Hp. unfold normal_cloud in Hp; cbn [In] in Hp. repeat (destruct Hp as [<-|Hp]; [reflexivity|]). destruct Hp.
  - exists tree, r, j, q. auto.
Qed.

Print Assumptions C79_normal_splitting.
Print Assumptions C79_nearest.
