(** C47: choosing the split axis of a kd-tree node (include/small_gicp/ann/projection.hpp). *)
From Coq Require Import ZifyBool ZifyNat ZifyN.
From Coq Require Import Reals Lra.
From Verif Require Import Base BaseProofs Num Vec RNum Lin LinSpec LinProofs KdModel KdF64 EstModel EstSpec EstReal AxisModel AxisSpec AxisProofs.
Open Scope nat_scope.

(** Any number system: an axis in {0,1,2}, from between one and 2 max - 1 points of the range. *)
Theorem C47_axis : forall (D : num) m (range : list (vec4 D)), (0 < m <= 2 ^ 30)%Z -> range <> [] ->
  exists a idx, axis_find m range = Ok a /\ a < 3 /\
    sampled (length range) (Z.to_nat m) idx /\ depends_only_on (axis_find m) range idx.
Proof.
  intros D m range Hm NE.
  destruct (find_spec (axis_find m) axis_of m (axis_find_sampled m) Hm range NE) as (idx & pts & E & S & Dp & _).
  exists (axis_of pts), idx. split; [exact E|]. split; [apply choose_axis_lt|]. split; [exact S|exact Dp].
Qed.
Theorem C47_normal : forall (D : fld) eig m (range : list (vec4 D)), (0 < m <= 2 ^ 30)%Z -> range <> [] ->
  exists n idx, normal_find eig m range = Ok n /\
    sampled (length range) (Z.to_nat m) idx /\ depends_only_on (normal_find eig m) range idx.
Proof.
  intros D eig m range Hm NE.
  destruct (find_spec (normal_find eig m) (normal_of_sample eig) m (normal_find_sampled eig m) Hm range NE) as (idx & pts & E & S & Dp & _).
  exists (normal_of_sample eig pts), idx. split; [exact E|]. split; [exact S|exact Dp].
Qed.

Lemma sample_w (range : list (vec4 Rfld)) idx pts : Forall2 (fun i x => nth_error range i = Some x) idx pts ->
  Forall (fun p : vec4 Rfld => vw p = 1%R) range -> Forall (fun p : vec4 Rfld => vw p = 1%R) pts.
Proof.
  induction 1 as [|i x idx pts E _ IH]; intros F; constructor; [|exact (IH F)].
  eapply Forall_forall in F; [exact F|]. eapply nth_error_In, E.
Qed.
Lemma sample_nonempty (range pts : list (vec4 Rfld)) n m idx : sampled n m idx -> Forall2 (fun i x => nth_error range i = Some x) idx pts -> pts <> [].
Proof. intros (_ & _ & L & _) F Z. subst pts. inversion F; subst. cbn in L. lia. Qed.
(** Exact reals, homogeneous points: the axis, and the direction, of largest variance of the
    sampled points. *)
Theorem C47_largest_variance : forall m (range : list (vec4 Rfld)), (0 < m <= 2 ^ 30)%Z -> range <> [] ->
  Forall (fun p : vec4 Rfld => vw p = 1%R) range ->
  exists a idx pts, axis_find (D := Rfld) m range = Ok a /\ a < 3 /\ sampled (length range) (Z.to_nat m) idx /\
    Forall2 (fun i x => nth_error range i = Some x) idx pts /\
    forall b, b < 3 -> (variance_along (unit_axis b) pts <= variance_along (unit_axis a) pts)%R.
Proof.
  intros m range Hm NE W.
  destruct (find_spec (axis_find (D := Rfld) m) axis_of m (axis_find_sampled m) Hm range NE) as (idx & pts & E & S & _ & F).
  destruct (axis_of_spec pts (sample_nonempty _ _ _ _ _ S F) (sample_w _ _ _ F W)) as [A B].
  exists (axis_of (D := Rfld) pts), idx, pts. auto.
Qed.
Theorem C47_largest_variance_direction : forall eig m (range : list (vec4 Rfld)), (0 < m <= 2 ^ 30)%Z -> range <> [] ->
  Forall (fun p : vec4 Rfld => vw p = 1%R) range -> (forall pts, pts <> [] -> incl pts range -> solves eig pts) ->
  exists n idx pts, normal_find (D := Rfld) eig m range = Ok n /\ dot3 n n = 1%R /\ sampled (length range) (Z.to_nat m) idx /\
    Forall2 (fun i x => nth_error range i = Some x) idx pts /\
    forall u : v3 Rfld, dot3 u u = 1%R -> (variance_along u pts <= variance_along n pts)%R.
Proof.
  intros eig m range Hm NE W So.
  destruct (find_spec (normal_find (D := Rfld) eig m) (normal_of_sample eig) m (normal_find_sampled eig m) Hm range NE) as (idx & pts & E & S & _ & F).
  pose proof (sample_nonempty _ _ _ _ _ S F) as NP. pose proof (sample_w _ _ _ F W) as WP.
  assert (I : incl pts range).
  { intros x Hx. clear - F Hx. induction F as [|i y idx pts E _ IH]; [destruct Hx|]. destruct Hx as [<-|Hx]; [eapply nth_error_In, E|exact (IH Hx)]. }
  assert (EC : eig_correct (scatter (D := Rfld) INR pts) (eig (scatter (D := Rfld) INR pts))).
  { apply (So pts NP I); [apply scatter_sym|]. intros u. apply scatter_variance, NP. }
  rewrite (normal_scatter eig pts WP) in E.
  exists (c2 (eig (scatter (D := Rfld) INR pts))), idx, pts. split; [exact E|]. split; [apply orth_c2; apply EC|]. split; [exact S|]. split; [exact F|].
  intros u U. rewrite <- !scatter_variance by exact NP. apply eig_greatest; assumption.
Qed.
(** max_scan_count = 0 divides by zero; the documented limit of max_scan_count samples does not hold. *)
Theorem C47_zero_count_refuted : forall (D : num) (range : list (vec4 D)), axis_find 0 range = UB.
Proof. intros D range. unfold axis_find, scan_plan. change (size_t_of_int 0) with 0%N. destruct (_ <? _)%N eqn:E; [lia|]. reflexivity. Qed.
Theorem C47_documented_limit_refuted : forall m, (1 < m <= 2 ^ 30)%Z -> exists n step steps,
  scan_plan n m = Ok (step, steps) /\ Z.to_nat m < length (scan_positions step steps).
Proof.
  intros m Hm. set (n := 2 * Z.to_nat m - 1). destruct (scan_plan_ok n m ltac:(lia) ltac:(lia)) as (step & steps & E & _).
  exists n, step, steps. split; [exact E|]. destruct (positions_sampled n m step steps ltac:(lia) ltac:(lia) E) as (_ & _ & _ & A).
  rewrite A by lia. rewrite seq_length. lia.
Qed.

(** A range longer than twice the limit: every other point is read. *)
Example C47_positions : exists step steps, scan_plan 20 8 = Ok (step, steps) /\ scan_positions step steps = [0; 2; 4; 6; 8; 10; 12; 14; 16; 18].
Proof. exists 2%N, 10%N. split; reflexivity. Qed.
(** Three points spread along y. *)
Open Scope R_scope.
Definition spread_y : list (vec4 Rfld) := [V4 (0 : car Rfld) 0%R 0%R 1%R; V4 (1 : car Rfld) 5%R 0%R 1%R; V4 (0 : car Rfld) 10%R 1%R 1%R].
(** An eigen-solver that is right for the points of a line along y (any subset of them). *)
Definition line_y : list (vec4 Rfld) := [V4 (0 : car Rfld) 0%R 0%R 1%R; V4 (0 : car Rfld) 5%R 0%R 1%R; V4 (0 : car Rfld) 10%R 0%R 1%R].
Definition eig_y (W : m3 Rfld) : m3 Rfld := M3 (P3 (1 : car Rfld) 0%R 0%R) (P3 (0 : car Rfld) 0%R 1%R) (P3 (0 : car Rfld) 1%R 0%R).
Example C47_instance : spread_y <> [] /\ Forall (fun p : vec4 Rfld => vw p = 1%R) spread_y /\ axis_find (D := Rfld) 128 spread_y = Ok 1%nat.
Proof.
  split; [discriminate|]. split; [repeat constructor|].
  rewrite axis_find_sampled. cbn [length spread_y]. change (scan_plan 3 128) with (Ok (1%N, 3%N)). cbn [bind].
  change (scan_positions 1 3) with [0; 1; 2]%nat. cbn [mapM get nth_error bind spread_y]. f_equal.
  unfold axis_of. cbn [fold_left fst snd]. unfold choose_axis. cbn.
  rewrite (proj2 (Rlt_bool_false_iff _ _)) by lra. rewrite (proj2 (Rlt_bool_iff _ _)) by lra. reflexivity.
Qed.
Lemma line_y_along (a y b : R) q : In q line_y -> along (P3 (a : car Rfld) y b) q = y * along (P3 (0 : car Rfld) 1 0) q.
Proof. intros [<-|[<-|[<-|[]]]]; cbn; req; ring. Qed.
Example C47_solver_instance : line_y <> [] /\ Forall (fun p : vec4 Rfld => vw p = 1) line_y /\
  forall pts, pts <> [] -> incl pts line_y -> solves eig_y pts.
Proof.
  split; [discriminate|]. split; [repeat constructor|]. intros pts NE I W Sy Q.
  assert (Vy : forall a y b : R, variance_along (P3 (a : car Rfld) y b) pts = y * y * variance_along (P3 (0 : car Rfld) 1 0) pts).
  { intros a y b. assert (AL : forall q, In q line_y -> along (P3 (a : car Rfld) y b) q = y * along (P3 (0 : car Rfld) 1 0) q).
    { intros q. apply line_y_along. }
    assert (S : forall l, incl l line_y -> sumR (along (P3 (a : car Rfld) y b)) l = y * sumR (along (P3 (0 : car Rfld) 1 0)) l).
    { induction l as [|q l IH]; intros J; cbn [sumR fold_right]; [ring|]. unfold sumR in IH. rewrite IH by (intros x Hx; apply J; right; exact Hx).
      rewrite (AL q (J q (or_introl eq_refl))). ring. }
    unfold variance_along, mean_along. rewrite (S pts I).
    assert (S2 : forall (M : R) l, incl l line_y -> sumR (fun q => (along (P3 (a : car Rfld) y b) q - y * M) * (along (P3 (a : car Rfld) y b) q - y * M)) l
       = y * y * sumR (fun q => (along (P3 (0 : car Rfld) 1 0) q - M) * (along (P3 (0 : car Rfld) 1 0) q - M)) l).
    { intros M. induction l as [|q l IH]; intros J; cbn [sumR fold_right]; [ring|]. unfold sumR in IH. rewrite IH by (intros x Hx; apply J; right; exact Hx).
      rewrite (AL q (J q (or_introl eq_refl))). ring. }
    unfold Rdiv. rewrite (Rmult_assoc y). rewrite (S2 _ pts I). ring. }
  set (v := variance_along (P3 (0 : car Rfld) 1 0) pts) in *.
  assert (VP : 0 <= v) by (apply variance_nonneg, NE).
  destruct W as [[a b c] [d e f] [g h i]]. unfold sym3 in Sy. injection Sy as S1 S2 S3 S4 S5 S6. cbn in S1, S2, S3, S4, S5, S6.
  pose proof (Q (P3 (1 : car Rfld) 0 0)) as Q1. pose proof (Q (P3 (0 : car Rfld) 1 0)) as Q2. pose proof (Q (P3 (0 : car Rfld) 0 1)) as Q3.
  pose proof (Q (P3 (1 : car Rfld) 1 0)) as Q4. pose proof (Q (P3 (1 : car Rfld) 0 1)) as Q5. pose proof (Q (P3 (0 : car Rfld) 1 1)) as Q6.
  rewrite Vy in Q1, Q2, Q3, Q4, Q5, Q6. cbn in Q1, Q2, Q3, Q4, Q5, Q6. change (car (fbase Rfld)) with R in *. change (car Rnum) with R in *.
  split; [apply M3_eq; apply P3_eq; cbn; req; ring|].
  exists (P3 (0 : car Rfld) 0 v). cbn [p0 p1 p2]. split; [|split; [apply Rle_refl|exact VP]].
  subst. apply M3_eq; apply P3_eq; cbn; req; lra.
Qed.

Print Assumptions C47_axis.
Print Assumptions C47_normal.
Print Assumptions C47_largest_variance.
Print Assumptions C47_largest_variance_direction.
Print Assumptions C47_zero_count_refuted.
Print Assumptions C47_documented_limit_refuted.
