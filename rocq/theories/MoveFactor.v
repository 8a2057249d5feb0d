(** The factors of a moved target: same system, same error. *)
From Coq Require Import Reals Lra Psatz.
From Verif Require Import Base BaseProofs Num Vec RNum Lin LinSpec LinProofs FactorModel ReduceModel ReduceSpec ReduceProofs
  OptModel OptSpec FactorProofs MoveSpec MoveProofs.
Open Scope R_scope.

Implicit Types (A B C M R : m3 Rfld) (u v : v3 Rfld) (G T : pose Rfld) (p q : vec4 Rfld) (c : m4 Rfld).

(** * Algebra *)
Lemma mm3_tr_cancel R A B : rotation R -> mm3 (tr3 (mm3 R A)) (mm3 R B) = mm3 (tr3 A) B.
Proof. intros (O & _). rewrite tr3_mm3, mm3_assoc, <- (mm3_assoc (tr3 A) (tr3 R) R), O, mm3_id_r. reflexivity. Qed.
Lemma conj_cancel R A M B : rotation R ->
  mm3 (mm3 (tr3 (mm3 R A)) (mm3 (mm3 R M) (tr3 R))) (mm3 R B) = mm3 (mm3 (tr3 A) M) B.
Proof.
  intros (O & _). rewrite tr3_mm3. rewrite <- (mm3_assoc (tr3 A) (tr3 R)). rewrite <- (mm3_assoc R M (tr3 R)), (mm3_assoc (tr3 R) R), O, mm3_id_l.
  rewrite (mm3_assoc (tr3 A) M (tr3 R)), <- (mm3_assoc _ (tr3 R)), (mm3_assoc (tr3 R) R B), O, mm3_id_l. reflexivity.
Qed.
Lemma mm3_mopp A B : mm3 A (mopp3 B) = mopp3 (mm3 A B).
Proof. lring. Qed.
Lemma tr_mv_cancel R A v : rotation R -> mv3 (tr3 (mm3 R A)) (mv3 R v) = mv3 (tr3 A) v.
Proof. intros (O & _). rewrite tr3_mm3, mv3_mm3, <- (mv3_mm3 (tr3 R)), O, mv3_id. reflexivity. Qed.

Definition turn (R : m3 Rfld) (J : jac Rfld) : jac Rfld := Jac (mm3 R (jr J)) (mm3 R (jt J)).
Lemma jtj_turn R J : rotation R -> jtj (turn R J) = jtj J.
Proof. intros O. unfold jtj, turn. cbn [jr jt]. rewrite !mm3_tr_cancel by exact O. reflexivity. Qed.
Lemma jwj_turn R J M : rotation R -> jwj (turn R J) (mm3 (mm3 R M) (tr3 R)) = jwj J M.
Proof. intros O. unfold jwj, turn. cbn [jr jt]. rewrite !conj_cancel by exact O. reflexivity. Qed.
Lemma jtr_turn R J v : rotation R -> jtr (turn R J) (mv3 R v) = jtr J v.
Proof. intros O. unfold jtr, turn. cbn [jr jt]. rewrite !tr_mv_cancel by exact O. reflexivity. Qed.
Lemma point_jac_moved G T p : point_jac (pose_mul G T) p = turn (rot G) (point_jac T p).
Proof.
  unfold point_jac, turn, pose_mul. cbn [rot jr jt]. rewrite <- mm3_assoc, mm3_mopp. reflexivity.
Qed.
Lemma mv3_conj R M v : rotation R -> mv3 (mm3 (mm3 R M) (tr3 R)) (mv3 R v) = mv3 R (mv3 M v).
Proof. intros (O & _). rewrite !mv3_mm3, <- (mv3_mm3 (tr3 R) R), O, mv3_id. reflexivity. Qed.
Lemma dot3_turn R u v : rotation R -> dot3 (mv3 R u) (mv3 R v) = dot3 u v.
Proof. intros (O & _). rewrite dot3_mv3, <- mv3_mm3, O, mv3_id. reflexivity. Qed.
Lemma quad_turn R M v : rotation R -> quad (mm3 (mm3 R M) (tr3 R)) (mv3 R v) = quad M v.
Proof. intros O. unfold quad. rewrite mv3_conj, dot3_turn by exact O. reflexivity. Qed.

(** The inverse of a conjugate. *)
Lemma adj_mm A B : tr3 (cofactors (mm3 A B)) = mm3 (tr3 (cofactors B)) (tr3 (cofactors A)).
Proof. lring. Qed.
Lemma adj_rotation R : rotation R -> tr3 (cofactors R) = tr3 R.
Proof.
  intros O. pose proof (mm3_cofactors R) as E. destruct O as (O & D). rewrite D, mscale3_one in E.
  rewrite <- (mm3_id_l (tr3 (cofactors R))), <- O, <- mm3_assoc, E, mm3_id_r. reflexivity.
Qed.
Lemma rotation_tr R : rotation R -> rotation (tr3 R).
Proof. intros O. split; [rewrite tr3_tr3; apply rotation_inv; exact O|]. rewrite det3_tr. apply O. Qed.
Lemma inv3_conj R M : rotation R -> inv3 (mm3 (mm3 R M) (tr3 R)) = mm3 (mm3 R (inv3 M)) (tr3 R).
Proof.
  intros O. pose proof (adj_rotation R O) as E1. pose proof (adj_rotation _ (rotation_tr R O)) as E2. rewrite tr3_tr3 in E2.
  unfold inv3. rewrite !adj_mm, E1, E2, !det3_mm, det3_tr, (proj2 O), mm3_mscale_r, mm3_mscale_l, mm3_assoc.
  f_equal. f_equal. change (1 * det3 M * 1 = det3 M). ring.
Qed.
Lemma mm3_madd A B C : mm3 A (madd3 B C) = madd3 (mm3 A B) (mm3 A C).
Proof. lring. Qed.
Lemma madd_mm3 A B C : mm3 (madd3 A B) C = madd3 (mm3 A C) (mm3 B C).
Proof. lring. Qed.

Lemma b33_moved G c : plain_cov c -> b33 (moved_cov G c) = mm3 (mm3 (rot G) (b33 c)) (tr3 (rot G)).
Proof.
  intros (Z1 & Z2 & Z3). unfold moved_cov. cbn [mm4 tr4 pose_mat b33 b34 b43 b44]. rewrite Z1, Z2, Z3, mv3_zero.
  generalize (mm3 (rot G) (b33 c)) (tr3 (rot G)) (tra G). clear. lring.
Qed.
Lemma maha_moved G T ct cs : rotation (rot G) -> plain_cov ct -> plain_cov cs ->
  maha_of (pose_mul G T) (moved_cov G ct) cs = mm3 (mm3 (rot G) (maha_of T ct cs)) (tr3 (rot G)).
Proof.
  intros O Pt Ps. unfold maha_of, fused_cov. cbn [madd4 b33].
  change (mm4 (mm4 (pose_mat (pose_mul G T)) cs) (tr4 (pose_mat (pose_mul G T)))) with (moved_cov (pose_mul G T) cs).
  change (mm4 (mm4 (pose_mat T) cs) (tr4 (pose_mat T))) with (moved_cov T cs).
  rewrite !b33_moved by assumption. rewrite <- inv3_conj by exact O. f_equal. cbn [pose_mul rot].
  rewrite mm3_madd, madd_mm3. f_equal. rewrite tr3_mm3, !mm3_assoc. reflexivity.
Qed.

(** * Points *)
Lemma pose_pt_aux A B (t s h : v3 Rfld) (w : car Rfld) :
  add3 (mv3 (mm3 A B) h) (scale3 w (add3 (mv3 A t) s)) = add3 (mv3 A (add3 (mv3 B h) (scale3 w t))) (scale3 w s).
Proof. lring. Qed.
Lemma head_pose_pt G p : head (pose_pt G p) = add3 (mv3 (rot G) (head p)) (scale3 (vw p) (tra G)).
Proof. unfold pose_pt, head at 1. cbn [vx vy vz]. destruct (add3 _ _). reflexivity. Qed.
Lemma pose_pt_mul G T p : pose_pt (pose_mul G T) p = pose_pt G (pose_pt T p).
Proof.
  unfold pose_pt at 1 2. cbn [pose_mul rot tra]. rewrite pose_pt_aux, <- head_pose_pt. reflexivity.
Qed.
Lemma head_vsub p q : head (vsub p q) = sub3 (head p) (head q).
Proof. reflexivity. Qed.
Lemma sub_aux A (x y t : v3 Rfld) (w : car Rfld) :
  sub3 (add3 (mv3 A x) (scale3 w t)) (add3 (mv3 A y) (scale3 w t)) = mv3 A (sub3 x y).
Proof. lring. Qed.
Lemma head_gap_moved G p q : vw p = vw q -> head (vsub (pose_pt G p) (pose_pt G q)) = mv3 (rot G) (head (vsub p q)).
Proof. intros W. rewrite !head_vsub, !head_pose_pt, W. apply sub_aux. Qed.
Lemma sqnorm4_head (v : vec4 Rfld) : sqnorm4 v = dot3 (head v) (head v) + vw v * vw v.
Proof. destruct v as [x y z w]. rcar. cbn. unfold Rnum; cbn. req. ring. Qed.
Lemma sqnorm_gap p q : sqnorm4 (D := Rfld) (vsub p q) = sq_gap p q.
Proof. destruct p as [x y z w], q as [x' y' z' w']. rcar. unfold sq_gap. cbn. req. ring. Qed.
Lemma sqnorm_moved G p q : rotation (rot G) -> vw p = vw q ->
  sqnorm4 (D := Rfld) (vsub (pose_pt G p) (pose_pt G q)) = sqnorm4 (D := Rfld) (vsub p q).
Proof.
  intros O W. rewrite !sqnorm4_head, head_gap_moved by exact W. rewrite rotation_norm by exact O. f_equal.
Qed.
Lemma gap_moved G p q : rotation (rot G) -> vw p = vw q -> sq_gap (pose_pt G p) (pose_pt G q) = sq_gap p q.
Proof. intros O W. rewrite <- !sqnorm_gap. apply sqnorm_moved; assumption. Qed.

(** * Searches *)
Section Factors.
Context (G : pose Rfld) (O : rotation (rot G)).
Context (target target' : view Rfld N) (source : view Rfld nat) (MV : moved_view G target target').
Context (HT : homogeneous_view target) (HS : homogeneous_view source).

Lemma point_moved i p' : at_point target' i = Ok p' -> exists p, at_point target i = Ok p /\ p' = pose_pt G p.
Proof using MV.
  destruct (MV i) as (-> & _ & _). destruct (at_point target i) as [p| | |]; cbn [bind]; try discriminate. intros [= <-]. eauto.
Qed.
Lemma point_moved_r i p : at_point target i = Ok p -> at_point target' i = Ok (pose_pt G p).
Proof using MV. destruct (MV i) as (-> & _ & _). intros ->. reflexivity. Qed.
Lemma nearest_moved q i : vw q = 1 -> (nearest_at target' (pose_pt G q) i <-> nearest_at target q i).
Proof using MV HT O.
  intros W. split; intros (p & E & M).
  - destruct (point_moved _ _ E) as (p1 & E1 & ->). exists p1. split; auto. intros j p' Ej.
    specialize (M j _ (point_moved_r _ _ Ej)). rewrite !gap_moved in M; auto; rewrite W; eapply HT; eauto.
  - exists (pose_pt G p). split; [apply point_moved_r; exact E|]. intros j p' Ej.
    destruct (point_moved _ _ Ej) as (p1 & E1 & ->). specialize (M j _ E1).
    rewrite !gap_moved; auto; rewrite W; eapply HT; eauto.
Qed.

Context (nn nn' : vec4 Rfld -> outcome (option (N * car Rfld))) (X : exact_search target nn) (X' : exact_search target' nn').
Lemma search_moved q : vw q = 1 -> one_nearest target q -> nn' (pose_pt G q) = nn q.
Proof using X X' MV HT O.
  intros W U. destruct (X q) as (o & -> & S). destruct (X' (pose_pt G q)) as (o' & -> & S'). f_equal.
  destruct o as [[i d]|], o' as [[j e]|]; auto.
  - destruct S as (Ni & Ld & p & Ep & Dp). destruct S' as (Nj & Le & p' & Ep' & Dp').
    apply (nearest_moved q j W) in Nj. assert (i = j) as <- by (apply U; assumption).
    destruct (point_moved _ _ Ep') as (p1 & E1 & ->). assert (p1 = p) as -> by congruence.
    rewrite gap_moved in Dp'; [congruence|exact O|]. rewrite W. eapply HT; eauto.
  - exfalso. destruct S as (_ & Ld & p & Ep & Dp). specialize (S' _ _ (point_moved_r _ _ Ep)).
    rewrite gap_moved in S'; [|exact O|rewrite W; eapply HT; eauto]. subst d. change (car (fbase Rfld)) with R in *. lra.
  - exfalso. destruct S' as (_ & Le & p' & Ep' & Dp'). destruct (point_moved _ _ Ep') as (p1 & E1 & ->). specialize (S _ _ E1).
    rewrite gap_moved in Dp'; [|exact O|rewrite W; eapply HT; eauto]. subst e. change (car (fbase Rfld)) with R in *. lra.
Qed.

(** * Factors *)
Context (reject : pose Rfld -> N -> nat -> car Rfld -> bool) (RJ : forall T ti si d, reject (pose_mul G T) ti si d = reject T ti si d).
Context (k : kind) (NP : k <> PlaneICP) (PC : k = GICP -> plain_covs target /\ plain_covs source).

(** Related factors: same correspondence, turned weight matrix. *)
Definition turned (f f' : factor Rfld) : Prop :=
  f_target f' = f_target f /\ f_source f' = f_source f /\ f_maha f' = mm3 (mm3 (rot G) (f_maha f)) (tr3 (rot G)).
Lemma mm_zero A : mm3 (mm3 A mzero3) (tr3 A) = mzero3.
Proof using. clear. lring. Qed.
Lemma turned_init : turned factor_init factor_init.
Proof using. clear. repeat split. cbn [factor_init f_maha]. symmetry. apply mm_zero. Qed.

Lemma residual_moved T ti si r : residual target source T ti si = Ok r ->
  exists r', residual target' source (pose_mul G T) ti si = Ok r' /\ head r' = mv3 (rot G) (head r) /\ sqnorm4 (D := Rfld) r' = sqnorm4 (D := Rfld) r.
Proof using MV HT HS O.
  unfold residual. intros H. destruct (at_point target ti) as [q| | |] eqn:Eq; cbn [bind] in H; try discriminate.
  destruct (at_point source si) as [p| | |] eqn:Ep; cbn [bind] in H; try discriminate. injection H as <-.
  rewrite (point_moved_r _ _ Eq). cbn [bind]. eexists. split; [reflexivity|]. rewrite pose_pt_mul.
  assert (W : vw q = vw (pose_pt T p)) by (cbn [pose_pt vw]; rewrite (HT _ _ Eq), (HS _ _ Ep); reflexivity).
  split; [apply head_gap_moved; exact W|apply sqnorm_moved; assumption].
Qed.

Lemma linearize_at_moved T ti si f f' f1 s : turned f f' -> linearize_at target source k T ti si f = Ok (f1, s) ->
  exists f1', linearize_at target' source k (pose_mul G T) ti si f' = Ok (f1', s) /\ turned f1 f1'.
Proof using MV HT HS O NP PC.
  intros (F1 & F2 & F3) H. unfold linearize_at in *.
  destruct (residual target source T ti si) as [r| | |] eqn:Er; cbn [bind] in H; try discriminate.
  destruct (residual_moved _ _ _ _ Er) as (r' & -> & Hh & Hs). cbn [bind].
  destruct (at_point source si) as [p| | |] eqn:Ep; cbn [bind] in *; try discriminate.
  destruct k; [| congruence |].
  - injection H as <- <-. rewrite point_jac_moved, jtj_turn, Hh, jtr_turn, Hs by exact O.
    eexists. split; [reflexivity|]. repeat split. exact F3.
  - destruct (MV ti) as (_ & _ & ->). destruct (at_cov target ti) as [ct| | |] eqn:Ect; cbn [bind] in *; try discriminate.
    destruct (at_cov source si) as [cs| | |] eqn:Ecs; cbn [bind] in *; try discriminate. cbv zeta in *. injection H as <- <-.
    destruct (PC eq_refl) as (P1 & P2). rewrite (maha_moved G T ct cs O (P1 _ _ Ect) (P2 _ _ Ecs)).
    rewrite point_jac_moved, jwj_turn, Hh, mv3_conj, jtr_turn, quad_turn by exact O.
    eexists. split; [reflexivity|]. repeat split.
Qed.

(** Every transformed source point has one nearest target point. *)
Definition untied (T : pose Rfld) : Prop := forall i p, at_point source i = Ok p -> one_nearest target (pose_pt T p).

Lemma linearize_moved T si f f' f1 r : untied T -> turned f f' -> linearize nn reject target source k T si f = Ok (f1, r) ->
  exists f1', linearize nn' reject target' source k (pose_mul G T) si f' = Ok (f1', r) /\ turned f1 f1'.
Proof using MV HT HS O NP PC X X' RJ.
  intros U R H. unfold linearize in *. destruct (at_point source si) as [p| | |] eqn:Ep; cbn [bind] in *; try discriminate.
  rewrite pose_pt_mul, search_moved; [|cbn [pose_pt vw]; exact (HS _ _ Ep)|exact (U _ _ Ep)].
  destruct (nn (pose_pt T p)) as [[[ti d]|]| | |]; cbn [bind] in *; try discriminate.
  - rewrite RJ. destruct (reject T ti si d).
    + injection H as <- <-. eexists. split; [reflexivity|]. repeat split. apply R.
    + destruct (linearize_at target source k T ti si f) as [[f2 s]| | |] eqn:E; cbn [bind] in H; try discriminate. injection H as <- <-.
      destruct (linearize_at_moved _ _ _ _ _ _ _ R E) as (f1' & -> & R1). cbn [bind]. eauto.
  - injection H as <- <-. eexists. split; [reflexivity|]. repeat split. apply R.
Qed.
Lemma error_moved T f f' e : turned f f' -> error target source k T f = Ok e -> error target' source k (pose_mul G T) f' = Ok e.
Proof using MV HT HS O NP PC.
  intros (F1 & F2 & F3) H. unfold error in *. rewrite F1, F2. destruct (f_target f) as [ti|]; auto.
  destruct (residual target source T ti (f_source f)) as [r| | |] eqn:Er; cbn [bind] in H; try discriminate.
  destruct (residual_moved _ _ _ _ Er) as (r' & -> & Hh & Hs). cbn [bind].
  destruct k; [| congruence |]; injection H as <-.
  - rewrite Hs. reflexivity.
  - rewrite F3, Hh, quad_turn by exact O. reflexivity.
Qed.
Lemma linearize_robust_moved weight T si f f' f1 r : untied T -> turned f f' -> linearize_robust nn reject target source weight k T si f = Ok (f1, r) ->
  exists f1', linearize_robust nn' reject target' source weight k (pose_mul G T) si f' = Ok (f1', r) /\ turned f1 f1'.
Proof using MV HT HS O NP PC X X' RJ.
  intros U R H. unfold linearize_robust in *. destruct (linearize nn reject target source k T si f) as [[f2 s]| | |] eqn:E; cbn [bind] in H; try discriminate.
  destruct (linearize_moved _ _ _ _ _ _ U R E) as (f1' & -> & R1). cbn [bind]. destruct s; injection H as <- <-; eauto.
Qed.
Lemma error_robust_moved weight T f f' e : turned f f' -> error_robust target source weight k T f = Ok e ->
  error_robust target' source weight k (pose_mul G T) f' = Ok e.
Proof using MV HT HS O NP PC.
  intros R H. unfold error_robust in *. destruct (error target source k T f) as [x| | |] eqn:E; cbn [bind] in H; try discriminate.
  rewrite (error_moved _ _ _ _ R E). exact H.
Qed.
Lemma turned_initial n : Forall2 turned (initial_factors n) (initial_factors n).
Proof using. clear. unfold initial_factors. induction n; cbn [repeat]; constructor; auto. apply turned_init. Qed.
Lemma turned_inlier f f' : turned f f' -> inlier f = inlier f'.
Proof using. clear. intros (F1 & _). unfold inlier. rewrite F1. reflexivity. Qed.
End Factors.
