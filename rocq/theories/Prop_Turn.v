(** C67: estimated normals and covariances turn with the cloud. *)
From Coq Require Import Reals Lra Psatz Permutation.
From Verif Require Import Base BaseProofs Num Vec RNum Lin LinSpec LinProofs FactorModel FactorProofs ReduceModel OptModel OptSpec KnnModel KdModel KdSpec KdReal KdThms EstModel EstSpec EstProofs EstReal MoveSpec MoveFactor MoveTree TurnSpec TurnProofs TurnTree NthElement Prop_Est Prop_Move.
Open Scope nat_scope.

Lemma neighbours_nth points found (pts : list (vec4 Rfld)) d : Forall2 (fun j q => nth_error points j = Some q) found pts -> pts = map (fun j => nth j points d) found.
Proof. induction 1 as [|j q js qs E _ IH]; cbn [map]; [reflexivity|]. f_equal; [symmetry; apply nth_error_nth; exact E|exact IH]. Qed.
Lemma neighbours_moved G points found found' (pts pts' : list (vec4 Rfld)) : Permutation found found' ->
  Forall2 (fun j q => nth_error points j = Some q) found pts -> Forall2 (fun j q => nth_error (map (pose_pt G) points) j = Some q) found' pts' ->
  Permutation (map (pose_pt G) pts) pts'.
Proof.
  intros P F F'. set (d := V4 (D := Rfld) 0%R 0%R 0%R 0%R). rewrite (neighbours_nth _ _ _ d F).
  rewrite (neighbours_nth _ _ _ (pose_pt G d) F'), map_map. rewrite (map_ext (fun j => nth j (map (pose_pt G) points) (pose_pt G d)) (fun j => pose_pt G (nth j points d))) by (intros j; apply (map_nth (pose_pt G))).
  apply Permutation_map. exact P.
Qed.
Lemma neighbours_in points found (pts : list (vec4 Rfld)) (P : vec4 Rfld -> Prop) : Forall2 (fun j q => nth_error points j = Some q) found pts -> Forall P points -> Forall P pts.
Proof. intros F H. rewrite Forall_forall in H. induction F as [|j q js qs E _ IH]; constructor; auto. apply H. eapply nth_error_In. exact E. Qed.
Lemma plane_head (G : pose Rfld) (n n' : vec4 Rfld) : vw n = 0%R -> vw n' = 0%R -> head n' = mv3 (rot G) (head n) -> n' = pose_pt G n.
Proof.
  intros Z Z' E. assert (H : head (pose_pt G n) = head n').
  { rewrite E. transitivity (add3 (mv3 (rot G) (head n)) (scale3 (vw n) (tra G))); [unfold pose_pt; destruct (add3 _ _); reflexivity|].
    rewrite Z. generalize (mv3 (rot G) (head n)) (tra G). clear. lring. }
  assert (W : vw (pose_pt G n) = vw n') by (rewrite Z'; exact Z). destruct (pose_pt G n) as [a b e f], n' as [a' b' e' f']. unfold head in H. cbn [vx vy vz vw] in H, W. injection H as -> -> ->. rewrite W. reflexivity.
Qed.
Lemma head_vopp (n : vec4 Rfld) : head (vopp n) = opp3 (head n). Proof. reflexivity. Qed.

(** Cloud and moved cloud, each estimated with a search and a solver of its own: if the searches
    find the same points and every neighbourhood has one flattest direction, every covariance is
    the moved covariance, and every normal is the moved normal or its opposite, facing the origin
    of its own frame. *)
Theorem C67_estimated : forall G knn knn' eig eig' st jp jn jc jp' jn' jc' k (c c2 d d' : cloud Rfld),
  orthonormal (rot G) -> Forall (fun p : vec4 Rfld => vw p = 1%R) (cl_points c) -> cl_points c2 = map (pose_pt G) (cl_points c) ->
  same_neighbours G knn knn' k (cl_points c) ->
  (forall pts, usable knn k c pts -> solves eig pts /\ flat_once pts) -> (forall pts, usable knn' k c2 pts -> solves eig' pts) ->
  estimate (D := Rfld) knn eig INR (1e-3)%R st jp jn jc k c = Ok d ->
  estimate (D := Rfld) knn' eig' INR (1e-3)%R st jp' jn' jc' k c2 = Ok d' ->
  (has_covs st = true -> cl_covs d' = map (moved_cov G) (cl_covs d)) /\
  (has_normals st = true -> forall i p, nth_error (cl_points c) i = Some p -> exists n n',
     nth_error (cl_normals d) i = Some n /\ nth_error (cl_normals d') i = Some n' /\ (n' = pose_pt G n \/ n' = pose_pt G (vopp n)) /\
     (dot3 (head p) (head n) <= 0)%R /\ (dot3 (head (pose_pt G p)) (head n') <= 0)%R).
Proof.
  intros G knn knn' eig eig' st jp jn jc jp' jn' jc' k c c2 d d' O HP E2 SN SV SV' H H'.
  destruct (C33_estimated_values knn eig st jp jn jc k c d H) as (_ & LN & LC & _ & _ & V).
  destruct (C33_estimated_values knn' eig' st jp' jn' jc' k c2 d' H') as (_ & LN' & LC' & _ & _ & V').
  assert (ONE : forall i p, nth_error (cl_points c) i = Some p ->
    (has_covs st = true -> exists m, nth_error (cl_covs d) i = Some m /\ nth_error (cl_covs d') i = Some (moved_cov G m)) /\
    (has_normals st = true -> exists n n', nth_error (cl_normals d) i = Some n /\ nth_error (cl_normals d') i = Some n' /\
       (n' = pose_pt G n \/ n' = pose_pt G (vopp n)) /\ (dot3 (head p) (head n) <= 0)%R /\ (dot3 (head (pose_pt G p)) (head n') <= 0)%R)).
  { intros i p E. assert (E' : nth_error (cl_points c2) i = Some (pose_pt G p)) by (rewrite E2, nth_error_map, E; reflexivity).
    destruct (V i p E) as (found & EF & FEW & MANY). destruct (V' i _ E') as (found' & EF' & FEW' & MANY').
    pose proof (SN p found found' (nth_error_In _ _ E) EF EF') as PM. pose proof (Permutation_length PM) as LF.
    destruct (Nat.lt_ge_cases (length found) 5) as [L|L].
    - destruct (FEW L) as (A & B). destruct (FEW' ltac:(lia)) as (A' & B'). split; intros S.
      + eexists. split; [apply B; exact S|]. rewrite (invalid_moved G O). apply B'. exact S.
      + eexists _, _. split; [apply A; exact S|]. split; [apply A'; exact S|]. split; [left|split].
        * apply plane_head; auto. generalize (rot G). clear. lring.
        * apply Req_le. generalize (head p). clear. lring.
        * apply Req_le. generalize (head (pose_pt G p)). clear. lring.
    - destruct (MANY L) as (pts & NB & GO). destruct (MANY' ltac:(lia)) as (pts' & NB' & GO').
      destruct (SV pts) as (S1 & FO). { exists i, p, found. auto. }
      pose proof (SV' pts') as S1'. lapply S1'; [clear S1'; intros S1'|exists i, (pose_pt G p), found'; split; auto; lia].
      destruct (GO S1) as (n & m & GN & PC & W1 & W2). destruct (GO' S1') as (n' & m' & GN' & PC' & W1' & W2').
      destruct NB as (_ & _ & F2). destruct NB' as (_ & _ & F2'). rewrite E2 in F2'.
      pose proof (neighbours_moved G _ _ _ _ _ PM F2 F2') as PP. pose proof (neighbours_in _ _ _ _ F2 HP) as HPP.
      assert (NE : pts <> []) by (intros ->; inversion F2; subst; cbn in L; lia).
      destruct GN as (Z & U & FC & LE). destruct GN' as (Z' & U' & FC' & LE').
      assert (FL : flattest pts (mv3 (tr3 (rot G)) (head n'))) by (eapply flattest_moved; eauto; split; auto).
      assert (DIR : head n' = mv3 (rot G) (head n) \/ head n' = opp3 (mv3 (rot G) (head n))).
      { destruct (FO (head n) _ (conj U LE) FL) as [Q|Q]; [left|right]; rewrite <- (orth_cancel (rot G) (head n') O), Q; [reflexivity|].
        generalize (rot G) (head n). clear. lring. }
      split; intros S.
      + exists m. split; [apply W2; exact S|]. rewrite (W2' S). f_equal. apply (plane_moved G m m' (head n) (head n')); assumption.
      + exists n, n'. split; [apply W1; exact S|]. split; [apply W1'; exact S|]. split; [|split; assumption].
        destruct DIR as [Q|Q]; [left; apply plane_head; assumption|right; apply plane_head; auto].
        * change ((- vw n)%R = 0%R). rewrite Z. apply Ropp_0.
        * rewrite Q, head_vopp. generalize (rot G) (head n). clear. lring. }
  split.
  - intros S. apply nth_error_ext. intros i. rewrite nth_error_map. destruct (nth_error (cl_points c) i) as [p|] eqn:E.
    + destruct (proj1 (ONE i p E) S) as (m & -> & ->). reflexivity.
    + apply nth_error_None in E. rewrite (proj2 (nth_error_None (cl_covs d) i)) by lia. apply nth_error_None. rewrite LC', E2, map_length. exact E.
  - intros S i p E. apply (proj2 (ONE i p E) S).
Qed.

Lemma opp_shift (A : m3 Rfld) (u : v3 Rfld) (k : R) : add3 (mv3 A (opp3 u)) (scale3 (k : car Rfld) zero3) = opp3 (mv3 A u). Proof. lring. Qed.
(** Turning about the origin turns the normals; *)
Theorem C67_turned_normals : forall G (p n n' : vec4 Rfld), orthonormal (rot G) -> tra G = zero3 -> vw p = 1%R -> vw n = 0%R ->
  (n' = pose_pt G n \/ n' = pose_pt G (vopp n)) -> (dot3 (head p) (head n) < 0)%R -> (dot3 (head (pose_pt G p)) (head n') <= 0)%R ->
  n' = pose_pt G n.
Proof.
  intros G p n n' O T P Z [E|E] L L'; [exact E|exfalso]. subst n'. rewrite head_moved, T, add3_zero_r in L' by exact P.
  assert (H : head (pose_pt G (vopp n)) = opp3 (mv3 (rot G) (head n))).
  { transitivity (add3 (mv3 (rot G) (head (vopp n))) (scale3 (vw (vopp n)) (tra G))); [unfold pose_pt; destruct (add3 _ _); reflexivity|].
    rewrite T, head_vopp. apply (opp_shift (rot G) (head n) (vw (vopp n))). }
  rewrite H, dot3_opp_r, orth_dot in L' by exact O. change (- dot3 (head p) (head n) <= 0)%R in L'. change (car (fbase Rfld)) with R in *. apply Rlt_not_le in L. apply L. apply Ropp_le_cancel. rewrite Ropp_0. exact L'.
Qed.
(** a shift that takes the point to the other side of the origin flips them. *)
Theorem C67_flipped_normals : forall G (p n n' : vec4 Rfld), orthonormal (rot G) -> vw n = 0%R -> dot3 (head n) (head n) = 1%R ->
  (n' = pose_pt G n \/ n' = pose_pt G (vopp n)) -> (dot3 (head (pose_pt G p)) (head n') <= 0)%R ->
  (0 < dot3 (head (pose_pt G p)) (mv3 (rot G) (head n)))%R -> n' = pose_pt G (vopp n) /\ n' <> pose_pt G n.
Proof.
  intros G p n n' O Z U E L' L. assert (H : head (pose_pt G n) = mv3 (rot G) (head n)).
  { transitivity (add3 (mv3 (rot G) (head n)) (scale3 (vw n) (tra G))); [unfold pose_pt; destruct (add3 _ _); reflexivity|].
    rewrite Z. generalize (mv3 (rot G) (head n)) (tra G). clear. lring. }
  assert (N : n' <> pose_pt G n). { intros ->. rewrite H in L'. change (car (fbase Rfld)) with R in *. lra. }
  split; [|exact N]. destruct E as [E|E]; [contradiction|exact E].
Qed.

(** * Exact searches *)
(** One set of nearest points only. *)
Lemma nearest_unique points q n (l l' : list nat) : clear_cut points q n -> nearest_set points q n l -> nearest_set points q n l' -> Permutation l l'.
Proof.
  intros C (N & L & B & M) (N' & L' & B' & M'). apply NoDup_Permutation; auto.
  rewrite Forall_forall in B, B'.
  destruct C as [C|(near & r & NN & LN & BN & CUT)].
  - assert (ALL : forall l, NoDup l -> length l = Nat.min n (length points) -> (forall j, In j l -> j < length points) -> forall j, In j l <-> j < length points).
    { clear - C. intros l N L B j. split; [apply B|]. intros J.
      assert (I : incl (seq 0 (length points)) l). { apply NoDup_length_incl; [apply N|rewrite seq_length; lia|intros x X; apply in_seq; split; [lia|apply B; exact X]]. }
      apply I. apply in_seq. lia. }
    intros j. rewrite (ALL l N L B), (ALL l' N' L' B'). reflexivity.
  - assert (ALL : forall l, nearest_set points q n l -> forall j, In j l <-> In j near).
    { clear - NN LN BN CUT. intros l (N & L & B & M). rewrite Forall_forall in B, BN.
      assert (G : n <= length points).
      { rewrite <- LN, <- (seq_length (length points) 0). apply NoDup_incl_length; [exact NN|]. intros x X. apply in_seq. specialize (BN x X). lia. }
      assert (SUB : incl l near).
      { intros j J. destruct (in_dec Nat.eq_dec j near) as [I|I]; auto. exfalso.
        destruct (Forall_dec (fun x => In x l) (fun x => in_dec Nat.eq_dec x l) near) as [F|F].
        - assert (F1 : incl (j :: near) l) by (rewrite Forall_forall in F; intros x [<-|X]; auto).
          assert (ND : NoDup (j :: near)) by (constructor; auto). pose proof (NoDup_incl_length ND F1) as Q. cbn in Q. lia.
        - apply neg_Forall_Exists_neg in F; [|intros x; apply in_dec; apply Nat.eq_dec]. apply Exists_exists in F. destruct F as (x & X & NX).
          specialize (B j J). specialize (BN x X).
          destruct (nth_error points j) as [p|] eqn:Ej; [|apply nth_error_None in Ej; lia].
          destruct (nth_error points x) as [p'|] eqn:Ex; [|apply nth_error_None in Ex; lia].
          pose proof (M j x p p' J NX Ej Ex) as Q. pose proof (proj2 (CUT j p Ej) I) as Q1. pose proof (proj1 (CUT x p' Ex) X) as Q2. lra. }
      intros j. split; [apply SUB|]. apply (NoDup_length_incl N); [lia|exact SUB]. }
    intros j. rewrite (ALL l), (ALL l'); [reflexivity| |]; repeat split; auto; apply Forall_forall; auto.
Qed.

Lemma nearest_moved G points (q : vec4 Rfld) n l : orthonormal (rot G) -> Forall (fun p : vec4 Rfld => vw p = 1%R) points -> vw q = 1%R ->
  nearest_set (map (pose_pt G) points) (pose_pt G q) n l -> nearest_set points q n l.
Proof.
  intros O H Q (N & L & B & M). rewrite map_length in L, B. rewrite Forall_forall in H. repeat split; auto.
  intros i j p p' I J Ei Ej. rewrite <- (gap_moved G p q), <- (gap_moved G p' q); auto; try (apply H; eapply nth_error_In; eassumption).
  apply (M i j); auto; rewrite nth_error_map; [rewrite Ei|rewrite Ej]; reflexivity.
Qed.
Theorem C67_same_neighbours : forall G points knn knn' k, orthonormal (rot G) -> Forall (fun p : vec4 Rfld => vw p = 1%R) points ->
  exact_knn points knn k -> exact_knn (map (pose_pt G) points) knn' k -> (forall p, In p points -> clear_cut points p k) ->
  same_neighbours G knn knn' k points.
Proof.
  intros G points knn knn' k O H X X' C p found found' I E E'. apply (nearest_unique points p k); auto.
  apply (nearest_moved G); auto; [rewrite Forall_forall in H; auto|]. apply X'; [apply in_map; exact I|exact E'].
Qed.

(** * With the kd-tree *)
Lemma real_tree_knn_is_exact order ne find_axis (c : cloud Rfld) leaf tree k : full_sum order -> nth_element_contract ne ->
  (forall range : list (vec4 Rnum), range <> [] -> exists n, find_axis range = Ok n /\ short n) ->
  (3 <= size_t_of_int leaf)%N -> cl_points c <> [] -> (N.of_nat (length (cl_points c)) <= 4294967295)%N -> spread (cl_points c) ->
  build_tree (normal_apply (D := Rnum)) find_axis ne (cl_points c) leaf = Ok tree -> (0 < Z.of_nat k < 2 ^ 31)%Z ->
  exact_knn (cl_points c) (real_tree_knn order (cl_points c) tree) k /\
  forall st eig jp jn jc, exists d, estimate (D := Rfld) (real_tree_knn order (cl_points c) tree) eig INR (1e-3)%R st jp jn jc k c = Ok d.
Proof.
  intros FS NE A L NZ SM SP B K.
  assert (X : forall q, In q (cl_points c) -> exists found, real_tree_knn order (cl_points c) tree q k = Ok found /\ nearest_set (cl_points c) q k found)
    by (intros q Q; eapply real_tree_knn_exact; eassumption).
  split.
  - intros q found Q E. destruct (X q Q) as (found' & E' & S). assert (found' = found) as -> by congruence. exact S.
  - intros st eig jp jn jc. apply C33_total. intros p P. destruct (X p P) as (found & E & (_ & _ & B2 & _)). eauto.
Qed.
(** kd-trees built for each cloud (own projection axes, own leaf size): both estimations succeed
    and agree, if the k-th and the (k+1)-th neighbour of a point are never equally far. *)
Theorem C67_kdtree : forall order ne find_axis find_axis' leaf leaf' G (c c2 : cloud Rfld) tree tree' eig eig' st jp jn jc jp' jn' jc' k,
  full_sum order -> nth_element_contract ne ->
  (forall range : list (vec4 Rnum), range <> [] -> exists n, find_axis range = Ok n /\ short n) ->
  (forall range : list (vec4 Rnum), range <> [] -> exists n, find_axis' range = Ok n /\ short n) ->
  (3 <= size_t_of_int leaf)%N -> (3 <= size_t_of_int leaf')%N -> (0 < Z.of_nat k < 2 ^ 31)%Z ->
  orthonormal (rot G) -> cl_points c <> [] -> (N.of_nat (length (cl_points c)) <= 4294967295)%N ->
  Forall (fun p : vec4 Rfld => vw p = 1%R) (cl_points c) -> spread (cl_points c) -> cl_points c2 = map (pose_pt G) (cl_points c) ->
  build_tree (normal_apply (D := Rnum)) find_axis ne (cl_points c) leaf = Ok tree ->
  build_tree (normal_apply (D := Rnum)) find_axis' ne (cl_points c2) leaf' = Ok tree' ->
  (forall p, In p (cl_points c) -> clear_cut (cl_points c) p k) ->
  let knn cl t := real_tree_knn order (cl_points cl) t in
  (forall pts, usable (knn c tree) k c pts -> solves eig pts /\ flat_once pts) -> (forall pts, usable (knn c2 tree') k c2 pts -> solves eig' pts) ->
  exists d d',
    estimate (D := Rfld) (knn c tree) eig INR (1e-3)%R st jp jn jc k c = Ok d /\
    estimate (D := Rfld) (knn c2 tree') eig' INR (1e-3)%R st jp' jn' jc' k c2 = Ok d' /\
    (has_covs st = true -> cl_covs d' = map (moved_cov G) (cl_covs d)) /\
    (has_normals st = true -> forall i p, nth_error (cl_points c) i = Some p -> exists n n',
       nth_error (cl_normals d) i = Some n /\ nth_error (cl_normals d') i = Some n' /\ (n' = pose_pt G n \/ n' = pose_pt G (vopp n)) /\
       (dot3 (head p) (head n) <= 0)%R /\ (dot3 (head (pose_pt G p)) (head n') <= 0)%R).
Proof.
  intros order ne fa fa' leaf leaf' G c c2 tree tree' eig eig' st jp jn jc jp' jn' jc' k FS NE A A' L L' K O NZ SM HP SP E2 B B' CC knn SV SV'.
  destruct (real_tree_knn_is_exact order ne fa c leaf tree k FS NE A L NZ SM SP B K) as (X & T).
  destruct (real_tree_knn_is_exact order ne fa' c2 leaf' tree' k FS NE A' L') as (X' & T'); auto.
  { rewrite E2. destruct (cl_points c); [congruence|discriminate]. }
  { rewrite E2, map_length. exact SM. }
  { rewrite E2. apply spread_moved; assumption. }
  destruct (T st eig jp jn jc) as (d & D). destruct (T' st eig' jp' jn' jc') as (d' & D'). exists d, d'. split; [exact D|]. split; [exact D'|].
  eapply C67_estimated; [exact O|exact HP|exact E2| |exact SV|exact SV'|exact D|exact D'].
  apply C67_same_neighbours; auto. unfold knn. rewrite <- E2. exact X'.
Qed.

(** * Registration against clouds prepared in different frames *)
Lemma estimated_plain knn eig st jp jn jc k (c d : cloud Rfld) : has_covs st = true -> (forall pts, usable knn k c pts -> solves eig pts) ->
  estimate (D := Rfld) knn eig INR (1e-3)%R st jp jn jc k c = Ok d -> Forall plain_cov (cl_covs d).
Proof.
  intros S SV H. destruct (C33_estimated_values knn eig st jp jn jc k c d H) as (_ & _ & LC & _ & _ & V).
  apply Forall_forall. intros m M. apply In_nth_error in M. destruct M as (i & Ei).
  assert (Li : i < length (cl_covs d)) by (apply nth_error_Some; congruence). rewrite LC in Li.
  destruct (nth_error (cl_points c) i) as [p|] eqn:Ep; [|apply nth_error_None in Ep; lia].
  destruct (V i p Ep) as (found & EF & FEW & MANY). destruct (Nat.lt_ge_cases (length found) 5) as [L|L].
  - destruct (FEW L) as (_ & Q). specialize (Q S). assert (m = B4 id3 zero3 zero3 (0%R : car Rfld)) as -> by congruence. repeat split.
  - destruct (MANY L) as (pts & NB & GO). destruct GO as (n & m' & _ & PC & _ & Q); [apply SV; exists i, p, found; auto|].
    specialize (Q S). assert (m' = m) as -> by congruence. destruct PC as (P1 & P2 & P3 & _). repeat split; assumption.
Qed.
(** GICP with covariances estimated separately in each frame: the run against the moved target
    returns the moved pose, the same H, b, error and counts. *)
Theorem C67_registration : forall order ne find_axis find_axis' leaf leaf' G (c c2 source d d' : cloud Rfld) tree tree' eig eig' st
    jp jn jc jp' jn' jc' k max_sq solve exp6 crit lm T r log,
  full_sum order -> nth_element_contract ne ->
  (forall range : list (vec4 Rnum), range <> [] -> exists n, find_axis range = Ok n /\ short n) ->
  (forall range : list (vec4 Rnum), range <> [] -> exists n, find_axis' range = Ok n /\ short n) ->
  (3 <= size_t_of_int leaf)%N -> (3 <= size_t_of_int leaf')%N -> (0 < Z.of_nat k < 2 ^ 31)%Z ->
  rotation (rot G) -> cl_points c <> [] -> (N.of_nat (length (cl_points c)) <= 4294967295)%N ->
  Forall (fun p : vec4 Rfld => vw p = 1%R) (cl_points c) -> spread (cl_points c) -> cl_points c2 = map (pose_pt G) (cl_points c) ->
  build_tree (normal_apply (D := Rnum)) find_axis ne (cl_points c) leaf = Ok tree ->
  build_tree (normal_apply (D := Rnum)) find_axis' ne (cl_points c2) leaf' = Ok tree' ->
  (forall p, In p (cl_points c) -> clear_cut (cl_points c) p k) ->
  let knn cl t := real_tree_knn order (cl_points cl) t in
  (forall pts, usable (knn c tree) k c pts -> solves eig pts /\ flat_once pts) -> (forall pts, usable (knn c2 tree') k c2 pts -> solves eig' pts) ->
  has_covs st = true ->
  estimate (D := Rfld) (knn c tree) eig INR (1e-3)%R st jp jn jc k c = Ok d ->
  estimate (D := Rfld) (knn c2 tree') eig' INR (1e-3)%R st jp' jn' jc' k c2 = Ok d' ->
  Forall (fun p : vec4 Rfld => vw p = 1%R) (cl_points source) -> Forall plain_cov (cl_covs source) ->
  let run cl t T := levenberg_marquardt
    (reg_lin Rfld (real_tree_nn order (cl_points cl) t) (distance_rejector (D := Rfld) max_sq) (cloud_viewN cl) (cloud_view source) GICP)
    (reg_err Rfld (cloud_viewN cl) (cloud_view source) GICP) null_factor solve exp6 inlier crit lm T (initial_factors (length (cl_points source))) in
  run d tree T = Ok (r, log) ->
  (forall T', linearized_at log T' -> untied (cloud_viewN d) (cloud_view source) T') ->
  exists log', run d' tree' (pose_mul G T) = Ok (moved_result G r, log').
Proof.
  intros order ne fa fa' leaf leaf' G c c2 source d d' tree tree' eig eig' st jp jn jc jp' jn' jc' k max_sq solve exp6 crit lm T r log
    FS NE A A' L L' K RG NZ SM HP SP E2 B B' CC knn SV SV' HC D D' HS PS run H U.
  assert (O : orthonormal (rot G)) by apply RG.
  destruct (C67_kdtree order ne fa fa' leaf leaf' G c c2 tree tree' eig eig' st jp jn jc jp' jn' jc' k FS NE A A' L L' K O NZ SM HP SP E2 B B' CC SV SV')
    as (d0 & d0' & D0 & D0' & CV & _). assert (Q : Ok d = Ok d0) by (rewrite <- D; exact D0). assert (Q' : Ok d' = Ok d0') by (rewrite <- D'; exact D0'). injection Q as <-. injection Q' as <-. specialize (CV HC).
  assert (PD : Forall plain_cov (cl_covs d)) by (eapply estimated_plain; [exact HC| |exact D]; intros pts Q; apply SV; exact Q).
  destruct (C33_estimated_values _ _ _ _ _ _ _ _ _ D) as (P1 & _). destruct (C33_estimated_values _ _ _ _ _ _ _ _ _ D') as (P1' & _).
  set (bare cl := mkCloud (cl_points cl) [] (cl_covs cl) : cloud Rfld).
  assert (EB : bare d' = moved_cloud G (bare d)). { unfold bare, moved_cloud. cbn [cl_points cl_covs cl_normals map]. rewrite P1', P1, E2, CV. reflexivity. }
  change (exists log', run (bare d') tree' (pose_mul G T) = Ok (moved_result G r, log')). rewrite EB.
  eapply (C58_kdtree order ne fa fa' leaf leaf' G (bare d) source tree tree' max_sq GICP solve exp6 crit lm T r log); auto; try discriminate.
  - cbn [bare cl_points]. rewrite P1. exact NZ.
  - cbn [bare cl_points]. rewrite P1. exact SM.
  - cbn [bare cl_points]. rewrite P1. exact HP.
  - cbn [bare cl_points]. rewrite P1. exact B.
  - rewrite <- EB. cbn [bare cl_points]. rewrite P1'. exact B'.
Qed.

(** * Non-vacuity *)
(** The flat cross of C33, turned about the vertical axis and shifted, kd-trees in both frames. *)
Definition upright (t : v3 Rfld) : pose Rfld := mkPose (rot straightening) t.
Definition cross_moved (t : v3 Rfld) : cloud Rfld := mkCloud (map (pose_pt (upright t)) cross_pts) [] [].
Lemma cross_homogeneous : Forall (fun p : vec4 Rfld => vw p = 1%R) cross_pts. Proof. repeat constructor. Qed.
Lemma cross_spread : spread cross_pts.
Proof.
  intros p q P Q. apply Rle_lt_trans with 4%R; [|apply far_away].
  unfold cross_pts in P, Q. cbn [In] in P, Q.
  repeat destruct P as [<-|P]; try contradiction; repeat destruct Q as [<-|Q]; try contradiction; unfold sq_gap; cbn; lra.
Qed.
Lemma cross_flattest pts u : (forall u, variance_along u pts = variance_along u cross_pts) -> flattest pts u ->
  u = P3 (D := Rfld) 0%R 0%R 1%R \/ u = P3 (D := Rfld) 0%R 0%R (-1)%R.
Proof.
  intros V. destruct u as [a b e]. intros (U & M). specialize (M (P3 (D := Rfld) 0%R 0%R 1%R)). rewrite !V, !cross_variance in M. cbn in U.
  change (car (fbase Rfld)) with R in *. change (car Rfld) with R in *.
  assert (M' : (2 / 5 * (a * a) + 2 / 5 * (b * b) <= 0)%R) by (specialize (M ltac:(cbn; req; lra)); lra).
  assert (a = 0%R) by nra. assert (b = 0%R) by nra. subst. assert (E : ((e - 1) * (e + 1) = 0)%R) by lra.
  apply Rmult_integral in E. destruct E as [E|E]; [left|right]; f_equal; lra.
Qed.
Lemma cross_flat_once pts : (forall u, variance_along u pts = variance_along u cross_pts) -> flat_once pts.
Proof.
  intros V u v Hu Hv. destruct (cross_flattest pts u V Hu) as [-> | ->], (cross_flattest pts v V Hv) as [-> | ->]; unfold opp3; cbn.
  - left. reflexivity.
  - right. apply P3_eq; req; lra.
  - right. apply P3_eq; req; lra.
  - left. reflexivity.
Qed.
Lemma cross_solved pts : (forall u, variance_along u pts = variance_along u cross_pts) -> solves cross_eig pts.
Proof. intros V W S Q. apply cross_solves; [exact S|]. intros u. rewrite Q. apply V. Qed.
(** Any five different indices stand for all five points. *)
Lemma all_five found : NoDup found -> length found = 5 -> Forall (fun j => j < 5) found -> Permutation (seq 0 5) found.
Proof.
  intros N L B. symmetry. apply NoDup_Permutation_bis; [exact N|rewrite seq_length; lia|]. rewrite Forall_forall in B. intros x X. apply in_seq. specialize (B x X). lia.
Qed.
Lemma usable_all (c : cloud Rfld) knn pts : length (cl_points c) = 5 -> exact_knn (cl_points c) knn 5 -> usable knn 5 c pts -> Permutation (cl_points c) pts.
Proof.
  intros L5 X (i & p & found & (Ei & EF & F2) & L). destruct (X p found (nth_error_In _ _ Ei) EF) as (N & Q & B & _). rewrite L5 in Q, B. cbn in Q.
  pose proof (all_five found N Q B) as P. set (d := V4 (D := Rfld) 0%R 0%R 0%R 0%R). rewrite (neighbours_nth _ _ _ d F2).
  eapply Permutation_trans; [|apply Permutation_map; exact P]. destruct c as [cp cn cc]. cbn [cl_points] in *. do 5 (destruct cp as [|? cp]; [discriminate L5|]).
  destruct cp; [|discriminate L5]. apply Permutation_refl.
Qed.
Lemma upright_variance t u : variance_along u (map (pose_pt (upright t)) cross_pts) = variance_along u cross_pts.
Proof.
  assert (O : orthonormal (rot (upright t))) by apply straightening_rigid.
  rewrite <- (orth_cancel (rot (upright t)) u O) at 1. rewrite variance_moved; [|exact O|apply cross_homogeneous|discriminate].
  destruct u as [a b e]. unfold upright, straightening. cbn [rot].
  match goal with |- variance_along ?w _ = _ => replace w with (P3 (D := Rfld) (3/5 * a - 4/5 * b)%R (4/5 * a + 3/5 * b)%R (e : R)) end.
  - rewrite !cross_variance. req. field.
  - unfold mv3, tr3, dot3. cbn. apply P3_eq; cbn [p0 p1 p2]; rcar; req; lra.
Qed.
Lemma cross_normal knn (d : cloud Rfld) i p n : exact_knn (cl_points cross) knn 5 ->
  estimate (D := Rfld) knn cross_eig INR (1e-3)%R Both vzero vzero cov_invalid 5 cross = Ok d ->
  nth_error cross_pts i = Some p -> nth_error (cl_normals d) i = Some n -> n = V4 (D := Rfld) 0%R 0%R (-1)%R 0%R.
Proof.
  intros X E Ei En. destruct (C33_estimated_values _ _ _ _ _ _ _ _ _ E) as (_ & _ & _ & _ & _ & V). destruct (V i p Ei) as (found & EF & _ & MANY).
  destruct (X p found (nth_error_In _ _ Ei) EF) as (_ & Q & _ & _). cbn in Q. destruct MANY as (pts & NB & GO); [lia|].
  assert (P : Permutation cross_pts pts) by (apply (usable_all cross knn pts eq_refl X); exists i, p, found; split; [exact NB|lia]).
  assert (VA : forall u, variance_along u pts = variance_along u cross_pts) by (intros u; symmetry; apply variance_perm; exact P).
  destruct (GO (cross_solved pts VA)) as (n0 & m & (Z & U & FC & LE) & _ & W & _). specialize (W eq_refl). assert (n0 = n) as -> by congruence.
  assert (HP : vz p = 2%R /\ (vx p = 0 \/ vx p = 1 \/ vx p = -1)%R).
  { clear - Ei. do 5 (destruct i as [|i]; [injection Ei as <-; cbn; split; [reflexivity|auto]|]). destruct i; discriminate Ei. }
  destruct (cross_flattest pts (head n) VA (conj U LE)) as [Q1|Q1]; destruct n as [a b e f]; unfold head in Q1; cbn [vx vy vz vw] in Q1, Z; injection Q1 as -> -> ->; subst f; [exfalso|reflexivity].
  clear - HP FC. destruct p as [x y z w]. cbn [vx vz] in HP. destruct HP as (-> & _). unfold dot3, head in FC. cbn in FC. change (car (fbase Rfld)) with R in *. change (car Rnum) with R in *. lra.
Qed.
Lemma cross_prepared t : exists tree tree' d d',
  build_tree (normal_apply (D := Rnum)) y_axis sort_nth_element (cl_points cross) 20 = Ok tree /\
  build_tree (normal_apply (D := Rnum)) y_axis sort_nth_element (cl_points (cross_moved t)) 20 = Ok tree' /\
  estimate (D := Rfld) (real_tree_knn eigen_order (cl_points cross) tree) cross_eig INR (1e-3)%R Both vzero vzero cov_invalid 5 cross = Ok d /\
  estimate (D := Rfld) (real_tree_knn eigen_order (cl_points (cross_moved t)) tree') cross_eig INR (1e-3)%R Both vzero vzero cov_invalid 5 (cross_moved t) = Ok d' /\
  cl_covs d' = map (moved_cov (upright t)) (cl_covs d) /\
  forall i p, nth_error cross_pts i = Some p -> exists n n', n = V4 (D := Rfld) 0%R 0%R (-1)%R 0%R /\
    nth_error (cl_normals d) i = Some n /\ nth_error (cl_normals d') i = Some n' /\ (n' = pose_pt (upright t) n \/ n' = pose_pt (upright t) (vopp n)) /\
    (dot3 (head p) (head n) <= 0)%R /\ (dot3 (head (pose_pt (upright t) p)) (head n') <= 0)%R.
Proof.
  destruct (searchable cross ltac:(discriminate) ltac:(cbn; lia)) as (tree & B). destruct (searchable (cross_moved t) ltac:(discriminate) ltac:(cbn; lia)) as (tree' & B').
  assert (O : orthonormal (rot (upright t))) by apply straightening_rigid. pose proof cross_spread as SP.
  pose proof (spread_moved (upright t) cross_pts O cross_homogeneous SP) as SP'.
  assert (L20 : (3 <= size_t_of_int 20)%N) by (vm_compute; discriminate). assert (K5 : (0 < Z.of_nat 5 < 2 ^ 31)%Z) by (split; reflexivity).
  assert (S5 : (N.of_nat 5 <= 4294967295)%N) by lia. assert (NZ : cl_points cross <> []) by discriminate. assert (NZ' : cl_points (cross_moved t) <> []) by discriminate.
  destruct (real_tree_knn_is_exact eigen_order sort_nth_element y_axis cross 20 tree 5 move_order_full sort_nth_element_contract y_axis_short L20 NZ S5 SP B K5) as (X & _).
  destruct (real_tree_knn_is_exact eigen_order sort_nth_element y_axis (cross_moved t) 20 tree' 5 move_order_full sort_nth_element_contract y_axis_short L20 NZ' S5 SP' B' K5) as (X' & _).
  destruct (C67_kdtree eigen_order sort_nth_element y_axis y_axis 20 20 (upright t) cross (cross_moved t) tree tree' cross_eig cross_eig Both
    vzero vzero cov_invalid vzero vzero cov_invalid 5 move_order_full sort_nth_element_contract y_axis_short y_axis_short L20 L20 K5 O NZ S5 cross_homogeneous SP eq_refl B B')
    as (d & d' & D & D' & CV & NV).
  - intros p _. left. cbn. lia.
  - intros pts Q. pose proof (usable_all cross _ pts eq_refl X Q) as P.
    assert (V : forall u, variance_along u pts = variance_along u cross_pts) by (intros u; symmetry; apply variance_perm; exact P).
    split; [apply cross_solved|apply cross_flat_once]; exact V.
  - intros pts Q. pose proof (usable_all (cross_moved t) _ pts eq_refl X' Q) as P. apply cross_solved.
    intros u. rewrite <- (variance_perm _ _ _ P). apply upright_variance.
  - exists tree, tree', d, d'. repeat (split; [assumption|]). split; [apply CV; reflexivity|].
    intros i p Ei. destruct (NV eq_refl i p Ei) as (n & n' & En & En' & W). exists n, n'. split; [eapply cross_normal; eassumption|]. auto.
Qed.

(** Shifted away from the origin the normals move along; *)
Example C67_cross : exists tree' d d',
  estimate (D := Rfld) (real_tree_knn eigen_order (cl_points (cross_moved (P3 (D := Rfld) 1%R 2%R 3%R))) tree') cross_eig INR (1e-3)%R Both
    vzero vzero cov_invalid 5 (cross_moved (P3 (D := Rfld) 1%R 2%R 3%R)) = Ok d' /\
  cl_covs d' = map (moved_cov (upright (P3 (D := Rfld) 1%R 2%R 3%R))) (cl_covs d) /\ length (cl_covs d) = 5 /\
  nth_error (cl_normals d') 0 = Some (V4 (D := Rfld) 0%R 0%R (-1)%R 0%R).
Proof.
  destruct (cross_prepared (P3 (D := Rfld) 1%R 2%R 3%R)) as (tree & tree' & d & d' & _ & _ & D & D' & CV & NV). exists tree', d, d'.
  split; [exact D'|]. split; [exact CV|]. split; [destruct (C33_estimated_values _ _ _ _ _ _ _ _ _ D) as (_ & _ & -> & _); reflexivity|].
  destruct (NV 0 _ eq_refl) as (n & n' & -> & _ & E' & [-> | ->] & _ & F).
  - rewrite E'. f_equal. unfold upright, straightening, pose_pt, mv3, dot3, add3, scale3. cbn. apply V4_eq; req; lra.
  - exfalso. unfold upright, straightening, pose_pt, mv3, dot3, add3, scale3, head, vopp in F. cbn in F. change (car (fbase Rfld)) with R in *. lra.
Qed.
(** shifted below the origin they turn over: a cloud and its moved copy do not get the same
    normals. *)
Theorem C67_normals_refuted : let G := upright (P3 (D := Rfld) 0%R 0%R (-4)%R) in exists tree tree' d d' n n',
  estimate (D := Rfld) (real_tree_knn eigen_order (cl_points cross) tree) cross_eig INR (1e-3)%R Both vzero vzero cov_invalid 5 cross = Ok d /\
  estimate (D := Rfld) (real_tree_knn eigen_order (map (pose_pt G) (cl_points cross)) tree') cross_eig INR (1e-3)%R Both vzero vzero cov_invalid 5
    (mkCloud (map (pose_pt G) (cl_points cross)) [] []) = Ok d' /\
  cl_covs d' = map (moved_cov G) (cl_covs d) /\
  nth_error (cl_normals d) 0 = Some n /\ nth_error (cl_normals d') 0 = Some n' /\ n' <> pose_pt G n /\ n' = pose_pt G (vopp n).
Proof.
  intros G. destruct (cross_prepared (P3 (D := Rfld) 0%R 0%R (-4)%R)) as (tree & tree' & d & d' & _ & _ & D & D' & CV & NV).
  destruct (NV 0 _ eq_refl) as (n & n' & Hn & En & E' & W & _ & F). exists tree, tree', d, d', n, n'. repeat (split; [assumption|]).
  apply and_comm. apply (C67_flipped_normals _ (V4 (D := Rfld) 1%R 0%R 2%R 1%R)); auto; subst n.
  - apply straightening_rigid.
  - reflexivity.
  - unfold dot3, head. cbn. req. lra.
  - clear. unfold upright, straightening, pose_pt, mv3, dot3, add3, scale3, head. cbn. lra.
Qed.
(** Two of three points on a line, with a clear cut between the second and the third. *)
Example C67_clear_cut : clear_cut [rpt 0 0 0; rpt 1 0 0; rpt 3 0 0] (rpt 0 0 0) 2 /\ ~ clear_cut [rpt 0 0 0; rpt 1 0 0; rpt (-1) 0 0] (rpt 0 0 0) 2.
Proof.
  split.
  - right. exists [0; 1], 4%R. split; [repeat constructor; cbn; lia|]. split; [reflexivity|]. split; [repeat constructor|].
    intros j p E. destruct j as [|[|[|j]]]; [..|destruct j; discriminate E]; injection E as <-; cbn [In]; split; intros I; try lia; unfold sq_gap, rpt; cbn; lra.
  - intros [C|(near & r & N & L & B & CUT)]; [cbn in C; lia|].
    pose proof (CUT 0 _ eq_refl) as C0. pose proof (CUT 1 _ eq_refl) as C1. pose proof (CUT 2 _ eq_refl) as C2.
    unfold sq_gap, rpt in C0, C1, C2. cbn [vx vy vz vw] in C0, C1, C2. rewrite Forall_forall in B. cbn [length] in B.
    destruct (in_dec Nat.eq_dec 1 near) as [I1|I1], (in_dec Nat.eq_dec 2 near) as [I2|I2].
    + destruct (in_dec Nat.eq_dec 0 near) as [I0|I0].
      * assert (Q : length [0; 1; 2] <= length near). { apply NoDup_incl_length; [repeat constructor; cbn; lia|]. intros x [<-|[<-|[<-|[]]]]; assumption. } cbn in Q. lia.
      * apply (proj1 C1) in I1. apply (proj2 C0) in I0. lra.
    + apply (proj1 C1) in I1. apply (proj2 C2) in I2. lra.
    + apply (proj1 C2) in I2. apply (proj2 C1) in I1. lra.
    + assert (Q : length near <= length [0]). { apply NoDup_incl_length; [exact N|]. intros x X. specialize (B x X). destruct x as [|[|[|x]]]; [left; reflexivity|contradiction|contradiction|lia]. } cbn in Q. lia.
Qed.

Print Assumptions C67_estimated.
Print Assumptions C67_turned_normals.
Print Assumptions C67_flipped_normals.
Print Assumptions C67_same_neighbours.
Print Assumptions C67_kdtree.
Print Assumptions C67_registration.
Print Assumptions C67_normals_refuted.
