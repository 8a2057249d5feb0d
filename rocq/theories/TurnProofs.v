(** Variance, plane covariances and nearest sets under a rigid motion. *)
From Coq Require Import Reals Lra Psatz Permutation.
From Verif Require Import Base BaseProofs Num Vec RNum Lin LinSpec LinProofs FactorModel EstModel EstSpec EstProofs EstReal MoveSpec MoveFactor TurnSpec.
Open Scope R_scope.

Implicit Types (u n : v3 Rfld) (G : pose Rfld) (p q : vec4 Rfld) (pts : list (vec4 Rfld)).

Lemma orth_cancel (A : m3 Rfld) u : orthonormal A -> mv3 A (mv3 (tr3 A) u) = u.
Proof. intros O. apply orth_basis. exact O. Qed.
Lemma scale3_one u : scale3 (1 : car Rfld) u = u. Proof. lring. Qed.
Lemma add_back u n (k : R) : u = add3 (sub3 u (scale3 (k : car Rfld) n)) (scale3 (k : car Rfld) n). Proof. lring. Qed.
Lemma dot_sub u n (k : R) : dot3 (sub3 u (scale3 (k : car Rfld) n)) n = dot3 n u - k * dot3 n n. Proof. lring. Qed.
Lemma mv3_sub (A : m3 Rfld) u n : mv3 A (sub3 u n) = sub3 (mv3 A u) (mv3 A n). Proof. lring. Qed.
Lemma sub_shift u n (t : v3 Rfld) : sub3 (add3 u t) (add3 n t) = sub3 u n. Proof. lring. Qed.
Lemma plane_opp u m : add3 (sub3 u (scale3 (dot3 (opp3 m) u) (opp3 m))) (scale3 (dot3 (opp3 m) u) (scale3 (1e-3 : car Rfld) (opp3 m))) =
  add3 (sub3 u (scale3 (dot3 m u) m)) (scale3 (dot3 m u) (scale3 (1e-3 : car Rfld) m)).
Proof. generalize (1e-3 : car Rfld). intros k. change R in k. revert k. lring. Qed.
Lemma gap_heads p q : vw p = vw q -> sq_gap p q = dot3 (sub3 (head p) (head q)) (sub3 (head p) (head q)).
Proof. intros W. unfold sq_gap. rewrite W. clear W. revert p q. lring. Qed.
Lemma head_moved G p : vw p = 1 -> head (pose_pt G p) = add3 (mv3 (rot G) (head p)) (tra G).
Proof.
  intros W. assert (E : head (pose_pt G p) = add3 (mv3 (rot G) (head p)) (scale3 (vw p) (tra G))) by (unfold pose_pt; destruct (add3 _ _); reflexivity).
  rewrite E, W, scale3_one. reflexivity.
Qed.
Lemma along_moved G u q : orthonormal (rot G) -> vw q = 1 -> along (mv3 (rot G) u) (pose_pt G q) = along u q + dot3 (mv3 (rot G) u) (tra G).
Proof. intros O W. unfold along. rewrite head_moved by exact W. rewrite dot3_add_r, orth_dot by exact O. reflexivity. Qed.

Lemma sumR_map {A B : Type} (f : B -> R) (g : A -> B) l : sumR f (map g l) = sumR (fun x => f (g x)) l.
Proof. unfold sumR. induction l as [|x l IH]; cbn; [reflexivity|]. rewrite IH. reflexivity. Qed.
Lemma sumR_ext_in {A : Type} (f g : A -> R) l : (forall x, In x l -> f x = g x) -> sumR f l = sumR g l.
Proof. unfold sumR. induction l as [|x l IH]; intros E; cbn; [reflexivity|]. rewrite E, IH; [reflexivity| |left; reflexivity]. intros y I. apply E. right. exact I. Qed.
Lemma sumR_perm {A : Type} (f : A -> R) l l' : Permutation l l' -> sumR f l = sumR f l'.
Proof. unfold sumR. induction 1; cbn; lra. Qed.
Lemma variance_perm u pts pts' : Permutation pts pts' -> variance_along u pts = variance_along u pts'.
Proof.
  intros P. unfold variance_along, mean_along. rewrite (Permutation_length P), (sumR_perm (along u) _ _ P). rewrite (sumR_perm _ _ _ P). reflexivity.
Qed.
Lemma variance_moved G u pts : orthonormal (rot G) -> Forall (fun p => vw p = 1) pts -> pts <> [] ->
  variance_along (mv3 (rot G) u) (map (pose_pt G) pts) = variance_along u pts.
Proof.
  intros O H NE. assert (N : INR (length pts) <> 0) by (apply not_0_INR; destruct pts; [congruence|discriminate]).
  rewrite Forall_forall in H. set (s := dot3 (mv3 (rot G) u) (tra G)).
  assert (M : mean_along (mv3 (rot G) u) (map (pose_pt G) pts) = mean_along u pts + s).
  { unfold mean_along. rewrite map_length, sumR_map.
    rewrite (sumR_ext_in _ (fun q => 1 * along u q + s * 1)) by (intros q I; rewrite along_moved by auto; fold s; change (car (fbase Rfld)) with R; lra).
    rewrite (sumR_lin (along u) (fun _ => 1)), sumR_const. field. exact N. }
  unfold variance_along. rewrite M, map_length, sumR_map. f_equal. apply sumR_ext_in. intros q I. rewrite along_moved by auto. fold s.
  generalize (along u q), (mean_along u pts), s. intros a b d. change (car (fbase Rfld)) with R. ring.
Qed.
Lemma unit_moved (A : m3 Rfld) u : orthonormal A -> dot3 u u = 1 -> dot3 (mv3 A u) (mv3 A u) = 1.
Proof. intros O U. rewrite orth_dot by exact O. exact U. Qed.
Lemma orth_tr (A : m3 Rfld) : orthonormal A -> orthonormal (tr3 A).
Proof. intros O. unfold orthonormal. rewrite tr3_tr3. apply orth_flip3. exact O. Qed.
Lemma flattest_moved G pts pts' u : orthonormal (rot G) -> Forall (fun p => vw p = 1) pts -> pts <> [] -> Permutation (map (pose_pt G) pts) pts' ->
  flattest pts' u -> flattest pts (mv3 (tr3 (rot G)) u).
Proof.
  intros O H NE P (U & L). split; [apply unit_moved; [apply orth_tr; exact O|exact U]|]. intros w W.
  rewrite <- (variance_moved G (mv3 (tr3 (rot G)) u)) by assumption. rewrite <- (variance_moved G w) by assumption.
  rewrite orth_cancel by exact O. rewrite !(variance_perm _ _ _ P). apply L. apply unit_moved; assumption.
Qed.

(** A plane covariance is determined by its normal. *)
Lemma split_along n u : dot3 n n = 1 -> let d := sub3 u (scale3 (dot3 n u) n) in u = add3 d (scale3 (dot3 n u) n) /\ dot3 d n = 0.
Proof.
  intros N d. unfold d. split; [apply (add_back u n (dot3 n u))|]. rewrite (dot_sub u n (dot3 n u)), N. change (car (fbase Rfld)) with R. lra.
Qed.
Lemma plane_apply c n u : plane_cov c n -> dot3 n n = 1 ->
  mv3 (b33 c) u = add3 (sub3 u (scale3 (dot3 n u) n)) (scale3 (dot3 n u) (scale3 (1e-3 : car Rfld) n)).
Proof.
  intros (_ & _ & _ & _ & A & B) N. destruct (split_along n u N) as (E & D). cbv zeta in E, D.
  rewrite E at 1. rewrite mv3_add, mv3_scale, A, (B _ D). reflexivity.
Qed.
Lemma m3_ext (A B : m3 Rfld) : (forall u, mv3 A u = mv3 B u) -> A = B.
Proof.
  intros E. pose proof (E (P3 (1 : car Rfld) (0 : car Rfld) (0 : car Rfld))) as E0. pose proof (E (P3 (0 : car Rfld) (1 : car Rfld) (0 : car Rfld))) as E1.
  pose proof (E (P3 (0 : car Rfld) (0 : car Rfld) (1 : car Rfld))) as E2. destruct A as [[] [] []], B as [[] [] []]. cbn in *.
  injection E0 as ? ? ?. injection E1 as ? ? ?. injection E2 as ? ? ?. apply M3_eq; apply P3_eq; change (car (fbase Rfld)) with R in *; cbn in *; lra.
Qed.
Lemma m4_eq (a b : m4 Rfld) : b33 a = b33 b -> b34 a = b34 b -> b43 a = b43 b -> b44 a = b44 b -> a = b.
Proof. destruct a, b. cbn. intros -> -> -> ->. reflexivity. Qed.
Lemma moved_plain G c : plain_cov c -> plain_cov (moved_cov G c).
Proof.
  intros (Z1 & Z2 & Z3). unfold plain_cov, moved_cov. cbn [mm4 tr4 pose_mat b33 b34 b43 b44]. rewrite Z1, Z2, Z3.
  generalize (b33 c) (rot G) (tra G). clear. intros B A t. split; [|split]; revert B A t; lring.
Qed.
Lemma plane_moved G c c' n n' : orthonormal (rot G) -> dot3 n n = 1 -> plane_cov c n -> plane_cov c' n' ->
  (n' = mv3 (rot G) n \/ n' = opp3 (mv3 (rot G) n)) -> c' = moved_cov G c.
Proof.
  intros O N P P' E.
  assert (PL : plain_cov c) by (destruct P as (? & ? & ? & _); repeat split; assumption).
  assert (N' : dot3 n' n' = 1).
  { destruct E as [-> | ->]; [|rewrite dot3_opp_l, dot3_opp_r]; rewrite orth_dot by exact O; rewrite N; change (car (fbase Rfld)) with R; cbn; try lra. }
  pose proof (moved_plain G c PL) as (M1 & M2 & M3). destruct P' as (Q1 & Q2 & Q3 & Q) eqn:EP. pose proof P' as PP. clear EP.
  apply m4_eq; [|congruence|congruence|congruence]. rewrite b33_moved by exact PL. apply m3_ext. intros u. rewrite (plane_apply c' n' u PP N').
  rewrite !mv3_mm3, (plane_apply c n _ P N).
  assert (D : dot3 n (mv3 (tr3 (rot G)) u) = dot3 (mv3 (rot G) n) u) by (rewrite dot3_mv3; reflexivity).
  rewrite D, !mv3_add, !mv3_scale, mv3_sub, !mv3_scale, orth_cancel by exact O. destruct E as [-> | ->]; [reflexivity|]. apply plane_opp.
Qed.
(** The covariance of a point without enough neighbours is the same in every frame. *)
Lemma invalid_moved G : orthonormal (rot G) -> moved_cov G (B4 id3 zero3 zero3 (0 : car Rfld)) = B4 id3 zero3 zero3 (0 : car Rfld).
Proof.
  intros O. assert (P : plain_cov (B4 id3 zero3 zero3 (0 : car Rfld))) by (repeat split; reflexivity).
  pose proof (moved_plain G _ P) as (M1 & M2 & M3). apply m4_eq; auto. rewrite b33_moved by exact P. cbn [b33]. rewrite mm3_id_r. apply orth_flip3. exact O.
Qed.

(** Distances. *)
Lemma gap_moved G p q : orthonormal (rot G) -> vw p = 1 -> vw q = 1 -> sq_gap (pose_pt G p) (pose_pt G q) = sq_gap p q.
Proof.
  intros O P Q. assert (W : forall a : vec4 Rfld, vw (pose_pt G a) = vw a) by (intros a; reflexivity).
  rewrite !gap_heads by (rewrite ?W; congruence). rewrite !head_moved by assumption. rewrite sub_shift, <- mv3_sub, orth_dot by exact O. reflexivity.
Qed.
