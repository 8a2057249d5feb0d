(** The estimated values over the reals. *)
From Coq Require Import Reals Lra Psatz.
From Flocq Require Import Core.
From Verif Require Import Base BaseProofs Num Vec RNum Lin LinSpec LinProofs FactorModel EstModel EstSpec EstProofs.
Open Scope R_scope.

Implicit Types (u : v3 Rfld) (V W : m3 Rfld) (l : v3 Rfld) (p : vec4 Rfld) (pts : list (vec4 Rfld)).

(** * The scatter matrix *)
Lemma sum_points_fold pts a : fold_left (fun a (p : vec4 Rfld) => add3 a (head p)) pts a = add3 a (sum_points pts).
Proof.
  unfold sum_points. revert a. induction pts as [|p pts IH]; intros a; cbn [fold_left].
  - rewrite add3_zero_r. reflexivity.
  - rewrite IH, (IH (add3 zero3 (head p))), add3_zero_l, add3_assoc. reflexivity.
Qed.
Lemma madd3_assoc (a b c : m3 Rfld) : madd3 a (madd3 b c) = madd3 (madd3 a b) c. Proof. lring. Qed.
Lemma madd3_zero_r (a : m3 Rfld) : madd3 a mzero3 = a. Proof. lring. Qed.
Lemma madd3_zero_l (a : m3 Rfld) : madd3 mzero3 a = a. Proof. lring. Qed.
Lemma sum_cross_fold pts a : fold_left (fun a (p : vec4 Rfld) => madd3 a (outer3 (head p) (head p))) pts a = madd3 a (sum_cross pts).
Proof.
  unfold sum_cross. revert a. induction pts as [|p pts IH]; intros a; cbn [fold_left].
  - rewrite madd3_zero_r. reflexivity.
  - rewrite IH, (IH (madd3 mzero3 _)), madd3_zero_l, madd3_assoc. reflexivity.
Qed.
Lemma sum_points_along u pts : dot3 u (sum_points pts) = sumR (along u) pts.
Proof.
  induction pts as [|p pts IH]; cbn [sumR fold_right].
  - unfold sum_points. cbn [fold_left]. apply dot3_zero_r.
  - unfold sum_points. cbn [fold_left]. rewrite sum_points_fold, add3_zero_l, dot3_add_r. unfold sumR in IH. rewrite IH. reflexivity.
Qed.
Lemma outer_quad (a b : v3 Rfld) u : dot3 u (mv3 (outer3 a b) u) = dot3 u a * dot3 u b.
Proof. lring. Qed.
Lemma sum_cross_along u pts : dot3 u (mv3 (sum_cross pts) u) = sumR (fun q => along u q * along u q) pts.
Proof.
  induction pts as [|p pts IH]; cbn [sumR fold_right].
  - unfold sum_cross. cbn [fold_left]. rewrite mv3_mzero. apply dot3_zero_r.
  - unfold sum_cross. cbn [fold_left]. rewrite sum_cross_fold, madd3_zero_l, mv3_madd, dot3_add_r, outer_quad.
    unfold sumR in IH. rewrite IH. reflexivity.
Qed.
Lemma div3_scale (x : v3 Rfld) (s : R) : div3 x (s : car Rfld) = scale3 (/ s : car Rfld) x.
Proof. destruct x. unfold div3, scale3. cbn. f_equal; req; unfold Rdiv; ring. Qed.
Lemma mdiv3_scale (m : m3 Rfld) (s : R) : mdiv3 m (s : car Rfld) = mscale3 (/ s : car Rfld) m.
Proof. unfold mdiv3, mscale3. rewrite !div3_scale. reflexivity. Qed.
Lemma msub3_quad (a b : m3 Rfld) u : dot3 u (mv3 (msub3 a b) u) = dot3 u (mv3 a u) - dot3 u (mv3 b u).
Proof. lring. Qed.
Lemma sumR_lin {A : Type} (f g : A -> R) (a b : R) (l : list A) : sumR (fun x => a * f x + b * g x) l = a * sumR f l + b * sumR g l.
Proof. induction l as [|x l IH]; cbn [sumR fold_right]; [ring|]. unfold sumR in IH. rewrite IH. ring. Qed.
Lemma sumR_const {A : Type} (c : R) (l : list A) : sumR (fun _ => c) l = INR (length l) * c.
Proof. induction l as [|x l IH]; cbn [sumR fold_right length]; [cbn; ring|]. unfold sumR in IH. rewrite IH, S_INR. ring. Qed.
Lemma sumR_ext {A : Type} (f g : A -> R) (l : list A) : (forall x, f x = g x) -> sumR f l = sumR g l.
Proof. intros E. induction l as [|x l IH]; cbn; auto. unfold sumR in IH. rewrite E, IH. reflexivity. Qed.
Lemma sumR_nonneg {A : Type} (f : A -> R) (l : list A) : (forall x, 0 <= f x) -> 0 <= sumR f l.
Proof. intros E. induction l as [|x l IH]; cbn; [lra|]. specialize (E x). unfold sumR in IH. lra. Qed.

Lemma scatter_variance u pts : pts <> [] ->
  dot3 u (mv3 (scatter (D := Rfld) INR pts) u) = variance_along u pts.
Proof.
  intros NE. assert (N : 0 < INR (length pts)) by (apply lt_0_INR; destruct pts; [congruence|cbn; lia]).
  unfold scatter. rewrite mdiv3_scale, div3_scale, mv3_mscale, dot3_scale_r, msub3_quad, sum_cross_along, outer_quad.
  rewrite dot3_scale_r, sum_points_along. unfold variance_along.
  assert (E : sumR (fun q => (along u q - mean_along u pts) * (along u q - mean_along u pts)) pts
    = sumR (fun q => along u q * along u q) pts - INR (length pts) * (mean_along u pts * mean_along u pts)).
  { transitivity (sumR (fun q => 1 * (along u q * along u q) + 1 * (- 2 * mean_along u pts * along u q + 1 * (mean_along u pts * mean_along u pts))) pts).
    { apply sumR_ext. intros q. ring. }
    rewrite sumR_lin, (sumR_lin (along u) (fun _ => mean_along u pts * mean_along u pts)), sumR_const.
    assert (Q : sumR (along u) pts = INR (length pts) * mean_along u pts) by (unfold mean_along; field; lra).
    rewrite Q. ring. }
  rewrite E. unfold mean_along. generalize (sumR (fun q : vec4 Rfld => along u q * along u q) pts), (sumR (along u) pts).
  generalize dependent (INR (length pts)). intros k Hk _ a b. cbn [nmul fbase Rfld Rnum]. req. field. lra.
Qed.
Lemma variance_nonneg u pts : pts <> [] -> 0 <= variance_along u pts.
Proof.
  intros NE. assert (N : 0 < INR (length pts)) by (apply lt_0_INR; destruct pts; [congruence|cbn; lia]).
  unfold variance_along. apply Rmult_le_pos; [|apply Rlt_le, Rinv_0_lt_compat; exact N].
  apply sumR_nonneg. intros q. apply Rle_0_sqr.
Qed.
Lemma outer_sym a : sym3 (outer3 a a). Proof. unfold sym3. lring. Qed.
Lemma sum_cross_sym pts : sym3 (sum_cross pts).
Proof.
  induction pts as [|p pts IH].
  - unfold sym3, sum_cross. cbn [fold_left]. lring.
  - unfold sum_cross. cbn [fold_left]. rewrite sum_cross_fold, madd3_zero_l. apply sym3_madd; [apply outer_sym|exact IH].
Qed.
Lemma scatter_sym pts : sym3 (scatter (D := Rfld) INR pts).
Proof.
  unfold scatter. rewrite mdiv3_scale, div3_scale. unfold sym3. rewrite tr3_mscale. f_equal.
  assert (A : forall a b : m3 Rfld, tr3 (msub3 a b) = msub3 (tr3 a) (tr3 b)) by (clear; lring).
  assert (B : forall (k : R) (a : v3 Rfld), tr3 (outer3 (scale3 (k : car Rfld) a) a) = outer3 (scale3 (k : car Rfld) a) a) by (clear; lring).
  rewrite A, B, sum_cross_sym. reflexivity.
Qed.

(** * Orthonormal eigenvector matrices *)
Lemma orth_flip3 (A : m3 Rfld) : mm3 (tr3 A) A = id3 -> mm3 A (tr3 A) = id3.
Proof.
  intros H. assert (Dn : det3 A <> 0).
  { intros Z. assert (E : det3 (mm3 (tr3 A) A) = det3 (id3 (D := Rfld))) by (rewrite H; reflexivity).
    rewrite det3_mm, det3_tr, Z, det3_id in E. cbn in E. lra. }
  assert (E : tr3 A = inv3 A).
  { rewrite <- (mm3_id_r (tr3 A)), <- (inv3_r A Dn), mm3_assoc, H. apply mm3_id_l. }
  rewrite E. apply inv3_r. exact Dn.
Qed.
Lemma orth_c0 (V : m3 Rfld) : mm3 (tr3 V) V = id3 -> dot3 (c0 V) (c0 V) = 1.
Proof. intros H. change (p0 (r0 (mm3 (tr3 V) V)) = 1). rewrite H. reflexivity. Qed.
Lemma c0_mv (V : m3 Rfld) : c0 V = mv3 V (P3 (1 : car Rfld) (0 : car Rfld) (0 : car Rfld)).
Proof. lring. Qed.
Lemma mv_diag_e0 (l : v3 Rfld) : mv3 (diag3 l) (P3 (1 : car Rfld) (0 : car Rfld) (0 : car Rfld)) = scale3 (p0 l) (P3 (1 : car Rfld) (0 : car Rfld) (0 : car Rfld)).
Proof. lring. Qed.
Lemma eig_c0 W V l : mm3 W V = mm3 V (diag3 l) -> mv3 W (c0 V) = scale3 (p0 l) (c0 V).
Proof. intros E. rewrite c0_mv, <- mv3_mm3, E, mv3_mm3, mv_diag_e0, mv3_scale. reflexivity. Qed.
(** Change of basis: x = V (V^T x). *)
Lemma orth_basis (V : m3 Rfld) (x : v3 Rfld) : mm3 (tr3 V) V = id3 -> mv3 V (mv3 (tr3 V) x) = x.
Proof. intros H. rewrite <- mv3_mm3, orth_flip3, mv3_id by exact H. reflexivity. Qed.
Lemma orth_dot (V : m3 Rfld) (x y : v3 Rfld) : mm3 (tr3 V) V = id3 -> dot3 (mv3 V x) (mv3 V y) = dot3 x y.
Proof. intros H. rewrite dot3_mv3, <- mv3_mm3, H, mv3_id. reflexivity. Qed.
Lemma eig_quad W V l (x : v3 Rfld) : mm3 (tr3 V) V = id3 -> mm3 W V = mm3 V (diag3 l) ->
  let y := mv3 (tr3 V) x in
  dot3 x (mv3 W x) = p0 l * (p0 y * p0 y) + p1 l * (p1 y * p1 y) + p2 l * (p2 y * p2 y) /\
  dot3 x x = p0 y * p0 y + p1 y * p1 y + p2 y * p2 y.
Proof.
  intros O E y. rewrite <- (orth_basis V x O). fold y. clearbody y.
  rewrite <- mv3_mm3, E, mv3_mm3, !orth_dot by exact O.
  destruct y as [y0 y1 y2], l as [l0 l1 l2]. cbn. split; req; ring.
Qed.
Lemma eig_least W V u : eig_correct W V -> dot3 u u = 1 -> dot3 (c0 V) (mv3 W (c0 V)) <= dot3 u (mv3 W u).
Proof.
  intros (O & l & E & L1 & L2) U. rewrite (eig_c0 W V l E), dot3_scale_r, (orth_c0 V O).
  destruct (eig_quad W V l u O E) as [Q N]. cbv zeta in *. rewrite Q. rewrite U in N.
  destruct l as [l0 l1 l2]. destruct (mv3 (tr3 V) u) as [y0 y1 y2]. cbn in *. change (car (fbase Rfld)) with R in *.
  assert (l0 * (y0 * y0 + y1 * y1 + y2 * y2) <= l0 * (y0 * y0) + l1 * (y1 * y1) + l2 * (y2 * y2)) by nra.
  rewrite <- N in H. lra.
Qed.

(** * The written normal *)
Lemma normalized_unit (x : v3 Rfld) : dot3 x x = 1 -> normalized x = x.
Proof.
  intros H. unfold normalized. rewrite H. cbn [nlt Rfld fbase nzero]. destruct (nlt _ _); [|reflexivity].
  cbn [fsqrt Rfld]. rewrite sqrt_1. destruct x as [a b c]. cbn. f_equal; req; field.
Qed.
Lemma normal_of_cases V p : mm3 (tr3 V) V = id3 ->
  let n := normal_of V p in
  vw n = 0 /\ (head n = c0 V \/ head n = opp3 (c0 V)) /\ dot3 (head p) (head n) <= 0.
Proof.
  intros O. unfold normal_of. rewrite (normalized_unit _ (orth_c0 V O)). destruct (c0 V) as [a b c].
  assert (E : forall a b c : R, dot4 p (V4 (a : car Rfld) b c (0 : car Rfld)) = dot3 (head p) (P3 (a : car Rfld) b c)).
  { intros a' b' c'. destruct p. cbn. req. ring. }
  cbn [p0 p1 p2]. cbv zeta. change (@nzero (fbase Rfld)) with 0. rewrite (E a b c).
  change (nlt (n := fbase Rfld)) with Rlt_bool. destruct (Rlt_bool 0 (dot3 (head p) (P3 (a : car Rfld) b c))) eqn:L.
  - split; [cbn; ring|]. split; [right; reflexivity|]. apply Rlt_bool_iff in L.
    assert (E2 : head (vopp (V4 (a : car Rfld) b c (0 : car Rfld))) = opp3 (P3 (a : car Rfld) b c)) by reflexivity.
    rewrite E2, dot3_opp_r. change (car (fbase Rfld)) with R in *. lra.
  - split; [reflexivity|]. split; [left; reflexivity|]. apply Rlt_bool_false_iff in L. exact L.
Qed.
Lemma mv3_opp_quad W u : dot3 (opp3 u) (mv3 W (opp3 u)) = dot3 u (mv3 W u). Proof. lring. Qed.
Lemma opp_norm u : dot3 (opp3 u) (opp3 u) = dot3 u u. Proof. lring. Qed.
Lemma normal_of_good V p pts : pts <> [] -> eig_correct (scatter (D := Rfld) INR pts) V -> good_normal p (normal_of V p) pts.
Proof.
  intros NE EC. pose proof EC as (O & _). destruct (normal_of_cases V p O) as (W0 & Hd & Hp). cbv zeta in *.
  split; [exact W0|]. split; [|split; [exact Hp|]].
  - destruct Hd as [->| ->]; [|rewrite opp_norm]; apply (orth_c0 V O).
  - intros u U. rewrite <- !scatter_variance by exact NE.
    destruct Hd as [->| ->]; [|rewrite mv3_opp_quad]; apply eig_least; assumption.
Qed.

(** * The written covariance *)
Lemma c0_tr (V : m3 Rfld) : mm3 (tr3 V) V = id3 -> mv3 (tr3 V) (c0 V) = P3 (1 : car Rfld) (0 : car Rfld) (0 : car Rfld).
Proof. intros O. rewrite c0_mv, <- mv3_mm3, O, mv3_id. reflexivity. Qed.
Lemma p0_tr (V : m3 Rfld) u : p0 (mv3 (tr3 V) u) = dot3 u (c0 V). Proof. lring. Qed.
Lemma mv_diag_milli (m : R) (y : v3 Rfld) : p0 y = 0 -> mv3 (diag3 (P3 (m : car Rfld) fone fone)) y = y.
Proof. destruct y as [a b c]. cbn. intros Z. apply P3_eq; [rewrite Z|..]; cbn; req; rcar; change (car Rfld) with R in *; ring. Qed.
Lemma opp_scale (s : car Rfld) u : opp3 (scale3 s u) = scale3 s (opp3 u). Proof. lring. Qed.
Lemma diag_sym (l : v3 Rfld) : sym3 (diag3 l). Proof. unfold sym3. lring. Qed.
Lemma cov_of_plane (m : R) V : mm3 (tr3 V) V = id3 ->
  let c := cov_of (m : car Rfld) V in
  b34 c = zero3 /\ b43 c = zero3 /\ b44 c = (0 : car Rfld) /\ sym3 (b33 c) /\
  mv3 (b33 c) (c0 V) = scale3 (m : car Rfld) (c0 V) /\ forall u : v3 Rfld, dot3 u (c0 V) = 0 -> mv3 (b33 c) u = u.
Proof.
  intros O. cbv zeta. cbn [cov_of b33 b34 b43 b44]. repeat (split; [reflexivity|]). split; [apply sym3_congr, diag_sym|].
  split.
  - rewrite !mv3_mm3, (c0_tr V O), (mv_diag_e0 (P3 (m : car Rfld) fone fone)), mv3_scale, <- c0_mv. reflexivity.
  - intros u U. rewrite !mv3_mm3, mv_diag_milli, orth_basis; auto. rewrite p0_tr. exact U.
Qed.
Lemma cov_of_good V p : mm3 (tr3 V) V = id3 -> plane_cov (cov_of (1e-3 : car Rfld) V) (head (normal_of V p)).
Proof.
  intros O. pose proof (cov_of_plane 1e-3 V O) as (A & B & C & E & F & G).
  destruct (normal_of_cases V p O) as (_ & Hd & _). unfold plane_cov. cbv zeta in *. generalize dependent (cov_of (1e-3 : car Rfld) V).
  intros c A B C E F G. generalize dependent (1e-3). intros m F. repeat (split; [assumption|]).
  destruct Hd as [->| ->]; split; auto.
  - rewrite mv3_opp, F. apply opp_scale.
  - intros u U. apply G. rewrite dot3_opp_r in U. change (car (fbase Rfld)) with R in *. lra.
Qed.
