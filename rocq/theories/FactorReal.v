(** Weight matrices, whole-problem gradients and damped steps over the reals. *)
From Coq Require Import Reals Lra Psatz.
From Coquelicot Require Import Coquelicot.
From Verif Require Import Base BaseProofs Num Vec RNum Lin LinSpec LieSpec LinProofs LieModel LieProofs LieFlow
  FactorModel ReduceModel ReduceSpec ReduceProofs OptModel OptSpec FactorProofs FactorGrad EstModel EstSpec EstReal FactorSpec.
Open Scope R_scope.

Implicit Types (u : v3 Rfld) (F M W V : m3 Rfld) (T : pose Rfld) (c ct cs : m4 Rfld) (H A : m6 Rfld) (b d delta : v6 Rfld).

(** * Weight matrices *)
Lemma mm4_b33 (A B : m4 Rfld) : b43 B = zero3 -> b33 (mm4 A B) = mm3 (b33 A) (b33 B).
Proof.
  intros Z. cbn [mm4 b33]. rewrite Z. generalize (mm3 (b33 A) (b33 B)) (b34 A). clear. lring.
Qed.
Lemma fused_block T ct cs : block_cov ct -> block_cov cs ->
  b33 (fused_cov T ct cs) = madd3 (b33 ct) (mm3 (mm3 (rot T) (b33 cs)) (tr3 (rot T))).
Proof.
  intros _ (Z1 & Z2 & Z3 & _). unfold fused_cov. cbn [madd4 b33]. f_equal.
  cbn [mm4 tr4 pose_mat b33 b34 b43 b44]. rewrite Z1, Z2, Z3, mv3_zero.
  generalize (mm3 (rot T) (b33 cs)) (tr3 (rot T)) (tra T). clear. lring.
Qed.
Lemma maha_sym_spd T ct cs : block_cov ct -> spd3 (b33 ct) -> block_cov cs ->
  let F := madd3 (b33 ct) (mm3 (mm3 (rot T) (b33 cs)) (tr3 (rot T))) in
  sym3 F /\ spd3 F /\ maha_of T ct cs = inv3 F.
Proof.
  intros Bt Pt Bs F. split; [|split].
  - apply sym3_madd; [apply Bt|apply sym3_congr, Bs].
  - apply spd3_madd; [exact Pt|apply psd3_congr, Bs].
  - unfold maha_of. rewrite fused_block by assumption. reflexivity.
Qed.
Lemma decomposed_quad (a m : car Rfld) (n u : v3 Rfld) :
  dot3 (add3 (scale3 a n) u) (add3 (scale3 a (scale3 m n)) u) = m * (a * a) * dot3 n n + (a + a * m) * dot3 u n + dot3 u u.
Proof. lring. Qed.
Lemma decomposed_norm (a : car Rfld) (n u : v3 Rfld) :
  dot3 (add3 (scale3 a n) u) (add3 (scale3 a n) u) = a * a * dot3 n n + 2 * a * dot3 u n + dot3 u u.
Proof. lring. Qed.
Lemma decompose (a : car Rfld) (n x : v3 Rfld) : x = add3 (scale3 a n) (sub3 x (scale3 a n)).
Proof. lring. Qed.
Lemma dot_rest (a : car Rfld) (n x : v3 Rfld) : dot3 (sub3 x (scale3 a n)) n = dot3 x n - a * dot3 n n.
Proof. lring. Qed.
Lemma plane_quad (C : m3 Rfld) (n : v3 Rfld) (m : car Rfld) (x : v3 Rfld) : dot3 n n = 1 -> mv3 C n = scale3 m n -> (forall u : v3 Rfld, dot3 u n = 0 -> mv3 C u = u) ->
  exists a s : R, 0 <= s /\ dot3 x x = a * a + s /\ dot3 x (mv3 C x) = m * (a * a) + s.
Proof.
  intros N Cn Cu. pose proof (dot_rest (dot3 x n) n x) as Un. pose proof (decompose (dot3 x n) n x) as Ux.
  set (a := dot3 x n) in *. set (u := sub3 x (scale3 a n)) in *.
  rewrite N in Un. unfold a at 1 in Un. assert (Z : dot3 u n = 0).
  { rewrite Un. unfold a. change (car (fbase Rfld)) with R. ring. }
  clearbody u. clearbody a. clear Un. exists a, (dot3 u u). split; [apply dot3_self_nonneg|]. rewrite Ux at 1 2 3 4. split.
  - rewrite decomposed_norm, Z, N. change (car (fbase Rfld)) with R. ring.
  - rewrite mv3_add, mv3_scale, Cn, (Cu u Z), decomposed_quad, Z, N. change (car (fbase Rfld)) with R. ring.
Qed.
Lemma estimated_cov_bounds c : estimated_cov c -> forall x : v3 Rfld, 1e-3 * dot3 x x <= dot3 x (mv3 (b33 c) x) <= dot3 x x.
Proof.
  intros E x. pose proof (dot3_self_nonneg x) as NN. destruct E as [->|(n & N & (_ & _ & _ & _ & Cn & Cu))].
  - cbn [b33]. rewrite mv3_id. change (car (fbase Rfld)) with R in *. lra.
  - destruct (plane_quad _ _ _ x N Cn Cu) as (a & s & S & -> & ->). pose proof (Rle_0_sqr a). unfold Rsqr in *. lra.
Qed.
Lemma estimated_cov_block c : estimated_cov c -> block_cov c /\ spd3 (b33 c).
Proof.
  intros E. pose proof (estimated_cov_bounds c E) as B.
  assert (S : spd3 (b33 c)).
  { intros x X. apply dot3_self_pos in X. destruct (B x). change (car (fbase Rfld)) with R in *. lra. }
  split; [|exact S]. unfold block_cov. assert (P : psd3 (b33 c)) by (apply spd3_psd3, S).
  destruct E as [->|(n & _ & (Z1 & Z2 & Z3 & Sy & _))]; auto.
  cbn [b33 b34 b43 b44] in *. repeat split; auto.
Qed.
Lemma sub_quad F (k : car Rfld) (r y : v3 Rfld) : sym3 F ->
  dot3 (sub3 r (scale3 k y)) (mv3 F (sub3 r (scale3 k y))) = dot3 r (mv3 F r) - 2 * k * dot3 r (mv3 F y) + k * k * dot3 y (mv3 F y).
Proof.
  intros S. assert (E : dot3 y (mv3 F r) = dot3 r (mv3 F y)) by (rewrite dot3_comm, dot3_mv3, S; reflexivity).
  assert (G : dot3 (sub3 r (scale3 k y)) (mv3 F (sub3 r (scale3 k y))) =
    dot3 r (mv3 F r) - k * dot3 r (mv3 F y) - k * dot3 y (mv3 F r) + k * k * dot3 y (mv3 F y)) by (clear; revert F k r y; lring).
  rewrite G, E. change (car (fbase Rfld)) with R. ring.
Qed.
(** Bounds on a symmetric form give the inverse bounds on its inverse. *)
Lemma inverse_bounds F (lo hi : R) : sym3 F -> 0 < lo -> 0 < hi ->
  (forall x : v3 Rfld, lo * dot3 x x <= dot3 x (mv3 F x) <= hi * dot3 x x) ->
  forall r : v3 Rfld, / hi * dot3 r r <= dot3 r (mv3 (inv3 F) r) <= / lo * dot3 r r.
Proof.
  intros S L Hi B r.
  assert (P : spd3 F). { intros x X. apply dot3_self_pos in X. destruct (B x). change (car (fbase Rfld)) with R in *. nra. }
  assert (D : det3 F <> 0). { pose proof (spd3_det F S P). change (car (fbase Rfld)) with R in *. lra. }
  set (y := mv3 (inv3 F) r). assert (Fy : mv3 F y = r) by (apply inv3_mv; exact D). clearbody y.
  split.
  - destruct (B (sub3 r (scale3 (hi : car Rfld) y))) as [B1 _]. rewrite sub_quad, Fy in B1 by exact S.
    pose proof (dot3_self_nonneg (sub3 r (scale3 (hi : car Rfld) y))) as N. destruct (B r) as [_ B2].
    rewrite (dot3_comm y r) in B1. change (car (fbase Rfld)) with R in *.
    apply (Rmult_le_reg_l (hi * hi)); [nra|]. replace (hi * hi * (/ hi * dot3 r r)) with (hi * dot3 r r) by (field; lra). nra.
  - pose proof (dot3_self_nonneg (sub3 r (scale3 (lo : car Rfld) y))) as N.
    pose proof (sub_quad id3 (lo : car Rfld) r y sym3_id) as Q. rewrite !mv3_id in Q. rewrite Q in N.
    destruct (B y) as [B1 _]. rewrite Fy, (dot3_comm y r) in B1. change (car (fbase Rfld)) with R in *.
    apply (Rmult_le_reg_l (lo * lo)); [nra|]. replace (lo * lo * (/ lo * dot3 r r)) with (lo * dot3 r r) by (field; lra). nra.
Qed.
Lemma fused_bounds T ct cs : rotation (rot T) -> estimated_cov ct -> estimated_cov cs ->
  let F := madd3 (b33 ct) (mm3 (mm3 (rot T) (b33 cs)) (tr3 (rot T))) in
  forall x : v3 Rfld, 2e-3 * dot3 x x <= dot3 x (mv3 F x) <= 2 * dot3 x x.
Proof.
  intros RT Et Es F x. unfold F. rewrite quad_madd, quad_congr.
  destruct (estimated_cov_bounds ct Et x). destruct (estimated_cov_bounds cs Es (mv3 (tr3 (rot T)) x)) as [L U].
  assert (N : dot3 (mv3 (tr3 (rot T)) x) (mv3 (tr3 (rot T)) x) = dot3 x x).
  { rewrite dot3_mv3, tr3_tr3, <- mv3_mm3, rotation_inv, mv3_id by exact RT. reflexivity. }
  rewrite N in *. change (car (fbase Rfld)) with R in *. lra.
Qed.

(** * The whole problem *)
Lemma linearized_pairs {F S : Type} (lin : nat -> F -> outcome (F * option S)) fs fs' rs : linearized_once lin fs fs' rs ->
  Forall2 (fun f' (r : option S) => exists i f, lin i f = Ok (f', r)) fs' rs.
Proof.
  intros (L1 & L2 & L3).
  assert (P : forall i f' (r : option S), nth_error fs' i = Some f' -> nth_error rs i = Some r -> exists i f, lin i f = Ok (f', r)).
  { intros i f' r Ef Er. assert (Li : (i < length fs)%nat) by (rewrite <- L1; apply nth_error_Some; congruence).
    destruct (nth_error fs i) as [f|] eqn:Ef0; [|apply nth_error_None in Ef0; lia].
    destruct (L3 i f Ef0) as (g & q & A1 & A2 & A3). rewrite Ef in A2. rewrite Er in A3.
    inversion A2; inversion A3; subst. eauto. }
  assert (L : length fs' = length rs) by lia. clear - P L. revert rs L P.
  induction fs' as [|f fs' IH]; intros [|r rs] L P; simpl in L; try discriminate; constructor.
  - apply (P 0%nat); reflexivity.
  - apply IH; [lia|]. intros i. exact (P (Datatypes.S i)).
Qed.

Section Whole.
Context (nn : vec4 Rfld -> outcome (option (N * R))) (reject : pose Rfld -> N -> nat -> R -> bool).
Context (target : view Rfld N) (source : view Rfld nat) (k : kind).
Context (HS : homogeneous source) (HC : k = GICP -> usable_covs target source).

Lemma linearized_maha T si f f' s : linearize nn reject target source k T si f = Ok (f', Some s) -> k = GICP ->
  exists F, sym3 F /\ spd3 F /\ f_maha f' = inv3 F.
Proof using HC.
  intros H K. destruct (linearize_cases _ _ _ _ _ _ _ _ _ _ _ H) as (p & found & Ep & _ & ti & d & _ & _ & EL & _).
  destruct (HC K) as [Ct Cs]. subst k.
  unfold linearize_at in EL. destruct (residual target source T ti si) as [q| | |]; cbn [bind] in EL; try discriminate.
  rewrite Ep in EL. cbn [bind] in EL.
  destruct (at_cov target ti) as [ct| | |] eqn:Et; cbn [bind] in EL; try discriminate.
  destruct (at_cov source si) as [cs| | |] eqn:Es; cbn [bind] in EL; try discriminate.
  injection EL as <- <-. cbn [f_maha]. destruct (Ct _ _ Et) as [B1 B2]. specialize (Cs _ _ Es).
  destruct (maha_sym_spd T ct cs B1 B2 Cs) as (S & P & E). eexists. split; [exact S|]. split; [exact P|exact E].
Qed.
Lemma factor_system T si f f' s : linearize nn reject target source k T si f = Ok (f', Some s) ->
  sym6 (sH s) /\ psd6 (sH s) /\ forall delta, slope_along (fun T' => error target source k T' f') T delta (dot6 (sb s) delta).
Proof using HS HC.
  intros H.
  assert (G : k = GICP -> sym3 (f_maha f') /\ spd3 (f_maha f')).
  { intros K. destruct (linearized_maha _ _ _ _ _ H K) as (F & S & P & ->). split; [apply sym3_inv, S|apply spd3_inv; assumption]. }
  destruct (hessian_sym_psd nn reject target source k T si f f' s H) as [A B].
  { intros K. destruct (G K). split; [assumption|apply spd3_psd3; assumption]. }
  split; [exact A|]. split; [exact B|]. intros delta.
  apply (gn_form_gradient target source k T f' s delta); [intros K; apply G, K|].
  eapply gn_form_holds; [exact H|]. intros p. apply HS.
Qed.

Lemma error_defined_sum T' fs (e : list R) : Forall2 (fun f (x : R) => error target source k T' f = Ok x) fs e -> forall a : R,
  foldM (fun (sum : car Rfld) f => let* x := error target source k T' f in Ok (nadd sum x)) fs a = Ok (fold_left Rplus e a).
Proof using.
  induction 1 as [|f x fs e E _ IH]; intros a; cbn [foldM fold_left]; [reflexivity|]. rewrite E. cbn [bind]. apply IH.
Qed.
Lemma slope_sum (errs : list (R -> R)) (slopes : list R) : Forall2 (fun e s => is_derive e 0 s) errs slopes ->
  forall (e0 : R -> R) s0, is_derive e0 0 s0 ->
  is_derive (fun t => fold_left Rplus (map (fun e => e t) errs) (e0 t)) 0 (fold_left Rplus slopes s0).
Proof using.
  induction 1 as [|e s errs slopes E _ IH]; intros e0 s0 H0; cbn [map fold_left]; [exact H0|].
  apply (IH (fun t => e0 t + e t) (s0 + s)). apply (d_plus _ _ _ _ _ H0 E).
Qed.
Definition contribution (r : option (sys Rfld)) : sys Rfld := match r with Some s => s | None => sys_zero end.
Lemma sys_add_zero_r (s : sys Rfld) : sys_add s sys_zero = s.
Proof using. destruct s as [[A1 A2 A3 A4] [b1 b2] e]. unfold sys_add, sys_zero, mzero6, zero6, madd6, add6. cbn [sH sb se brr brt btr btt rv tv].
  rewrite !madd3_zero_r, !add3_zero_r. f_equal. cbn. req. ring. Qed.
Lemma accepted_contributions rs : forall a, fold_left sys_add (accepted rs) a = fold_left sys_add (map contribution rs) a.
Proof using.
  induction rs as [|[s|] rs IH]; intros a; cbn [accepted flat_map app map fold_left contribution]; [reflexivity|apply IH|].
  rewrite sys_add_zero_r. apply IH.
Qed.
Lemma fold_sb delta l : forall a, dot6 (sb (fold_left sys_add l a)) delta = fold_left Rplus (map (fun s => dot6 (sb s) delta) l) (dot6 (sb a) delta).
Proof using.
  induction l as [|s l IH]; intros a; cbn [fold_left map]; [reflexivity|]. rewrite IH. f_equal.
  cbn [sys_add sb]. rewrite dot6_comm, dot6_add_r, !(dot6_comm delta). reflexivity.
Qed.
Lemma fold_sH l : Forall (fun s : sys Rfld => sym6 (sH s) /\ psd6 (sH s)) l -> forall a, sym6 (sH a) -> psd6 (sH a) ->
  sym6 (sH (fold_left sys_add l a)) /\ psd6 (sH (fold_left sys_add l a)).
Proof using.
  induction 1 as [|s l [A B] _ IH]; intros a Sa Pa; cbn [fold_left]; [auto|]. apply IH; cbn [sys_add sH]; [apply sym6_add|apply psd6_add]; auto.
Qed.
Lemma whole_system T fs fs' s : reg_lin Rfld nn reject target source k T fs = Ok (fs', s) ->
  sym6 (sH s) /\ psd6 (sH s) /\ forall delta, slope_along (fun T' => reg_err Rfld target source k T' fs') T delta (dot6 (sb s) delta).
Proof using HS HC.
  intros H. unfold reg_lin in H. destruct (serial_fold _ _ _ _ _ _ _ _ H) as (rs & LO & ->).
  apply linearized_pairs in LO. rewrite accepted_contributions.
  assert (Z6 : sym6 mzero6 /\ psd6 mzero6).
  { split; [unfold sym6, mzero6, tr6; cbn [brr brt btr btt]; assert (E : tr3 (mzero3 (D := Rfld)) = mzero3) by (clear; lring); rewrite E; reflexivity|].
    intros d. unfold mv6, mzero6. cbn [brr brt btr btt]. rewrite !mv3_mzero, !add3_zero_l. unfold dot6. cbn [rv tv]. rewrite !dot3_zero_r. cbn. lra. }
  assert (FS : Forall2 (fun f' (r : option (sys Rfld)) => (sym6 (sH (contribution r)) /\ psd6 (sH (contribution r))) /\
     forall delta, slope_along (fun T' => error target source k T' f') T delta (dot6 (sb (contribution r)) delta)) fs' rs).
  { revert LO. clear H. induction 1 as [|f' r fs' rs (i & f & E) _ IH]; constructor; [|exact IH]. destruct r as [s|]; cbn [contribution].
    - destruct (factor_system T i f f' s E) as (A & B & C). auto.
    - split; [exact Z6|]. intros delta. destruct (linearize_cases _ _ _ _ _ _ _ _ _ _ _ E) as (p & found & _ & _ & -> & _).
      exists (fun _ => 0). split; [reflexivity|]. cbn [sys_zero sb]. rewrite dot6_zero_l. apply d_const. }
  assert (FH : Forall (fun s : sys Rfld => sym6 (sH s) /\ psd6 (sH s)) (map contribution rs)).
  { clear - FS. induction FS as [|f r fs' rs [A _] _ IH]; cbn [map]; constructor; auto. }
  destruct (fold_sH _ FH sys_zero (proj1 Z6) (proj2 Z6)) as [SH PH]. split; [exact SH|]. split; [exact PH|]. intros delta.
  assert (EX : exists es, Forall2 (fun (f : factor Rfld) (e : R -> R) => forall t : R,
       error target source k (pose_mul T (se3_exp (scale6 (t : car Rfld) delta))) f = Ok (e t)) fs' es /\
     Forall2 (fun e s => is_derive e 0 s) es (map (fun s => dot6 (sb s) delta) (map contribution rs))).
  { clear - FS. induction FS as [|f r fs' rs [_ A] _ (es & I1 & I2)]; cbn [map]; [exists []; split; constructor|].
    destruct (A delta) as (e & E1 & E2). exists (e :: es). split; constructor; auto. }
  destruct EX as (es & E1 & E2). exists (fun t => fold_left Rplus (map (fun e => e t) es) 0). split.
  - intros t. unfold reg_err, serial_error. apply error_defined_sum. clear - E1.
    induction E1 as [|f e fs' es E _ IH]; cbn [map]; constructor; auto.
  - rewrite fold_sb. cbn [sys_zero sb]. rewrite dot6_zero_l. apply (slope_sum es _ E2 (fun _ => 0) 0). apply d_const.
Qed.
End Whole.
