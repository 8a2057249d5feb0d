(** Steps of the optimizers: where they come from, and damped steps over the reals. *)
From Coq Require Import Reals Lra Psatz.
From Coquelicot Require Import Coquelicot.
From Verif Require Import Base BaseProofs Num Vec RNum Lin LinSpec LinProofs FactorModel OptModel OptSpec EstReal FactorSpec.

(** * Any number system *)
Section Generic.
Context (D : fld) (F : Type).
Context (lin : pose D -> list F -> outcome (list F * sys D)) (err : pose D -> list F -> outcome (car D)).
Context (g : general D) (solve : m6 D -> v6 D -> v6 D) (exp6 : v6 D -> pose D) (inl : F -> bool) (crit : criteria D).
Context (P : pose D -> list F -> sys D -> car D -> v6 D -> Prop).

Section GN.
Context (lambda : car D).
Context (HP : forall T fs fs' s0, lin T fs = Ok (fs', s0) -> let s := upd_sys g T s0 in
  P T fs' s lambda (solve (damped (sH s) lambda) (opp6 (sb s)))).
Lemma gn_loop_steps n : forall i r fs rf log cur, gn_loop lin g solve exp6 crit lambda n i r fs = Ok (rf, log) ->
  steps_satisfy lambda P cur log.
Proof.
  induction n as [|n IH]; intros i r fs rf log cur H; cbn [gn_loop] in H; [injection H as <- <-; exact I|].
  destruct (r_converged r); [injection H as <- <-; exact I|].
  destruct (lin (r_T r) fs) as [[fs' s0]| | |] eqn:EL; cbn [bind] in H; try discriminate.
  destruct (gn_loop _ _ _ _ _ _ n _ _ fs') as [[rf' log']| | |] eqn:E; cbn [bind] in H; try discriminate.
  injection H as <- <-. cbn [steps_satisfy]. split; [exact (HP _ _ _ _ EL)|]. eapply IH. exact E.
Qed.
End GN.

Section LM.
Context (lambda0 : car D) (Lam : car D -> Prop) (factor : car D).
Context (Ldiv : forall l, Lam l -> Lam (ndiv l factor)) (Lmul : forall l, Lam l -> Lam (nmul l factor)).
Context (HP : forall T fs fs' s0 lambda, Lam lambda -> lin T fs = Ok (fs', s0) -> let s := upd_sys g T s0 in
  P T fs' s lambda (solve (damped (sH s) lambda) (opp6 (sb s)))).
Lemma lm_inner_steps T fs s : (forall lambda, Lam lambda -> P T fs s lambda (solve (damped (sH s) lambda) (opp6 (sb s)))) ->
  forall n e lambda tr log1, Lam lambda -> lm_inner err g solve exp6 crit factor n T fs s e lambda = Ok (tr, log1) ->
  Lam (i_lambda tr) /\ forall l, (forall cur, steps_satisfy lambda0 P cur l) -> steps_satisfy lambda0 P (Some (T, fs, s)) (log1 ++ l).
Proof using Ldiv Lmul.
  intros Q. induction n as [|n IH]; intros e lambda tr log1 L H; cbn [lm_inner] in H; [injection H as <- <-; cbn; auto|].
  destruct (err _ fs) as [new_e| | |]; cbn [bind] in H; try discriminate.
  destruct (nle new_e _).
  - injection H as <- <-. cbn [i_lambda]. split; [auto|]. intros l Hl. cbn [app steps_satisfy]. auto.
  - destruct (lm_inner _ _ _ _ _ _ n T fs s _ _) as [[tr' log']| | |] eqn:E; cbn [bind] in H; try discriminate.
    injection H as <- <-. destruct (IH _ _ _ _ (Lmul _ L) E) as [A B]. split; [exact A|]. intros l Hl.
    cbn [app steps_satisfy]. split; auto.
Qed.
Lemma lm_loop_steps c n : lm_factor c = factor -> forall i r lambda fs rf log, Lam lambda ->
  lm_loop lin err g solve exp6 crit c n i r lambda fs = Ok (rf, log) -> forall cur, steps_satisfy lambda0 P cur log.
Proof using HP Ldiv Lmul.
  intros Ef. induction n as [|n IH]; intros i r lambda fs rf log L H cur; cbn [lm_loop] in H; [injection H as <- <-; exact I|].
  destruct (r_converged r); [injection H as <- <-; exact I|].
  destruct (lin (r_T r) fs) as [[fs' s0]| | |] eqn:EL; cbn [bind] in H; try discriminate. rewrite Ef in H.
  destruct (lm_inner _ _ _ _ _ _ _ _ _ _ _ _) as [[tr log1]| | |] eqn:EI; cbn [bind] in H; try discriminate.
  destruct (lm_inner_steps _ _ _ (fun l Hl => HP _ _ _ _ l Hl EL) _ _ _ _ _ L EI) as [A B].
  destruct (i_step tr) as [[T' conv]|].
  - destruct (lm_loop _ _ _ _ _ _ c n _ _ _ fs') as [[rf' log']| | |] eqn:E; cbn [bind] in H; try discriminate.
    injection H as <- <-. cbn [app steps_satisfy]. apply B. intros cur'. eapply IH; [|exact E]. exact A.
  - injection H as <- <-. cbn [steps_satisfy]. rewrite <- (app_nil_r log1). apply B. intros ?. exact I.
Qed.
End LM.
End Generic.

Open Scope R_scope.
Implicit Types (H A : m6 Rfld) (b d x y delta : v6 Rfld).

(** * Damped systems *)
Lemma damped_quad H (l : R) d : dot6 d (mv6 (damped H (l : car Rfld)) d) = dot6 d (mv6 H d) + l * dot6 d d.
Proof. unfold damped. rewrite mv6_madd, mv6_scale_id, dot6_add_r, dot6_scale_r. reflexivity. Qed.
Lemma dot6_self_pos d : d <> zero6 -> 0 < dot6 d d.
Proof. intros N. destruct (dot6_self_nonneg d) as [P|Z]; [exact P|]. exfalso. apply N, dot6_self_zero. symmetry. exact Z. Qed.
Lemma damped_spd H (l : R) : psd6 H -> 0 < l -> spd6 (damped H (l : car Rfld)).
Proof. intros P L d N. rewrite damped_quad. specialize (P d). apply dot6_self_pos in N. change (car (fbase Rfld)) with R in *. nra. Qed.
Lemma scaled_id_sym (l : car Rfld) : tr3 (mscale3 l (id3 (D := Rfld))) = mscale3 l id3. Proof. lring. Qed.
Lemma scaled_zero_sym (l : car Rfld) : tr3 (mscale3 l (mzero3 (D := Rfld))) = mscale3 l mzero3. Proof. lring. Qed.
Lemma damped_sym H (l : R) : sym6 H -> sym6 (damped H (l : car Rfld)).
Proof.
  intros S. unfold damped. apply sym6_add; [exact S|]. unfold sym6, mscale6, id6, tr6. cbn [brr brt btr btt].
  rewrite scaled_id_sym, scaled_zero_sym. reflexivity.
Qed.
Definition sub6 (a b : v6 Rfld) : v6 Rfld := add6 a (opp6 b).
Lemma sub6_zero x y : sub6 x y = zero6 -> x = y.
Proof.
  destruct x as [[a1 a2 a3] [b1 b2 b3]], y as [[c1 c2 c3] [d1 d2 d3]]. unfold sub6. cbn. intros E. injection E as E1 E2 E3 E4 E5 E6.
  change (car (fbase Rfld)) with R in *. apply P6_eq; apply P3_eq; lra.
Qed.
Lemma mv3_sub_aux (M : m3 Rfld) (a b : v3 Rfld) : mv3 M (add3 a (opp3 b)) = add3 (mv3 M a) (opp3 (mv3 M b)). Proof. lring. Qed.
Lemma add_sub_aux (a b c d : v3 Rfld) : add3 (add3 a (opp3 b)) (add3 c (opp3 d)) = add3 (add3 a c) (opp3 (add3 b d)). Proof. lring. Qed.
Lemma mv6_sub A x y : mv6 A (sub6 x y) = sub6 (mv6 A x) (mv6 A y).
Proof. unfold mv6, sub6, add6, opp6. cbn [rv tv]. rewrite !mv3_sub_aux, !add_sub_aux. reflexivity. Qed.
Lemma sub6_self x : sub6 x x = zero6.
Proof. destruct x as [[a1 a2 a3] [b1 b2 b3]]. unfold sub6, zero6, zero3. apply P6_eq; apply P3_eq; cbn; req; ring. Qed.
Lemma dot6_zero_r d : dot6 d zero6 = 0. Proof. rewrite dot6_comm. apply dot6_zero_l. Qed.
Lemma spd6_inj A x y : spd6 A -> mv6 A x = mv6 A y -> x = y.
Proof.
  intros P E. apply sub6_zero. destruct (v6_eq_dec (sub6 x y) zero6) as [Z|N]; [exact Z|]. exfalso.
  specialize (P _ N). rewrite mv6_sub, E, sub6_self, dot6_zero_r in P. change (car (fbase Rfld)) with R in *. lra.
Qed.
Lemma opp6_zero b : opp6 b = zero6 -> b = zero6.
Proof.
  destruct b as [[b1 b2 b3] [b4 b5 b6]]. unfold opp6, zero6, zero3. cbn. intros E. injection E as E1 E2 E3 E4 E5 E6.
  change (car (fbase Rfld)) with R in *. apply P6_eq; apply P3_eq; cbn; lra.
Qed.
Lemma damped_descent H (l : R) b delta : psd6 H -> 0 < l -> mv6 (damped H (l : car Rfld)) delta = opp6 b ->
  dot6 b delta <= - (l * dot6 delta delta) /\ (b <> zero6 -> dot6 b delta < 0).
Proof.
  intros P L E. pose proof (damped_quad H l delta) as Q. rewrite E, dot6_opp_r, (dot6_comm delta b) in Q.
  specialize (P delta). pose proof (dot6_self_nonneg delta) as N. change (car (fbase Rfld)) with R in *. split; [lra|].
  intros B. assert (Dn : delta <> zero6).
  { intros ->. apply B, opp6_zero. rewrite <- E. unfold mv6. cbn [rv tv zero6]. rewrite !mv3_zero, !add3_zero_l. reflexivity. }
  apply dot6_self_pos in Dn. change (car (fbase Rfld)) with R in *. nra.
Qed.

(** * A solver meeting the contract: block elimination *)
Definition block_solve (A : m6 Rfld) (b : v6 Rfld) : v6 Rfld :=
  let Pi := inv3 (brr A) in
  let S := msub3 (btt A) (mm3 (btr A) (mm3 Pi (brt A))) in
  let y := mv3 (inv3 S) (sub3 (tv b) (mv3 (btr A) (mv3 Pi (rv b)))) in
  P6 (mv3 Pi (sub3 (rv b) (mv3 (brt A) y))) y.
Lemma mv3_msub M M2 (x : v3 Rfld) : mv3 (msub3 M M2) x = sub3 (mv3 M x) (mv3 M2 x). Proof. lring. Qed.
Lemma mv3_sub M (x y : v3 Rfld) : mv3 M (sub3 x y) = sub3 (mv3 M x) (mv3 M y). Proof. lring. Qed.
Lemma sub_add (x y : v3 Rfld) : add3 (sub3 x y) y = x. Proof. lring. Qed.
Lemma tr3_msub (M M2 : m3 Rfld) : tr3 (msub3 M M2) = msub3 (tr3 M) (tr3 M2). Proof. lring. Qed.
Lemma dot3_sub_r (x y z : v3 Rfld) : dot3 z (sub3 x y) = dot3 z x - dot3 z y. Proof. lring. Qed.
Lemma sub3_zero (x : v3 Rfld) : sub3 x x = zero3. Proof. lring. Qed.
Lemma sub3_aux (a b c d : v3 Rfld) : add3 (sub3 a b) (sub3 c a) = sub3 c b. Proof. lring. Qed.
Lemma block_solve_correct : solves6 block_solve.
Proof.
  intros A b Sy Pd. destruct A as [P Q Qt S0]. unfold sym6, tr6 in Sy. cbn [brr brt btr btt] in Sy.
  injection Sy as SP SQ SQ' SS. destruct b as [b1 b2].
  assert (PP : spd3 P).
  { intros x X. specialize (Pd (P6 x zero3)). unfold dot6, mv6 in Pd. cbn [rv tv brr brt btr btt] in Pd.
    rewrite !mv3_zero, add3_zero_r, dot3_zero_l in Pd. cbn [nadd Rfld fbase Rnum] in Pd. rewrite Rplus_0_r in Pd. apply Pd.
    intros E. injection E as ->. apply X. reflexivity. }
  assert (DP : det3 P <> 0). { pose proof (spd3_det P SP PP). change (car (fbase Rfld)) with R in *. lra. }
  set (S := msub3 S0 (mm3 Qt (mm3 (inv3 P) Q))).
  assert (SyS : sym3 S).
  { unfold sym3, S. rewrite tr3_msub, !tr3_mm3, SQ, SQ', SS, inv3_tr, SP, mm3_assoc. reflexivity. }
  assert (PS : spd3 S).
  { intros y Y. specialize (Pd (P6 (opp3 (mv3 (inv3 P) (mv3 Q y))) y)). unfold dot6, mv6 in Pd. cbn [rv tv brr brt btr btt] in Pd.
    rewrite !mv3_opp, inv3_mv in Pd by exact DP.
    assert (Z : add3 (opp3 (mv3 Q y)) (mv3 Q y) = zero3) by (clear; generalize (mv3 Q y); lring).
    rewrite Z, dot3_zero_r in Pd.
    assert (E : dot3 y (mv3 S y) = nadd (n := fbase Rfld) 0 (dot3 y (add3 (opp3 (mv3 Qt (mv3 (inv3 P) (mv3 Q y)))) (mv3 S0 y)))).
    { unfold S. rewrite mv3_msub, !mv3_mm3. generalize (mv3 S0 y) (mv3 Qt (mv3 (inv3 P) (mv3 Q y))). clear. revert y. lring. }
    rewrite E. apply Pd. intros E0. apply (f_equal tv) in E0. exact (Y E0). }
  assert (DS : det3 S <> 0). { pose proof (spd3_det S SyS PS). change (car (fbase Rfld)) with R in *. lra. }
  unfold block_solve, mv6. cbn [rv tv brr brt btr btt]. fold S.
  set (y := mv3 (inv3 S) (sub3 b2 (mv3 Qt (mv3 (inv3 P) b1)))).
  assert (SyE : mv3 S y = sub3 b2 (mv3 Qt (mv3 (inv3 P) b1))) by (apply inv3_mv; exact DS).
  clearbody y. rewrite inv3_mv, sub_add by exact DP. f_equal.
  rewrite !mv3_sub. unfold S in SyE. rewrite mv3_msub, !mv3_mm3 in SyE.
  generalize dependent (mv3 Qt (mv3 (inv3 P) (mv3 Q y))). generalize (mv3 Qt (mv3 (inv3 P) b1)) (mv3 S0 y).
  clear. intros [a1 a2 a3] [c1 c2 c3] [d1 d2 d3]. destruct b2 as [e1 e2 e3]. cbn. intros E. injection E as E1 E2 E3.
  change (car (fbase Rfld)) with R in *. apply P3_eq; cbn; req; lra.
Qed.

(** * Restricted axes *)
Lemma penalty_one (m : R) : m = 0 \/ m = 1 -> forall d : R, d * (Rabs (m - 1) * d) =
  (if Req_EM_T m 0 then d else 0) * (if Req_EM_T m 0 then d else 0).
Proof.
  intros [->| ->] d; destruct (Req_EM_T _ _) as [E|E]; try lra.
  - replace (0 - 1) with (- (1)) by ring. rewrite Rabs_Ropp, Rabs_R1. ring.
  - replace (1 - 1) with 0 by ring. rewrite Rabs_R0. ring.
Qed.
Lemma diag6_quad (v d : v6 Rfld) : dot6 d (mv6 (diag6 v) d) =
  p0 (rv d) * (p0 (rv v) * p0 (rv d)) + p1 (rv d) * (p1 (rv v) * p1 (rv d)) + p2 (rv d) * (p2 (rv v) * p2 (rv d)) +
  (p0 (tv d) * (p0 (tv v) * p0 (tv d)) + p1 (tv d) * (p1 (tv v) * p1 (tv d)) + p2 (tv d) * (p2 (tv v) * p2 (tv d))).
Proof. destruct v as [[a b c] [e f g]], d as [[h i j] [k l m]]. cbn. req. ring. Qed.
Lemma penalty_quad mask d : mask01 mask -> dot6 d (mv6 (diag6 (mask_penalty mask)) d) = dot6 (off_axes mask d) (off_axes mask d).
Proof.
  intros M. unfold mask01 in M. destruct mask as [[m1 m2 m3] [m4 m5 m6]], d as [[d1 d2 d3] [d4 d5 d6]]. cbn [rv tv p0 p1 p2] in M.
  repeat match goal with K : Forall _ (_ :: _) |- _ => inversion K; clear K; subst end.
  rewrite diag6_quad. unfold off_axes, mask_penalty, dot6. cbn [rv tv p0 p1 p2 dot3 fabs nsub fone nadd nmul Rfld fbase Rnum].
  rewrite !penalty_one by assumption. reflexivity.
Qed.
Lemma mscale6_quad (l : car Rfld) A d : dot6 d (mv6 (mscale6 l A) d) = l * dot6 d (mv6 A d).
Proof.
  destruct A as [A1 A2 A3 A4], d as [d1 d2]. unfold dot6, mv6, mscale6. cbn [brr brt btr btt rv tv]. rewrite !mv3_mscale.
  generalize (mv3 A1 d1) (mv3 A2 d2) (mv3 A3 d1) (mv3 A4 d2). clear. revert l d1 d2. lring.
Qed.
Lemma cauchy_amgm b delta (mu : R) : 0 < mu -> - dot6 b delta <= mu * dot6 delta delta + dot6 b b / (4 * mu).
Proof.
  intros M. pose proof (dot6_self_nonneg (add6 b (scale6 (2 * mu : car Rfld) delta))) as N.
  assert (E : dot6 (add6 b (scale6 (2 * mu : car Rfld) delta)) (add6 b (scale6 (2 * mu : car Rfld) delta)) =
    dot6 b b + 4 * mu * dot6 b delta + 4 * (mu * mu) * dot6 delta delta).
  { destruct b as [[b1 b2 b3] [b4 b5 b6]], delta as [[d1 d2 d3] [d4 d5 d6]]. cbn. req. ring. }
  rewrite E in N. change (car (fbase Rfld)) with R in *.
  apply (Rmult_le_reg_l (4 * mu)); [lra|]. replace (4 * mu * (mu * dot6 delta delta + dot6 b b / (4 * mu))) with
    (4 * (mu * mu) * dot6 delta delta + dot6 b b) by (field; lra). lra.
Qed.
Lemma restricted_bound H (lr mu : R) mask b delta : psd6 H -> 0 < lr -> 0 < mu -> mask01 mask ->
  mv6 (damped (madd6 H (mscale6 (lr : car Rfld) (diag6 (mask_penalty mask)))) (mu : car Rfld)) delta = opp6 b ->
  dot6 (off_axes mask delta) (off_axes mask delta) <= dot6 b b / (4 * lr * mu).
Proof.
  intros P L M K E. pose proof (damped_quad (madd6 H (mscale6 (lr : car Rfld) (diag6 (mask_penalty mask)))) mu delta) as Q.
  rewrite E, dot6_opp_r, mv6_madd, dot6_add_r, mscale6_quad, (penalty_quad mask delta K), (dot6_comm delta b) in Q.
  specialize (P delta). pose proof (cauchy_amgm b delta mu M) as C. change (car (fbase Rfld)) with R in *.
  set (o := dot6 (off_axes mask delta) (off_axes mask delta)) in *. clearbody o.
  assert (lr * o <= dot6 b b / (4 * mu)) by lra.
  apply (Rmult_le_reg_l lr); [exact L|]. replace (lr * (dot6 b b / (4 * lr * mu))) with (dot6 b b / (4 * mu)) by (field; lra). lra.
Qed.
