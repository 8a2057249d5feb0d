(** Real linear algebra facts used by the registration proofs. *)
From Coq Require Import Reals Lra Psatz.
From Verif Require Import Base Num Vec RNum Lin LinSpec.
Open Scope R_scope.

Lemma P3_eq {D : fld} (a b c a' b' c' : car D) : a = a' -> b = b' -> c = c' -> P3 a b c = P3 a' b' c'.
Proof. congruence. Qed.
Lemma M3_eq {D : fld} (a b c a' b' c' : v3 D) : a = a' -> b = b' -> c = c' -> M3 a b c = M3 a' b' c'.
Proof. congruence. Qed.
Lemma P6_eq {D : fld} (a b a' b' : v3 D) : a = a' -> b = b' -> P6 a b = P6 a' b'.
Proof. congruence. Qed.
Lemma M6_eq {D : fld} (a b c d a' b' c' d' : m3 D) : a = a' -> b = b' -> c = c' -> d = d' -> M6 a b c d = M6 a' b' c' d'.
Proof. congruence. Qed.
Lemma V4_eq {D : num} (a b c d a' b' c' d' : car D) : a = a' -> b = b' -> c = c' -> d = d' -> V4 a b c d = V4 a' b' c' d'.
Proof. congruence. Qed.
Lemma B4_eq {D : fld} (a a' : m3 D) b b' c c' d d' : a = a' -> b = b' -> c = c' -> d = d' -> B4 a b c d = B4 a' b' c' d'.
Proof. congruence. Qed.
Lemma Jac_eq {D : fld} (a b a' b' : m3 D) : a = a' -> b = b' -> Jac a b = Jac a' b'.
Proof. congruence. Qed.
Lemma mkPose_eq {D : fld} (a a' : m3 D) (b b' : v3 D) : a = a' -> b = b' -> mkPose a b = mkPose a' b'.
Proof. congruence. Qed.

(** Reduce an equation between vectors, matrices … to equations between reals. *)
Ltac lsplit := repeat first [apply P3_eq | apply M3_eq | apply P6_eq | apply M6_eq | apply V4_eq | apply B4_eq
  | apply Jac_eq | apply mkPose_eq].
Ltac ldestruct := repeat match goal with
  | v : v3 Rfld |- _ => destruct v | m : m3 Rfld |- _ => destruct m
  | v : v6 Rfld |- _ => destruct v | m : m6 Rfld |- _ => destruct m
  | v : vec4 (fbase Rfld) |- _ => destruct v | v : vec4 Rnum |- _ => destruct v | J : jac Rfld |- _ => destruct J
  | m : m4 Rfld |- _ => destruct m | T : pose Rfld |- _ => destruct T end.
Ltac rcar := repeat match goal with x : car (fbase Rfld) |- _ => change (car (fbase Rfld)) with R in x
  | x : car Rnum |- _ => change (car Rnum) with R in x end.
Ltac req := match goal with |- @eq _ ?x ?y => change (@eq R x y) end.
Ltac rring := cbn; req; ring.
Ltac lcbn := intros; ldestruct; rcar.
Ltac lring := lcbn; lsplit; rring.


Implicit Types (x y u v : v3 Rfld) (a b m W : m3 Rfld).

(** Vectors *)
Lemma add3_assoc x y u : add3 x (add3 y u) = add3 (add3 x y) u. Proof. lring. Qed.
Lemma add3_comm x y : add3 x y = add3 y x. Proof. lring. Qed.
Lemma add3_zero_l x : add3 zero3 x = x. Proof. lring. Qed.
Lemma add3_zero_r x : add3 x zero3 = x. Proof. lring. Qed.
Lemma sub3_add x y : sub3 x y = add3 x (opp3 y). Proof. lring. Qed.
Lemma dot3_comm x y : dot3 x y = dot3 y x. Proof. lring. Qed.
Lemma dot3_add_l x y u : dot3 (add3 x y) u = nadd (dot3 x u) (dot3 y u). Proof. lring. Qed.
Lemma dot3_add_r x y u : dot3 u (add3 x y) = nadd (dot3 u x) (dot3 u y). Proof. lring. Qed.
Lemma dot3_zero_l x : dot3 zero3 x = 0. Proof. lring. Qed.
Lemma dot3_zero_r x : dot3 x zero3 = 0. Proof. lring. Qed.
Lemma dot3_scale_l s x y : dot3 (scale3 s x) y = nmul s (dot3 x y). Proof. lring. Qed.
Lemma dot3_scale_r s x y : dot3 x (scale3 s y) = nmul s (dot3 x y). Proof. lring. Qed.
Lemma dot3_opp_l x y : dot3 (opp3 x) y = - dot3 x y. Proof. lring. Qed.
Lemma dot3_opp_r x y : dot3 x (opp3 y) = - dot3 x y. Proof. lring. Qed.

Lemma dot3_self_nonneg x : 0 <= dot3 x x.
Proof.
  destruct x as [a b c]. change (0 <= a * a + b * b + c * c). pose proof (Rle_0_sqr a). pose proof (Rle_0_sqr b).
  pose proof (Rle_0_sqr c). unfold Rsqr in *. lra.
Qed.
Lemma dot3_self_zero x : dot3 x x = 0 -> x = zero3.
Proof.
  destruct x as [a b c]. change (a * a + b * b + c * c = 0 -> P3 a b c = zero3). intros H.
  pose proof (Rle_0_sqr a). pose proof (Rle_0_sqr b). pose proof (Rle_0_sqr c). unfold Rsqr in *.
  apply P3_eq; change (@eq R ?p ?q) with (p = q); apply Rsqr_0_uniq; unfold Rsqr; lra.
Qed.
Lemma dot3_self_pos x : x <> zero3 -> 0 < dot3 x x.
Proof.
  intros H. destruct (Rle_lt_or_eq_dec 0 (dot3 x x) (dot3_self_nonneg x)) as [L|E]; auto.
  exfalso. apply H. apply dot3_self_zero. symmetry. exact E.
Qed.
Lemma v3_eq_dec x y : x = y \/ x <> y.
Proof.
  destruct x as [a b c], y as [d e f].
  destruct (Req_EM_T a d) as [->|N]; [|right; intros E; inversion E; contradiction].
  destruct (Req_EM_T b e) as [->|N]; [|right; intros E; inversion E; contradiction].
  destruct (Req_EM_T c f) as [->|N]; [|right; intros E; inversion E; contradiction]. auto.
Qed.

(** Matrices *)
Lemma mm3_assoc a b m : mm3 a (mm3 b m) = mm3 (mm3 a b) m. Proof. lring. Qed.
Lemma mv3_mm3 a b x : mv3 (mm3 a b) x = mv3 a (mv3 b x). Proof. lring. Qed.
Lemma mv3_add a x y : mv3 a (add3 x y) = add3 (mv3 a x) (mv3 a y). Proof. lring. Qed.
Lemma mv3_scale a s x : mv3 a (scale3 s x) = scale3 s (mv3 a x). Proof. lring. Qed.
Lemma mv3_opp a x : mv3 a (opp3 x) = opp3 (mv3 a x). Proof. lring. Qed.
Lemma mv3_zero a : mv3 a zero3 = zero3. Proof. lring. Qed.
Lemma mv3_madd a b x : mv3 (madd3 a b) x = add3 (mv3 a x) (mv3 b x). Proof. lring. Qed.
Lemma mv3_mscale s a x : mv3 (mscale3 s a) x = scale3 s (mv3 a x). Proof. lring. Qed.
Lemma mv3_mopp a x : mv3 (mopp3 a) x = opp3 (mv3 a x). Proof. lring. Qed.
Lemma mv3_id x : mv3 id3 x = x. Proof. lring. Qed.
Lemma mv3_mzero x : mv3 mzero3 x = zero3. Proof. lring. Qed.
Lemma mm3_id_l a : mm3 id3 a = a. Proof. lring. Qed.
Lemma mm3_id_r a : mm3 a id3 = a. Proof. lring. Qed.
Lemma tr3_tr3 a : tr3 (tr3 a) = a. Proof. lring. Qed.
Lemma tr3_mm3 a b : tr3 (mm3 a b) = mm3 (tr3 b) (tr3 a). Proof. lring. Qed.
Lemma tr3_madd a b : tr3 (madd3 a b) = madd3 (tr3 a) (tr3 b). Proof. lring. Qed.
Lemma tr3_id : tr3 (id3 (D := Rfld)) = id3. Proof. lring. Qed.
Lemma dot3_mv3 a x y : dot3 (mv3 a x) y = dot3 x (mv3 (tr3 a) y). Proof. lring. Qed.
Lemma det3_tr a : det3 (tr3 a) = det3 a. Proof. lring. Qed.
Lemma det3_mm a b : det3 (mm3 a b) = nmul (det3 a) (det3 b). Proof. lring. Qed.
Lemma det3_id : det3 (id3 (D := Rfld)) = 1. Proof. lring. Qed.

Lemma mm3_cofactors a : mm3 a (tr3 (cofactors a)) = mscale3 (det3 a) id3. Proof. lring. Qed.
Lemma cofactors_mm3 a : mm3 (tr3 (cofactors a)) a = mscale3 (det3 a) id3. Proof. lring. Qed.
Lemma mm3_mscale_r s a b : mm3 a (mscale3 s b) = mscale3 s (mm3 a b). Proof. lring. Qed.
Lemma mm3_mscale_l s a b : mm3 (mscale3 s a) b = mscale3 s (mm3 a b). Proof. lring. Qed.
Lemma mscale3_mscale s t a : mscale3 s (mscale3 t a) = mscale3 (nmul s t) a. Proof. lring. Qed.
Lemma mscale3_one a : mscale3 (1 : car Rfld) a = a. Proof. lring. Qed.
Lemma inv3_r a : det3 a <> 0 -> mm3 a (inv3 a) = id3.
Proof.
  intros H. unfold inv3. rewrite mm3_mscale_r, mm3_cofactors, mscale3_mscale.
  replace (nmul (ndiv fone (det3 a)) (det3 a)) with (1 : car Rfld); [apply mscale3_one|].
  change (1 = 1 / det3 a * det3 a). change (det3 a <> 0) in H. field. exact H.
Qed.
Lemma inv3_l a : det3 a <> 0 -> mm3 (inv3 a) a = id3.
Proof.
  intros H. unfold inv3. rewrite mm3_mscale_l, cofactors_mm3, mscale3_mscale.
  replace (nmul (ndiv fone (det3 a)) (det3 a)) with (1 : car Rfld); [apply mscale3_one|].
  change (1 = 1 / det3 a * det3 a). change (det3 a <> 0) in H. field. exact H.
Qed.
Lemma cofactors_tr a : cofactors (tr3 a) = tr3 (cofactors a). Proof. lring. Qed.
Lemma tr3_mscale s a : tr3 (mscale3 s a) = mscale3 s (tr3 a). Proof. lring. Qed.
Lemma inv3_tr a : tr3 (inv3 a) = inv3 (tr3 a).
Proof. unfold inv3. rewrite tr3_mscale, det3_tr, cofactors_tr. reflexivity. Qed.

(** Symmetric, positive semidefinite and positive definite matrices *)
Lemma spd3_psd3 W : spd3 W -> psd3 W.
Proof.
  intros H x. destruct (v3_eq_dec x zero3) as [->|N]; [rewrite dot3_zero_l; apply Rle_refl|]. apply Rlt_le. apply H. exact N.
Qed.

Lemma spd3_det W : sym3 W -> spd3 W -> 0 < det3 W.
Proof.
  destruct W as [[a b c] [b' d e] [c' e' f]]. intros S P.
  unfold sym3 in S. cbn in S. injection S as E1 E2 E3 E4 E5 E6. subst b' c' e'. clear E3 E5 E6.
  assert (A : 0 < a).
  { pose proof (P (P3 (1 : car Rfld) (0 : car Rfld) (0 : car Rfld))) as H. cbn in H. 
    assert (N : P3 (1 : car Rfld) (0 : car Rfld) (0 : car Rfld) <> zero3) by (intros E; injection E as E; apply R1_neq_R0; exact E).
    specialize (H N). change (car (fbase Rfld)) with R in *. ring_simplify in H. exact H. }
  change (car (fbase Rfld)) with R in *.
  assert (B : 0 < a * d - b * b).
  { pose proof (P (P3 (- b : car Rfld) (a : car Rfld) (0 : car Rfld))) as H. cbn in H.
    assert (N : P3 (- b : car Rfld) (a : car Rfld) (0 : car Rfld) <> zero3).
    { intros E. injection E as E1 E2. change (a = 0) in E2. lra. }
    specialize (H N). match type of H with 0 < ?t => replace t with (a * (a * d - b * b)) in H by ring end.
    apply Rmult_lt_reg_l with a; [exact A|]. lra. }
  pose proof (P (P3 (b * e - c * d : car Rfld) (b * c - a * e : car Rfld) (a * d - b * b : car Rfld))) as H. cbn in H.
  assert (N : P3 (b * e - c * d : car Rfld) (b * c - a * e : car Rfld) (a * d - b * b : car Rfld) <> zero3).
  { intros E. injection E as E1 E2 E3. change (a * d - b * b = 0) in E3. lra. }
  specialize (H N).
  change (0 < a * (d * f - e * e) + b * (e * c - b * f) + c * (b * e - d * c)).
  match type of H with 0 < ?t =>
    replace t with ((a * d - b * b) * (a * (d * f - e * e) + b * (e * c - b * f) + c * (b * e - d * c))) in H by ring end.
  apply Rmult_lt_reg_l with (a * d - b * b); [exact B|]. lra.
Qed.

Lemma inv3_mv W x : det3 W <> 0 -> mv3 W (mv3 (inv3 W) x) = x.
Proof. intros H. rewrite <- mv3_mm3, inv3_r by exact H. apply mv3_id. Qed.
Lemma sym3_inv W : sym3 W -> sym3 (inv3 W).
Proof. intros H. unfold sym3. rewrite inv3_tr, H. reflexivity. Qed.
Lemma spd3_inv W : sym3 W -> spd3 W -> spd3 (inv3 W).
Proof.
  intros S P x N. pose proof (spd3_det W S P) as Dp. assert (Dn : det3 W <> 0) by (apply Rgt_not_eq; exact Dp).
  set (y := mv3 (inv3 W) x). assert (Ey : mv3 W y = x) by (apply inv3_mv; exact Dn).
  rewrite <- Ey. rewrite dot3_comm. apply P. intros Z. apply N. rewrite <- Ey, Z. apply mv3_zero.
Qed.

Lemma sym3_madd a b : sym3 a -> sym3 b -> sym3 (madd3 a b).
Proof. unfold sym3. intros A B. rewrite tr3_madd, A, B. reflexivity. Qed.
Lemma sym3_congr m W : sym3 W -> sym3 (mm3 (mm3 m W) (tr3 m)).
Proof. unfold sym3. intros H. rewrite !tr3_mm3, tr3_tr3, H. apply mm3_assoc. Qed.
Lemma quad_congr m W x : dot3 x (mv3 (mm3 (mm3 m W) (tr3 m)) x) = dot3 (mv3 (tr3 m) x) (mv3 W (mv3 (tr3 m) x)).
Proof. rewrite !mv3_mm3, dot3_mv3, tr3_tr3. reflexivity. Qed.
Lemma psd3_congr m W : psd3 W -> psd3 (mm3 (mm3 m W) (tr3 m)).
Proof. intros H x. rewrite quad_congr. apply H. Qed.
Lemma quad_madd a b x : dot3 x (mv3 (madd3 a b) x) = dot3 x (mv3 a x) + dot3 x (mv3 b x).
Proof. rewrite mv3_madd, dot3_add_r. reflexivity. Qed.
Lemma spd3_madd a b : spd3 a -> psd3 b -> spd3 (madd3 a b).
Proof. intros A B x N. rewrite quad_madd. specialize (A x N). specialize (B x). lra. Qed.
Lemma psd3_madd a b : psd3 a -> psd3 b -> psd3 (madd3 a b).
Proof. intros A B x. rewrite quad_madd. specialize (A x). specialize (B x). lra. Qed.

(** Rotations *)
Lemma rotation_inv m : rotation m -> mm3 m (tr3 m) = id3.
Proof.
  intros [O Dt]. assert (N : det3 m <> 0) by (change (det3 m <> 0); rewrite Dt; apply R1_neq_R0).
  assert (E : tr3 m = inv3 m).
  { rewrite <- (mm3_id_r (tr3 m)), <- (inv3_r m N), mm3_assoc, O. apply mm3_id_l. }
  rewrite E. apply inv3_r. exact N.
Qed.
Lemma rotation_mm m b : rotation m -> rotation b -> rotation (mm3 m b).
Proof.
  intros [O1 D1] [O2 D2]. split.
  - rewrite tr3_mm3, <- mm3_assoc, (mm3_assoc (tr3 m)), O1, mm3_id_l. exact O2.
  - rewrite det3_mm, D1, D2. change (1 * 1 = 1). ring.
Qed.
Lemma rotation_norm m x : rotation m -> dot3 (mv3 m x) (mv3 m x) = dot3 x x.
Proof. intros [O _]. rewrite dot3_mv3, <- mv3_mm3, O, mv3_id. reflexivity. Qed.

(** Six-vectors *)
Implicit Types (d z : v6 Rfld) (H : m6 Rfld) (J : jac Rfld).
Lemma dot6_comm d z : dot6 d z = dot6 z d.
Proof. unfold dot6. rewrite (dot3_comm (rv d)), (dot3_comm (tv d)). reflexivity. Qed.
Lemma dot6_self_nonneg d : 0 <= dot6 d d.
Proof. destruct d as [x y]. pose proof (dot3_self_nonneg x). pose proof (dot3_self_nonneg y). change (0 <= dot3 x x + dot3 y y). lra. Qed.
Lemma dot6_self_zero d : dot6 d d = 0 -> d = zero6.
Proof.
  destruct d as [x y]. pose proof (dot3_self_nonneg x). pose proof (dot3_self_nonneg y). change (dot3 x x + dot3 y y = 0 -> P6 x y = zero6).
  intros E. apply P6_eq; apply dot3_self_zero; change (@eq R ?p ?q) with (p = q); lra.
Qed.
Lemma v6_eq_dec d z : d = z \/ d <> z.
Proof.
  destruct d as [x y], z as [u v]. destruct (v3_eq_dec x u) as [->|N]; [|right; intros E; inversion E; contradiction].
  destruct (v3_eq_dec y v) as [->|N]; [|right; intros E; inversion E; contradiction]. auto.
Qed.
Lemma mv6_madd H H2 d : mv6 (madd6 H H2) d = add6 (mv6 H d) (mv6 H2 d).
Proof.
  unfold mv6, madd6, add6. cbn [brr brt btr btt rv tv]. rewrite !mv3_madd.
  apply P6_eq; generalize (mv3 (brr H) (rv d)) (mv3 (brr H2) (rv d)) (mv3 (brt H) (tv d)) (mv3 (brt H2) (tv d))
    (mv3 (btr H) (rv d)) (mv3 (btr H2) (rv d)) (mv3 (btt H) (tv d)) (mv3 (btt H2) (tv d)); lring.
Qed.
Lemma dot6_add_r d z w : dot6 d (add6 z w) = dot6 d z + dot6 d w.
Proof. unfold dot6, add6. cbn [rv tv]. rewrite !dot3_add_r. cbn. ring. Qed.
Lemma mv6_scale_id s d : mv6 (mscale6 s id6) d = scale6 s d.
Proof. lring. Qed.
Lemma dot6_scale_r s d z : dot6 d (scale6 s z) = s * dot6 d z.
Proof. unfold dot6, scale6. cbn [rv tv]. rewrite !dot3_scale_r. cbn. ring. Qed.
Lemma dot6_opp_r d z : dot6 d (opp6 z) = - dot6 d z.
Proof. unfold dot6, opp6. cbn [rv tv]. rewrite !dot3_opp_r. cbn. ring. Qed.
Lemma dot6_zero_l d : dot6 zero6 d = 0.
Proof. unfold dot6. cbn [rv tv zero6]. rewrite !dot3_zero_l. cbn. ring. Qed.

(** Normal matrices J^T W J *)
Lemma mv6_jwj J W d : mv6 (jwj J W) d = jtr J (mv3 W (jmul J d)).
Proof.
  unfold mv6, jwj, jtr, jmul. cbn [brr brt btr btt rv tv]. rewrite !mv3_mm3, !mv3_add. reflexivity.
Qed.
Lemma dot6_jtr J d x : dot6 d (jtr J x) = dot3 (jmul J d) x.
Proof.
  unfold dot6, jtr, jmul. cbn [rv tv]. rewrite dot3_add_l, !dot3_mv3. reflexivity.
Qed.
Lemma quad_jwj J W d : dot6 d (mv6 (jwj J W) d) = dot3 (jmul J d) (mv3 W (jmul J d)).
Proof. rewrite mv6_jwj. apply dot6_jtr. Qed.
Lemma jtj_jwj J : jtj J = jwj J id3.
Proof. unfold jtj, jwj. rewrite !mm3_id_r. reflexivity. Qed.
Lemma psd6_jwj J W : psd3 W -> psd6 (jwj J W).
Proof. intros P d. rewrite quad_jwj. apply P. Qed.
Lemma sym6_jwj J W : sym3 W -> sym6 (jwj J W).
Proof.
  intros S. unfold sym6, tr6, jwj. cbn [brr brt btr btt]. rewrite !tr3_mm3, !tr3_tr3, S, !mm3_assoc. reflexivity.
Qed.
Lemma sym3_id : sym3 id3. Proof. apply tr3_id. Qed.
Lemma spd3_id : spd3 id3.
Proof. intros x N. rewrite mv3_id. apply dot3_self_pos. exact N. Qed.
Lemma psd6_add H H2 : psd6 H -> psd6 H2 -> psd6 (madd6 H H2).
Proof. intros A B d. rewrite mv6_madd, dot6_add_r. specialize (A d). specialize (B d). lra. Qed.
Lemma tr6_madd H H2 : tr6 (madd6 H H2) = madd6 (tr6 H) (tr6 H2).
Proof. unfold tr6, madd6. cbn [brr brt btr btt]. rewrite !tr3_madd. reflexivity. Qed.
Lemma sym6_add H H2 : sym6 H -> sym6 H2 -> sym6 (madd6 H H2).
Proof. unfold sym6. intros A B. rewrite tr6_madd, A, B. reflexivity. Qed.
