(** One registration from an exact alignment, in double precision. *)
From Coq Require Import Reals ZArith Lra Lia.
From Flocq Require Import Core IEEE754.BinarySingleNaN.
From Verif Require Import Base BaseProofs Num Vec Lin F64 F64Proofs F64Err KdModel KdSpec KdF64 FactorModel ReduceModel OptModel HelperModel HelperProofs
  ReduceSpec RegSafe PipeSpec NanMap KeepF64Spec KeepF64.

(** * Sums of at most N terms over any schedule *)
Open Scope nat_scope.
Lemma sum_upd ns t n : nth_error ns t = Some n -> list_sum (upd ns t (n + 1)) = list_sum ns + 1.
Proof.
  revert t. induction ns as [|m ns IH]; intros [|t] E; cbn in E; try discriminate.
  - injection E as ->. cbn. lia.
  - cbn [upd]. specialize (IH t E). unfold list_sum in *. cbn. lia.
Qed.
Lemma nth_le_sum ns t n : nth_error ns t = Some n -> n <= list_sum ns.
Proof.
  revert t. induction ns as [|m ns IH]; intros [|t] E; cbn in E; try discriminate.
  - injection E as ->. cbn. lia.
  - specialize (IH t E). cbn. unfold list_sum in IH. lia.
Qed.
Lemma list_sum_perm l l' : Permutation l l' -> list_sum l = list_sum l'.
Proof. induction 1; cbn; unfold list_sum in *; lia. Qed.
Lemma upd_id {A} (l : list A) t n : nth_error l t = Some n -> upd l t n = l.
Proof. revert t. induction l as [|m l IH]; intros [|t] E; cbn in E; try discriminate; cbn [upd]; [congruence|]. f_equal. apply IH. exact E. Qed.
Lemma Forall_upd {A} (P : A -> Prop) l i x : Forall P l -> P x -> Forall P (upd l i x).
Proof. intros H Hx. revert i. induction H; intros [|i]; cbn [upd]; constructor; auto. Qed.
Section Count.
Context (F Q : Type) (zero : Q) (plus : Q -> Q -> Q) (lin : nat -> F -> outcome (F * option Q)) (N : nat).
Context (G : nat -> Q -> Prop) (G0 : G 0 zero).
Context (GP : forall n m a b, n + m <= N -> G n a -> G m b -> G (n + m) (plus a b)).
Context (Pf : F -> Prop) (GL : forall i f f' r, Pf f -> lin i f = Ok (f', r) -> Pf f' /\ forall s, r = Some s -> G 1 s).
Definition tallied (ns : list nat) (accs : list Q) : Prop := Forall2 G ns accs.
Definition counted (st : omp_state F Q) : Prop :=
  Forall Pf (o_factors st) /\ exists ns, tallied ns (o_accs st) /\ list_sum ns + length (o_todo st) <= N.
Lemma tallied_nth ns accs t a : tallied ns accs -> nth_error accs t = Some a -> exists n, nth_error ns t = Some n /\ G n a.
Proof.
  intros H. revert t. induction H as [|n b ns accs Hn H IH]; intros [|t] E; cbn in E; try discriminate.
  - injection E as <-. exists n. auto.
  - apply IH. exact E.
Qed.
Lemma tallied_upd ns accs t n a : tallied ns accs -> G n a -> tallied (upd ns t n) (upd accs t a).
Proof.
  intros H Gn. revert t. induction H as [|m b ns accs Hn H IH]; intros [|t]; cbn [upd]; constructor; auto.
  apply IH.
Qed.
Lemma counted_step threads st st' : counted st -> omp_step plus lin threads st (Ok st') -> counted st'.
Proof using GP GL.
  intros (PF & ns & Tn & L) H. inversion H as [fs accs l1 i l2 t Ht E1 E2]; subst. cbn [o_todo o_accs o_factors] in *.
  apply bind_Ok in E2. destruct E2 as (a & Ea & E2).
  apply bind_Ok in E2. destruct E2 as ([fs' a'] & Ev & E2).
  apply bind_Ok in E2. destruct E2 as (accs' & Es & E2). injection E2 as <-. unfold counted. cbn [o_todo o_accs o_factors].
  apply set_Ok_inv in Es. destruct Es as [_ ->]. apply get_Ok in Ea.
  unfold visit in Ev. apply bind_Ok in Ev. destruct Ev as (f & Ef & Ev).
  apply bind_Ok in Ev. destruct Ev as ([f' r] & El & Ev).
  apply bind_Ok in Ev. destruct Ev as (fs1 & Ef1 & Ev). injection Ev as <- <-.
  apply get_Ok in Ef. apply set_Ok_inv in Ef1. destruct Ef1 as [Lf ->].
  destruct (GL i f f' r) as [Pf' Gs]; [eapply Forall_forall; [exact PF|eapply nth_error_In; exact Ef]|exact El|].
  split; [apply Forall_upd; assumption|].
  destruct (tallied_nth ns accs t a Tn Ea) as (n & En & Gn).
  pose proof (nth_le_sum ns t n En) as Ln. rewrite app_length in L. cbn [length] in L. rewrite app_length.
  destruct r as [s|].
  - exists (upd ns t (n + 1)). split.
    + apply tallied_upd; [exact Tn|]. apply GP; [lia|exact Gn|]. apply Gs. reflexivity.
    + rewrite (sum_upd ns t n En). lia.
  - exists (upd ns t n). split; [apply tallied_upd; auto|].
    rewrite (upd_id ns t n En). lia.
Qed.
Lemma counted_runs threads st o : omp_runs plus lin threads st o -> counted st -> forall st', o = Ok st' -> counted st'.
Proof using GP GL.
  induction 1 as [st|st st1 o H1 H2 IH|st o H1 H]; intros C st' E.
  - injection E as <-. exact C.
  - apply IH; auto. eapply counted_step; eauto.
  - subst o. destruct (H st'). reflexivity.
Qed.
Lemma counted_init threads fs : Forall Pf fs -> length fs <= N -> counted (omp_init zero threads fs).
Proof using G0.
  clear GP GL plus lin. intros PF L. split; [exact PF|]. exists (repeat 0 threads). split.
  - cbn [omp_init o_accs]. unfold tallied. induction threads as [|n IH]; cbn [repeat]; constructor; auto.
  - cbn [omp_init o_todo]. rewrite seq_length.
    assert (list_sum (repeat 0 threads) = 0) as -> by (induction threads; cbn; auto). lia.
Qed.
Lemma tallied_fold ns accs : tallied ns accs -> forall n a, n + list_sum ns <= N -> G n a ->
  exists m, m <= N /\ G m (fold_left plus accs a).
Proof using GP.
  clear GL Pf lin F. induction 1 as [|m b ns accs Hm H IH]; intros n a L Gn; cbn [fold_left].
  - exists n. cbn in L. split; [lia|exact Gn].
  - change (list_sum (m :: ns)) with (m + list_sum ns) in L. apply (IH (n + m)); [lia|]. apply GP; auto. lia.
Qed.
Lemma omp_linearized_counted threads fs fs' s : Forall Pf fs -> length fs <= N -> omp_linearized zero plus threads lin fs (Ok (fs', s)) ->
  exists m, m <= N /\ G m s.
Proof.
  intros PF L (e & R & C & E). destruct e as [st| | |]; try discriminate. cbn [bind] in E.
  destruct (counted_runs _ _ _ R (counted_init threads fs PF L) st eq_refl) as (_ & ns & Tn & Ls).
  symmetry in E. apply bind_Ok in E. destruct E as (s1 & Eo & E). injection E as _ <-.
  unfold omp_result in Eo. destruct Tn as [|n a ns accs Hn Tn]; [discriminate|]. cbn [get nth_error bind tl] in Eo. injection Eo as <-.
  change (list_sum (n :: ns)) with (n + list_sum ns) in Ls. apply (tallied_fold ns accs Tn n a); [lia|exact Hn].
Qed.
End Count.
Lemma omp_summed_counted {F Q} (zero : Q) plus (err : F -> outcome Q) N (G : nat -> Q -> Prop) threads fs s :
  G 0 zero -> (forall n m a b, n + m <= N -> G n a -> G m b -> G (n + m) (plus a b)) ->
  (forall f x, In f fs -> err f = Ok x -> G 1 x) -> length fs <= N -> omp_summed zero plus threads err fs (Ok s) -> exists m, m <= N /\ G m s.
Proof.
  intros G0 GP GE L (e & R & C & s1 & HS & E). destruct e as [st| | |]; try discriminate. cbn [bind] in E. injection E as <-.
  assert (GL : forall (i : nat) f f' r, In f fs -> (let* y := err f in Ok (f, Some y)) = Ok (f', r) -> In f' fs /\ forall x, r = Some x -> G 1 x).
  { intros _ f f' r Hf H. apply bind_Ok in H. destruct H as (y & Ey & H). injection H as <- <-. split; [exact Hf|].
    intros x Ex. injection Ex as <-. eapply GE; eassumption. }
  assert (PF : Forall (fun f => In f fs) fs) by (apply Forall_forall; auto).
  destruct (counted_runs F Q plus _ N G GP (fun f => In f fs) GL _ _ _ R (counted_init F Q zero N G G0 (fun f => In f fs) threads fs PF L) st eq_refl) as (_ & ns & Tn & Ls).
  destruct (HS st eq_refl) as (accs' & P & ->).
  destruct (Permutation_Forall2 (P := fun a n => G n a) (l2 := ns) P) as (ns' & P' & Tn').
  { clear -Tn. induction Tn; constructor; auto. }
  apply (tallied_fold Q plus N G GP ns' accs') with (n := 0); [|rewrite <- (list_sum_perm ns ns' P'); lia|exact G0].
  clear -Tn'. induction Tn'; constructor; auto.
Qed.

(** * The search *)
Open Scope R_scope.
Lemma vcomp_same4 (a b : vec4 Fnum) : same4 a b -> forall i, same (vcomp a i) (vcomp b i).
Proof. intros (A & B & C & D) [|[|[|i]]]; cbn; auto. Qed.
Lemma sum_isz t (v : vec4 Fnum) : (forall i, isz (vcomp v i)) -> isz (sum_eval (D := Fnum) f64_fma t v).
Proof.
  intros H. induction t as [i|l IHl r IHr|i t IH]; cbn [sum_eval].
  - apply isz_mul_r; [apply isz_finite|]; apply H.
  - apply isz_add; assumption.
  - apply isz_fma; auto.
Qed.
Lemma fsqd_same order (q m : vec4 Fnum) : same4 q m -> isz (fsqd order q m).
Proof. intros H. apply sum_isz. intros i. rewrite vcomp_vsub. apply isz_sub. apply vcomp_same4. exact H. Qed.
Lemma isz_val x : isz x -> notnan x /\ val x = 0.
Proof. intros [F E]. split; [apply finite_notnan; exact F|]. rewrite finite_val by exact F. exact E. Qed.
Lemma apart_square x y : finite x -> finite y -> apart x y -> val (f64_mul (f64_sub x y) (f64_sub x y)) <= 0 -> same x y.
Proof.
  intros Fx Fy [S|A] H; [exact S|exfalso].
  destruct (sub_val x y Fx Fy) as [N E]. destruct (sq_val _ N) as [N2 E2]. rewrite E2, E in H. clear E2 E N2 N.
  rewrite !finite_val in H by assumption.
  set (d := B2R x - B2R y) in *.
  assert (S5 : bpow radix2 (-500) <= Rabs (rx d)).
  { assert (P : forall a, bpow radix2 (-500) <= a -> bpow radix2 (-500) <= rx a).
    { intros a La. assert (R0 : rx (bpow radix2 (-500)) = bpow radix2 (-500)).
      { unfold rx. assert (rnd (bpow radix2 (-500)) = bpow radix2 (-500)) as ->.
        { apply round_generic; [typeclasses eauto|]. apply generic_format_bpow. unfold fexp64, SpecFloat.fexp, FLT_exp, SpecFloat.emin. lia. }
        apply sat_in. split; [eapply Rle_trans; [|apply bpow_ge_0]; pose proof E1024_pos; lra|]. apply bpow_le. lia. }
      rewrite <- R0. apply rx_le. exact La. }
    unfold Rabs in A. destruct (Rcase_abs d) as [Ng|Ps].
    - specialize (P _ A). rewrite rx_opp in P. rewrite <- Rabs_Ropp. eapply Rle_trans; [exact P|]. apply Rle_abs.
    - specialize (P _ (A)). eapply Rle_trans; [exact P|apply Rle_abs]. }
  set (e := rx d) in *. clearbody e.
  assert (S6 : bpow radix2 (-1000) <= e * e).
  { change (-1000)%Z with (-500 + -500)%Z. rewrite bpow_plus, <- (Rabs_pos_eq (e * e)), Rabs_mult by apply Rle_0_sqr. pose proof (bpow_ge_0 radix2 (-500)). apply Rmult_le_compat; auto. }
  apply rx_le in S6.
  assert (R1 : rx (bpow radix2 (-1000)) = bpow radix2 (-1000)).
  { unfold rx. assert (rnd (bpow radix2 (-1000)) = bpow radix2 (-1000)) as ->.
    { apply round_generic; [typeclasses eauto|]. apply generic_format_bpow. unfold fexp64, SpecFloat.fexp, FLT_exp, SpecFloat.emin. lia. }
    apply sat_in. split; [eapply Rle_trans; [|apply bpow_ge_0]; pose proof E1024_pos; lra|]. apply bpow_le. lia. }
  rewrite R1 in S6. pose proof (bpow_gt_0 radix2 (-1000)). lra.
Qed.
Lemma fsqd_zero order (q m : vec4 Fnum) : full_sum order -> vfinite q -> vfinite m ->
  apart (vx q) (vx m) /\ apart (vy q) (vy m) /\ apart (vz q) (vz m) /\ apart (vw q) (vw m) ->
  val (fsqd order q m) <= 0 -> same4 q m.
Proof.
  intros FS Fq Fm (A & B & C & D) H.
  destruct (sum_eval_ge order (vsub q m) (vsub_notnan q m Fq Fm)) as (_ & _ & G). fold (sq_dist (D := Fnum) f64_fma order q m) in G. fold (fsqd order q m) in G.
  assert (L : forall i, In i [0%nat; 1%nat; 2%nat; 3%nat] -> val (f64_mul (f64_sub (vcomp q i) (vcomp m i)) (f64_sub (vcomp q i) (vcomp m i))) <= 0).
  { intros i Hi. rewrite <- vcomp_vsub. eapply Rle_trans; [|exact H]. apply G. apply (Permutation_in _ (Permutation_sym FS)). exact Hi. }
  destruct Fq as (q0 & q1 & q2 & q3), Fm as (m0 & m1 & m2 & m3). split; [|split; [|split]].
  - apply (apart_square _ _ q0 m0 A). apply (L 0%nat). cbn; auto.
  - apply (apart_square _ _ q1 m1 B). apply (L 1%nat). cbn; auto.
  - apply (apart_square _ _ q2 m2 C). apply (L 2%nat). cbn; auto.
  - apply (apart_square _ _ q3 m3 D). apply (L 3%nat). cbn; auto.
Qed.
Lemma same4_finite (q m : vec4 Fnum) : same4 q m -> vfinite q /\ vfinite m.
Proof. intros ((A & B & _) & (C & D & _) & (E & F & _) & (G & H & _)). split; repeat split; assumption. Qed.
Lemma nearest_zero order (points : list (vec4 Fnum)) (m q0 : vec4 Fnum) found : full_sum order -> (forall q, In q points -> vfinite q) ->
  (forall q, In q points -> apart (vx q) (vx m) /\ apart (vy q) (vy m) /\ apart (vz q) (vz m) /\ apart (vw q) (vw m)) ->
  In q0 points -> same4 q0 m -> nearest_in (fsqd order) points m found ->
  exists i d q, found = Some (i, d) /\ nth_error points (N.to_nat i) = Some q /\ same4 q m /\ isz d.
Proof.
  intros FS Fp Ap I0 S0 H. destruct (same4_finite q0 m S0) as [F0 Fm].
  pose proof (isz_val _ (fsqd_same order q0 m S0)) as [N0 V0].
  destruct found as [[i d]|]; cbn [nearest_in] in H.
  - destruct H as (q & Eq & -> & H). exists i, (fsqd order q m), q. split; [reflexivity|]. split; [exact Eq|].
    pose proof (nth_error_In _ _ Eq) as Iq. specialize (H q0 I0). cbn [nlt Fnum] in H.
    apply f64_lt_val_false in H; [|exact N0|apply fsqd_ok; auto]. rewrite V0 in H.
    assert (S : same4 q m) by (apply (fsqd_zero order); auto). split; [exact S|]. apply fsqd_same. exact S.
  - exfalso. specialize (H q0 I0). cbn [nlt Fnum nmaxv] in H. apply f64_lt_val_false in H; [|exact N0|reflexivity].
    rewrite V0 in H. assert (0 < val f64_max); [|lra]. vm_compute. lra.
Qed.
Lemma square_limit (x d : f64) : isz d -> f64_lt (f64_mul x x) d = false.
Proof.
  intros Z. destruct (isz_val d Z) as [Nd Vd]. destruct (is_nan x) eqn:Nx.
  - destruct x; try discriminate. destruct d; reflexivity.
  - pose proof (sq_val x Nx) as [N _]. apply f64_lt_val_false; auto. rewrite Vd. apply sq_nonneg. exact Nx.
Qed.

(** * Poses *)
Local Notation fin x := (is_finite (x : f64) = true).
Lemma same_dot (a a' b : v3 Ffld) : same3 a a' -> all3 (fun x => fin x) b -> fin (dot3 a' b) -> same (dot3 a b) (dot3 a' b).
Proof.
  intros (A0 & A1 & A2) (B0 & B1 & B2) F. unfold dot3 in *.
  pose proof (add_parts _ _ F) as [F01 F2]. pose proof (add_parts _ _ F01) as [F0 F1].
  apply same_add2; [|apply same_mul2; auto using same_refl|exact F].
  apply same_add2; [| |exact F01]; apply same_mul2; auto using same_refl.
Qed.
Lemma same_pt (T' T : pose Ffld) (p : vec4 Ffld) : same_pose T' T -> all3 (fun x => fin x) (head p) -> fin (vw p) ->
  vfinite (pose_pt T p : vec4 Fnum) -> same4 (pose_pt T' p) (pose_pt T p).
Proof.
  intros (R0 & R1 & R2 & (T0 & T1 & T2)) Hp Hw (F0 & F1 & F2 & F3).
  pose proof (add_parts _ _ F0) as [F0a F0b]. pose proof (add_parts _ _ F1) as [F1a F1b]. pose proof (add_parts _ _ F2) as [F2a F2b].
  split; [|split; [|split]].
  - apply same_add2; [apply same_dot; auto|apply same_mul2; auto using same_refl|exact F0].
  - apply same_add2; [apply same_dot; auto|apply same_mul2; auto using same_refl|exact F1].
  - apply same_add2; [apply same_dot; auto|apply same_mul2; auto using same_refl|exact F2].
  - apply same_refl. exact Hw.
Qed.
Lemma same_zero x : same x (B754_zero false) -> isz x.
Proof. intros (F & _ & E). split; assumption. Qed.
Lemma pick0 (a b : v3 Ffld) : all3 (fun x => fin x) a -> p0 b = f64_of 1 0 -> isz (p1 b) -> isz (p2 b) -> same (dot3 a b) (p0 a).
Proof.
  intros (A0 & A1 & A2) E Z1 Z2. unfold dot3. rewrite E. apply add_isz; [|apply isz_mul_r; assumption].
  apply add_isz; [|apply isz_mul_r; assumption]. apply mul_one_r, same_refl, A0.
Qed.
Lemma pick1 (a b : v3 Ffld) : all3 (fun x => fin x) a -> isz (p0 b) -> p1 b = f64_of 1 0 -> isz (p2 b) -> same (dot3 a b) (p1 a).
Proof.
  intros (A0 & A1 & A2) Z0 E Z2. unfold dot3. rewrite E. apply add_isz; [|apply isz_mul_r; assumption].
  apply add_isz_l; [|apply isz_mul_r; assumption]. apply mul_one_r, same_refl, A1.
Qed.
Lemma pick2 (a b : v3 Ffld) : all3 (fun x => fin x) a -> isz (p0 b) -> isz (p1 b) -> p2 b = f64_of 1 0 -> same (dot3 a b) (p2 a).
Proof.
  intros (A0 & A1 & A2) Z0 Z1 E. unfold dot3. rewrite E. apply add_isz_l; [apply mul_one_r, same_refl, A2|].
  apply isz_add; apply isz_mul_r; assumption.
Qed.
Lemma keep_pose (T E : pose Ffld) : allm (fun x => fin x) (rot T) -> all3 (fun x => fin x) (tra T) -> same_pose E pose_id -> same_pose (pose_mul T E) T.
Proof.
  intros (R0 & R1 & R2) (T0 & T1 & T2) ((E00 & E01 & E02) & (E10 & E11 & E12) & (E20 & E21 & E22) & (E0 & E1 & E2)).
  apply same_one in E00, E11, E22. apply same_zero in E01, E02, E10, E12, E20, E21, E0, E1, E2.
  assert (RR : forall a : v3 Ffld, all3 (fun x => fin x) a -> same3 (P3 (D := Ffld) (dot3 a (c0 (rot E))) (dot3 a (c1 (rot E))) (dot3 a (c2 (rot E)))) a).
  { intros a A. split; [|split]; cbn [p0 p1 p2]; [apply pick0|apply pick1|apply pick2]; assumption. }
  assert (TT : forall (a : v3 Ffld) (t : f64), all3 (fun x => fin x) a -> fin t -> same (f64_add (dot3 a (tra E)) t) t).
  { intros a t A Ft. apply add_isz_l; [apply same_refl, Ft|]. apply isz_dot; [exact A|]. split; [|split]; assumption. }
  split; [|split; [|split]]; [apply RR; assumption|apply RR; assumption|apply RR; assumption|].
  split; [|split]; apply TT; assumption.
Qed.

(** * Factors *)
Definition sumG (n : nat) (s : sys Ffld) : Prop := allm6 (upto_n n) (sH s) /\ all6 isz (sb s) /\ isz (se s).
Lemma allm_n1 a x : (a <= 92)%Z -> allm (upto a) x -> allm (upto_n 1) x.
Proof. intros L. apply allm_impl. intros y. apply upto_n_one. exact L. Qed.
Lemma jtj_n1 a (J : jac Ffld) : (-500 <= a <= 40)%Z -> allm (upto a) (jr J) -> allm (upto a) (jt J) -> allm6 (upto_n 1) (jtj J).
Proof.
  intros L A B. split; [|split; [|split]]; apply (allm_n1 (a + a + 2)); try lia; apply upto_mm; try lia; auto; apply allm_tr; assumption.
Qed.
Lemma jwj_n1 (J : jac Ffld) W : allm (upto 24) (jr J) -> allm (upto 24) (jt J) -> allm (upto 40) W -> allm6 (upto_n 1) (jwj J W).
Proof.
  intros A B C. split; [|split; [|split]]; apply (allm_n1 ((24 + 40 + 2) + 24 + 2)); try lia; (apply upto_mm; [lia| |assumption]);
    (apply upto_mm; [lia| |assumption]); apply allm_tr; assumption.
Qed.
Lemma allm_le a b x : (a <= b)%Z -> allm (upto a) x -> allm (upto b) x.
Proof. intros L. apply allm_impl. intros y. apply upto_le. exact L. Qed.
Definition isz4 (r : vec4 Ffld) : Prop := all3 isz (head r) /\ isz (vw r).
Lemma isz4_sub (q m : vec4 Ffld) : same4 q m -> isz4 (vsub q m).
Proof. intros (A & B & C & D). split; [split; [|split]|]; apply isz_sub; assumption. Qed.
Lemma isz4_norm r : isz4 r -> isz (nmul (n := fbase Ffld) fhalf (sqnorm4 r)).
Proof.
  intros ((A & B & C) & D). apply isz_half. unfold sqnorm4.
  apply isz_add; apply isz_add; (apply isz_mul_r; [apply isz_finite; assumption|assumption]).
Qed.
Lemma isz4_mul (n r : vec4 Ffld) : all3 (fun x => fin x) (head n) -> fin (vw n) -> isz4 r -> isz4 (vmul n r).
Proof. intros (N0 & N1 & N2) N3 ((A & B & C) & D). split; [split; [|split]|]; apply isz_mul_r; assumption. Qed.

Section Run.
Context (k : kind) (target source : cloud Ffld) (T : pose Ffld).
Context (LE : lands_exactly target source T) (AP : told_apart target source T) (IR : in_range k target source T).
Context (FT : forall q : vec4 Fnum, In q (cl_points target) -> vfinite q).
Context (LN : k = PlaneICP -> (length (cl_points target) <= length (cl_normals target))%nat).
Context (LC : k = GICP -> (length (cl_points target) <= length (cl_covs target))%nat /\ (length (cl_points source) <= length (cl_covs source))%nat).
Context (order : sumtree) (FS : full_sum order) (nn : vec4 Ffld -> outcome (option (N * car Ffld))).
Context (NN : forall q, vfinite q -> exists found, nn q = Ok found /\ nearest_in (fsqd order) (cl_points target) q found).

(** A factor that [linearize] at T left behind. *)
Definition matched (f : factor Ffld) : Prop :=
  exists ti p q, f_target f = Some ti /\ nth_error (cl_points source) (f_source f) = Some p /\
    nth_error (cl_points target) (N.to_nat ti) = Some q /\ same4 q (pose_pt T p) /\
    (k = GICP -> allm (upto 40) (f_maha f)).

Lemma point_jac_upto p : In p (cl_points source) -> allm (upto 24) (jr (point_jac T p)) /\ allm (upto 24) (jt (point_jac T p)).
Proof.
  intros Hp. destruct IR as (P & R & _). destruct (P p Hp) as [Hh _]. split; cbn [point_jac jr jt].
  - change 24%Z with (2 + 20 + 2)%Z. apply upto_mm; [lia|exact R|]. apply upto_skew. exact Hh.
  - apply (allm_le 2); [lia|]. apply upto_mopp. exact R.
Qed.
Lemma plane_jac_upto p n : In p (cl_points source) -> all3 (upto 10) (head n) ->
  allm (upto 36) (jr (plane_jac T n p)) /\ allm (upto 36) (jt (plane_jac T n p)).
Proof.
  intros Hp Hn. destruct IR as (P & R & _). destruct (P p Hp) as [Hh _]. split; cbn [plane_jac jr jt].
  - change 36%Z with ((10 + 2 + 2) + 20 + 2)%Z. apply upto_mm; [lia| |apply upto_skew; exact Hh].
    apply upto_mm; [lia| |exact R]. apply upto_diag. exact Hn.
  - apply (allm_le (10 + 2 + 2)); [lia|]. apply upto_mm; [lia|apply upto_diag; exact Hn|]. apply upto_mopp. exact R.
Qed.

Lemma linearize_zero (x : f64) si f : (si < length (cl_points source))%nat ->
  exists f' s, linearize nn (distance_rejector (D := Ffld) (f64_mul x x)) (cloud_viewN target) (cloud_view source) k T si f = Ok (f', Some s) /\
    matched f' /\ sumG 1 s.
Proof.
  intros L. destruct (get_lt (cl_points source) si L) as [p Ep]. unfold linearize. cbn [cloud_view at_point]. rewrite Ep. cbn [bind].
  apply get_Ok in Ep. pose proof (nth_error_In _ _ Ep) as Ip. destruct (LE p Ip) as (q0 & I0 & S0).
  destruct (same4_finite _ _ S0) as [_ Fm].
  destruct (NN (pose_pt T p) Fm) as (found & -> & Hn). cbn [bind].
  destruct (nearest_zero order (cl_points target) (pose_pt T p) q0 found FS FT (fun q => AP p q Ip) I0 S0 Hn) as (ti & d & q & -> & Eq & Sq & Zd).
  unfold distance_rejector. change (nlt (n := fbase Ffld) (f64_mul x x) d) with (f64_lt (f64_mul x x) d). rewrite (square_limit x d Zd).
  unfold linearize_at, residual. cbn [cloud_viewN cloud_view at_point at_normal at_cov]. unfold get.
  change (nth_error (A := vec4 (fbase Ffld)) (cl_points target) (N.to_nat ti) = Some q) in Eq.
  rewrite Eq, Ep. cbn [bind]. pose proof (isz4_sub q (pose_pt T p) Sq) as R4.
  assert (Lt : (N.to_nat ti < length (cl_points target))%nat) by (apply nth_error_Some; rewrite Eq; discriminate).
  pose proof IR as IR'. destruct IR' as (_ & _ & _ & K & _).
  pose proof (point_jac_upto p Ip) as [J1 J2]. pose proof (fun n => plane_jac_upto p n Ip) as PJ.
  assert (HM : forall M, (k = GICP -> allm (upto 40) M) -> matched (mkFactor (Some ti) si M)).
  { intros M HM. exists ti, p, q. cbn [f_target f_source f_maha]. auto. }
  destruct k.
  - eexists _, _. split; [reflexivity|]. split; [apply HM; discriminate|].
    split; [|split].
    + apply (jtj_n1 24); [lia|exact J1|exact J2].
    + apply isz_jtr; [eapply allm_fin; exact J1|eapply allm_fin; exact J2|exact (proj1 R4)].
    + apply isz4_norm. exact R4.
  - destruct (nth_error (cl_normals target) (N.to_nat ti)) as [n|] eqn:En; [|apply nth_error_None in En; specialize (LN eq_refl); lia].
    cbn [bind]. destruct (K n (nth_error_In _ _ En)) as [Hn1 Hn2].
    assert (R5 : isz4 (vmul n (vsub q (pose_pt T p)))) by (apply isz4_mul; [eapply all3_fin; exact Hn1|exact Hn2|exact R4]).
    eexists _, _. split; [reflexivity|]. split; [apply HM; discriminate|].
    clear J1 J2. destruct (PJ n Hn1) as [J1 J2]. split; [|split].
    + apply (jtj_n1 36); [lia|exact J1|exact J2].
    + apply isz_jtr; [eapply allm_fin; exact J1|eapply allm_fin; exact J2|exact (proj1 R5)].
    + apply isz4_norm. exact R5.
  - destruct (LC eq_refl) as [LC1 LC2].
    destruct (nth_error (cl_covs target) (N.to_nat ti)) as [ct|] eqn:Ect; [|apply nth_error_None in Ect; lia].
    destruct (nth_error (cl_covs source) si) as [cs|] eqn:Ecs; [|apply nth_error_None in Ecs; lia].
    cbn [bind]. pose proof (K _ _ _ _ Ect Ecs) as KM. cbv zeta.
    eexists _, _. split; [reflexivity|]. split; [apply HM; intros _; exact KM|].
    split; [|split].
    + apply jwj_n1; assumption.
    + apply isz_jtr; [eapply allm_fin; exact J1|eapply allm_fin; exact J2|].
      apply isz_mv; [eapply allm_fin; exact KM|exact (proj1 R4)].
    + apply isz_quad; [eapply allm_fin; exact KM|exact (proj1 R4)].
Qed.

Lemma error_zero T' f : same_pose T' T -> matched f -> exists e, error (cloud_viewN target) (cloud_view source) k T' f = Ok e /\ isz e.
Proof.
  intros S (ti & p & q & Et & Ep & Eq & Sq & HM). unfold error. rewrite Et. unfold residual.
  cbn [cloud_viewN cloud_view at_point at_normal at_cov]. unfold get. rewrite Eq, Ep. cbn [bind].
  pose proof (nth_error_In _ _ Ep) as Ip. pose proof IR as (P & _ & _ & K & _). destruct (P p Ip) as [Hh Hw].
  assert (S' : same4 q (pose_pt T' p)).
  { destruct (same4_finite _ _ Sq) as [_ Fm].
    destruct (same_pt T' T p S (all3_fin 20 _ Hh) Hw Fm) as (A & B & C & D). destruct Sq as (A' & B' & C' & D').
    repeat (split; [eapply same_trans; [eassumption|apply same_sym; assumption]|]). eapply same_trans; [eassumption|apply same_sym; assumption]. }
  pose proof (isz4_sub q (pose_pt T' p) S') as R4.
  assert (Lt : (N.to_nat ti < length (cl_points target))%nat) by (apply nth_error_Some; rewrite Eq; discriminate).
  destruct k.
  - eexists. split; [reflexivity|]. apply isz4_norm. exact R4.
  - destruct (nth_error (cl_normals target) (N.to_nat ti)) as [n|] eqn:En; [|apply nth_error_None in En; specialize (LN eq_refl); lia].
    cbn [bind]. destruct (K n (nth_error_In _ _ En)) as [Hn1 Hn2].
    eexists. split; [reflexivity|]. apply isz4_norm, isz4_mul; [eapply all3_fin; exact Hn1|exact Hn2|exact R4].
  - eexists. split; [reflexivity|]. apply isz_quad; [eapply allm_fin, HM; reflexivity|exact (proj1 R4)].
Qed.
End Run.

(** * The optimizer *)
Lemma all6_opp v : all6 isz v -> all6 isz (opp6 v).
Proof. intros ((A & B & C) & (D & E & F)). split; (split; [|split]); apply isz_opp; assumption. Qed.
Lemma upto_one : upto 0 (f64_of 1 0).
Proof.
  split; [reflexivity|].
  assert (f64_of 1 0 = @B754_finite 53 1024 false 4503599627370496 (-52) eq_refl) as -> by (apply B2SF_inj; vm_compute; reflexivity).
  unfold B2R, F2R. cbn [Defs.Fnum Fexp cond_Zopp].
  change 4503599627370496%Z with (radix2 ^ 52)%Z. rewrite (IZR_Zpower radix2 52) by lia. rewrite <- bpow_plus.
  rewrite Rabs_pos_eq by apply bpow_ge_0. apply Rle_refl.
Qed.
Lemma damp_diag x lambda : upto 124 x -> upto 124 lambda -> upto 128 (f64_add x (f64_mul lambda (f64_of 1 0))).
Proof.
  intros X L. apply (upto_le (124 + 1)); [lia|]. apply upto_add; [lia|exact X|].
  change 124%Z with (124 + 0)%Z. apply upto_mul; [lia|exact L|apply upto_one].
Qed.
Lemma damp_off x lambda : upto 124 x -> upto 124 lambda -> upto 128 (f64_add x (f64_mul lambda (B754_zero false))).
Proof.
  intros X L. apply (upto_le (124 + 1)); [lia|]. apply upto_add; [lia|exact X|].
  change 124%Z with (124 + 0)%Z. apply upto_mul; [lia|exact L|apply (upto_zero 0)].
Qed.
Lemma damped_upto H lambda : allm6 (upto 124) H -> upto 124 lambda -> allm6 (upto 128) (damped H lambda).
Proof.
  intros (((A0 & A1 & A2) & (A3 & A4 & A5) & (A6 & A7 & A8)) & ((B0 & B1 & B2) & (B3 & B4 & B5) & (B6 & B7 & B8)) &
    ((C0 & C1 & C2) & (C3 & C4 & C5) & (C6 & C7 & C8)) & ((D0 & D1 & D2) & (D3 & D4 & D5) & (D6 & D7 & D8))) L.
  split; [|split; [|split]]; (split; [|split]); (split; [|split]);
    first [apply (damp_off _ lambda); assumption | apply (damp_diag _ lambda); assumption].
Qed.
Lemma converged_zero (c : criteria Ffld) d : f64_le (f64_of 0 0) (translation_eps c) = true -> f64_le (f64_of 0 0) (rotation_eps c) = true ->
  all6 isz d -> converged c d = true.
Proof.
  intros Ht Hr [Z1 Z2]. unfold converged.
  assert (N : forall v : v3 Ffld, all3 isz v -> isz (norm3 v)) by (intros v V; apply isz_sqrt; apply isz_dot; [apply isz_fin3, V|exact V]).
  change (nle (n := fbase Ffld)) with f64_le. rewrite (isz_le _ _ (N _ Z1) Hr), (isz_le _ _ (N _ Z2) Ht). reflexivity.
Qed.

Section Align.
Context (solve : m6 Ffld -> v6 Ffld -> v6 Ffld) (exp6 : v6 Ffld -> pose Ffld).
Context (SZ : answers_zero solve) (EZ : zero_to_identity exp6).
Context (omp_lin : nat -> (nat -> factor Ffld -> outcome (factor Ffld * option (sys Ffld))) ->
                   list (factor Ffld) -> outcome (list (factor Ffld) * sys Ffld)).
Context (omp_err : nat -> (factor Ffld -> outcome f64) -> list (factor Ffld) -> outcome f64).
Context (OL : forall threads lin fs, (0 < threads)%nat -> omp_linearized sys_zero sys_add threads lin fs (omp_lin threads lin fs)).
Context (OE : forall threads err fs, (0 < threads)%nat -> omp_summed (nzero (n := fbase Ffld)) nadd threads err fs (omp_err threads err fs)).
Lemma sumG_zero : sumG 0 sys_zero.
Proof.
  assert (Z : upto_n 0 (B754_zero false)) by exact upto_n_zero. assert (Y : isz (B754_zero false)) by apply isz_zero.
  repeat split; solve [exact (proj1 Z)|exact (proj2 Z)|exact (proj1 Y)|exact (proj2 Y)].
Qed.
Lemma sumG_add N n m a b : (Z.of_nat N < 2 ^ 32)%Z -> (n + m <= N)%nat -> sumG n a -> sumG m b -> sumG (n + m) (sys_add a b).
Proof.
  intros LN L ((A1 & A2 & A3 & A4) & (A5 & A6) & A7) ((B1 & B2 & B3 & B4) & (B5 & B6) & B7).
  assert (AM : forall x y, allm (upto_n n) x -> allm (upto_n m) y -> allm (upto_n (n + m)) (madd3 x y)).
  { intros x y ((X0 & X1 & X2) & (X3 & X4 & X5) & (X6 & X7 & X8)) ((Y0 & Y1 & Y2) & (Y3 & Y4 & Y5) & (Y6 & Y7 & Y8)).
    split; [|split]; (split; [|split]); apply upto_n_add; auto; lia. }
  assert (AZ : forall x y, all3 isz x -> all3 isz y -> all3 isz (add3 x y)).
  { intros x y (X0 & X1 & X2) (Y0 & Y1 & Y2). split; [|split]; apply isz_add; assumption. }
  split; [split; [|split; [|split]]; apply AM; assumption|]. split; [split; apply AZ; assumption|]. apply isz_add; assumption.
Qed.

Lemma align_kept k (reg : registration Ffld) target source T (x : f64) order (nn : vec4 Ffld -> outcome (option (N * car Ffld))) :
  lands_exactly target source T -> told_apart target source T -> in_range k target source T ->
  (forall q : vec4 Fnum, In q (cl_points target) -> vfinite q) ->
  (k = PlaneICP -> (length (cl_points target) <= length (cl_normals target))%nat) ->
  (k = GICP -> (length (cl_points target) <= length (cl_covs target))%nat /\ (length (cl_points source) <= length (cl_covs source))%nat) ->
  full_sum order -> (forall q, vfinite q -> exists found, nn q = Ok found /\ nearest_in (fsqd order) (cl_points target) q found) ->
  (1 <= reg_num_threads reg)%Z -> (1 <= lm_max_iterations (reg_optimizer reg))%Z -> (1 <= lm_max_inner (reg_optimizer reg))%Z ->
  reg_max_dist_sq reg = f64_mul x x -> upto 124 (lm_init_lambda (reg_optimizer reg)) ->
  f64_le (f64_of 0 0) (translation_eps (reg_criteria reg)) = true -> f64_le (f64_of 0 0) (rotation_eps (reg_criteria reg)) = true ->
  exists r log, registration_align solve exp6 omp_lin omp_err k reg (cloud_viewN target) source nn T = Ok (r, log) /\
    kept64 T (length (cl_points source)) r.
Proof using SZ EZ OL OE.
  intros LE AP IR FT LN LC FS NN Th It Inn EL UL Te Re.
  pose proof (linearize_zero k target source T LE AP IR FT LN LC order FS nn NN x) as LZ.
  pose proof (error_zero k target source T IR FT LN LC order nn NN) as ER.
  unfold registration_align, levenberg_marquardt. rewrite EL.
  destruct (Z.to_nat (lm_max_iterations (reg_optimizer reg))) as [|n] eqn:En; [lia|].
  destruct (Z.to_nat (lm_max_inner (reg_optimizer reg))) as [|ni] eqn:Ei; [lia|].
  cbn [lm_loop result_init r_converged r_T r_inliers]. rewrite Ei. clear En Ei.
  set (threads := Z.to_nat (reg_num_threads reg)). assert (Tp : (0 < threads)%nat) by lia. clearbody threads.
  set (N := length (cl_points source)) in *. set (fs0 := initial_factors N).
  assert (L0 : length fs0 = N) by apply repeat_length.
  set (lin := linearize nn (distance_rejector (D := Ffld) (f64_mul x x)) (cloud_viewN target) (cloud_view source) k T) in *.
  assert (UB : forall i f, (N <= i)%nat -> lin i f = UB).
  { intros i f Li. unfold lin, linearize. cbn [cloud_view at_point]. unfold get.
    destruct (nth_error (cl_points source) i) eqn:E; [|reflexivity]. exfalso. apply nth_error_None in Li. unfold N in Li. congruence. }
  assert (AD : all_defined lin fs0).
  { intros i f Ef. assert (Li : (i < N)%nat) by (rewrite <- L0; apply nth_error_Some; congruence).
    destruct (LZ i f Li) as (f' & s & E & _). eauto. }
  pose proof (OL threads lin fs0 Tp) as HL. destruct (omp_total _ _ _ _ _ _ AD threads _ Tp HL) as (fs & s & E).
  rewrite E in HL |- *. cbn [bind null_factor upd_sys].
  destruct (omp_linearized_shape _ _ _ _ _ _ _ _ _ HL) as [Lf Sh].
  assert (M : Forall (matched k target source T) fs).
  { apply Forall_forall. intros f' Hf. apply In_nth_error in Hf. destruct Hf as [i E'].
    assert (Li : (i < length fs0)%nat) by (rewrite <- Lf; apply nth_error_Some; congruence).
    destruct (nth_error fs0 i) as [f|] eqn:Ef; [|apply nth_error_None in Ef; lia].
    destruct (Sh i f Ef) as (f1 & r1 & El & Eq). rewrite L0 in Li. destruct (LZ i f Li) as (f2 & s2 & El2 & Hm & _). congruence. }
  pose proof IR as (_ & RT & TT & _ & LN2).
  destruct (omp_linearized_counted (factor Ffld) (sys Ffld) sys_zero sys_add lin N sumG sumG_zero (fun a b c d => sumG_add N a b c d LN2)
    (fun _ => True)) with (threads := threads) (fs := fs0) (fs' := fs) (s := s) as (m & Lm & G); [|apply Forall_forall; auto|rewrite L0; apply le_n|exact HL|].
  { intros i f f' r _ El. split; [exact I|]. intros s1 ->. destruct (Nat.lt_ge_cases i N) as [Li|Li].
    - destruct (LZ i f Li) as (f2 & s2 & El2 & _ & G). congruence.
    - rewrite (UB i f Li) in El. discriminate. }
  destruct G as (GH & Gb & Ge).
  assert (Zd : all6 isz (solve (damped (sH s) (lm_init_lambda (reg_optimizer reg))) (opp6 (sb s)))).
  { apply SZ; [|apply all6_opp; exact Gb]. apply damped_upto; [|exact UL].
    assert (W : forall y, upto_n m y -> upto 124 y) by (intros y; apply upto_n_upto; lia).
    destruct GH as (A & B & C & D). split; [|split; [|split]]; (eapply allm_impl; [exact W|assumption]). }
  cbn [lm_inner].
  set (delta := solve (damped (sH s) (lm_init_lambda (reg_optimizer reg))) (opp6 (sb s))) in *.
  set (T' := pose_mul T (exp6 delta)).
  assert (ST : same_pose T' T) by (apply keep_pose; [eapply allm_fin; exact RT|exact TT|apply EZ; exact Zd]).
  pose proof (OE threads (error (cloud_viewN target) (cloud_view source) k T') fs Tp) as HE.
  destruct (omp_sum_total _ _ _ _ _ _ (fun f Hf => let '(ex_intro _ e (conj a _)) := ER T' f ST (proj1 (Forall_forall _ _) M f Hf) in ex_intro _ e a) HE) as (ne & Ee).
  rewrite Ee in HE |- *. cbn [bind null_factor upd_err].
  assert (Zne : isz ne).
  { assert (X : exists m, (m <= N)%nat /\ isz ne); [|destruct X as (_ & _ & X); exact X].
    refine (omp_summed_counted (nzero (n := fbase Ffld)) nadd _ N (fun _ => isz) threads fs ne (isz_zero false) _ _ _ HE).
    - intros _ _ a b _. apply isz_add.
    - intros f e Hf He. destruct (ER T' f ST (proj1 (Forall_forall _ _) M f Hf)) as (e' & He' & Z). congruence.
    - rewrite Lf, L0. apply le_n. }
  change (nle (n := fbase Ffld) ne (se s)) with (f64_le ne (se s)). rewrite (isz_le_self ne (se s) Zne Ge). cbn [bind i_step i_e i_lambda].
  pose proof (converged_zero (reg_criteria reg) delta Te Re Zd) as Cv. rewrite Cv.
  assert (Lp : forall lin' err' c i r l, r_converged r = true -> lm_loop lin' err' null_factor solve exp6 (reg_criteria reg) c n i r l fs = Ok (r, fs, [])).
  { intros lin' err' c i r l Hr. destruct n; cbn [lm_loop]; [reflexivity|]. rewrite Hr. reflexivity. }
  rewrite Lp by reflexivity. cbn [bind fst snd]. eexists _, _. split; [reflexivity|].
  unfold kept64. cbn [set_inliers r_T r_converged r_iterations r_inliers r_b r_error].
  split; [exact ST|]. split; [reflexivity|]. split; [reflexivity|]. split; [|split; assumption].
  unfold count_inliers. rewrite <- L0, <- Lf. clear -M. induction M as [|f fs Hf M IH]; [reflexivity|].
  cbn [filter]. destruct Hf as (ti & p & q & Et & _). unfold inlier at 1. rewrite Et. cbn [length]. f_equal. exact IH.
Qed.
End Align.
