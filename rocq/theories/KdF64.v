(** The kd-tree in IEEE-754 doubles with axis-aligned splits: the environment hypotheses
    of [KdTop] hold. *)
From Coq Require Import Reals Lra Psatz ZifyBool ZifyNat ZifyN.
From Flocq Require Import Core IEEE754.BinarySingleNaN.
From Verif Require Import Base BaseProofs Num Vec F64 F64Proofs KnnModel KnnSpec KnnProofs
  KdModel KdSpec KdProofs KdSearchProofs KdTop.
Ltac Zify.zify_post_hook ::= Z.div_mod_to_equations.
Open Scope R_scope.

(** fma(x, x, t) for a non-negative addend. *)
Lemma fma_pos_val x t : notnan x -> notnan t -> 0 <= val t ->
  notnan (f64_fma x x t) /\ val (f64_fma x x t) = rx (val x * val x + val t).
Proof.
  intros Hx Ht Pt. pose proof E1024_pos as EP.
  assert (E1 : 1 <= E1024). { change 1 with (bpow radix2 0). apply bpow_le. lia. }
  assert (HI : forall z, E1024 <= z -> rx z = E1024).
  { intros z Hz. apply Rle_antisym.
    - unfold rx, sat. apply Rmax_lub; [lra|apply Rmin_r].
    - replace E1024 with (rx (val f64_inf)) at 1 by (apply rx_val; reflexivity).
      apply rx_le. simpl. lra. }
  destruct (is_finite x) eqn:Fx, (is_finite t) eqn:Ft.
  - rewrite (finite_val x), (finite_val t) in * by assumption. unfold f64_fma.
    pose proof (Bfma_correct 53 1024 _ _ mode_NE x x t Fx Fx Ft) as C. cbv zeta in C.
    cbn [round_mode] in C. fold (rnd (B2R x * B2R x + B2R t)) in C. fold E1024 in C.
    destruct (Rlt_bool_spec (Rabs (rnd (B2R x * B2R x + B2R t))) E1024) as [L|G].
    + destruct C as (C1 & C2 & _). split; [apply finite_notnan; exact C2|].
      rewrite finite_val by exact C2. rewrite C1. unfold rx. symmetry. apply sat_in.
      apply Rabs_lt_inv in L. lra.
    + rewrite Rlt_bool_false in C by nra.
      unfold binary_overflow, overflow_to_inf in C. apply B2SF_inf in C. rewrite C.
      split; [reflexivity|]. cbn [val].
      assert (0 <= rnd (B2R x * B2R x + B2R t)). { rewrite <- rnd_0. apply rnd_le. nra. }
      rewrite Rabs_pos_eq in G by auto. unfold rx. rewrite sat_hi by lra. reflexivity.
  - destruct t as [s|[]| |s m e B]; try discriminate; simpl in Pt; try lra.
    rewrite HI by (cbn [val]; nra). unfold f64_fma.
    destruct x as [s'|s'| |s' m' e' B']; try discriminate; simpl; auto.
  - destruct x as [s|s| |s m e B]; try discriminate.
    rewrite HI by (destruct s; cbn [val]; nra). unfold f64_fma. simpl. rewrite xorb_nilpotent.
    destruct t as [s'|s'| |s' m' e' B']; try discriminate; simpl; auto.
  - destruct x as [s|s| |s m e B]; try discriminate.
    destruct t as [s'|[]| |s' m' e' B']; try discriminate; simpl in Pt; try lra.
    rewrite HI by (destruct s; cbn [val]; nra). unfold f64_fma. simpl. rewrite xorb_nilpotent.
    simpl. auto.
Qed.

Definition vnotnan (v : vec4 Fnum) : Prop :=
  notnan (vx v) /\ notnan (vy v) /\ notnan (vz v) /\ notnan (vw v).
(** All four coordinates are finite doubles. *)
Definition vfinite (v : vec4 Fnum) : Prop :=
  finite (vx v) /\ finite (vy v) /\ finite (vz v) /\ finite (vw v).

Lemma vcomp_notnan v i : vnotnan v -> notnan (vcomp v i).
Proof. intros (a & b & c & d). destruct i as [|[|[|i]]]; simpl; auto. Qed.
Lemma vcomp_finite v i : vfinite v -> finite (vcomp v i).
Proof. intros (a & b & c & d). destruct i as [|[|[|i]]]; simpl; auto. Qed.
Lemma vcomp_vsub (a b : vec4 Fnum) i : vcomp (vsub a b) i = f64_sub (vcomp a i) (vcomp b i).
Proof. destruct i as [|[|[|i]]]; reflexivity. Qed.
Lemma vsub_notnan a b : vfinite a -> vfinite b -> vnotnan (vsub a b).
Proof.
  intros (a1 & a2 & a3 & a4) (b1 & b2 & b3 & b4).
  repeat split; apply sub_val; auto.
Qed.

(** Any evaluation order, with or without contraction, dominates each square. *)
Lemma sum_eval_ge t v : vnotnan v ->
  notnan (sum_eval (D := Fnum) f64_fma t v) /\ 0 <= val (sum_eval (D := Fnum) f64_fma t v) /\
  forall i, In i (sum_leaves t) ->
    val (f64_mul (vcomp v i) (vcomp v i)) <= val (sum_eval (D := Fnum) f64_fma t v).
Proof.
  intros Hv. induction t as [i|l IHl r IHr|i t IH]; cbn [sum_eval sum_leaves].
  - pose proof (vcomp_notnan v i Hv) as Hi. cbn [nmul Fnum].
    split; [apply sq_val; auto|]. split; [apply sq_nonneg; auto|].
    intros j [<-|[]]. lra.
  - destruct IHl as (l1 & l2 & l3). destruct IHr as (r1 & r2 & r3). cbn [nadd Fnum].
    pose proof (add_pos_ge_l _ _ l1 r1 l2 r2). pose proof (add_pos_ge_r _ _ l1 r1 l2 r2).
    split; [apply add_pos_val; auto|]. split; [lra|].
    intros j Hj. apply in_app_iff in Hj. destruct Hj as [Hj|Hj]; [apply l3 in Hj|apply r3 in Hj]; lra.
  - destruct IH as (t1 & t2 & t3). pose proof (vcomp_notnan v i Hv) as Hi.
    destruct (fma_pos_val (vcomp v i) _ Hi t1 t2) as [F1 F2].
    split; [exact F1|]. rewrite F2.
    set (s := val (sum_eval _ t v)) in *. set (x := val (vcomp v i)) in *.
    assert (A : s <= rx (x * x + s)).
    { replace s with (rx s) at 1 by (apply rx_val; auto). apply rx_le. nra. }
    split; [lra|]. intros j [<-|Hj].
    + destruct (sq_val (vcomp v i) Hi) as [_ ->]. apply rx_le. fold x. lra.
    + apply t3 in Hj. fold s in Hj. lra.
Qed.

Section Dist.
Context (order : sumtree) (FS : full_sum order).
Definition fsqd : vec4 Fnum -> vec4 Fnum -> car Fnum := sq_dist (D := Fnum) f64_fma order.

Lemma fsqd_ok p q : vfinite p -> vfinite q -> notnan (fsqd p q).
Proof. intros Hp Hq. apply sum_eval_ge. apply vsub_notnan; auto. Qed.

Lemma fsqd_nonneg p q : vfinite p -> vfinite q -> f64_lt (fsqd p q) (B754_zero false) = false.
Proof.
  intros Hp Hq. apply f64_lt_val_false; [apply fsqd_ok; auto|reflexivity|].
  cbn [val]. simpl. apply sum_eval_ge. apply vsub_notnan; auto.
Qed.

Lemma axis_prune q : vfinite q ->
  prune_law Fnum notnan (vec4 Fnum) fsqd nat axis_apply q vfinite (fun a => (a < 3)%nat).
Proof.
  intros Hq a p m Ha Hp Hm. cbv zeta. unfold axis_apply. cbn [nsub nmul nlt Fnum nzero].
  pose proof (vcomp_finite q a Hq) as Fq. pose proof (vcomp_finite p a Hp) as Fp.
  pose proof (vcomp_finite m a Hm) as Fm.
  destruct (sub_val _ _ Fq Fm) as [D1 D2]. destruct (sub_val _ _ Fp Fq) as [P1 P2].
  set (diff := f64_sub (vcomp q a) (vcomp m a)) in *.
  set (pd := f64_sub (vcomp p a) (vcomp q a)) in *.
  pose proof (vsub_notnan p q Hp Hq) as Hv.
  destruct (sum_eval_ge order (vsub p q) Hv) as (S1 & S2 & S3).
  fold (sq_dist (D := Fnum) f64_fma order p q) in S1, S2, S3. fold (fsqd p q) in S1, S2, S3.
  assert (Hin : In a (sum_leaves order)).
  { eapply Permutation_in; [apply Permutation_sym; exact FS|]. simpl. lia. }
  specialize (S3 a Hin). rewrite vcomp_vsub in S3. fold pd in S3.
  assert (Hcut : notnan (f64_mul diff diff)) by (apply sq_val; auto).
  split; [exact Hcut|].
  apply finite_notnan in Fq as Nq. apply finite_notnan in Fp as Np. apply finite_notnan in Fm as Nm.
  split; intros Hd Hs; apply f64_lt_val_false; auto.
  - apply f64_lt_val in Hd; [|auto|reflexivity]. cbn [val] in Hd. simpl in Hd.
    apply f64_lt_val_false in Hs; auto. rewrite D2 in Hd.
    assert (val (vcomp q a) < val (vcomp m a)).
    { apply Rnot_le_lt. intros G. assert (rx 0 <= rx (val (vcomp q a) - val (vcomp m a))).
      { apply rx_le. lra. } rewrite rx_0 in *. lra. }
    eapply Rle_trans; [|exact S3]. apply sq_mono; auto. rewrite D2, P2.
    rewrite Rabs_left by lra. rewrite <- rx_opp.
    rewrite Rabs_pos_eq by (rewrite <- rx_0; apply rx_le; lra). apply rx_le. lra.
  - apply f64_lt_val_false in Hd; [|auto|reflexivity]. cbn [val] in Hd. simpl in Hd.
    apply f64_lt_val_false in Hs; auto. rewrite D2 in Hd.
    destruct (Rle_lt_dec (val (vcomp m a)) (val (vcomp q a))) as [L|G].
    + eapply Rle_trans; [|exact S3]. apply sq_mono; auto. rewrite D2, P2.
      rewrite Rabs_pos_eq by lra. rewrite Rabs_left1 by (rewrite <- rx_0; apply rx_le; lra).
      rewrite <- rx_opp. apply rx_le. lra.
    + assert (rx (val (vcomp q a) - val (vcomp m a)) = 0).
      { apply Rle_antisym; auto. rewrite <- rx_0. apply rx_le. lra. }
      destruct (sq_val diff D1) as [_ ->]. rewrite D2, H.
      replace (0 * 0) with 0 by ring. rewrite rx_0. exact S2.
Qed.
End Dist.

Close Scope R_scope.

(** The axis choice never leaves 0..2 and never reads outside the range. *)
Lemma choose_axis_lt {D : num} (s q : vec4 D) : choose_axis s q < 3.
Proof.
  unfold choose_axis. repeat match goal with |- context [if ?b then _ else _] => destruct b end; lia.
Qed.

Lemma scan_plan_ok n m : (0 < m <= 2 ^ 30)%Z -> 0 < n ->
  exists step steps, scan_plan n m = Ok (step, steps) /\ (1 <= step)%N /\
    (steps = N.of_nat n / step)%N /\ (steps < 2 * Z.to_N m)%N /\ (1 <= steps)%N.
Proof.
  intros Hm Hn. unfold scan_plan, size_t_of_int.
  rewrite Z.mod_small by lia.
  destruct (N.of_nat n <? Z.to_N m)%N eqn:E; cbn [bind].
  - exists 1%N, (N.of_nat n). change (1 =? 0)%N with false. cbv iota zeta. rewrite N.div_1_r.
    destruct (2147483647 <? N.of_nat n)%N eqn:E2; [lia|]. repeat split; lia.
  - destruct (Z.to_N m =? 0)%N eqn:E0; [lia|]. cbn [bind].
    set (mm := Z.to_N m) in *. set (nn := N.of_nat n) in *.
    assert (H1 : (1 <= nn / mm)%N) by (apply N.div_le_lower_bound; lia).
    destruct (nn / mm =? 0)%N eqn:E1; [lia|].
    assert (H2 : (nn / (nn / mm) < 2 * mm)%N).
    { apply N.div_lt_upper_bound; [lia|].
      pose proof (N.mul_succ_div_gt nn mm ltac:(lia)). nia. }
    assert (H3 : (1 <= nn / (nn / mm))%N).
    { apply N.div_le_lower_bound; [lia|]. rewrite N.mul_1_r. apply N.div_le_upper_bound; nia. }
    destruct (2147483647 <? nn / (nn / mm))%N eqn:E2; [exfalso; unfold mm in *; lia|].
    exists (nn / mm)%N, (nn / (nn / mm))%N. repeat split; auto.
Qed.

Lemma axis_find_ok {D : num} m (range : list (vec4 D)) : (0 < m <= 2 ^ 30)%Z -> range <> [] ->
  exists a, axis_find m range = Ok a /\ a < 3.
Proof.
  intros Hm Hr. unfold axis_find.
  destruct (scan_plan_ok (length range) m Hm) as (step & steps & E & Hs & Hst & _).
  { destruct range; simpl; [congruence|lia]. }
  rewrite E. cbn [bind].
  assert (HF : forall L s, (forall i, In i L -> i < length range) ->
    exists s', foldM (fun (s : vec4 D * vec4 D) i => let* pt := get range i in
       Ok (vadd (fst s) pt, vadd (snd s) (vmul pt pt))) L s = Ok s').
  { induction L as [|i L IH]; intros s HL; [eexists; reflexivity|].
    cbn [foldM]. destruct (nth_error range i) as [p|] eqn:Ei.
    - rewrite (proj2 (get_Ok _ _ _) Ei). cbn [bind]. apply IH. intros; apply HL; right; auto.
    - apply nth_error_None in Ei. specialize (HL i (or_introl eq_refl)). lia. }
  destruct (HF (scan_positions step steps) (vzero, vzero)) as (s' & Es).
  { intros i Hi. unfold scan_positions in Hi. apply in_map_iff in Hi. destruct Hi as (j & <- & Hj).
    apply in_seq in Hj.
    assert (step * steps <= N.of_nat (length range))%N by (subst steps; apply N.mul_div_le; lia).
    nia. }
  rewrite Es. cbn [bind]. eexists. split; [reflexivity|]. apply choose_axis_lt.
Qed.
