(** Runs of the optimizers in double precision keep the pose nearly rigid. *)
From Coq Require Import Reals ZArith Lra Lia Psatz List.
From Flocq Require Import Core IEEE754.BinarySingleNaN.
From Verif Require Import Base Num Vec F64 RNum Lin LinSpec LinProofs F64Proofs F64Err FlatSpec FlatRun FactorModel OptModel LieF64Model RigidSpec RigidLen RigidF64 RigidQuat RigidStep NanMap KeepF64 KeepF64Spec.
Import ListNotations.
Open Scope R_scope.

Lemma step_factor : 1 <= 1 + 128 * u64. Proof. pose proof u64_pos. lra. Qed.
Lemma drift_0 e : drift e 0 = e. Proof. unfold drift. rewrite pow_O. ring. Qed.
Lemma drift_S e k : drift e (S k) = (1 + drift e k) * (1 + 128 * u64) - 1.
Proof. unfold drift. change (bpow radix2 (-53)) with u64. cbn [pow]. ring. Qed.
Lemma drift_from e k : drift e (S k) = drift ((1 + e) * (1 + 128 * u64) - 1) k.
Proof. unfold drift. change (bpow radix2 (-53)) with u64. cbn [pow]. ring. Qed.
Lemma drift_mono e j k : 0 <= e -> (j <= k)%nat -> drift e j <= drift e k.
Proof.
  intros E H. unfold drift. pose proof (Rle_pow _ _ _ step_factor H) as P. change (bpow radix2 (-53)) with u64.
  assert ((1 + e) * (1 + 128 * u64) ^ j <= (1 + e) * (1 + 128 * u64) ^ k) by (apply Rmult_le_compat_l; lra). lra.
Qed.
Lemma drift_ge e k : 0 <= e -> e <= drift e k.
Proof. intros E. rewrite <- (drift_0 e) at 1. apply drift_mono; [exact E|lia]. Qed.
Lemma rigid_weaken d e M : rigid_within d M -> d <= e -> rigid_within e M.
Proof.
  intros (F & S & D) H. split; [exact F|]. split; [|lra]. exact (stretch_weaken d e (real33 M) S H).
Qed.

(** (1 + x)^k grows linearly as long as k x is small. *)
Lemma pow_linear x k : 0 <= x -> INR k * x <= 1 -> (1 + x) ^ k <= 1 + INR k * x * (1 + INR k * x).
Proof.
  intros X. induction k as [|k IH]; intros K; [simpl; lra|]. rewrite S_INR in *. pose proof (pos_INR k) as P.
  assert (K1 : INR k * x <= 1) by lra. specialize (IH K1). cbn [pow].
  apply Rle_trans with ((1 + x) * (1 + INR k * x * (1 + INR k * x))); [apply Rmult_le_compat_l; lra|].
  set (n := INR k) in *. assert (N0 : 0 <= n * x) by (apply Rmult_le_pos; lra).
  assert (A : n * x * (n * x) * x <= n * x * x) by (replace (n * x * x) with (n * x * 1 * x) by ring; apply Rmult_le_compat_r; [lra|apply Rmult_le_compat_l; lra]).
  assert (0 <= x * x) by nra. lra.
Qed.
Lemma drift_linear e k : 0 <= e -> (Z.of_nat k <= 10 ^ 9)%Z -> drift e k <= e + (1 + e) * (129 * INR k * u64).
Proof.
  intros E K. unfold drift. change (bpow radix2 (-53)) with u64. pose proof u64_pos as U.
  assert (UT : u64 <= 1.2e-16) by (unfold u64; change (bpow radix2 (-53)) with (/ IZR 9007199254740992); lra).
  assert (N : 0 <= INR k <= 1e9). { split; [apply pos_INR|]. rewrite INR_IZR_INZ. apply Rle_trans with (IZR (10 ^ 9)); [apply IZR_le; exact K|]. change (10 ^ 9)%Z with 1000000000%Z. lra. }
  set (n := INR k) in *. assert (X : n * (128 * u64) <= 1e-3). { apply Rle_trans with (1e9 * (128 * 1.2e-16)); [apply Rmult_le_compat; lra|lra]. }
  pose proof (pow_linear (128 * u64) k ltac:(lra) ltac:(fold n; lra)) as P. fold n in P.
  assert (Y0 : 0 <= n * u64) by (apply Rmult_le_pos; lra).
  assert (Q : n * (128 * u64) * (1 + n * (128 * u64)) <= n * (128 * u64) * 1.001) by (apply Rmult_le_compat_l; lra).
  assert (W : (1 + 128 * u64) ^ k <= 1 + 129 * n * u64) by lra.
  assert ((1 + e) * (1 + 128 * u64) ^ k <= (1 + e) * (1 + 129 * n * u64)) by (apply Rmult_le_compat_l; lra). lra.
Qed.

Section Run.
Context (fsin fcos : f64 -> f64) (AS : accurate fsin sin) (AC : accurate fcos cos).
Notation exp6 := (fse3_exp fsin fcos).

Lemma step_rigid e (T : pose Ffld) d : 0 <= e -> (1 + e) * (1 + 128 * u64) - 1 <= 1 / 100 -> rigid_within e (rot T) -> tame (rv d) ->
  rigid_within ((1 + e) * (1 + 128 * u64) - 1) (rot (pose_mul T (exp6 d))).
Proof using AS AC.
  intros E L R W. pose proof u64_pos as U. pose proof u64_tiny as UT. assert (EU : 0 <= e * u64) by (apply Rmult_le_pos; lra).
  pose proof (increment_rigid fsin fcos AS AC d W) as I. assert (UU : u64 * u64 <= 1e-12 * u64) by (apply Rmult_le_compat_r; lra).
  pose proof (compose_rigid e (87 * u64) (rot T) (rot (exp6 d)) E ltac:(lra) ltac:(lra) R I) as C.
  change (rot (pose_mul T (exp6 d))) with (mm3 (rot T) (rot (exp6 d))). apply (rigid_weaken _ _ _ C).
  apply Rplus_le_compat_r. rewrite Rmult_assoc. apply Rmult_le_compat_l; [lra|]. lra.
Qed.

Context (F : Type) (lin : pose Ffld -> list F -> outcome (list F * sys Ffld)) (err : pose Ffld -> list F -> outcome f64).
Context (g : general Ffld) (solve : m6 Ffld -> v6 Ffld -> v6 Ffld) (inl : F -> bool) (crit : criteria Ffld).

Lemma tame_cons (ev : event Ffld F) log : tame_run (ev :: log) -> tame_run log.
Proof using. intros H x d I. apply H. right. exact I. Qed.
Lemma tame_app (l1 l2 : list (event Ffld F)) : tame_run (l1 ++ l2) -> tame_run l1 /\ tame_run l2.
Proof using. intros H. split; intros x d I; apply H; apply in_or_app; auto. Qed.

Lemma next_drift e n : 0 <= e -> drift e (S n) <= 1 / 100 -> 0 <= (1 + e) * (1 + 128 * u64) - 1 <= 1 / 100.
Proof using.
  intros E L. pose proof u64_pos as U. assert (0 <= e * u64) by (apply Rmult_le_pos; lra). split; [lra|].
  apply Rle_trans with (drift e 1); [|apply Rle_trans with (2 := L); apply drift_mono; [exact E|lia]].
  rewrite drift_S, drift_0. lra.
Qed.

Lemma gn_rigid lambda n : forall e i r fs rf fsf log, 0 <= e -> drift e n <= 1 / 100 -> rigid_within e (rot (r_T r)) ->
  gn_loop lin g solve exp6 crit lambda n i r fs = Ok (rf, fsf, log) -> tame_run log -> rigid_within (drift e n) (rot (r_T rf)).
Proof using AS AC.
  induction n as [|n IH]; intros e i r fs rf fsf log E L R H W; cbn [gn_loop] in H.
  - injection H as <- _ _. rewrite drift_0. exact R.
  - destruct (r_converged r).
    { injection H as <- _ _. apply (rigid_weaken e); [exact R|]. apply drift_ge. exact E. }
    destruct (lin (r_T r) fs) as [[fs1 s1]| | |] eqn:E1; cbn [bind] in H; try discriminate. cbv zeta in H.
    set (d := solve _ _) in H.
    match type of H with context [gn_loop _ _ _ _ _ ?a ?b ?c ?x ?y] => destruct (gn_loop lin g solve exp6 crit a b c x y) as [[[rf1 fsf1] log2]| | |] eqn:E2 end; cbn [bind] in H; try discriminate.
    injection H as H1 _ <-. rewrite <- H1. clear H1. pose proof (next_drift e n E L) as N.
    rewrite drift_from in L |- *. apply (IH ((1 + e) * (1 + 128 * u64) - 1) _ _ _ _ _ _ ltac:(lra) L) with (2 := E2).
    + cbn [r_T]. apply step_rigid; [exact E|lra|exact R|]. apply (W _ d (or_intror (or_introl eq_refl))). reflexivity.
    + intros x y I. apply W. right. right. exact I.
Qed.

Lemma inner_rigid factor n : forall e T fs s err0 lambda tr log, 0 <= e -> (1 + e) * (1 + 128 * u64) - 1 <= 1 / 100 -> rigid_within e (rot T) ->
  lm_inner err g solve exp6 crit factor n T fs s err0 lambda = Ok (tr, log) -> tame_run log ->
  forall T' c, i_step tr = Some (T', c) -> rigid_within ((1 + e) * (1 + 128 * u64) - 1) (rot T').
Proof using AS AC.
  induction n as [|n IH]; intros e T fs s err0 lambda tr log E L R H W T' c Hs; cbn [lm_inner] in H.
  - injection H as <- _. discriminate Hs.
  - cbv zeta in H. set (d := solve _ _) in H. destruct (err (pose_mul T (exp6 d)) fs) as [new_e| | |]; cbn [bind] in H; try discriminate.
    match type of H with (if ?b then _ else _) = _ => destruct b end.
    + injection H as <- <-. cbn [i_step] in Hs. injection Hs as <- _. apply step_rigid; auto. apply (W _ d (or_introl eq_refl)). reflexivity.
    + match type of H with context [lm_inner _ _ _ _ _ ?a ?b ?x ?y ?z ?v ?w] => destruct (lm_inner err g solve exp6 crit a b x y z v w) as [[tr1 log1]| | |] eqn:E2 end; cbn [bind] in H; try discriminate.
      injection H as H1 <-. subst tr1. apply (IH _ _ _ _ _ _ _ _ E L R E2 (tame_cons _ _ W) T' c Hs).
Qed.

Lemma lm_rigid cfg n : forall e i r lambda fs rf fsf log, 0 <= e -> drift e n <= 1 / 100 -> rigid_within e (rot (r_T r)) ->
  lm_loop lin err g solve exp6 crit cfg n i r lambda fs = Ok (rf, fsf, log) -> tame_run log -> rigid_within (drift e n) (rot (r_T rf)).
Proof using AS AC.
  induction n as [|n IH]; intros e i r lambda fs rf fsf log E L R H W; cbn [lm_loop] in H.
  - injection H as <- _ _. rewrite drift_0. exact R.
  - destruct (r_converged r).
    { injection H as <- _ _. apply (rigid_weaken e); [exact R|]. apply drift_ge. exact E. }
    destruct (lin (r_T r) fs) as [[fs1 s1]| | |] eqn:E1; cbn [bind] in H; try discriminate. cbv zeta in H.
    match type of H with context [lm_inner _ _ _ _ _ ?a ?b ?x ?y ?z ?v ?w] => destruct (lm_inner err g solve exp6 crit a b x y z v w) as [[tr log1]| | |] eqn:E2 end; cbn [bind] in H; try discriminate.
    pose proof (next_drift e n E L) as N.
    destruct (i_step tr) as [[T' c]|] eqn:Es.
    + match type of H with context [lm_loop _ _ _ _ _ _ ?a ?b ?x ?y ?z ?v] => destruct (lm_loop lin err g solve exp6 crit a b x y z v) as [[[rf1 fsf1] log2]| | |] eqn:E3 end; cbn [bind] in H; try discriminate.
      injection H as H1 _ <-. rewrite <- H1. clear H1. change (Linearized (r_T r) fs1 (upd_sys g (r_T r) s1) :: log1 ++ log2) with ((Linearized (r_T r) fs1 (upd_sys g (r_T r) s1) :: log1) ++ log2) in W.
      destruct (tame_app _ _ W) as [W1 W2]. apply tame_cons in W1.
      rewrite drift_from in L |- *. apply (IH ((1 + e) * (1 + 128 * u64) - 1) _ _ _ _ _ _ _ ltac:(lra) L) with (2 := E3); [|exact W2].
      cbn [r_T]. apply (inner_rigid _ _ _ _ _ _ _ _ _ _ E ltac:(lra) R E2 W1 T' c Es).
    + injection H as <- _ _. cbn [r_T]. apply (rigid_weaken e); [exact R|]. apply drift_ge. exact E.
Qed.
End Run.

(** The exponential of a zero twist is the identity, whatever the sine and the cosine do. *)
Definition same_zero (x : f64) : bool := match x with B754_zero _ => true | _ => false end.
Definition is_identity (T : pose Ffld) : bool :=
  (Beqb (p0 (r0 (rot T))) (f64_of 1 0) && same_zero (p1 (r0 (rot T))) && same_zero (p2 (r0 (rot T))) &&
   same_zero (p0 (r1 (rot T))) && Beqb (p1 (r1 (rot T))) (f64_of 1 0) && same_zero (p2 (r1 (rot T))) &&
   same_zero (p0 (r2 (rot T))) && same_zero (p1 (r2 (rot T))) && Beqb (p2 (r2 (rot T))) (f64_of 1 0) &&
   same_zero (p0 (tra T)) && same_zero (p1 (tra T)) && same_zero (p2 (tra T)))%bool.
Lemma zero_twist (fsin fcos : f64 -> f64) s1 s2 s3 s4 s5 s6 :
  is_identity (fse3_exp fsin fcos (P6 (D := Ffld) (P3 (D := Ffld) (B754_zero s1) (B754_zero s2) (B754_zero s3)) (P3 (D := Ffld) (B754_zero s4) (B754_zero s5) (B754_zero s6)))) = true.
Proof. destruct s1, s2, s3, s4, s5, s6; vm_compute; reflexivity. Qed.
Lemma same_zero_ok x : same_zero x = true -> same x (B754_zero false).
Proof. destruct x; try discriminate. intros _. split; [reflexivity|]. split; reflexivity. Qed.
Lemma same_one_ok x : Beqb x (f64_of 1 0) = true -> same x (f64_of 1 0).
Proof.
  intros H. assert (F1 : is_finite (f64_of 1 0) = true) by reflexivity. destruct x as [[]|[]| |s m e B].
  1-5: vm_compute in H; discriminate H.
  rewrite Beqb_correct in H by reflexivity. destruct (Req_bool_spec (B2R (B754_finite s m e B)) (B2R (f64_of 1 0))) as [E|]; [|discriminate H].
  split; [reflexivity|]. split; [exact F1|exact E].
Qed.
Lemma exponential_of_zero (fsin fcos : f64 -> f64) : zero_to_identity (fse3_exp fsin fcos).
Proof.
  intros d ((A & B & C) & (D & E & G)). destruct d as [[a b c] [x y z]]. cbn [rv tv p0 p1 p2] in *.
  destruct (zero_cases _ A) as [s1 ->], (zero_cases _ B) as [s2 ->], (zero_cases _ C) as [s3 ->], (zero_cases _ D) as [s4 ->], (zero_cases _ E) as [s5 ->], (zero_cases _ G) as [s6 ->].
  pose proof (zero_twist fsin fcos s1 s2 s3 s4 s5 s6) as H. set (T := fse3_exp _ _ _) in *. clearbody T. unfold is_identity in H.
  do 11 (apply andb_prop in H; let X := fresh "X" in destruct H as [H X]).
  split; [|split; [|split]]; (split; [|split]); first [apply same_one_ok; assumption|apply same_zero_ok; assumption].
Qed.

(** A sine and a cosine that meet the contract: the correctly rounded ones. *)
Definition nearest (r : R) : f64 := f64_of (Ztrunc (scaled_mantissa radix2 fexp64 (rnd r))) (cexp radix2 fexp64 (rnd r)).
Lemma nearest_ok r : Rabs r <= 1 -> finite (nearest r) /\ Rabs (B2R (nearest r) - r) <= bpow radix2 (-52).
Proof.
  intros H. assert (G : generic_format radix2 fexp64 (rnd r)) by (apply generic_format_round; typeclasses eauto).
  assert (S : Rabs (rnd r) <= bpow radix2 0) by (apply rnd_small; [lia|change (bpow radix2 0) with 1; exact H]).
  pose proof (binary_normalize_correct 53 1024 prec53 prec53lt mode_NE (Ztrunc (scaled_mantissa radix2 fexp64 (rnd r))) (cexp radix2 fexp64 (rnd r)) false) as C. cbv zeta in C.
  change (round_mode mode_NE) with ZnearestE in C. unfold generic_format in G. rewrite <- G in C.
  change (round radix2 fexp64 ZnearestE (rnd r)) with (rnd (rnd r)) in C.
  assert (I : rnd (rnd r) = rnd r) by (apply round_generic; [typeclasses eauto|]; apply generic_format_round; typeclasses eauto).
  rewrite I in C. rewrite Rlt_bool_true in C.
  - destruct C as (V & F & _). split; [exact F|]. unfold nearest, f64_of. rewrite V. pose proof (rnd_err r) as E. pose proof u64_pos as U. pose proof eta_u30 as EU.
    assert (u64 * Rabs r <= u64 * 1) by (apply Rmult_le_compat_l; lra). change (-52)%Z with (1 + -53)%Z. rewrite bpow_plus. change (bpow radix2 1) with 2. change (bpow radix2 (-53)) with u64. lra.
  - apply Rle_lt_trans with (1 := S). apply bpow_lt. lia.
Qed.
Lemma nearest_sin : accurate (fun x => nearest (sin (B2R x))) sin.
Proof. intros x _. apply nearest_ok. apply Rabs_le. apply SIN_bound. Qed.
Lemma nearest_cos : accurate (fun x => nearest (cos (B2R x))) cos.
Proof. intros x _. apply nearest_ok. apply Rabs_le. apply COS_bound. Qed.
