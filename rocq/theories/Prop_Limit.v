(** C83: the maximum correspondence distance in doubles. *)
From Coq Require Import Reals ZArith List Lra Lia FunctionalExtensionality.
From Flocq Require Import Core IEEE754.BinarySingleNaN.
From Verif Require Import Base BaseProofs Num Vec F64 RNum Lin F64Proofs FloorProofs F64Err ReduceModel ReduceSpec ReduceProofs FactorModel FactorProofs OptModel SumProofs.
Import ListNotations.
Open Scope R_scope.

(** What registration is given when the user sets the limit [d] (registration_helper.cpp:90, 100, 110,
    factors.cpp:32): the rejector compares with the square. *)
Definition within (d : f64) : pose Ffld -> N -> nat -> car Ffld -> bool := distance_rejector (D := Ffld) (f64_mul d d).

(** One is contained in the other, factor by factor. *)
Definition keeps (fs1 fs2 : list (factor Ffld)) : Prop :=
  forall i f, nth_error fs1 i = Some f -> inlier f = true -> nth_error fs2 i = Some f.

Lemma add_notnan (x y : f64) : notnan (f64_add x y) -> notnan x /\ notnan y.
Proof. unfold notnan. destruct x as [sx|[]| |sx mx ex Hx], y as [sy|[]| |sy my ey Hy]; intros H; split; try reflexivity; discriminate H. Qed.
Lemma mul_notnan (x y : f64) : notnan (f64_mul x y) -> notnan x /\ notnan y.
Proof. unfold notnan. destruct x as [sx|[]| |sx mx ex Hx], y as [sy|[]| |sy my ey Hy]; intros H; split; try reflexivity; discriminate H. Qed.

Lemma sqnorm_nonneg (v : vec4 Ffld) : notnan (sqnorm4 v) -> 0 <= val (sqnorm4 v).
Proof.
  intros H. unfold sqnorm4 in *. cbn [nadd nmul fbase Ffld Fnum] in *.
  destruct (add_notnan _ _ H) as [H1 H2]. destruct (add_notnan _ _ H1) as [Hx Hy]. destruct (add_notnan _ _ H2) as [Hz Hw].
  pose proof (sq_nonneg _ (proj1 (mul_notnan _ _ Hx))) as X. pose proof (sq_nonneg _ (proj1 (mul_notnan _ _ Hy))) as Y. pose proof (sq_nonneg _ (proj1 (mul_notnan _ _ Hz))) as Z. pose proof (sq_nonneg _ (proj1 (mul_notnan _ _ Hw))) as W.
  pose proof (add_pos_ge_l _ _ Hx Hy X Y) as A. pose proof (add_pos_ge_l _ _ Hz Hw Z W) as B. pose proof (add_pos_ge_l _ _ H1 H2 ltac:(lra) ltac:(lra)) as C. lra.
Qed.

Lemma half_nonneg (x : f64) : notnan (f64_mul (f64_of 1 (-1)) x) -> (notnan x -> 0 <= val x) -> 0 <= val (f64_mul (f64_of 1 (-1)) x).
Proof.
  intros H P. destruct (mul_notnan _ _ H) as [_ Hx]. specialize (P Hx). pose proof E1024_pos as EP.
  destruct x as [s|[]| |s m e B]; cbn [val] in P; [cbn; lra|lra|cbn; lra|discriminate Hx|].
  set (x := B754_finite s m e B : f64) in *. assert (Fx : finite x) by reflexivity. change (0 <= B2R x) in P.
  destruct (f64_mul (f64_of 1 (-1)) x) as [s'|[]| |s' m' e' B'] eqn:E; cbn [val]; [cbn; lra| |lra|cbn; lra|].
  - exfalso. pose proof (Bmult_correct 53 1024 _ _ mode_NE (f64_of 1 (-1)) x) as C. change (Bmult mode_NE (f64_of 1 (-1)) x) with (f64_mul (f64_of 1 (-1)) x) in C. rewrite E in C.
    destruct s; [assert (B2R x < 0) by (apply F2R_lt_0; reflexivity); lra|].
    destruct (Rlt_bool _ _); [destruct C as (_ & C & _); vm_compute in C; discriminate C|]. vm_compute in C. discriminate C.
  - assert (F : finite (f64_mul (f64_of 1 (-1)) x)) by (rewrite E; reflexivity).
    pose proof (Bmult_correct 53 1024 _ _ mode_NE (f64_of 1 (-1)) x) as C. change (Bmult mode_NE (f64_of 1 (-1)) x) with (f64_mul (f64_of 1 (-1)) x) in C. rewrite E in C.
    destruct (Rlt_bool _ _); [|exfalso; unfold binary_overflow in C; cbn in C; discriminate C]. destruct C as (C & _). rewrite C.
    change (round radix2 (SpecFloat.fexp 53 1024) (round_mode mode_NE)) with rnd. rewrite <- rnd_0. apply rnd_le. apply Rmult_le_pos; [|exact P].
    apply F2R_ge_0. discriminate.
Qed.

Section Wider.
Context (nn : vec4 Ffld -> outcome (option (N * car Ffld))) (target : view Ffld N) (source : view Ffld nat) (k : kind) (T : pose Ffld).

Lemma same_or_out m m' i f f2 r2 : (forall e, f64_lt m' e = true -> f64_lt m e = true) ->
  linearize nn (distance_rejector (D := Ffld) m') target source k T i f = Ok (f2, r2) ->
  exists f1 r1, linearize nn (distance_rejector (D := Ffld) m) target source k T i f = Ok (f1, r1) /\
    ((r1 = None /\ inlier f1 = false) \/ (f1 = f2 /\ r1 = r2)).
Proof.
  intros M H. unfold linearize in *. destruct (at_point source i) as [p| | |]; cbn [bind] in *; try discriminate H.
  destruct (nn (pose_pt T p)) as [[[ti e]|]| | |]; cbn [bind] in *; try discriminate H.
  - unfold distance_rejector in *. cbn [nlt fbase Ffld Fnum] in *.
    destruct (f64_lt m e) eqn:Q1.
    + eexists _, _. split; [reflexivity|]. left. split; reflexivity.
    + destruct (f64_lt m' e) eqn:Q2; [rewrite (M e Q2) in Q1; discriminate Q1|].
      destruct (linearize_at target source k T ti i f) as [[f1 s]| | |]; cbn [bind] in *; try discriminate H. injection H as <- <-. eexists _, _. split; [reflexivity|]. right. split; reflexivity.
  - injection H as <- <-. eexists _, _. split; [reflexivity|]. right. split; reflexivity.
Qed.

Lemma term_nonneg m i f f' s : k <> GICP -> linearize nn (distance_rejector (D := Ffld) m) target source k T i f = Ok (f', Some s) -> notnan (se s) -> 0 <= val (se s).
Proof.
  intros K H N. destruct (linearize_cases _ _ _ _ _ _ _ _ _ _ _ H) as (p & found & Ep & _ & ti & e & _ & _ & EL & _). clear H. unfold linearize_at in EL.
  destruct (residual target source T ti i) as [r| | |]; cbn [bind] in EL; try discriminate EL. rewrite Ep in EL. cbn [bind] in EL. destruct k; [| |congruence].
  - injection EL as <- <-. cbn [se] in *. apply half_nonneg; [exact N|apply sqnorm_nonneg].
  - destruct (at_normal target ti) as [n| | |]; cbn [bind] in EL; try discriminate EL. injection EL as <- <-. cbn [se] in *. apply half_nonneg; [exact N|apply sqnorm_nonneg].
Qed.

Lemma se_fold (l : list (sys Ffld)) : forall a, se (fold_left sys_add l a) = fold_left f64_add (map se l) (se a).
Proof. induction l as [|s l IH]; intros a; [reflexivity|]. cbn [fold_left map]. rewrite IH. reflexivity. Qed.

Lemma notnan_fold l : forall a, notnan (fold_left f64_add l a) -> notnan a.
Proof. induction l as [|x l IH]; intros a H; [exact H|]. cbn [fold_left] in H. apply IH in H. apply (add_notnan _ _ H). Qed.

(** Leaving out non-negative summands never makes a rounded sum larger. *)
Lemma fold_le (rs1 rs2 : list (option (sys Ffld))) : Forall2 (fun r1 r2 => r1 = None \/ r1 = r2) rs1 rs2 ->
  (forall s, In (Some s) rs2 -> notnan (se s) -> 0 <= val (se s)) -> forall a1 a2 : f64, notnan a1 -> 0 <= val a1 <= val a2 ->
  notnan (fold_left f64_add (map se (accepted rs2)) a2) ->
  notnan (fold_left f64_add (map se (accepted rs1)) a1) /\ val (fold_left f64_add (map se (accepted rs1)) a1) <= val (fold_left f64_add (map se (accepted rs2)) a2).
Proof.
  induction 1 as [|r1 r2 rs1 rs2 HR _ IH]; intros P a1 a2 N1 V N2; [split; [exact N1|apply V]|].
  assert (P' : forall s, In (Some s) rs2 -> notnan (se s) -> 0 <= val (se s)) by (intros s I; apply P; right; exact I).
  destruct r2 as [s|].
  - cbn [accepted flat_map app map fold_left] in N2 |- *. fold (accepted (S := sys Ffld)) in N2 |- *.
    pose proof (notnan_fold _ _ N2) as NS. destruct (add_notnan _ _ NS) as [Na Ns]. pose proof (P s (or_introl eq_refl) Ns) as Ps.
    destruct (add_pos_val a2 (se s) Na Ns ltac:(lra) Ps) as [_ E2]. pose proof (add_pos_ge_l a2 (se s) Na Ns ltac:(lra) Ps) as G2.
    destruct HR as [->| ->].
    + cbn [accepted flat_map app map fold_left]. apply IH; [exact P'|exact N1|lra|exact N2].
    + cbn [accepted flat_map app map fold_left]. destruct (add_pos_val a1 (se s) N1 Ns ltac:(lra) Ps) as [N1' E1]. pose proof (add_pos_ge_l a1 (se s) N1 Ns ltac:(lra) Ps) as G1.
      apply IH; [exact P'|exact N1'| |exact N2]. split; [lra|]. rewrite E1, E2. apply rx_le. lra.
  - destruct HR as [->| ->]; cbn [accepted flat_map app map fold_left] in *; apply IH; assumption.
Qed.
End Wider.

Lemma limit_square (d d' : f64) : finite d -> finite d' -> Rabs (B2R d) <= Rabs (B2R d') -> forall e, f64_lt (f64_mul d' d') e = true -> f64_lt (f64_mul d d) e = true.
Proof.
  intros F F' H e L. destruct (is_nan e) eqn:Ne; [destruct e; try discriminate Ne; unfold f64_lt, Bltb, SpecFloat.SFltb in L; destruct (f64_mul d' d'); discriminate L|].
  pose proof (finite_notnan _ F) as N. pose proof (finite_notnan _ F') as N'. destruct (sq_val d N) as [M _]. destruct (sq_val d' N') as [M' _].
  apply f64_lt_val in L; [|exact M'|exact Ne]. apply f64_lt_val; [exact M|exact Ne|]. eapply Rle_lt_trans; [|exact L]. apply sq_mono; [exact N|exact N'|]. rewrite !finite_val by assumption. exact H.
Qed.

Lemma count_keeps : forall fs1 fs2 : list (factor Ffld), length fs1 = length fs2 -> keeps fs1 fs2 -> (count_inliers inlier fs1 <= count_inliers inlier fs2)%nat.
Proof.
  unfold count_inliers. induction fs1 as [|a fs1 IH]; intros [|b fs2] L H; cbn [length filter] in *; try lia.
  assert (R : (length (filter inlier fs1) <= length (filter inlier fs2))%nat) by (apply IH; [lia|]; intros i f; apply (H (S i))).
  destruct (inlier a) eqn:A.
  - specialize (H 0%nat a eq_refl A). cbn in H. injection H as ->. rewrite A. cbn [length]. lia.
  - destruct (inlier b); cbn [length]; lia.
Qed.

Lemma nth_Forall2 {A B : Type} (P : A -> B -> Prop) : forall l m, length l = length m -> (forall i x y, nth_error l i = Some x -> nth_error m i = Some y -> P x y) -> Forall2 P l m.
Proof.
  induction l as [|a l IH]; intros [|b m] L H; cbn in L; try discriminate L; constructor.
  - apply (H 0%nat); reflexivity.
  - apply IH; [lia|]. intros i x y Hx Hy. apply (H (S i)); assumption.
Qed.

(** A wider limit keeps every correspondence of a narrower one, at the same pose, and never gives
    a smaller point-to-point or point-to-plane error. *)
Theorem C83_wider : forall nn (target : view Ffld N) (source : view Ffld nat) k T fs (d d' : f64) fs2 s2,
  is_finite d = true -> is_finite d' = true -> Rabs (B2R d) <= Rabs (B2R d') ->
  serial sys_zero sys_add (linearize nn (within d') target source k T) fs = Ok (fs2, s2) ->
  exists fs1 s1, serial sys_zero sys_add (linearize nn (within d) target source k T) fs = Ok (fs1, s1) /\
    keeps fs1 fs2 /\ (count_inliers inlier fs1 <= count_inliers inlier fs2)%nat /\
    (k <> GICP -> is_nan (se s2 : f64) = false -> is_nan (se s1 : f64) = false /\ f64_le (se s1) (se s2) = true).
Proof.
  intros nn target source k T fs d d' fs2 s2 F F' H E2. pose proof (limit_square d d' F F' H) as LS.
  destruct (serial_fold _ _ _ _ _ _ _ _ E2) as (rs2 & (A2 & B2 & C2) & S2).
  assert (AD : all_defined (linearize nn (within d) target source k T) fs).
  { intros i f Ef. destruct (C2 i f Ef) as (f2 & r2 & L2 & _). destruct (same_or_out nn target source k T _ _ i f f2 r2 LS L2) as (f1 & r1 & L1 & _). exists f1, r1. exact L1. }
  destruct (serial_any _ _ sys_zero sys_add _ fs AD) as (fs1 & s1 & E1). destruct (serial_fold _ _ _ _ _ _ _ _ E1) as (rs1 & (A1 & B1 & C1) & S1).
  exists fs1, s1. split; [exact E1|].
  assert (REL : forall i f1 r1 f2 r2, nth_error fs1 i = Some f1 -> nth_error rs1 i = Some r1 -> nth_error fs2 i = Some f2 -> nth_error rs2 i = Some r2 -> (r1 = None /\ inlier f1 = false) \/ (f1 = f2 /\ r1 = r2)).
  { intros i f1 r1 f2 r2 Q1 Q2 Q3 Q4. assert (Li : (i < length fs)%nat) by (rewrite <- A1; apply nth_error_Some; rewrite Q1; discriminate).
    destruct (nth_error fs i) as [f|] eqn:Ef; [|apply nth_error_None in Ef; lia].
    destruct (C1 i f Ef) as (g1 & q1 & L1 & X1 & Y1). destruct (C2 i f Ef) as (g2 & q2 & L2 & X2 & Y2).
    rewrite Q1 in X1. rewrite Q2 in Y1. rewrite Q3 in X2. rewrite Q4 in Y2. injection X1 as <-. injection Y1 as <-. injection X2 as <-. injection Y2 as <-.
    destruct (same_or_out nn target source k T _ _ i f f2 r2 LS L2) as (h1 & t1 & L1' & O). unfold within in L1. rewrite L1 in L1'. injection L1' as <- <-. exact O. }
  assert (KP : keeps fs1 fs2).
  { intros i f Q1 I. assert (Li : (i < length fs)%nat) by (rewrite <- A1; apply nth_error_Some; rewrite Q1; discriminate).
    destruct (nth_error fs2 i) as [f2|] eqn:Q3; [|apply nth_error_None in Q3; lia]. destruct (nth_error rs1 i) as [r1|] eqn:Q2; [|apply nth_error_None in Q2; lia]. destruct (nth_error rs2 i) as [r2|] eqn:Q4; [|apply nth_error_None in Q4; lia].
    destruct (REL i f r1 f2 r2 Q1 Q2 Q3 Q4) as [[_ O]|[<- _]]; [rewrite I in O; discriminate O|reflexivity]. }
  split; [exact KP|]. split; [apply count_keeps; [congruence|exact KP]|]. intros K N.
  assert (F2 : Forall2 (fun r1 r2 => r1 = None \/ r1 = r2) rs1 rs2).
  { apply nth_Forall2; [congruence|]. intros i r1 r2 Q2 Q4. assert (Li : (i < length fs)%nat) by (rewrite <- B1; apply nth_error_Some; rewrite Q2; discriminate).
    destruct (nth_error fs1 i) as [f1|] eqn:Q1; [|apply nth_error_None in Q1; lia]. destruct (nth_error fs2 i) as [f2|] eqn:Q3; [|apply nth_error_None in Q3; lia].
    destruct (REL i f1 r1 f2 r2 Q1 Q2 Q3 Q4) as [[-> _]|[_ ->]]; [left|right]; reflexivity. }
  assert (NN : forall s, In (Some s) rs2 -> notnan (se s) -> 0 <= val (se s)).
  { intros s I. destruct (In_nth_error _ _ I) as [i Q4]. assert (Li : (i < length fs)%nat) by (rewrite <- B2; apply nth_error_Some; rewrite Q4; discriminate).
    destruct (nth_error fs i) as [f|] eqn:Ef; [|apply nth_error_None in Ef; lia]. destruct (C2 i f Ef) as (f2 & r2 & L2 & _ & Y2). rewrite Q4 in Y2. injection Y2 as <-.
    exact (term_nonneg nn target source k T _ i f f2 s K L2). }
  rewrite S2, se_fold in N. destruct (fold_le rs1 rs2 F2 NN (se (sys_zero (D := Ffld))) (se (sys_zero (D := Ffld))) eq_refl ltac:(cbn; lra) N) as [N1 LE].
  rewrite S1, S2, !se_fold. split; [exact N1|]. rewrite f64_le_negb_lt by assumption. rewrite (proj2 (f64_lt_val_false _ _ N N1) LE). reflexivity.
Qed.

(** The sign of the limit does not matter. *)
Lemma square_opp (d : f64) : f64_mul (@Bopp 53 1024 d) (@Bopp 53 1024 d) = f64_mul d d.
Proof. apply B2SF_inj. destruct d as [s|s| |s m e B]; [destruct s; reflexivity|destruct s; reflexivity|reflexivity|]. unfold f64_mul, Bmult, Bopp. rewrite !B2SF_SF2B, !xorb_nilpotent. reflexivity. Qed.

(** A limit that is not a number, infinite or at least 2^512 is no limit. *)
Lemma no_limit (d : f64) : is_finite d = false \/ bpow radix2 512 <= Rabs (B2R d) -> forall e, f64_lt (f64_mul d d) e = false.
Proof.
  intros H e. destruct (is_nan d) eqn:Nd; [destruct d; try discriminate Nd; destruct e; reflexivity|]. destruct (is_nan e) eqn:Ne; [destruct e; try discriminate Ne; unfold f64_lt, Bltb, SpecFloat.SFltb; destruct (f64_mul d d); reflexivity|].
  destruct (sq_val d Nd) as [M V]. apply f64_lt_val_false; [exact M|exact Ne|]. rewrite V.
  assert (X : bpow radix2 512 <= Rabs (val d)).
  { destruct (is_finite d) eqn:F; [rewrite finite_val by exact F; destruct H as [H|H]; [discriminate H|exact H]|].
    assert (E : bpow radix2 512 <= E1024) by (apply bpow_le; lia). pose proof E1024_pos as EP. destruct d as [s|[]| |s m x B]; try discriminate F; try discriminate Nd; cbn [val]; [rewrite Rabs_Ropp|]; rewrite Rabs_pos_eq by lra; exact E. }
  assert (Y : E1024 <= val d * val d).
  { assert (Z : Rabs (val d) * Rabs (val d) = val d * val d) by (rewrite <- Rabs_mult; apply Rabs_pos_eq; apply Rle_0_sqr). rewrite <- Z.
    assert (E : E1024 = bpow radix2 512 * bpow radix2 512) by (unfold E1024; rewrite <- bpow_plus; reflexivity). rewrite E. apply Rmult_le_compat; try apply bpow_ge_0; exact X. }
  apply Rle_trans with E1024.
  - assert (Z : val e <= val f64_inf) by (rewrite <- (rx_val e Ne); unfold rx, sat; cbn [val f64_inf]; apply Rmax_lub; [pose proof E1024_pos; lra|apply Rmin_r]). exact Z.
  - replace E1024 with (rx (val f64_inf)) at 1 by (apply rx_val; reflexivity). apply rx_le. exact Y.
Qed.

Theorem C83_unlimited : forall nn (target : view Ffld N) (source : view Ffld nat) k err g solve exp6 crit c T fs (d : f64),
  is_finite d = false \/ bpow radix2 512 <= Rabs (B2R d) ->
  levenberg_marquardt (fun T => serial sys_zero sys_add (linearize nn (within d) target source k T)) err g solve exp6 inlier crit c T fs =
  levenberg_marquardt (fun T => serial sys_zero sys_add (linearize nn null_rejector target source k T)) err g solve exp6 inlier crit c T fs.
Proof.
  intros nn target source k err g solve exp6 crit c T fs d H.
  assert (E : within d = null_rejector (D := Ffld)).
  { unfold within, distance_rejector, null_rejector. extensionality T'. extensionality ti. extensionality si. extensionality e. apply no_limit. exact H. }
  rewrite E. reflexivity.
Qed.

Theorem C83_sign : forall nn (target : view Ffld N) (source : view Ffld nat) k err g solve exp6 crit c T fs (d : f64),
  levenberg_marquardt (fun T => serial sys_zero sys_add (linearize nn (within (@Bopp 53 1024 d)) target source k T)) err g solve exp6 inlier crit c T fs =
  levenberg_marquardt (fun T => serial sys_zero sys_add (linearize nn (within d) target source k T)) err g solve exp6 inlier crit c T fs.
Proof. intros. unfold within. rewrite square_opp. reflexivity. Qed.

(** One point at distance 1 (the squared distance the search reports), two limits: 1/2 leaves it
    out, -2 takes it in; both runs are defined, and the error grows. *)
Definition pt (x : Z) : vec4 Ffld := V4 (D := Ffld) (f64_of x 0) (B754_zero false : f64) (B754_zero false : f64) (f64_of 1 0).
Definition seen : view Ffld N := mkView (D := Ffld) (fun _ => Ok (pt 1)) (fun _ => Ok (pt 0)) (fun _ => UB).
Definition moving : view Ffld nat := mkView (D := Ffld) (fun _ => Ok (pt 0)) (fun _ => Ok (pt 0)) (fun _ => UB).
Definition found (_ : vec4 Ffld) : outcome (option (N * car Ffld)) := Ok (Some (0%N, f64_of 1 0)).
Definition demo (d : f64) := serial sys_zero sys_add (linearize found (within d) seen moving ICP pose_id) [factor_init; factor_init].
Example C83_run : match demo (f64_of 1 (-1)), demo (f64_of (-2) 0) with
  | Ok (fs1, s1), Ok (fs2, s2) => count_inliers inlier fs1 = 0%nat /\ count_inliers inlier fs2 = 2%nat /\ is_nan (se s2 : f64) = false /\ f64_lt (se s1) (se s2) = true
  | _, _ => False
  end.
Proof. vm_compute. repeat split. Qed.
Example C83_limits : is_finite (f64_of 1 (-1)) = true /\ is_finite (f64_of (-2) 0) = true /\ Rabs (B2R (f64_of 1 (-1))) <= Rabs (B2R (f64_of (-2) 0)) /\
  is_finite f64_inf = false /\ f64_mul (f64_of 1 512) (f64_of 1 512) = f64_inf.
Proof.
  split; [reflexivity|]. split; [reflexivity|]. split.
  - assert (A : B2R (f64_of 1 (-1)) = / 2) by (vm_compute; lra). assert (B : B2R (f64_of (-2) 0) = IZR (-2)) by (apply f64_of_int; lia). rewrite A, B, (Rabs_left (IZR (-2))), (Rabs_pos_eq (/ 2)) by lra. lra.
  - split; [reflexivity|]. apply B2SF_inj. vm_compute. reflexivity.
Qed.

Print Assumptions C83_wider.
Print Assumptions C83_unlimited.
Print Assumptions C83_sign.
