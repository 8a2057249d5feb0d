(** The equirectangular projection in doubles: no conversion is ever out of range. *)
From Coq Require Import Reals Lra Psatz ZArith ZifyBool ZifyNat ZifyN.
From Coq Require Import Floats.SpecFloat.
From Flocq Require Import Core IEEE754.BinarySingleNaN Relative.
From Verif Require Import Base BaseProofs Num Vec F64 F64Proofs F64Err FloorModel FloorProofs KdF64.
From Verif Require Import ProjModel ProjSpec.
Open Scope R_scope.

(** * sqrt of a rounded square is not below the number *)
Lemma rnd_FLT a : rnd a = round radix2 (FLT_exp (-1074) 53) ZnearestE a.
Proof. reflexivity. Qed.

Lemma rnd_rel a : bpow radix2 (-1022) <= Rabs a -> Rabs (rnd a - a) <= bpow radix2 (-53) * Rabs a.
Proof.
  intros H. rewrite rnd_FLT.
  replace (bpow radix2 (-53)) with (/ 2 * bpow radix2 (-53 + 1)).
  2: { rewrite bpow_plus. change (bpow radix2 1) with 2. lra. }
  apply relative_error_N_FLT; auto. reflexivity.
Qed.

Lemma sqrt_rnd_sq y : generic_format radix2 fexp64 y -> bpow radix2 (-500) <= y ->
  y <= rnd (sqrt (rnd (y * y))).
Proof.
  intros Fy Hy.
  assert (B500 : 0 < bpow radix2 (-500)) by apply bpow_gt_0.
  assert (Py : 0 < y) by lra.
  set (e := mag radix2 y).
  assert (He := bpow_mag_le radix2 y ltac:(lra)). fold e in He. rewrite Rabs_pos_eq in He by lra.
  assert (He' := bpow_mag_gt radix2 y). fold e in He'. rewrite Rabs_pos_eq in He' by lra.
  assert (Ee : (-500 < e)%Z).
  { apply (lt_bpow radix2). lra. }
  assert (FE : forall z, (-1000 <= z)%Z -> fexp64 z = (z - 53)%Z).
  { intros z Hz. unfold SpecFloat.fexp, SpecFloat.emin. lia. }
  destruct (Req_dec y (bpow radix2 (e - 1))) as [Pw|NP].
  - assert (Eq : rnd (y * y) = y * y).
    { rewrite Pw, <- bpow_plus. apply round_generic; [typeclasses eauto|].
      apply generic_format_bpow. rewrite FE by lia. lia. }
    rewrite Eq, sqrt_square by lra. right. symmetry. apply round_generic; [typeclasses eauto|auto].
  - set (d := bpow radix2 (e - 53)).
    assert (Pd : 0 < d) by apply bpow_gt_0.
    assert (PR : pred radix2 fexp64 y = y - d).
    { rewrite pred_eq_pos by lra. unfold pred_pos. fold e.
      rewrite Req_bool_false by auto. rewrite ulp_neq_0 by lra. unfold cexp. fold e.
      rewrite FE by lia. reflexivity. }
    assert (Up : y <= bpow radix2 e - d).
    { assert (G : generic_format radix2 fexp64 (bpow radix2 e)).
      { apply generic_format_bpow. rewrite FE by lia. lia. }
      assert (L : y <= pred radix2 fexp64 (bpow radix2 e)).
      { apply pred_ge_gt; auto. typeclasses eauto. }
      rewrite pred_bpow in L. rewrite FE in L by lia. exact L. }
    set (u := bpow radix2 (-53)).
    assert (Du : d = u * bpow radix2 e).
    { unfold d, u. rewrite <- bpow_plus. f_equal. lia. }
    assert (Pu : 0 < u) by apply bpow_gt_0.
    assert (B1 : bpow radix2 e = 2 * bpow radix2 (e - 1)).
    { replace (e : Z) with (e - 1 + 1)%Z at 1 by lia. rewrite bpow_plus. change (bpow radix2 1) with 2. lra. }
    set (b := bpow radix2 (e - 1)) in *.
    assert (Pb : 0 < b) by apply bpow_gt_0.
    assert (ER : Rabs (rnd (y * y) - y * y) <= u * (y * y)).
    { rewrite <- (Rabs_pos_eq (y * y)) at 3 by nra. apply rnd_rel.
      rewrite Rabs_pos_eq by nra.
      apply Rle_trans with (bpow radix2 (-500) * bpow radix2 (-500)).
      - rewrite <- bpow_plus. apply bpow_le. lia.
      - nra. }
    apply Rabs_le_inv in ER.
    apply round_N_ge_midp; try typeclasses eauto; [exact Fy|].
    rewrite PR.
    assert (u < / 4).
    { unfold u. apply Rlt_le_trans with (bpow radix2 (-2)); [apply bpow_lt; lia|]. simpl. lra. }
    replace ((y + (y - d)) / 2) with (y - d / 2) by lra.
    assert (d <= y) by (rewrite Du, B1; nra).
    rewrite <- (sqrt_square (y - d / 2)) by lra. apply sqrt_lt_1_alt. split; [nra|].
    assert (A : u * (y * y) <= y * (d - u * d)).
    { replace (y * (d - u * d)) with (u * y * (bpow radix2 e - d)) by (rewrite Du; ring).
      rewrite <- Rmult_assoc. apply Rmult_le_compat_l; [nra|exact Up]. }
    assert (C : d * d / 4 < y * (u * d)).
    { replace (d * d / 4) with (u * d * (b / 2)) by (rewrite Du at 3; rewrite B1; lra).
      replace (y * (u * d)) with (u * d * y) by ring.
      apply Rmult_lt_compat_l; [apply Rmult_lt_0_compat; auto|lra]. }
    lra.
Qed.

(** * Components of the unit bearing vector lie in [-1, 1] *)
Lemma bsqrt_pos sq : finite sq -> 0 < B2R sq ->
  finite (Bsqrt mode_NE sq) /\ B2R (Bsqrt mode_NE sq) = rnd (sqrt (B2R sq)).
Proof.
  intros F H. destruct (Bsqrt_correct 53 1024 prec53 prec53lt mode_NE sq) as (E & G & _).
  split; [|exact E]. unfold finite. rewrite G.
  destruct sq as [s|s| |[] m e Hb]; try discriminate F; auto.
  exfalso. simpl in H. assert (F2R (Float radix2 (Z.neg m) e) < 0) by (apply F2R_lt_0; reflexivity).
  change (cond_Zopp true (Z.pos m)) with (Z.neg m) in H. lra.
Qed.

Lemma B2R_SF (x : f64) s : B2SF x = s -> B2R x = SF2R radix2 s.
Proof. intros <-. symmetry. apply SF2R_B2SF. Qed.

Lemma lit_1e_3 : finite f64_1e_3 /\ bpow radix2 (-10) <= B2R f64_1e_3.
Proof.
  split; [vm_compute; reflexivity|].
  rewrite (B2R_SF f64_1e_3 (S754_finite false 4611686018427388 (-62))) by (vm_compute; reflexivity).
  unfold SF2R, F2R. cbn [Defs.Fnum Defs.Fexp cond_Zopp].
  replace (bpow radix2 (-10)) with (IZR (2 ^ 52) * bpow radix2 (-62)).
  - apply Rmult_le_compat_r; [apply bpow_ge_0|]. apply IZR_le; lia.
  - change 2%Z with (radix_val radix2). rewrite IZR_Zpower by lia. rewrite <- bpow_plus. reflexivity.
Qed.

Definition bearing (order : sumtree) (p : vec4 F64.Fnum) (a : f64) : f64 :=
  let sq := sum_eval (D := F64.Fnum) f64_fma order p in
  if f64_lt (B754_zero false) sq then f64_div a (Bsqrt mode_NE sq) else a.

Lemma bearing_unit order p i :
  head_sum order -> vfinite p -> (i < 3)%nat ->
  f64_lt (sum_eval (D := F64.Fnum) f64_fma order p) f64_1e_3 = false ->
  finite (bearing order p (vcomp p i)) /\ Rabs (B2R (bearing order p (vcomp p i))) <= 1.
Proof.
  intros HS Hp Hi HL. unfold bearing. set (sq := sum_eval (D := F64.Fnum) f64_fma order p) in *.
  assert (Hv : vnotnan p) by (destruct Hp as (a & b & c & d); repeat split; apply finite_notnan; auto).
  destruct (sum_eval_ge order p Hv) as (NN & POS & GE). fold sq in NN, POS, GE.
  assert (IN : In i (sum_leaves order)).
  { eapply Permutation_in; [apply Permutation_sym; exact HS|]. simpl. lia. }
  specialize (GE i IN). pose proof (vcomp_finite p i Hp) as Fy. set (y := vcomp p i) in *.
  destruct lit_1e_3 as [FL BL].
  apply f64_lt_val_false in HL; [|auto|apply finite_notnan; auto].
  rewrite (finite_val _ FL) in HL.
  assert (B10 : 0 < bpow radix2 (-10)) by apply bpow_gt_0.
  replace (f64_lt (B754_zero false) sq) with true.
  2: { symmetry. apply f64_lt_val; auto. reflexivity. cbn [val]. simpl B2R. lra. }
  destruct (is_finite sq) eqn:Fs.
  - rewrite (finite_val _ Fs) in *.
    destruct (bsqrt_pos sq Fs) as [FS ES]; [lra|].
    set (sr := Bsqrt mode_NE sq) in *.
    assert (S5 : bpow radix2 (-5) <= B2R sr).
    { rewrite ES. assert (G : rnd (bpow radix2 (-5)) = bpow radix2 (-5)).
      { apply round_generic; [typeclasses eauto|]. apply generic_format_bpow.
        unfold SpecFloat.fexp, SpecFloat.emin. lia. }
      rewrite <- G. apply rnd_le.
      rewrite <- (sqrt_square (bpow radix2 (-5))) by apply bpow_ge_0.
      apply sqrt_le_1_alt. rewrite <- bpow_plus. simpl (-5 + -5)%Z. lra. }
    assert (B5 : 0 < bpow radix2 (-5)) by apply bpow_gt_0.
    assert (YS : Rabs (B2R y) <= B2R sr).
    { destruct (Rle_lt_dec (bpow radix2 (-500)) (Rabs (B2R y))) as [C|C].
      - destruct (sq_val y (finite_notnan _ Fy)) as [_ EV]. rewrite (finite_val _ Fy) in EV.
        rewrite EV in GE. pose proof E1024_pos.
        assert (LT : B2R sq < E1024).
        { pose proof (finite_lt sq Fs). pose proof (Rle_abs (B2R sq)). lra. }
        assert (RR : rnd (B2R y * B2R y) <= B2R sq).
        { unfold rx, sat in GE.
          assert (0 <= rnd (B2R y * B2R y)) by (rewrite <- rnd_0; apply rnd_le; nra).
          unfold Rmax, Rmin in GE. destruct (Rle_dec _ E1024) in GE;
            destruct (Rle_dec _ _) in GE; lra. }
        rewrite ES.
        replace (B2R y * B2R y) with (Rabs (B2R y) * Rabs (B2R y)) in RR
          by (rewrite <- Rabs_mult; apply Rabs_pos_eq; nra).
        eapply Rle_trans.
        + apply (sqrt_rnd_sq (Rabs (B2R y))); auto.
          apply generic_format_abs. apply finite_format. exact Fy.
        + apply rnd_le, sqrt_le_1_alt. exact RR.
      - apply Rle_trans with (bpow radix2 (-5)); auto.
        apply Rlt_le. eapply Rlt_trans; [exact C|]. apply bpow_lt. lia. }
    assert (Q : Rabs (B2R y / B2R sr) <= bpow radix2 0).
    { unfold Rdiv. rewrite Rabs_mult, (Rabs_pos_eq (/ B2R sr)).
      2: { apply Rlt_le, Rinv_0_lt_compat. lra. }
      simpl bpow. apply Rmult_le_reg_r with (B2R sr); [lra|].
      rewrite Rmult_assoc, Rinv_l by lra. lra. }
    destruct (div_finite y sr 0 Fy) as (F & E); [lra|lia|exact Q|].
    split; [exact F|]. rewrite E. apply (rnd_small _ 0); [lia|exact Q].
  - destruct sq as [s|[]| |s m e Hb] eqn:Esq; try discriminate Fs; try discriminate NN.
    + exfalso. cbn [val] in HL. pose proof E1024_pos. lra.
    + destruct y as [s|s| |s m e Hb]; try discriminate Fy.
      * split; [reflexivity|]. simpl. rewrite Rabs_R0. lra.
      * split; [reflexivity|]. simpl. rewrite Rabs_R0. lra.
Qed.

(** * Normalised image coordinates lie in [0, 1] *)
Lemma pi_val : finite f64_pi /\ finite (f64_mul (f64_of 1 1) f64_pi) /\
  B2R (f64_mul (f64_of 1 1) f64_pi) = 2 * B2R f64_pi /\ 1 <= B2R f64_pi.
Proof.
  assert (E1 : B2R f64_pi = IZR 7074237752028440 * bpow radix2 (-51)).
  { rewrite (B2R_SF f64_pi (S754_finite false 7074237752028440 (-51))) by (vm_compute; reflexivity).
    reflexivity. }
  assert (E2 : B2R (f64_mul (f64_of 1 1) f64_pi) = IZR 7074237752028440 * bpow radix2 (-50)).
  { rewrite (B2R_SF _ (S754_finite false 7074237752028440 (-50))) by (vm_compute; reflexivity).
    reflexivity. }
  split; [vm_compute; reflexivity|]. split; [vm_compute; reflexivity|].
  rewrite E1, E2. split.
  - change (-50)%Z with (-51 + 1)%Z. rewrite bpow_plus. change (bpow radix2 1) with 2. ring.
  - replace 1 with (IZR (2 ^ 51) * bpow radix2 (-51)).
    + apply Rmult_le_compat_r; [apply bpow_ge_0|]. apply IZR_le; lia.
    + change 2%Z with (radix_val radix2). rewrite IZR_Zpower by lia. rewrite <- bpow_plus. reflexivity.
Qed.

Lemma half_val : finite (f64_of 1 (-1)) /\ B2R (f64_of 1 (-1)) = / 2.
Proof.
  split; [vm_compute; reflexivity|].
  rewrite (B2R_SF _ (S754_finite false 4503599627370496 (-53))) by (vm_compute; reflexivity).
  unfold SF2R, F2R. cbn [Defs.Fnum Defs.Fexp cond_Zopp].
  change 4503599627370496%Z with (Zpower radix2 52). rewrite IZR_Zpower by lia.
  rewrite <- bpow_plus. simpl. lra.
Qed.

Definition unit_range (x : f64) : Prop := finite x /\ 0 <= B2R x <= 1.

Lemma shifted_unit a c : finite a -> 1 <= B2R c -> Rabs (B2R a) <= B2R c / 2 ->
  unit_range (f64_add (f64_div a c) (f64_of 1 (-1))).
Proof.
  intros Fa Hc H.
  assert (Q : Rabs (B2R a / B2R c) <= bpow radix2 (-1)).
  { unfold Rdiv. rewrite Rabs_mult, (Rabs_pos_eq (/ B2R c)).
    2: { apply Rlt_le, Rinv_0_lt_compat. lra. }
    simpl bpow. apply Rmult_le_reg_r with (B2R c); [lra|].
    rewrite Rmult_assoc, Rinv_l by lra. lra. }
  destruct (div_finite a c (-1) Fa) as (Fd & Ed); [lra|lia|exact Q|].
  apply (rnd_small _ (-1)) in Q; [|lia]. rewrite <- Ed in Q. simpl bpow in Q.
  apply Rabs_le_inv in Q. destruct half_val as [Fh Eh].
  destruct (add_finite (f64_div a c) (f64_of 1 (-1)) 0 Fd Fh) as (F & E); [lia| |].
  { rewrite Eh. simpl bpow. apply Rabs_le. lra. }
  split; [exact F|]. rewrite E, Eh. split.
  - rewrite <- rnd_0. apply rnd_le. lra.
  - change 1 with (IZR 1). rewrite <- (rnd_int 1) by lia. apply rnd_le. lra.
Qed.

(** What std::asin and std::atan2 promise on arguments in [-1, 1]. *)
Definition asin_contract (asin : f64 -> f64) : Prop :=
  forall t, finite t -> Rabs (B2R t) <= 1 ->
  finite (asin t) /\ Rabs (B2R (asin t)) <= B2R f64_pi / 2.
Definition atan2_contract (atan2 : f64 -> f64 -> f64) : Prop :=
  forall a b, finite a -> finite b -> Rabs (B2R a) <= 1 -> Rabs (B2R b) <= 1 ->
  finite (atan2 a b) /\ Rabs (B2R (atan2 a b)) <= B2R f64_pi.

Lemma equirect_unit asin atan2 order p :
  asin_contract asin -> atan2_contract atan2 -> head_sum order -> vfinite p ->
  unit_range (fst (equirect asin atan2 order p)) /\ unit_range (snd (equirect asin atan2 order p)).
Proof.
  intros HA HT HS Hp. unfold equirect.
  destruct (f64_lt (sum_eval (D := F64.Fnum) f64_fma order p) f64_1e_3) eqn:EL.
  - destruct half_val as [Fh Eh]. cbn [fst snd]. unfold unit_range. rewrite Eh. repeat split; auto; lra.
  - pose proof (bearing_unit order p 0 HS Hp ltac:(lia) EL) as [F0 B0].
    pose proof (bearing_unit order p 1 HS Hp ltac:(lia) EL) as [F1 B1].
    pose proof (bearing_unit order p 2 HS Hp ltac:(lia) EL) as [F2 B2].
    unfold bearing in *. cbn [vcomp] in *. cbn [fst snd].
    destruct pi_val as (P1 & P2 & P3 & P4). split.
    + destruct (HT _ _ F0 F2 B0 B2) as [F B]. apply shifted_unit; auto; lra.
    + destruct (HA _ F1 B1) as [F B].
      apply shifted_unit; [unfold finite; rewrite is_finite_Bopp; exact F|lra|].
      rewrite B2R_Bopp, Rabs_Ropp. exact B.
Qed.

(** * Pixels *)
Lemma cast_unit mode x n : unit_range x -> (0 <= n <= INT_MAX)%Z ->
  exists u, cast_int mode (f64_mul x (f64_of n 0)) = Ok u /\ (0 <= u <= n)%Z.
Proof.
  intros [Fx Bx] Hn. unfold INT_MAX in Hn.
  destruct (f64_of_int n) as [Fn En]; [lia|].
  assert (N0 : 0 <= IZR n) by (apply IZR_le; lia).
  destruct (mul_finite x (f64_of n 0) 31 Fx Fn) as (F & E); [lia| |].
  { rewrite En. rewrite Rabs_pos_eq by nra. apply Rle_trans with (IZR n); [nra|].
    change (bpow radix2 31) with (IZR (2 ^ 31)). apply IZR_le. lia. }
  rewrite En in E.
  assert (B : 0 <= B2R (f64_mul x (f64_of n 0)) <= IZR n).
  { rewrite E. split.
    - rewrite <- rnd_0. apply rnd_le. nra.
    - apply Rle_trans with (rnd (IZR n)); [apply rnd_le; nra|]. rewrite rnd_int by lia. lra. }
  exists (Btrunc (f64_mul x (f64_of n 0))).
  assert (T : (0 <= Btrunc (f64_mul x (f64_of n 0)) <= n)%Z).
  { rewrite Btrunc_Ztrunc. split.
    - apply Z.le_trans with (Ztrunc (IZR 0)); [rewrite Ztrunc_IZR; lia|]. apply Ztrunc_le. lra.
    - apply Z.le_trans with (Ztrunc (IZR n)); [|rewrite Ztrunc_IZR; lia]. apply Ztrunc_le. lra. }
  split; [|exact T]. unfold cast_int. fold (finite (f64_mul x (f64_of n 0))) in F.
  unfold finite in F. rewrite F.
  replace (in_int _) with true; [reflexivity|].
  symmetry. apply in_int_iff. unfold INT_MIN, INT_MAX. lia.
Qed.

Theorem pixel_in_image mode asin atan2 order cols rows p :
  asin_contract asin -> atan2_contract atan2 -> head_sum order -> vfinite p ->
  (0 <= cols <= INT_MAX)%Z -> (0 <= rows <= INT_MAX)%Z ->
  exists u v, pixel_f64 mode (equirect asin atan2 order) cols rows p = Ok (u, v) /\
              (0 <= u <= cols)%Z /\ (0 <= v <= rows)%Z.
Proof.
  intros HA HT HS Hp Hc Hr. destruct (equirect_unit asin atan2 order p HA HT HS Hp) as [U V].
  destruct (cast_unit mode _ cols U Hc) as (u & Eu & Bu).
  destruct (cast_unit mode _ rows V Hr) as (v & Ev & Bv).
  exists u, v. unfold pixel_f64. rewrite Eu. cbn [bind]. rewrite Ev. auto.
Qed.
