(** A search for a point that is not a number in a voxel map, on x86. *)
From Coq Require Import Reals ZArith Lra.
From Flocq Require Import Core IEEE754.BinarySingleNaN.
From Verif Require Import Base BaseProofs Num Vec Lin F64 F64Proofs FloorModel FloorProofs KnnModel FactorModel VoxSpec
  VmapModel EstModel HelperModel PipeModel NanSpec NanProofs.
Open Scope nat_scope.

(** * The identity pose *)
Definition same (x y : f64) : Prop := is_finite x = true /\ is_finite y = true /\ B2R x = B2R y.

Lemma same_refl x : is_finite x = true -> same x x.
Proof. split; auto. Qed.
Lemma round_same (x : f64) : round radix2 (FLT_exp (3 - 1024 - 53) 53) (round_mode mode_NE) (B2R x) = B2R x.
Proof. apply round_generic; [apply valid_rnd_N|]. apply (generic_format_B2R 53 1024). Qed.
Lemma mul_one x y : same x y -> same (f64_mul (f64_of 1 0) x) y.
Proof.
  intros (Fx & Fy & E). unfold f64_mul.
  pose proof (Bmult_correct 53 1024 _ _ mode_NE (f64_of 1 0) x) as H.
  assert (O : B2R (f64_of 1 0) = 1%R).
  { assert (f64_of 1 0 = @B754_finite 53 1024 false 4503599627370496 (-52) eq_refl) as -> by (apply B2SF_inj; vm_compute; reflexivity).
    unfold B2R, F2R. cbn [Defs.Fnum Fexp cond_Zopp].
    change 4503599627370496%Z with (radix2 ^ 52)%Z. rewrite (IZR_Zpower radix2 52) by lia. rewrite <- bpow_plus. reflexivity. }
  rewrite O, Rmult_1_l, round_same in H. rewrite Rlt_bool_true in H by apply abs_B2R_lt_emax.
  destruct H as (H1 & H2 & _). split; [rewrite H2, Fx; reflexivity|]. split; [exact Fy|]. congruence.
Qed.
Definition isz (x : f64) : Prop := is_finite x = true /\ B2R x = 0%R.
Lemma mul_zero x : is_finite x = true -> isz (f64_mul (f64_of 0 0) x).
Proof. intros F. change (f64_of 0 0) with (@B754_zero 53 1024 false). destruct x; try discriminate; split; reflexivity. Qed.
Lemma add_isz x y z : same x y -> isz z -> same (f64_add x z) y.
Proof.
  intros (Fx & Fy & E) (Fz & Ez). unfold f64_add.
  pose proof (Bplus_correct 53 1024 _ _ mode_NE x z Fx Fz) as H.
  rewrite Ez, Rplus_0_r, round_same in H. rewrite Rlt_bool_true in H by apply abs_B2R_lt_emax.
  destruct H as (H1 & H2 & _). split; [exact H2|]. split; [exact Fy|]. congruence.
Qed.
Lemma add_isz_l x y z : same x y -> isz z -> same (f64_add z x) y.
Proof.
  intros (Fx & Fy & E) (Fz & Ez). unfold f64_add.
  pose proof (Bplus_correct 53 1024 _ _ mode_NE z x Fz Fx) as H.
  rewrite Ez, Rplus_0_l, round_same in H. rewrite Rlt_bool_true in H by apply abs_B2R_lt_emax.
  destruct H as (H1 & H2 & _). split; [exact H2|]. split; [exact Fy|]. congruence.
Qed.

Definition same4 (p q : vec4 Fnum) : Prop := same (vx p) (vx q) /\ same (vy p) (vy q) /\ same (vz p) (vz q) /\ same (vw p) (vw q).
Lemma identity_same (p : vec4 Ffld) : is_finite (vx p) = true -> is_finite (vy p) = true -> is_finite (vz p) = true -> is_finite (vw p) = true ->
  same4 (pose_pt pose_id p) p.
Proof.
  intros X Y Z W.
  assert (O : forall x, is_finite x = true -> same (f64_mul (f64_of 1 0) x) x) by (intros; apply mul_one, same_refl; auto).
  pose proof mul_zero as M0.
  assert (M1 : forall x, is_finite x = true -> isz (f64_mul x (f64_of 0 0))).
  { intros x F. change (f64_of 0 0) with (@B754_zero 53 1024 false). destruct x; try discriminate; split; reflexivity. }
  split; [|split; [|split]]; [| | |apply same_refl, W].
  - apply add_isz; [|apply M1, W]. apply add_isz; [|apply M0, Z]. apply add_isz; [|apply M0, Y]. apply O, X.
  - apply add_isz; [|apply M1, W]. apply add_isz; [|apply M0, Z]. apply add_isz_l; [|apply M0, X]. apply O, Y.
  - apply add_isz; [|apply M1, W]. apply add_isz_l; [apply O, Z|].
    assert (A : forall a b, isz a -> isz b -> isz (f64_add a b)).
    { intros a b [Fa Ea] [Fb Eb]. destruct (add_isz a a b (same_refl a Fa) (conj Fb Eb)) as (F & _ & E). split; [exact F|congruence]. }
    apply A; apply M0; assumption.
Qed.

Lemma finite_factor (x inv : f64) : is_finite (f64_mul x inv) = true -> is_finite x = true /\ is_finite inv = true.
Proof. destruct x, inv; cbn; auto; discriminate. Qed.
Lemma same_mul (x y inv : f64) : same x y -> is_finite (f64_mul y inv) = true -> same (f64_mul x inv) (f64_mul y inv).
Proof.
  intros (Fx & Fy & E) F. destruct (finite_factor _ _ F) as [_ Fi]. unfold f64_mul in *.
  pose proof (Bmult_correct 53 1024 _ _ mode_NE x inv) as Hx.
  pose proof (Bmult_correct 53 1024 _ _ mode_NE y inv) as Hy.
  rewrite E in Hx. destruct (Rlt_bool _ _).
  - destruct Hx as (X1 & X2 & _), Hy as (Y1 & Y2 & _). split; [rewrite X2, Fx, Fi; reflexivity|]. split; [exact F|]. congruence.
  - exfalso. revert F. rewrite <- is_finite_SF_B2SF, Hy. unfold binary_overflow. cbn. destruct (xorb _ _); discriminate.
Qed.

(** The axes of the voxel of a point, when they are representable. *)
Lemma axis_range m (inv x y : f64) : same x y -> in_axis inv y ->
  exists z, fast_floor m (f64_mul x inv) = Ok z /\ (-1048576 <= z < 1048576)%Z.
Proof.
  intros S [F B]. destruct (same_mul x y inv S F) as (F1 & _ & E). exists (axis_cell inv y). split; [|exact B].
  unfold axis_cell in *. rewrite <- E in *. apply fast_floor_correct; [exact F1|]. apply in_int_iff.
  unfold INT_MIN, INT_MAX. lia.
Qed.
Definition low (c : coord) : Prop := let '(x, y, z) := c in (-1048576 <= x)%Z /\ (-1048576 <= y)%Z /\ (-1048576 <= z)%Z.
Lemma voxel_low m (inv : f64) (p q : vec4 Fnum) c : same4 p q -> in_grid inv q -> voxel_of m inv p = Ok c -> low c.
Proof.
  intros (SX & SY & SZ & SW) (X & Y & Z & W). unfold voxel_of.
  destruct (axis_range m inv _ _ SX X) as (x & -> & Bx). destruct (axis_range m inv _ _ SY Y) as (y & -> & By).
  destruct (axis_range m inv _ _ SZ Z) as (z & -> & Bz). destruct (axis_range m inv _ _ SW W) as (w & -> & Bw).
  cbn [bind]. intros H. injection H as <-. cbn. lia.
Qed.

(** The voxel of a point that is not a number. *)
Definition outside (c : coord) : Prop := let '(x, y, z) := c in x = INT_MIN \/ y = INT_MIN \/ z = INT_MIN.
Lemma outside_not_low c : outside c -> ~ low c.
Proof. destruct c as [[x y] z]. cbn. unfold INT_MIN. lia. Qed.
Lemma shift_outside c : outside c -> exists c', shift X86 c (0, 0, 0)%Z = Ok c' /\ outside c'.
Proof.
  destruct c as [[x y] z]. unfold shift. rewrite !Z.add_0_r.
  assert (T : forall z, exists z', int_result X86 z = Ok z' /\ (z = INT_MIN -> z' = INT_MIN)).
  { intros z0. unfold int_result. destruct (in_int z0) eqn:E; eexists; (split; [reflexivity|]); auto. intros ->. discriminate. }
  destruct (T x) as (x' & -> & X). destruct (T y) as (y' & -> & Y). destruct (T z) as (z' & -> & Z). cbn [bind].
  intros O. eexists. split; [reflexivity|]. cbn in *. tauto.
Qed.
Lemma floor_nan (x : f64) : isnan x -> fast_floor X86 x = Ok INT_MIN.
Proof. intros ->%nan_eq. reflexivity. Qed.
Lemma voxel_bad (inv : f64) (q : vec4 Fnum) : bad (q : vec4 Ffld) -> exists c, voxel_of X86 inv q = Ok c /\ outside c.
Proof.
  intros B. unfold voxel_of.
  assert (T : forall x, exists z, fast_floor X86 x = Ok z).
  { intros x. unfold fast_floor, cast_int, int_result. destruct (_ && _); cbn [bind]; destruct (in_int _); eauto. }
  destruct (T (f64_mul (vx q) inv)) as (x & Ex). destruct (T (f64_mul (vy q) inv)) as (y & Ey).
  destruct (T (f64_mul (vz q) inv)) as (z & Ez). destruct (T (f64_mul (vw q) inv)) as (w & Ew).
  rewrite Ex, Ey, Ez, Ew. cbn [bind]. eexists. split; [reflexivity|]. cbn.
  destruct B as [B|[B|B]]; apply (fun N => nan_mul_l _ inv N), floor_nan in B.
  - pose proof (eq_trans (eq_sym Ex) B) as Q. injection Q as ->. auto.
  - pose proof (eq_trans (eq_sym Ey) B) as Q. injection Q as ->. auto.
  - pose proof (eq_trans (eq_sym Ez) B) as Q. injection Q as ->. auto.
Qed.

(** * The map holds voxels of its points only *)
Lemma insert_points_keys (P : coord -> Prop) {D : num} {C : contents D} coord_of now qs : forall flat idx flat' idx',
  foldM (insert_point (D := D) (C := C) coord_of now) qs (flat, idx) = Ok (flat', idx') ->
  (forall k i, In (k, i) idx -> P k) -> (forall q c, In q qs -> coord_of (it_pt q) = Ok c -> P c) ->
  forall k i, In (k, i) idx' -> P k.
Proof.
  induction qs as [|q qs IH]; intros flat idx flat' idx' H HI HQ; cbn [foldM] in H.
  - injection H as <- <-. exact HI.
  - apply bind_Ok in H. destruct H as ([f1 i1] & E & H). apply (IH _ _ _ _ H); [|intros; eapply HQ; [right|]; eauto].
    unfold insert_point in E. apply bind_Ok in E. destruct E as (c & Ec & E). destruct (lookup idx c).
    + apply bind_Ok in E. destruct E as (v & _ & E). apply bind_Ok in E. destruct E as (f2 & _ & E). injection E as <- <-. exact HI.
    + apply bind_Ok in E. destruct E as (v & _ & E). apply bind_Ok in E. destruct E as (f2 & _ & E). injection E as <- <-.
      intros k i [K|K]; [injection K as <- _; apply (HQ q c (or_introl eq_refl) Ec)|eauto].
Qed.
Lemma lookup_In idx c : forall i, lookup idx c = Some i -> exists c', In (c', i) idx /\ coord_eqb c' c = true.
Proof.
  induction idx as [|[c' j] idx IH]; intros i H; [discriminate|]. cbn [lookup] in H. destruct (coord_eqb c' c) eqn:E.
  - injection H as <-. exists c'. split; [left; reflexivity|exact E].
  - destruct (IH i H) as (c0 & H0 & E0). exists c0. split; [right; exact H0|exact E0].
Qed.

Lemma items_points c : forall qs, items c = Ok qs -> forall q, In q qs -> In (it_pt q) (cl_points c).
Proof.
  unfold items. generalize (seq 0 (length (cl_points c))). induction l as [|i l IH]; intros qs H q Hq; cbn [mapM] in H.
  - injection H as <-. destruct Hq.
  - apply bind_Ok in H. destruct H as (a & Ea & H). apply bind_Ok in H. destruct H as (as' & Es & H). injection H as <-.
    destruct Hq as [<-|Hq]; [|eapply IH; eauto].
    apply bind_Ok in Ea. destruct Ea as (p & Ep & Ea). apply bind_Ok in Ea. destruct Ea as (cv & _ & Ea). injection Ea as <-.
    cbn [it_pt]. apply get_Ok in Ep. eapply nth_error_In. exact Ep.
Qed.

Lemma map_nn_bad (order : sumtree) (of_nat : nat -> f64) (c : cloud Ffld) (resolution : f64) st q :
  (forall p, In p (cl_points c) -> in_grid (inv_leaf resolution) p) ->
  gaussian_map X86 of_nat c resolution = Ok st -> bad q -> map_nn X86 order of_nat resolution st q = Ok None.
Proof.
  intros G H B. unfold gaussian_map in H. apply bind_Ok in H. destruct H as (qs & Eq & H).
  unfold VmapModel.insert in H. apply bind_Ok in H. destruct H as ([f1 i1] & E1 & H).
  cbn [new_map lru_counter lru_clear_cycle lru_horizon flat_voxels voxels search_offsets] in *.
  change (wrap64 (0 + 1)) with 1%N in H. change (10 =? 0)%N with false in H. change (1 mod 10 =? 0)%N with false in H.
  cbn [bind] in H. injection H as <-.
  assert (K : forall k i, In (k, i) i1 -> low k).
  { apply (insert_points_keys low _ _ _ _ _ _ _ E1); [intros k i []|].
    intros q0 c0 Hq Ec. apply in_map_iff in Hq. destruct Hq as (q1 & <- & Hq1).
    apply (items_points c qs Eq) in Hq1. specialize (G _ Hq1). cbn [moved it_pt] in Ec.
    refine (voxel_low _ _ _ _ _ _ G Ec). destruct G as ([X _] & [Y _] & [Z _] & [W _]).
    apply finite_factor in X, Y, Z, W. apply identity_same; [apply X|apply Y|apply Z|apply W]. }
  unfold map_nn, VmapModel.nearest_neighbor_search, search_loop. cbn [knn_init bind search_offsets voxels].
  destruct (voxel_bad (inv_leaf resolution) q B) as (ctr & Ec & NL).
  match goal with |- (let* r := (let* r0 := ?a in _) in _) = _ => destruct a as [r0| | |] eqn:E0; try discriminate E0 end. cbn [bind].
  rewrite Ec. cbn [bind].
  change (next_offsets [] 1) with [(0, 0, 0)%Z]. cbn [foldM].
  destruct (shift_outside ctr NL) as (ctr' & -> & NL'). cbn [bind].
  destruct (lookup i1 ctr') as [i|] eqn:El.
  - exfalso. destruct (lookup_In _ _ _ El) as (k & Hk & Ek). apply K in Hk. apply (outside_not_low ctr' NL').
    destruct k as [[kx ky] kz], ctr' as [[cx cy] cz]. unfold coord_eqb in Ek. cbn in *. lia.
  - cbn [bind]. injection E0 as <-. reflexivity.
Qed.
