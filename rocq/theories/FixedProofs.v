(** Voxel grid downsampling of fixed-point clouds in doubles. *)
From Coq Require Import Reals ZArith Lra Psatz ZifyBool ZifyNat.
From Flocq Require Import Core.
From Flocq Require Import IEEE754.BinarySingleNaN.
From Verif Require Import Base BaseProofs Num Vec F64 F64Proofs F64Err FloorModel FloorProofs KdModel KdSpec
  SortSpec VoxModel VoxSpec VoxProofs VoxKey VoxPar VoxReal VoxF64 FixedSpec.
Open Scope nat_scope.

(** ** Exact sums *)
Lemma step_format k e : (Z.abs k < 2 ^ 53)%Z -> (-1074 <= e)%Z -> rnd (IZR k * bpow radix2 e) = (IZR k * bpow radix2 e)%R.
Proof.
  intros Hk He. unfold rnd. apply round_generic; [typeclasses eauto|].
  apply generic_format_FLT. exists (Float radix2 k e); [reflexivity|exact Hk|]. cbn. unfold SpecFloat.emin. lia.
Qed.

Lemma step_bound k e : (Z.abs k < 2 ^ 53)%Z -> (Rabs (IZR k * bpow radix2 e) <= bpow radix2 (53 + e))%R.
Proof.
  intros Hk. rewrite Rabs_mult, (Rabs_pos_eq (bpow radix2 e)) by apply bpow_ge_0. rewrite <- abs_IZR, bpow_plus.
  apply Rmult_le_compat_r; [apply bpow_ge_0|]. change (bpow radix2 53) with (IZR (2 ^ 53)). apply IZR_le. lia.
Qed.

Section Exact.
Context (e M : Z).
Hypothesis He : (-1074 <= e <= 800)%Z.

Lemma add_steps x y a b : finite x -> finite y ->
  B2R x = (IZR a * bpow radix2 e)%R -> B2R y = (IZR b * bpow radix2 e)%R -> (Z.abs (a + b) < 2 ^ 53)%Z ->
  finite (f64_add x y) /\ B2R (f64_add x y) = (IZR (a + b) * bpow radix2 e)%R.
Proof.
  intros Fx Fy Ex Ey Hk.
  assert (S : (B2R x + B2R y = IZR (a + b) * bpow radix2 e)%R) by (rewrite Ex, Ey, plus_IZR; ring).
  destruct (Z_le_gt_dec (-1074) (53 + e)) as [L|G]; [|lia].
  destruct (add_finite x y (53 + e) Fx Fy) as (F & E); [lia|rewrite S; apply step_bound; auto|].
  split; auto. rewrite E, S. apply step_format; auto; lia.
Qed.

Lemma fold_steps l : forall s a A, finite s -> B2R s = (IZR a * bpow radix2 e)%R -> (Z.abs a <= A)%Z ->
  (forall x, In x l -> fixed e M x) -> (0 <= M)%Z -> (A + Z.of_nat (length l) * M < 2 ^ 53)%Z ->
  finite (fold_left f64_add l s) /\ B2R (fold_left f64_add l s) = (B2R s + sum_val l)%R.
Proof.
  induction l as [|x l IH]; intros s a A Fs Es Ha Hl HM Hb.
  - cbn. split; auto. unfold sum_val. cbn. lra.
  - cbn [fold_left]. destruct (Hl x (or_introl eq_refl)) as (Fx & k & Ek & Hk).
    assert (HL : Z.of_nat (length (x :: l)) = (1 + Z.of_nat (length l))%Z) by (simpl length; lia). rewrite HL in Hb.
    destruct (add_steps s x a k Fs Fx Es Ek) as (F & E); [nia|].
    destruct (IH (f64_add s x) (a + k)%Z (A + M)%Z F E) as (F' & E'); [lia|intros; apply Hl; right; auto|auto|nia|].
    split; auto. rewrite E', E. unfold sum_val. cbn [map Rsuml fold_right]. rewrite plus_IZR, Es, Ek. unfold Rsuml. ring.
Qed.

Lemma sum1_exact l s : is_sum1 l s -> l <> [] -> (forall x, In x l -> fixed e M x) ->
  (Z.of_nat (length l) * M < 2 ^ 53)%Z -> finite s /\ B2R s = sum_val l.
Proof.
  intros Hs Hne Hl Hb.
  assert (HM : (0 <= M)%Z).
  { destruct l as [|x l]; [congruence|]. destruct (Hl x (or_introl eq_refl)) as (_ & k & _ & Hk). lia. }
  destruct Hs as [->|(p & r & -> & ->)].
  - destruct (fold_steps l (B754_zero false) 0 0) as (F & E); auto; try lia.
    + reflexivity.
    + cbn. lra.
    + split; auto. rewrite E. cbn. lra.
  - destruct (Hl p (or_introl eq_refl)) as (Fp & k & Ek & Hk).
    assert (HL : Z.of_nat (length (p :: r)) = (1 + Z.of_nat (length r))%Z) by (simpl length; lia). rewrite HL in Hb.
    destruct (fold_steps r p k M Fp Ek Hk) as (F & E); auto; try nia.
    + intros; apply Hl; right; auto.
Qed.

Lemma sum_val_Rsum l : sum_val l = Rsum (map B2R l).
Proof. reflexivity. Qed.

Lemma mean_between lo hi l : l <> [] -> (forall x, In x l -> lo <= x <= hi)%R -> (lo <= mean l <= hi)%R.
Proof.
  intros Hne H. unfold mean.
  assert (P : (0 < INR (length l))%R).
  { apply lt_0_INR. destruct l; [congruence|simpl; lia]. }
  destruct (Rsum_bounds lo hi l H) as [B1 B2].
  split; apply (Rmult_le_reg_r (INR (length l))); auto; unfold Rdiv; rewrite Rmult_assoc, Rinv_l by lra; lra.
Qed.

(** Extreme members. *)
Lemma extremes (l : list f64) : l <> [] -> exists a b, In a l /\ In b l /\
  forall x, In x l -> (B2R a <= B2R x <= B2R b)%R.
Proof.
  induction l as [|x l IH]; intros Hne; [congruence|].
  destruct l as [|y l].
  - exists x, x. split; [left; auto|]. split; [left; auto|]. intros z [<-|[]]. lra.
  - destruct IH as (a & b & Ha & Hb & H); [discriminate|].
    exists (if Rle_dec (B2R x) (B2R a) then x else a), (if Rle_dec (B2R b) (B2R x) then x else b).
    split; [destruct (Rle_dec _ _); [left; auto|right; auto]|].
    split; [destruct (Rle_dec _ _); [left; auto|right; auto]|].
    intros z [<-|Hz]; [|specialize (H z Hz)].
    + destruct (Rle_dec (B2R x) (B2R a)), (Rle_dec (B2R b) (B2R x)); lra.
    + destruct (Rle_dec (B2R x) (B2R a)), (Rle_dec (B2R b) (B2R x)); lra.
Qed.

Lemma rnd_self x : finite x -> rnd (B2R x) = B2R x.
Proof. intros F. unfold rnd. apply round_generic; [typeclasses eauto|]. apply finite_format. auto. Qed.

Lemma mean_axis_exact l s c : is_sum1 l s -> l <> [] -> (forall x, In x l -> fixed e M x) ->
  (Z.of_nat (length l) * M < 2 ^ 53)%Z -> B2R c = INR (length l) ->
  nearest_double (mean (map B2R l)) (f64_div s c) /\ within l (f64_div s c).
Proof.
  intros Hs Hne Hl Hb Hc.
  destruct (sum1_exact l s Hs Hne Hl Hb) as (Fs & Es).
  assert (P : (0 < INR (length l))%R).
  { apply lt_0_INR. destruct l; [congruence|simpl; lia]. }
  assert (Q : (B2R s / B2R c = mean (map B2R l))%R).
  { rewrite Es, Hc. unfold mean. rewrite map_length. reflexivity. }
  destruct (extremes l Hne) as (a & b & Ha & Hb' & HX).
  assert (B : (B2R a <= mean (map B2R l) <= B2R b)%R).
  { apply mean_between; [destruct l; [congruence|discriminate]|].
    intros x Hx. apply in_map_iff in Hx. destruct Hx as (y & <- & Hy). auto. }
  assert (HF : forall x, In x l -> finite x /\ (Rabs (B2R x) <= bpow radix2 (53 + e))%R).
  { intros x Hx. destruct (Hl x Hx) as (Fx & k & Ek & Hk). split; auto. rewrite Ek. apply step_bound.
    assert (1 <= Z.of_nat (length l))%Z by (destruct l; [congruence|simpl length; lia]). nia. }
  destruct (HF a Ha) as (Fa & Ba). destruct (HF b Hb') as (Fb & Bb).
  destruct (div_finite s c (53 + e) Fs) as (F & E); [rewrite Hc; lra|lia| |].
  { rewrite Q. apply Rabs_le. apply Rabs_le_inv in Ba. apply Rabs_le_inv in Bb. lra. }
  rewrite Q in E. split; [split; auto; rewrite E; reflexivity|].
  exists a, b. split; auto. split; auto. rewrite E.
  rewrite <- (rnd_self a Fa), <- (rnd_self b Fb). split; apply rnd_le; lra.
Qed.
End Exact.

(** ** Cells of points in between *)
Lemma axis_cell_range inv x : in_axis inv x -> finite x -> finite inv ->
  (IZR (axis_cell inv x) <= rnd (B2R x * B2R inv) < IZR (axis_cell inv x) + 1)%R /\
  (Rabs (B2R x * B2R inv) <= bpow radix2 21)%R.
Proof.
  intros (F & H) Fx Fi. unfold axis_cell in *.
  assert (E : B2R (f64_mul x inv) = rnd (B2R x * B2R inv)).
  { unfold f64_mul in *. pose proof (Bmult_correct 53 1024 _ _ mode_NE x inv) as C. cbn [round_mode] in C.
    destruct (Rlt_bool _ _) eqn:L in C.
    - destruct C as (C & _). rewrite C. reflexivity.
    - exfalso. destruct (Bmult mode_NE x inv); cbn in F; try discriminate F; cbn in C; discriminate C. }
  rewrite E in *. split; [split; [apply Zfloor_lb|apply Zfloor_ub]|].
  assert (G21 : rnd (bpow radix2 21) = bpow radix2 21).
  { change (bpow radix2 21) with (IZR (2 ^ 21)). apply rnd_int. lia. }
  pose proof (Zfloor_lb (rnd (B2R x * B2R inv))) as LB. pose proof (Zfloor_ub (rnd (B2R x * B2R inv))) as UB.
  destruct H as [H1 H2]. apply IZR_le in H1.
  assert (H2' : (Zfloor (rnd (B2R x * B2R inv)) + 1 <= 1048576)%Z) by lia. apply IZR_le in H2'. rewrite plus_IZR in H2'.
  assert (B21 : (bpow radix2 21 = 2097152)%R) by reflexivity.
  apply Rabs_le. split; apply Rnot_lt_le; intros C.
  - assert (D : (rnd (B2R x * B2R inv) <= rnd (- bpow radix2 21))%R) by (apply rnd_le; lra).
    rewrite rnd_opp, G21 in D. lra.
  - assert (D : (rnd (bpow radix2 21) <= rnd (B2R x * B2R inv))%R) by (apply rnd_le; lra).
    rewrite G21 in D. lra.
Qed.

Lemma axis_between inv z (l : list f64) x : finite inv -> (0 < B2R inv)%R -> finite x -> within l x ->
  (forall y, In y l -> finite y /\ in_axis inv y /\ axis_cell inv y = z) ->
  in_axis inv x /\ axis_cell inv x = z.
Proof.
  intros Fi Pi Fx (a & b & Ha & Hb & H) Hl.
  destruct (Hl a Ha) as (Fa & Ia & Ca). destruct (Hl b Hb) as (Fb & Ib & Cb).
  destruct (axis_cell_range inv a Ia Fa Fi) as (Ra & Ba). destruct (axis_cell_range inv b Ib Fb Fi) as (Rb & Bb).
  assert (L : (B2R a * B2R inv <= B2R x * B2R inv <= B2R b * B2R inv)%R).
  { split; apply Rmult_le_compat_r; lra. }
  destruct (mul_finite x inv 21 Fx Fi) as (F & E); [lia| |].
  { apply Rabs_le. apply Rabs_le_inv in Ba. apply Rabs_le_inv in Bb. lra. }
  assert (C : axis_cell inv x = z).
  { unfold axis_cell. rewrite E. apply Zfloor_imp. rewrite plus_IZR. rewrite Ca in Ra. rewrite Cb in Rb.
    pose proof (rnd_le _ _ (proj1 L)). pose proof (rnd_le _ _ (proj2 L)). lra. }
  split; auto. split; [exact F|]. rewrite C, <- Ca. apply Ia.
Qed.

(** ** One voxel *)
Lemma emit_exact e M (l : list (vec4 Fnum)) s : (-1074 <= e <= 800)%Z -> is_sum l s -> l <> [] ->
  (forall p, In p l -> fixed_point e M p) -> (Z.of_nat (length l) * Z.max M 1 < 2 ^ 53)%Z ->
  rounded_mean l (emit s) /\ within (map vx l) (vx (emit s)) /\ within (map vy l) (vy (emit s)) /\
  within (map vz l) (vz (emit s)).
Proof.
  intros He Hs Hne HX Hn. destruct (is_sum_axis l s Hs) as (Sx & Sy & Sz & Sw).
  assert (Hmap : forall f : vec4 Fnum -> f64, map f l <> []) by (intros f; destruct l; [congruence|discriminate]).
  destruct (ones_sum1 _ _ Sw) as (Fw & Ew); auto.
  { intros x Hx. apply in_map_iff in Hx. destruct Hx as (p & <- & Hp). apply HX; auto. }
  { rewrite map_length. nia. }
  rewrite map_length in Ew.
  assert (AX : forall f : vec4 Fnum -> f64, f = vx \/ f = vy \/ f = vz -> is_sum1 (map f l) (f s) ->
     nearest_double (axis_mean f l) (f64_div (f s) (vw s)) /\ within (map f l) (f64_div (f s) (vw s))).
  { intros f Hf Hsf. destruct (mean_axis_exact e M He (map f l) (f s) (vw s)) as (A & B); auto.
    - intros x Hx. apply in_map_iff in Hx. destruct Hx as (p & <- & Hp). destruct (HX p Hp) as (X1 & X2 & X3 & _).
      destruct Hf as [-> | [-> | ->]]; auto.
    - rewrite map_length. nia.
    - rewrite map_length. exact Ew.
    - split; auto. unfold axis_mean. rewrite map_map in A. exact A. }
  unfold rounded_mean, emit, vdivs. cbn [vx vy vz vw]. change (@ndiv Fnum) with f64_div.
  destruct (AX vx) as (X1 & X2); auto. destruct (AX vy) as (Y1 & Y2); auto. destruct (AX vz) as (Z1 & Z2); auto.
  repeat (split; auto). apply div_self; auto. rewrite Ew. apply not_0_INR. destruct l; [congruence|discriminate].
Qed.

Lemma axis_mean_perm f l l' : Permutation l l' -> axis_mean f l = axis_mean f l'.
Proof. intros H. unfold axis_mean. apply mean_perm, Permutation_map, H. Qed.

Lemma rounded_mean_perm l l' o : Permutation l l' -> rounded_mean l o -> rounded_mean l' o.
Proof. intros H. unfold rounded_mean. rewrite !(axis_mean_perm _ l l' H). auto. Qed.

Lemma rounded_mean_same l o o' : rounded_mean l o -> rounded_mean l o' -> same_point o o'.
Proof.
  intros ((F1 & E1) & (F2 & E2) & (F3 & E3) & W) ((G1 & D1) & (G2 & D2) & (G3 & D3) & W').
  unfold same_point, same_coord. rewrite W, W'. repeat split; auto; congruence.
Qed.

(** ** Sorted cells *)
Lemma cell_lt_irrefl c : ~ cell_lt c c.
Proof. destruct c as [[x y] z]. cbn. lia. Qed.
Lemma cell_lt_trans a b c : cell_lt a b -> cell_lt b c -> cell_lt a c.
Proof. destruct a as [[? ?] ?], b as [[? ?] ?], c as [[? ?] ?]. cbn. lia. Qed.

Lemma sorted_cells_unique (a : list (Z * Z * Z)) : forall b, StronglySorted cell_lt a -> StronglySorted cell_lt b ->
  (forall k, In k a <-> In k b) -> a = b.
Proof.
  induction a as [|x a IH]; intros b Ha Hb Hab.
  - destruct b as [|y b]; auto. destruct (proj2 (Hab y) (or_introl eq_refl)).
  - destruct b as [|y b]; [destruct (proj1 (Hab x) (or_introl eq_refl))|].
    inversion Ha as [|? ? Ha1 Ha2]; subst. inversion Hb as [|? ? Hb1 Hb2]; subst.
    rewrite Forall_forall in Ha2, Hb2.
    assert (x = y).
    { destruct (proj1 (Hab x) (or_introl eq_refl)) as [->|Hx]; auto.
      destruct (proj2 (Hab y) (or_introl eq_refl)) as [->|Hy]; auto.
      exfalso. apply (cell_lt_irrefl x). eapply cell_lt_trans; eauto. }
    subst y. f_equal. apply IH; auto. intros k. split; intros Hk.
    + destruct (proj1 (Hab k) (or_intror Hk)) as [<-|]; auto. exfalso. apply (cell_lt_irrefl x). auto.
    + destruct (proj2 (Hab k) (or_intror Hk)) as [<-|]; auto. exfalso. apply (cell_lt_irrefl x). auto.
Qed.

Lemma sorted_cells_NoDup (a : list (Z * Z * Z)) : StronglySorted cell_lt a -> NoDup a.
Proof.
  induction 1 as [|x a S IH F]; constructor; auto. intros Hx. rewrite Forall_forall in F.
  apply (cell_lt_irrefl x). auto.
Qed.

(** ** One point alone in its voxel *)
Lemma in_grid_safe m inv p : in_grid inv p -> safe m inv p.
Proof.
  intros ((F1 & H1) & (F2 & H2) & (F3 & H3) & (F4 & H4)). right. unfold safe_axis. repeat split; auto; lia.
Qed.

Lemma alone_coord x w : finite x -> (Rabs (B2R x) <= bpow radix2 900)%R -> finite w -> B2R w = 1%R ->
  same_coord x (f64_div x w) /\ same_coord x (f64_div (f64_add (B754_zero false) x) w).
Proof.
  intros Fx Bx Fw Ew.
  assert (D : forall y, finite y -> B2R y = B2R x -> same_coord x (f64_div y w)).
  { intros y Fy Ey. destruct (div_finite y w 900 Fy) as (F & E); [rewrite Ew; lra|lia| |].
    - rewrite Ew, Ey. unfold Rdiv. rewrite Rinv_1, Rmult_1_r. exact Bx.
    - split; auto. split; auto. rewrite E, Ew, Ey. unfold Rdiv. rewrite Rinv_1, Rmult_1_r.
      symmetry. apply rnd_self. auto. }
  split; [apply D; auto|].
  destruct (add_finite (B754_zero false) x 900) as (F & E); auto; [reflexivity|lia| |].
  - cbn [B2R]. rewrite Rplus_0_l. exact Bx.
  - apply D; auto. rewrite E. cbn [B2R]. rewrite Rplus_0_l. apply rnd_self. auto.
Qed.

Lemma alone p s : usable p -> is_sum [p] s -> same_point p (emit s).
Proof.
  intros (W & U) Hs. destruct (is_sum_axis [p] s Hs) as (_ & _ & _ & Sw).
  destruct (ones_sum1 _ _ Sw) as (Fw & Ew); [discriminate|intros x [<-|[]]; auto|cbn; lia|].
  cbn [map length INR] in Ew.
  assert (E : forall f : vec4 Fnum -> f64, f = vx \/ f = vy \/ f = vz -> same_coord (f p) (f64_div (f s) (vw s))).
  { intros f Hf. destruct (U f Hf) as (F & B). destruct (alone_coord (f p) (vw s) F B Fw Ew) as (A1 & A2).
    destruct Hs as [-> | (q & r & Eq & ->)].
    - destruct Hf as [-> | [-> | ->]]; exact A2.
    - injection Eq as <- <-. cbn [fold_left]. destruct Hf as [-> | [-> | ->]]; exact A1. }
  unfold same_point, emit, vdivs. cbn [vx vy vz vw]. change (@ndiv Fnum) with f64_div.
  split; [apply E; auto|]. split; [apply E; auto|]. split; [apply E; auto|].
  rewrite W. symmetry. apply div_self; auto. rewrite Ew. lra.
Qed.

Lemma filter_alone inv (out : list (vec4 Fnum)) o : NoDup (map (cell inv) out) -> (forall p, In p out -> in_grid inv p) ->
  In o out -> filter (in_voxel inv (cell inv o)) out = [o].
Proof.
  induction out as [|p out IH]; intros Nd G Ho; [destruct Ho|].
  cbn [map] in Nd. inversion Nd as [|? ? N1 N2]; subst.
  assert (Gp : in_gridb inv p = true) by (apply in_gridb_iff, G; left; auto).
  cbn [filter]. unfold in_voxel at 1. rewrite Gp. cbn [andb]. destruct Ho as [->|Ho].
  - rewrite (proj2 (cell_eqb_iff (cell inv o) (cell inv o)) eq_refl). f_equal.
    assert (K : forall l, (forall x, In x l -> cell inv x <> cell inv o) -> filter (in_voxel inv (cell inv o)) l = []).
    { induction l as [|a l IHl]; intros H; cbn [filter]; auto.
      destruct (in_voxel inv (cell inv o) a) eqn:Q; [|apply IHl; intros; apply H; right; auto].
      exfalso. unfold in_voxel in Q. apply andb_true_iff in Q. destruct Q as [_ Q]. apply cell_eqb_iff in Q.
      apply (H a); [left; auto|auto]. }
    apply K. intros x Hx C. apply N1. rewrite <- C. apply in_map. auto.
  - destruct (cell_eqb (cell inv p) (cell inv o)) eqn:Q.
    + apply cell_eqb_iff in Q. exfalso. apply N1. rewrite Q. apply in_map. auto.
    + apply IH; auto. intros; apply G; right; auto.
Qed.

Section Top.
Context (sort : forall A : Type, (A -> A -> bool) -> list A -> list A).
Hypothesis SC : sort_contract sort.
Context (m : int_mode) (inv : f64).

(** A cloud with one point per voxel, in the order of the voxels, is returned unchanged. *)
Lemma settled out : out <> [] ->
  (forall p, In p out -> in_grid inv p /\ usable p) -> StronglySorted cell_lt (map (cell inv) out) ->
  exists out', voxelgrid_sampling (voxel_key m inv) sort out = Ok out' /\ Forall2 same_point out out'.
Proof.
  intros Hne H Hs.
  destruct (serial_groups sort SC m inv out) as (out' & cells & E & S & C & G).
  { intros p Hp. apply in_grid_safe. apply H. auto. }
  { destruct out as [|p out]; [congruence|]. exists p. split; [left; auto|]. apply H. left; auto. }
  exists out'. split; auto.
  assert (EC : cells = map (cell inv) out).
  { apply sorted_cells_unique; auto. intros c. rewrite C, in_map_iff. split.
    - intros (p & Hp & _ & <-). eauto.
    - intros (p & <- & Hp). exists p. split; auto. split; auto. apply H. auto. }
  subst cells. apply sorted_cells_NoDup in Hs.
  assert (HI : forall o, In o out -> filter (in_voxel inv (cell inv o)) out = [o]).
  { intros o Ho. apply filter_alone; auto. intros; apply H; auto. }
  assert (HU : forall o, In o out -> usable o) by (intros; apply H; auto).
  clear -G HI HU. revert out' G. generalize dependent out. intros out.
  assert (K : forall l out', (forall o, In o l -> filter (in_voxel inv (cell inv o)) out = [o] /\ usable o) ->
    Forall2 (fun c o => exists l, Permutation l (filter (in_voxel inv c) out) /\ exists s, is_sum l s /\ o = emit s)
      (map (cell inv) l) out' -> Forall2 same_point l out').
  { induction l as [|o l IH]; intros out' H G; inversion G as [|? o' ? r (g & HP & s & Hs & ->) G']; subst; constructor.
    - destruct (H o (or_introl eq_refl)) as (Ho & Uo). rewrite Ho in HP. apply Permutation_sym, Permutation_length_1_inv in HP.
      subst g. apply alone; auto.
    - apply IH; auto. intros; apply H; right; auto. }
  intros HI HU out' G. apply K; auto.
Qed.

Context (e M : Z).
Hypothesis He : (-1074 <= e <= 800)%Z.
Hypothesis Fi : finite inv.
Hypothesis Pi : (0 < B2R inv)%R.

Lemma fixed_finite x : fixed e M x -> finite x.
Proof. intros (F & _). exact F. Qed.

Lemma centroids points : (forall p, In p points -> safe m inv p) ->
  (forall p, In p points -> in_grid inv p -> fixed_point e M p) ->
  (Z.of_nat (length points) * Z.max M 1 < 2 ^ 53)%Z ->
  (exists p, In p points /\ in_grid inv p) ->
  exists out cells, voxelgrid_sampling (voxel_key m inv) sort points = Ok out /\
    StronglySorted cell_lt cells /\
    (forall c, In c cells <-> exists p, In p points /\ in_grid inv p /\ cell inv p = c) /\
    Forall2 (fun c o => rounded_mean (filter (in_voxel inv c) points) o /\ in_grid inv o /\ cell inv o = c /\ usable o) cells out.
Proof.
  intros HS HX Hn H0. destruct (serial_groups sort SC m inv points HS H0) as (out & cells & E & S & C & G).
  exists out, cells. split; auto. split; auto. split; auto.
  assert (C' : forall c, In c cells -> exists p, In p points /\ in_grid inv p /\ cell inv p = c) by (intros; apply C; auto).
  clear -HX Hn G C' He Fi Pi. induction G as [|c o cells out (l & HP & s & Hs & ->) G IH]; constructor.
  2: { apply IH. intros; apply C'; right; auto. }
  pose proof (voxel_nonempty inv points c l HP (C' c (or_introl eq_refl))) as Hne.
  pose proof (voxel_length inv points c l HP) as HL.
  assert (HV : forall p, In p l -> fixed_point e M p /\ in_grid inv p /\ cell inv p = c).
  { intros p Hp. destruct (voxel_points inv points c l p HP Hp) as (A & B & D). auto. }
  destruct (emit_exact e M l s He Hs Hne) as (RM & Wx & Wy & Wz); [intros p Hp; apply HV; auto|nia|].
  split; [eapply rounded_mean_perm; eauto|].
  destruct RM as ((Fx & Ex) & (Fy & Ey) & (Fz & Ez) & Ew).
  destruct c as [[cx cy] cz].
  assert (AB : forall (f : vec4 Fnum -> f64) z, is_finite (f (emit s)) = true -> within (map f l) (f (emit s)) ->
     (forall p, In p l -> finite (f p) /\ in_axis inv (f p) /\ axis_cell inv (f p) = z) ->
     in_axis inv (f (emit s)) /\ axis_cell inv (f (emit s)) = z).
  { intros f z Ff W Hf. apply (axis_between inv z (map f l)); auto.
    intros y Hy. apply in_map_iff in Hy. destruct Hy as (p & <- & Hp). auto. }
  assert (P3 : forall p, In p l ->
     (finite (vx p) /\ in_axis inv (vx p) /\ axis_cell inv (vx p) = cx) /\
     (finite (vy p) /\ in_axis inv (vy p) /\ axis_cell inv (vy p) = cy) /\
     (finite (vz p) /\ in_axis inv (vz p) /\ axis_cell inv (vz p) = cz)).
  { intros p Hp. destruct (HV p Hp) as ((X1 & X2 & X3 & _) & (G1 & G2 & G3 & _) & Hc).
    unfold cell in Hc. injection Hc as -> -> ->. pose proof (fixed_finite _ X1). pose proof (fixed_finite _ X2). pose proof (fixed_finite _ X3). auto 10. }
  destruct (AB vx cx Fx Wx) as (Ix & Cx); [intros p Hp; apply (P3 p Hp)|].
  destruct (AB vy cy Fy Wy) as (Iy & Cy); [intros p Hp; apply (P3 p Hp)|].
  destruct (AB vz cz Fz Wz) as (Iz & Cz); [intros p Hp; apply (P3 p Hp)|].
  split; [|split].
  - split; [exact Ix|]. split; [exact Iy|]. split; [exact Iz|]. rewrite Ew.
    destruct l as [|p l]; [congruence|]. destruct (HV p (or_introl eq_refl)) as ((_ & _ & _ & W) & (_ & _ & _ & G4) & _).
    rewrite <- W. exact G4.
  - unfold cell. rewrite Cx, Cy, Cz. reflexivity.
  - split; [exact Ew|].
    assert (BD : forall (f : vec4 Fnum -> f64), within (map f l) (f (emit s)) -> (forall p, In p l -> fixed e M (f p)) ->
      (Rabs (B2R (f (emit s))) <= bpow radix2 900)%R).
    { intros f (a & b & Ha & Hb & HH) Hf.
      assert (Q : forall x, In x (map f l) -> (Rabs (B2R x) <= bpow radix2 900)%R).
      { intros x Hx. apply in_map_iff in Hx. destruct Hx as (p & <- & Hp). destruct (Hf p Hp) as (_ & k & -> & Hk).
        eapply Rle_trans; [apply step_bound|apply bpow_le; lia].
        assert (1 <= Z.of_nat (length l))%Z by (destruct l; [congruence|simpl length; lia]). nia. }
      pose proof (Rabs_le_inv _ _ (Q a Ha)). pose proof (Rabs_le_inv _ _ (Q b Hb)). apply Rabs_le. lra. }
    intros f [-> | [-> | ->]]; (split; [auto|apply BD; auto; intros p Hp; apply (HV p Hp)]).
Qed.

Lemma twice points out : (forall p, In p points -> safe m inv p) ->
  (forall p, In p points -> in_grid inv p -> fixed_point e M p) ->
  (Z.of_nat (length points) * Z.max M 1 < 2 ^ 53)%Z ->
  (exists p, In p points /\ in_grid inv p) ->
  voxelgrid_sampling (voxel_key m inv) sort points = Ok out ->
  exists out', voxelgrid_sampling (voxel_key m inv) sort out = Ok out' /\ Forall2 same_point out out'.
Proof.
  intros HS HX Hn H0 E. destruct (centroids points HS HX Hn H0) as (out1 & cells & E1 & S & C & G).
  rewrite E1 in E. injection E as ->.
  assert (Hc : map (cell inv) out = cells).
  { clear -G. induction G as [|c o cells out (_ & _ & H & _) G IH]; auto. cbn [map]. congruence. }
  apply settled.
  - intros ->. cbn in Hc. destruct H0 as (p & Hp & Gp). 
    assert (K : In (cell inv p) cells) by (apply C; eauto). rewrite <- Hc in K. destruct K.
  - intros p Hp. clear -G Hp. induction G as [|c o cells out (_ & H1 & _ & H2) G IH]; [destruct Hp|].
    destruct Hp as [<-|Hp]; auto.
  - rewrite Hc. exact S.
Qed.
End Top.
