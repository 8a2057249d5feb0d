(** Voxel keys: who shares a key with whom. *)
From Coq Require Import ZArith Reals Lra ZifyBool ZifyN.
From Flocq Require Import Core.
From Flocq Require Import IEEE754.BinarySingleNaN.
From Verif Require Import Base BaseProofs Num Vec F64 FloorModel FloorProofs VoxModel VoxSpec.
Ltac Zify.zify_post_hook ::= Z.div_mod_to_equations.
Open Scope Z_scope.

Definition bad (z : Z) : bool := (z <? 0) || (COORD_MASK <? z).

(** In range: the coordinate is the cell number plus the offset, in any int mode. *)
Lemma voxel_coord_in m inv x : in_axis inv x ->
  voxel_coord m inv x = Ok (axis_cell inv x + COORD_OFFSET).
Proof.
  intros [Fx Hx]. unfold voxel_coord. unfold axis_cell in *.
  rewrite fast_floor_correct; auto.
  - cbn [bind]. unfold int_result. rewrite (proj2 (in_int_iff _)); auto.
    unfold INT_MIN, INT_MAX, COORD_OFFSET. lia.
  - apply in_int_iff. unfold INT_MIN, INT_MAX. lia.
Qed.

Lemma voxel_coord_in_good inv x : in_axis inv x -> bad (axis_cell inv x + COORD_OFFSET) = false.
Proof. intros [_ H]. unfold bad, COORD_OFFSET, COORD_MASK. lia. Qed.

(** Out of range on x86: some coordinate outside [0, 2^21). *)
Lemma voxel_coord_out inv x : ~ in_axis inv x ->
  exists z, voxel_coord X86 inv x = Ok z /\ bad z = true.
Proof.
  intros H. unfold voxel_coord. unfold in_axis, axis_cell in H.
  set (u := f64_mul x inv) in *.
  destruct (is_finite u) eqn:Fu; [destruct (in_int (Zfloor (B2R u))) eqn:Iu|].
  - rewrite (fast_floor_correct X86 u Fu Iu). cbn [bind]. unfold int_result.
    apply in_int_iff in Iu. unfold INT_MIN, INT_MAX in Iu.
    assert (~ -1048576 <= Zfloor (B2R u) < 1048576) by tauto.
    destruct (in_int (Zfloor (B2R u) + COORD_OFFSET)) eqn:E.
    + eexists. split; [reflexivity|]. unfold bad, COORD_OFFSET, COORD_MASK. lia.
    + eexists. split; [reflexivity|]. unfold in_int, INT_MIN, INT_MAX in E.
      unfold bad, wrap32, COORD_OFFSET, COORD_MASK in *. lia.
  - destruct (fast_floor_x86_out u (or_intror Iu)) as [E|E]; rewrite E; cbn [bind];
      eexists; (split; [reflexivity|reflexivity]).
  - destruct (fast_floor_x86_out u (or_introl Fu)) as [E|E]; rewrite E; cbn [bind];
      eexists; (split; [reflexivity|reflexivity]).
Qed.

(** Packing. *)
Lemma land_mask z : 0 <= z <= COORD_MASK -> Z.land z COORD_MASK = z.
Proof.
  intros H. change COORD_MASK with (Z.ones 21). rewrite Z.land_ones by lia.
  apply Z.mod_small. unfold COORD_MASK in H. lia.
Qed.

Lemma lor_shift a b k : 0 <= k -> 0 <= a < 2 ^ k -> 0 <= b ->
  Z.lor a (Z.shiftl b k) = a + b * 2 ^ k.
Proof.
  intros Hk Ha Hb. rewrite <- Z.shiftl_mul_pow2 by lia.
  assert (L : Z.land a (Z.shiftl b k) = 0).
  { apply Z.bits_inj'. intros n Hn. rewrite Z.land_spec, Z.bits_0, Z.shiftl_spec by lia.
    destruct (Z.ltb_spec n k) as [Hlt|Hge].
    - rewrite (Z.testbit_neg_r b) by lia. apply andb_false_r.
    - replace (Z.testbit a n) with false; [reflexivity|]. symmetry.
      destruct (Z.eq_dec a 0) as [->|Hz]; [apply Z.bits_0|].
      apply Z.bits_above_log2; [lia|].
      apply Z.log2_lt_pow2; [lia|]. apply Z.lt_le_trans with (2 ^ k); [lia|].
      apply Z.pow_le_mono_r; lia. }
  rewrite <- Z.lxor_lor by exact L. symmetry. apply Z.add_nocarry_lxor. exact L.
Qed.

Definition pack (a b c : Z) : Z := a + b * 2 ^ 21 + c * 2 ^ 42.

Lemma pack_bits a b c : 0 <= a <= COORD_MASK -> 0 <= b <= COORD_MASK -> 0 <= c <= COORD_MASK ->
  Z.lor (Z.lor (Z.shiftl (Z.land a COORD_MASK) (21 * 0)) (Z.shiftl (Z.land b COORD_MASK) (21 * 1)))
    (Z.shiftl (Z.land c COORD_MASK) (21 * 2)) = pack a b c.
Proof.
  intros Ha Hb Hc. rewrite !land_mask by auto. change (21 * 0) with 0. change (21 * 1) with 21.
  change (21 * 2) with 42. rewrite Z.shiftl_0_r. unfold COORD_MASK in *.
  rewrite (lor_shift a b 21) by lia. rewrite lor_shift by lia. reflexivity.
Qed.

(** Keys of in-grid points, in any int mode. *)
Definition grid_key (t : Z * Z * Z) : N :=
  let '(a, b, c) := t in
  Z.to_N (pack (a + COORD_OFFSET) (b + COORD_OFFSET) (c + COORD_OFFSET)).

Lemma voxel_key_in m inv p : in_grid inv p -> voxel_key m inv p = Ok (grid_key (cell inv p)).
Proof.
  intros (Hx & Hy & Hz & Hw). unfold voxel_key.
  rewrite !voxel_coord_in by auto. cbn [bind].
  pose proof (voxel_coord_in_good _ _ Hx) as Gx. pose proof (voxel_coord_in_good _ _ Hy) as Gy.
  pose proof (voxel_coord_in_good _ _ Hz) as Gz. pose proof (voxel_coord_in_good _ _ Hw) as Gw.
  unfold bad in *. rewrite Gx, Gy, Gz, Gw. cbn [orb].
  f_equal. unfold grid_key, cell. f_equal. apply pack_bits; lia.
Qed.

Lemma voxel_key_out inv p : ~ in_grid inv p -> voxel_key X86 inv p = Ok INVALID_COORD.
Proof.
  intros H. unfold voxel_key.
  assert (C : forall x, exists z, voxel_coord X86 inv x = Ok z /\ (in_axis inv x \/ bad z = true)).
  { intros x. assert (D : in_axis inv x \/ ~ in_axis inv x).
    { unfold in_axis. destruct (is_finite (f64_mul x inv)).
      - destruct (Z_lt_ge_dec (axis_cell inv x) (-1048576)); [right; intros [_ ?]; lia|].
        destruct (Z_lt_ge_dec (axis_cell inv x) 1048576); [left; split; [reflexivity|lia]|right; intros [_ ?]; lia].
      - right. intros [? _]. discriminate. }
    destruct D as [D|D].
    - eexists. split; [apply voxel_coord_in; exact D|]. left; exact D.
    - destruct (voxel_coord_out inv x D) as (z & E & B). eauto. }
  destruct (C (vx p)) as (a & Ea & Ha). destruct (C (vy p)) as (b & Eb & Hb).
  destruct (C (vz p)) as (c & Ec & Hc). destruct (C (vw p)) as (d & Ed & Hd).
  rewrite Ea, Eb, Ec, Ed. cbn [bind].
  fold (bad a) (bad b) (bad c) (bad d).
  assert (E : bad a || bad b || bad c || bad d = true).
  { unfold in_grid in H.
    destruct Ha as [Ha| ->]; [|reflexivity]. destruct Hb as [Hb| ->]; [|rewrite !orb_true_r; reflexivity].
    destruct Hc as [Hc| ->]; [|rewrite !orb_true_r; reflexivity].
    destruct Hd as [Hd| ->]; [|rewrite !orb_true_r; reflexivity]. tauto. }
  rewrite E. reflexivity.
Qed.

Definition in_box (t : Z * Z * Z) : Prop :=
  let '(a, b, c) := t in
  -1048576 <= a < 1048576 /\ -1048576 <= b < 1048576 /\ -1048576 <= c < 1048576.

Lemma in_grid_box inv p : in_grid inv p -> in_box (cell inv p).
Proof. intros ((_ & Hx) & (_ & Hy) & (_ & Hz) & _). simpl. auto. Qed.

Lemma grid_key_valid t : in_box t -> (grid_key t < INVALID_COORD)%N.
Proof.
  destruct t as [[a b] c]. intros H. simpl in H. unfold grid_key, pack, COORD_OFFSET, INVALID_COORD.
  change (2 ^ 21) with 2097152. change (2 ^ 42) with 4398046511104. lia.
Qed.

Lemma grid_key_inj t u : in_box t -> in_box u -> (grid_key t = grid_key u <-> t = u).
Proof.
  destruct t as [[a b] c], u as [[a' b'] c']. simpl. intros H H'. split.
  - unfold grid_key, pack, COORD_OFFSET. change (2 ^ 21) with 2097152.
    change (2 ^ 42) with 4398046511104. intros E.
    assert (a = a' /\ b = b' /\ c = c') by lia. intuition congruence.
  - intros E. inversion E; subst. reflexivity.
Qed.

Lemma grid_key_lt t u : in_box t -> in_box u -> ((grid_key t < grid_key u)%N <-> cell_lt t u).
Proof.
  destruct t as [[a b] c], u as [[a' b'] c']. simpl. intros H H'.
  unfold grid_key, pack, COORD_OFFSET. change (2 ^ 21) with 2097152.
  change (2 ^ 42) with 4398046511104. lia.
Qed.

(** Signed overflow when the offset is added, or a coordinate outside int: undefined. *)
Lemma voxel_coord_strict_ub inv x :
  (is_finite (f64_mul x inv) = false \/ axis_cell inv x < INT_MIN \/ INT_MAX - COORD_OFFSET < axis_cell inv x) ->
  voxel_coord Strict inv x = UB.
Proof.
  intros H. unfold voxel_coord, axis_cell in *. set (u := f64_mul x inv) in *.
  destruct (is_finite u) eqn:Fu.
  - destruct H as [H|H]; [discriminate|]. destruct (in_int (Zfloor (B2R u))) eqn:Iu.
    + rewrite fast_floor_correct by auto. cbn [bind]. unfold int_result.
      apply in_int_iff in Iu. replace (in_int (Zfloor (B2R u) + COORD_OFFSET)) with false; [reflexivity|].
      unfold in_int, INT_MIN, INT_MAX, COORD_OFFSET in *. lia.
    + rewrite fast_floor_ub by auto. reflexivity.
  - rewrite fast_floor_ub_nonfinite by auto. reflexivity.
Qed.
