(** Voxel grid downsampling over exact reals: the output is the mean of each voxel. *)
From Coq Require Import Reals Lra ZifyBool ZifyNat ZifyN.
From Flocq Require Import Core.
From Verif Require Import Base BaseProofs Num Vec RNum KdModel KdSpec SortSpec VoxModel VoxSpec VoxProofs VoxKey VoxPar.
Open Scope nat_scope.

Lemma Rsum_app a b : Rsum (a ++ b) = (Rsum a + Rsum b)%R.
Proof. induction a as [|x a IH]; simpl; [lra|]. rewrite IH. lra. Qed.
Lemma Rsum_perm a b : Permutation a b -> Rsum a = Rsum b.
Proof. induction 1; simpl; lra. Qed.
Lemma Rsum_const c l : (forall x, In x l -> x = c) -> Rsum l = (INR (length l) * c)%R.
Proof.
  induction l as [|x l IH]; intros H; [simpl; lra|]. cbn [Rsum fold_right length].
  fold (Rsum l). rewrite IH by (intros; apply H; right; auto). rewrite (H x) by (left; auto).
  rewrite S_INR. lra.
Qed.
Lemma Rsum_bounds lo hi l : (forall x, In x l -> lo <= x <= hi)%R ->
  (INR (length l) * lo <= Rsum l <= INR (length l) * hi)%R.
Proof.
  induction l as [|x l IH]; intros H; [simpl; lra|]. cbn [Rsum fold_right length].
  fold (Rsum l). specialize (IH (fun y Hy => H y (or_intror Hy))).
  pose proof (H x (or_introl eq_refl)). rewrite S_INR. lra.
Qed.
Lemma Rsum_bound_strict hi l : l <> [] -> (forall x, In x l -> x < hi)%R ->
  (Rsum l < INR (length l) * hi)%R.
Proof.
  induction l as [|x l IH]; intros Hne H; [congruence|]. cbn [Rsum fold_right length].
  fold (Rsum l). pose proof (H x (or_introl eq_refl)). rewrite S_INR.
  destruct l as [|y l]; [simpl; lra|].
  specialize (IH ltac:(discriminate) (fun z Hz => H z (or_intror Hz))). lra.
Qed.

Lemma mean_perm a b : Permutation a b -> mean a = mean b.
Proof. intros H. unfold mean. rewrite (Rsum_perm _ _ H), (Permutation_length H). reflexivity. Qed.
Lemma mean_box lo hi l : l <> [] -> (forall x, In x l -> lo <= x < hi)%R -> (lo <= mean l < hi)%R.
Proof.
  intros Hne H. unfold mean.
  assert (P : (0 < INR (length l))%R).
  { apply lt_0_INR. destruct l; [congruence|simpl; lia]. }
  pose proof (Rsum_bound_strict hi l Hne (fun x Hx => proj2 (H x Hx))) as B1.
  assert (B2 : (INR (length l) * lo <= Rsum l)%R).
  { clear -H. induction l as [|x l IH]; [simpl; lra|]. cbn [Rsum fold_right length]. fold (Rsum l).
    specialize (IH (fun y Hy => H y (or_intror Hy))). pose proof (H x (or_introl eq_refl)).
    rewrite S_INR. lra. }
  split.
  - apply (Rmult_le_reg_r (INR (length l))); auto. unfold Rdiv. rewrite Rmult_assoc, Rinv_l by lra. lra.
  - apply (Rmult_lt_reg_r (INR (length l))); auto. unfold Rdiv. rewrite Rmult_assoc, Rinv_l by lra. lra.
Qed.

Lemma fold_vadd (l : list (vec4 Rnum)) s :
  fold_left vadd l s = V4 (D := Rnum) (vx s + Rsum (map vx l))%R (vy s + Rsum (map vy l))%R
                          (vz s + Rsum (map vz l))%R (vw s + Rsum (map vw l))%R.
Proof.
  revert s. induction l as [|p l IH]; intros s.
  - destruct s. simpl. f_equal; lra.
  - cbn [fold_left]. rewrite IH. unfold vadd, vmap2. cbn [vx vy vz vw map Rsum fold_right].
    change (@nadd Rnum) with Rplus. fold (Rsum (map vx l)) (Rsum (map vy l)) (Rsum (map vz l)) (Rsum (map vw l)).
    f_equal; lra.
Qed.

Lemma is_sum_R (l : list (vec4 Rnum)) s : is_sum l s ->
  s = V4 (D := Rnum) (Rsum (map vx l)) (Rsum (map vy l)) (Rsum (map vz l)) (Rsum (map vw l)).
Proof.
  intros [->|(p & r & -> & ->)]; rewrite fold_vadd.
  - unfold vzero. cbn [vx vy vz vw]. change (@nzero Rnum) with 0%R. f_equal; lra.
  - reflexivity.
Qed.

Lemma emit_mean (l : list (vec4 Rnum)) s : is_sum l s -> l <> [] -> (forall p, In p l -> vw p = 1%R) ->
  emit s = mean4 l.
Proof.
  intros Hs Hne Hw. apply is_sum_R in Hs.
  assert (W : Rsum (map vw l) = INR (length l)).
  { rewrite (Rsum_const 1%R).
    - rewrite map_length. lra.
    - intros x Hx. apply in_map_iff in Hx. destruct Hx as (p & <- & Hp). auto. }
  assert (P : (0 < INR (length l))%R).
  { apply lt_0_INR. destruct l; [congruence|simpl; lia]. }
  rewrite Hs. unfold emit, vdivs, mean4, mean. cbn [vx vy vz vw]. rewrite W, !map_length.
  change (@ndiv Rnum) with Rdiv. f_equal. unfold Rdiv. apply Rinv_r. lra.
Qed.

Lemma mean4_perm a b : Permutation a b -> mean4 a = mean4 b.
Proof.
  intros H. unfold mean4. f_equal; apply mean_perm; apply Permutation_map; exact H.
Qed.

Lemma pick_perm {D} (points : list (vec4 D)) g h : Permutation g h -> Permutation (pick points g) (pick points h).
Proof. intros H. unfold pick. apply Permutation_flat_map. exact H. Qed.

Lemma pick_filter {D} (points : list (vec4 D)) (f : vec4 D -> bool) (h : nat -> bool) :
  (forall i p, nth_error points i = Some p -> h i = f p) ->
  pick points (filter h (seq 0 (length points))) = filter f points.
Proof.
  intros H.
  assert (G : forall ps off, (forall i p, nth_error ps i = Some p -> nth_error points (off + i) = Some p) ->
     pick points (filter h (seq off (length ps))) = filter f ps).
  { induction ps as [|p ps IH]; intros off Hp; simpl; auto.
    pose proof (Hp 0 p eq_refl) as E. rewrite Nat.add_0_r in E.
    rewrite (H _ _ E).
    assert (IH' : pick points (filter h (seq (S off) (length ps))) = filter f ps).
    { apply IH. intros i q Hq. replace (S off + i) with (off + S i) by lia. apply Hp. exact Hq. }
    destruct (f p).
    - unfold pick in *. simpl. rewrite E, IH'. reflexivity.
    - exact IH'. }
  apply (G points 0). auto.
Qed.

Lemma sorted_lt_unique (a : list N) : forall b, StronglySorted N.lt a -> StronglySorted N.lt b ->
  (forall k, In k a <-> In k b) -> a = b.
Proof.
  induction a as [|x a IH]; intros b Ha Hb Hab.
  - destruct b as [|y b]; auto. destruct (proj2 (Hab y) (or_introl eq_refl)).
  - destruct b as [|y b]; [destruct (proj1 (Hab x) (or_introl eq_refl))|].
    inversion Ha as [|? ? Ha1 Ha2]; subst. inversion Hb as [|? ? Hb1 Hb2]; subst.
    rewrite Forall_forall in Ha2, Hb2.
    assert (x = y).
    { destruct (proj1 (Hab x) (or_introl eq_refl)) as [->|Hx]; auto.
      destruct (proj2 (Hab y) (or_introl eq_refl)) as [->|Hy]; auto.
      specialize (Ha2 _ Hy). specialize (Hb2 _ Hx). lia. }
    subst y. f_equal. apply IH; auto. intros k. split; intros Hk.
    + destruct (proj1 (Hab k) (or_intror Hk)) as [<-|]; auto. specialize (Ha2 _ Hk). lia.
    + destruct (proj2 (Hab k) (or_intror Hk)) as [<-|]; auto. specialize (Hb2 _ Hk). lia.
Qed.

(** The occupied voxels of a cloud. *)
Definition occupied (kf : vec4 Rnum -> N) (points : list (vec4 Rnum)) (k : N) : Prop :=
  k <> INVALID_COORD /\ exists p, In p points /\ kf p = k.

Section Mean.
Context (sort : forall A : Type, (A -> A -> bool) -> list A -> list A).
Hypothesis SC : sort_contract sort.
Context (kf : vec4 Rnum -> N).
Hypothesis KB : forall p, (kf p <= INVALID_COORD)%N.
Notation key := (fun p => Ok (kf p)).

Definition keys_of (points : list (vec4 Rnum)) (i : nat) : N :=
  match nth_error points i with Some p => kf p | None => 0%N end.

Lemma keys_of_keyed points : keyed key points (keys_of points).
Proof. intros i p Hp. unfold keys_of. rewrite Hp. split; auto. Qed.

Lemma serial_mean (points : list (vec4 Rnum)) :
  (forall p, In p points -> vw p = 1%R) -> (exists k, occupied kf points k) ->
  exists ks, StronglySorted N.lt ks /\ (forall k, In k ks <-> occupied kf points k) /\
    voxelgrid_sampling key sort points
    = Ok (map (fun k => mean4 (filter (fun p => (kf p =? k)%N) points)) ks).
Proof.
  intros Hw (k0 & Hk0 & p0 & Hp0 & Ek0).
  pose proof (keys_of_keyed points) as KD.
  destruct (serial_spec sort SC Rnum key points (keys_of points) KD) as (out & gs & E & (V1 & V2 & V3) & G).
  { apply In_nth_error in Hp0. destruct Hp0 as (i & Hi). exists i. split; [apply nth_error_Some; congruence|].
    unfold in_range, keys_of. rewrite Hi. lia. }
  exists (map fst gs). split; auto. split.
  - intros k. split.
    + intros Hk. apply in_map_iff in Hk. destruct Hk as ([k' g] & <- & Hg). cbn [fst].
      destruct (V2 k' g Hg) as (Hne & Hki & HP). split; auto.
      destruct g as [|i g]; [congruence|].
      assert (Hin : In i (filter (fun i => (keys_of points i =? k')%N) (seq 0 (length points)))).
      { apply (Permutation_in _ HP). left; auto. }
      apply filter_In in Hin. destruct Hin as [Hin1 Hin2]. apply in_seq in Hin1.
      destruct (nth_error points i) as [p|] eqn:Ep; [|apply nth_error_None in Ep; lia].
      exists p. split; [eapply nth_error_In; eauto|]. unfold keys_of in Hin2. rewrite Ep in Hin2. lia.
    + intros (Hk & p & Hp & Ek). apply In_nth_error in Hp. destruct Hp as (i & Hi).
      assert (Ki : keys_of points i = k) by (unfold keys_of; rewrite Hi; auto).
      rewrite <- Ki. apply V3; [apply nth_error_Some; congruence|].
      unfold in_range. rewrite Ki. lia.
  - rewrite E. f_equal. clear E V1 V3. unfold group_means in G.
    induction G as [|[k g] o gs out (s & Hs & ->) G IH]; simpl; auto.
    f_equal; [|apply IH; intros; apply V2; right; auto].
    destruct (V2 k g (or_introl eq_refl)) as (Hne & Hki & HP). cbn [snd fst] in *.
    assert (PP : Permutation (pick points g) (filter (fun p => (kf p =? k)%N) points)).
    { eapply perm_trans; [apply pick_perm; exact HP|].
      erewrite (pick_filter points (fun p => (kf p =? k)%N)); [apply Permutation_refl|].
      intros i p Hp. unfold keys_of. rewrite Hp. reflexivity. }
    rewrite (emit_mean _ _ Hs).
    + apply mean4_perm. exact PP.
    + intros En. destruct g as [|i g]; [congruence|].
      assert (Hin : In i (filter (fun i => (keys_of points i =? k)%N) (seq 0 (length points)))).
      { apply (Permutation_in _ HP). left; auto. }
      apply filter_In in Hin. destruct Hin as [Hin1 _]. apply in_seq in Hin1.
      unfold pick in En. simpl in En.
      destruct (nth_error points i) as [p|] eqn:Ep; [discriminate|apply nth_error_None in Ep; lia].
    + intros p Hp. apply Hw. apply (Permutation_in _ PP) in Hp. apply filter_In in Hp. tauto.
Qed.

(** The order of the input points does not matter. *)
Lemma serial_order (points points' : list (vec4 Rnum)) :
  Permutation points points' ->
  (forall p, In p points -> vw p = 1%R) -> (exists k, occupied kf points k) ->
  voxelgrid_sampling key sort points = voxelgrid_sampling key sort points'.
Proof.
  intros HP Hw Ho.
  assert (Occ : forall k, occupied kf points k <-> occupied kf points' k).
  { intros k. unfold occupied. split; intros (Hk & p & Hp & E); split; auto; exists p; split; auto.
    - apply (Permutation_in _ HP Hp).
    - apply (Permutation_in _ (Permutation_sym HP) Hp). }
  destruct (serial_mean points Hw Ho) as (ks & S1 & O1 & E1).
  destruct (serial_mean points') as (ks' & S2 & O2 & E2).
  { intros p Hp. apply Hw. apply (Permutation_in _ (Permutation_sym HP) Hp). }
  { destruct Ho as (k & Hk). exists k. apply Occ. exact Hk. }
  rewrite E1, E2. f_equal.
  assert (ks = ks').
  { apply sorted_lt_unique; auto. intros k. rewrite O1, O2. apply Occ. }
  subst ks'. apply map_ext. intros k. apply mean4_perm. apply filter_perm. exact HP.
Qed.

(** Means stay in their voxel: then downsampling twice changes nothing. *)
Definition keeps_means : Prop := forall k (l : list (vec4 Rnum)), l <> [] -> k <> INVALID_COORD ->
  (forall p, In p l -> kf p = k /\ vw p = 1%R) -> kf (mean4 l) = k.

Lemma mean4_single (p : vec4 Rnum) : vw p = 1%R -> mean4 [p] = p.
Proof.
  destruct p as [x y z w]. cbn [vw]. intros ->. unfold mean4, mean. cbn [map vx vy vz length Rsum fold_right INR].
  f_equal; field.
Qed.

Lemma serial_idem (points out : list (vec4 Rnum)) :
  keeps_means -> (forall p, In p points -> vw p = 1%R) -> (exists k, occupied kf points k) ->
  voxelgrid_sampling key sort points = Ok out ->
  voxelgrid_sampling key sort out = Ok out.
Proof.
  intros KM Hw Ho E.
  destruct (serial_mean points Hw Ho) as (ks & S1 & O1 & E1).
  rewrite E1 in E. inversion E as [Eo]. clear E. set (m := fun k => mean4 (filter (fun p => (kf p =? k)%N) points)) in *.
  assert (Km : forall k, In k ks -> kf (m k) = k).
  { intros k Hk. apply O1 in Hk. destruct Hk as (Hki & p & Hp & Ekp). apply KM; auto.
    - intros En. assert (Hin : In p (filter (fun p => (kf p =? k)%N) points)) by (apply filter_In; split; auto; lia).
      rewrite En in Hin. destruct Hin.
    - intros q Hq. apply filter_In in Hq. destruct Hq. split; [lia|auto]. }
  destruct (serial_mean (map m ks)) as (ks' & S2 & O2 & E2).
  { intros p Hp. apply in_map_iff in Hp. destruct Hp as (k & <- & _). reflexivity. }
  { destruct Ho as (k & Hk). exists k. split; [apply Hk|]. exists (m k). split.
    - apply in_map. apply O1. exact Hk.
    - apply Km. apply O1. exact Hk. }
  rewrite E2.
  assert (ks' = ks).
  { apply sorted_lt_unique; auto. intros k. rewrite O2. split.
    - intros (Hk & p & Hp & Ek). apply in_map_iff in Hp. destruct Hp as (k' & <- & Hk').
      rewrite Km in Ek by auto. subst; auto.
    - intros Hk. split; [apply O1; auto|]. exists (m k). split; [apply in_map; auto|apply Km; auto]. }
  subst ks'. f_equal. apply map_ext_in. intros k Hk.
  replace (filter (fun p => (kf p =? k)%N) (map m ks)) with [m k].
  - apply mean4_single. reflexivity.
  - assert (ND : NoDup ks) by (apply sorted_lt_NoDup; auto).
    clear -Km Hk ND. induction ks as [|k1 ks IH]; [destruct Hk|]. simpl.
    inversion ND as [|? ? N1 N2]; subst.
    rewrite Km by (left; auto). destruct Hk as [->|Hk].
    + rewrite N.eqb_refl. f_equal. symmetry.
      assert (F : forall l, (forall x, In x l -> kf (m x) <> k) -> filter (fun p => (kf p =? k)%N) (map m l) = []).
      { clear. induction l as [|a l IHl]; intros H; simpl; auto.
        destruct (kf (m a) =? k)%N eqn:Q; [exfalso; apply (H a); [left; auto|lia]|].
        apply IHl. intros; apply H; right; auto. }
      apply F. intros x Hx. rewrite Km by (right; auto). intros ->. contradiction.
    + destruct (k1 =? k)%N eqn:Q; [exfalso; apply N1; replace k1 with k by lia; auto|].
      apply IH; auto. intros; apply Km; right; auto.
Qed.
End Mean.

(** The grid key over the reals: exact counterpart of [voxel_key] (no rounding in the
    product, no int range). *)
Definition real_cell (inv x : R) : Z := Zfloor (x * inv)%R.
Definition in_axis_b (z : Z) : bool := ((-1048576 <=? z) && (z <? 1048576))%Z.
Definition real_key (inv : R) (p : vec4 Rnum) : N :=
  let c f := real_cell inv (f p) in
  if in_axis_b (c vx) && in_axis_b (c vy) && in_axis_b (c vz) && in_axis_b (c vw)
  then grid_key (c vx, c vy, c vz) else INVALID_COORD.

Lemma real_key_bound inv p : (real_key inv p <= INVALID_COORD)%N.
Proof.
  unfold real_key, in_axis_b.
  destruct (_ && _ && _ && _) eqn:E; [|lia]. apply N.lt_le_incl. apply grid_key_valid. simpl. lia.
Qed.

Lemma real_cell_mean inv z l : (0 < inv)%R -> l <> [] -> (forall x, In x l -> real_cell inv x = z) ->
  real_cell inv (mean l) = z.
Proof.
  intros Hi Hne H. unfold real_cell in *. apply Zfloor_imp.
  assert (B : (IZR z / inv <= mean l < IZR (z + 1) / inv)%R).
  { apply mean_box; auto. intros x Hx. specialize (H x Hx).
    pose proof (Zfloor_lb (x * inv)) as L. pose proof (Zfloor_ub (x * inv)) as U. rewrite H in *.
    rewrite plus_IZR. split.
    - apply (Rmult_le_reg_r inv); auto. unfold Rdiv. rewrite Rmult_assoc, Rinv_l by lra. lra.
    - apply (Rmult_lt_reg_r inv); auto. unfold Rdiv. rewrite Rmult_assoc, Rinv_l by lra. lra. }
  destruct B as [B1 B2]. split.
  - apply (Rmult_le_compat_r inv) in B1; [|lra]. unfold Rdiv in B1. rewrite Rmult_assoc, Rinv_l in B1 by lra. lra.
  - apply (Rmult_lt_compat_r inv) in B2; [|lra]. unfold Rdiv in B2. rewrite Rmult_assoc, Rinv_l in B2 by lra. lra.
Qed.

Lemma real_key_keeps inv : (0 < inv)%R -> keeps_means (real_key inv).
Proof.
  intros Hi k l Hne Hk H.
  assert (HB : forall p, In p l -> exists a b c, real_cell inv (vx p) = a /\ real_cell inv (vy p) = b /\
     real_cell inv (vz p) = c /\ in_axis_b a && in_axis_b b && in_axis_b c && in_axis_b (real_cell inv 1) = true /\
     grid_key (a, b, c) = k).
  { intros p Hp. destruct (H p Hp) as [Kp Wp]. unfold real_key in Kp. rewrite Wp in Kp.
    destruct (_ && _ && _ && _) eqn:E in Kp; [|congruence]. do 3 eexists. eauto 6. }
  destruct l as [|p0 l0]; [congruence|]. set (l := p0 :: l0) in *.
  destruct (HB p0 (or_introl eq_refl)) as (a & b & c & Ea & Eb & Ec & Er & Ek).
  assert (Same : forall p, In p l -> real_cell inv (vx p) = a /\ real_cell inv (vy p) = b /\ real_cell inv (vz p) = c).
  { intros p Hp. destruct (HB p Hp) as (a' & b' & c' & Ea' & Eb' & Ec' & Er' & Ek').
    assert (T : (a', b', c') = (a, b, c)).
    { apply (grid_key_inj (a', b', c') (a, b, c)); [| |congruence]; simpl; unfold in_axis_b in *; lia. }
    inversion T; subst. auto. }
  unfold real_key, mean4. cbn [vx vy vz vw].
  assert (M : forall (f : vec4 Rnum -> car Rnum) z, (forall p, In p l -> real_cell inv (f p) = z) -> real_cell inv (mean (map f l)) = z).
  { intros f z Hf. apply real_cell_mean; auto; [discriminate|].
    intros x Hx. apply in_map_iff in Hx. destruct Hx as (p & <- & Hp). auto. }
  rewrite (M vx a), (M vy b), (M vz c) by (intros p Hp; apply Same; auto). rewrite Er. exact Ek.
Qed.
