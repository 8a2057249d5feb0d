(** Voxel grid downsampling on IEEE doubles. *)
From Coq Require Import Reals ZArith Lra Psatz ZifyBool ZifyNat ZifyN.
From Flocq Require Import Core.
From Flocq Require Import IEEE754.BinarySingleNaN.
From Verif Require Import Base BaseProofs Num Vec F64 F64Proofs F64Err FloorModel FloorProofs KdModel KdSpec
  SortSpec VoxModel VoxSpec VoxProofs VoxKey VoxPar VoxReal.
Open Scope nat_scope.

Lemma NoDup_app_l {A} (a b : list A) : NoDup (a ++ b) -> NoDup a.
Proof.
  induction a as [|x a IH]; intros H; [constructor|]. simpl in H. inversion H; subst.
  constructor; auto. intros Hx. apply H2. apply in_app_iff. auto.
Qed.
Lemma NoDup_app_r {A} (a b : list A) : NoDup (a ++ b) -> NoDup b.
Proof. induction a as [|x a IH]; intros H; auto. simpl in H. inversion H; subst. auto. Qed.

(** ** Means *)
Lemma fold_vadd_f64 (l : list (vec4 Fnum)) s :
  fold_left vadd l s = V4 (D := Fnum) (fold_left f64_add (map vx l) (vx s)) (fold_left f64_add (map vy l) (vy s))
     (fold_left f64_add (map vz l) (vz s)) (fold_left f64_add (map vw l) (vw s)).
Proof.
  revert s. induction l as [|p l IH]; intros s; [destruct s; reflexivity|].
  cbn [fold_left map]. rewrite IH. reflexivity.
Qed.

(** One coordinate of a sum. *)
Definition is_sum1 (l : list f64) (s : f64) : Prop :=
  s = fold_left f64_add l (B754_zero false) \/ exists p r, l = p :: r /\ s = fold_left f64_add r p.

Lemma is_sum_axis (l : list (vec4 Fnum)) s : is_sum l s ->
  is_sum1 (map vx l) (vx s) /\ is_sum1 (map vy l) (vy s) /\ is_sum1 (map vz l) (vz s) /\ is_sum1 (map vw l) (vw s).
Proof.
  intros [->|(p & r & -> & ->)]; rewrite fold_vadd_f64; cbn [vx vy vz vw map].
  - split; [|split; [|split]]; left; reflexivity.
  - split; [|split; [|split]]; right; do 2 eexists; (split; reflexivity).
Qed.

Lemma zero_f64 : finite (B754_zero false : f64) /\ B2R (B754_zero false : f64) = 0%R.
Proof. split; reflexivity. Qed.

Lemma sum1_err l s : is_sum1 l s -> l <> [] -> (forall x, In x l -> finite x) ->
  ((1 + u64) ^ length l * sum_abs l <= bpow radix2 1023)%R ->
  finite s /\ (Rabs (B2R s - sum_val l) <= ((1 + u64) ^ length l - 1) * sum_abs l)%R.
Proof.
  intros Hs Hne HF HB. destruct zero_f64 as [Z1 Z2].
  destruct Hs as [->|(p & r & -> & ->)].
  - destruct (fold_add_err l (B754_zero false) 0 0 0) as (A & B); auto.
    + rewrite Z2. rewrite Rminus_0_r, Rabs_R0. lra.
    + rewrite Rabs_R0. lra.
    + simpl plus. rewrite Rplus_0_l. exact HB.
    + simpl plus in B. rewrite !Rplus_0_l in B. auto.
  - pose proof (sum_abs_pos r) as Pr. pose proof (Rabs_pos (B2R p)) as Pp.
    assert (SA : sum_abs (p :: r) = (Rabs (B2R p) + sum_abs r)%R) by reflexivity.
    assert (SV : sum_val (p :: r) = (B2R p + sum_val r)%R) by reflexivity.
    assert (LE : ((1 + u64) ^ length r <= (1 + u64) ^ length (p :: r))%R).
    { apply Rle_pow; [pose proof u64_pos; lra|simpl; lia]. }
    destruct (fold_add_err r p (B2R p) (Rabs (B2R p)) 0) as (A & B).
    + apply HF; left; auto.
    + intros; apply HF; right; auto.
    + replace (B2R p - B2R p)%R with 0%R by ring. rewrite Rabs_R0. simpl. lra.
    + lra.
    + simpl plus. rewrite <- SA. eapply Rle_trans; [|exact HB].
      apply Rmult_le_compat_r; [rewrite SA; lra|exact LE].
    + simpl plus in B. split; auto. rewrite SV, SA. eapply Rle_trans; [exact B|].
      apply Rmult_le_compat_r; lra.
Qed.

Lemma sum_abs_le l b : (forall x, In x l -> Rabs (B2R x) <= b)%R -> (sum_abs l <= INR (length l) * b)%R.
Proof.
  induction l as [|x l IH]; intros H; [unfold sum_abs; simpl; lra|].
  unfold sum_abs in *. cbn [map Rsuml fold_right length]. rewrite S_INR.
  specialize (IH (fun y Hy => H y (or_intror Hy))). pose proof (H x (or_introl eq_refl)).
  unfold Rsuml in IH. lra.
Qed.

Lemma moderate_bound l : (Z.of_nat (length l) <= 2 ^ 53)%Z ->
  (forall x, In x l -> Rabs (B2R x) <= bpow radix2 900)%R ->
  ((1 + u64) ^ length l * sum_abs l <= bpow radix2 1023)%R.
Proof.
  intros Hn H. pose proof (pow1u_le3 (length l) Hn) as P3. pose proof (pow1u_ge1 (length l)) as P1.
  pose proof (sum_abs_le l _ H) as SA. pose proof (sum_abs_pos l) as SP.
  assert (Hi : (INR (length l) <= bpow radix2 53)%R).
  { rewrite INR_IZR_INZ. change (bpow radix2 53) with (IZR (2 ^ 53)). apply IZR_le. exact Hn. }
  assert (B : (INR (length l) * bpow radix2 900 <= bpow radix2 953)%R).
  { change 953%Z with (53 + 900)%Z. rewrite bpow_plus. apply Rmult_le_compat_r; [apply bpow_ge_0|exact Hi]. }
  apply Rle_trans with (4 * bpow radix2 953)%R.
  - apply Rmult_le_compat; lra.
  - change 4%R with (bpow radix2 2). rewrite <- bpow_plus. apply bpow_le. lia.
Qed.

Lemma ones_sum1 l s : is_sum1 l s -> l <> [] -> (forall x, In x l -> x = f64_of 1 0) ->
  (Z.of_nat (length l) <= 2 ^ 53)%Z -> finite s /\ B2R s = INR (length l).
Proof.
  intros Hs Hne H1 Hn. rewrite INR_IZR_INZ. destruct zero_f64 as [Z1 Z2].
  destruct (f64_of_int 1) as (F1 & E1); [lia|].
  destruct Hs as [->|(p & r & -> & ->)].
  - destruct (fold_add_ones l (B754_zero false) 0) as (A & B); auto; lia.
  - rewrite (H1 p) by (left; auto).
    destruct (fold_add_ones r (f64_of 1 0) 1) as (A & B); auto; try lia.
    + intros; apply H1; right; auto.
    + simpl length in Hn. lia.
    + split; auto. rewrite B. f_equal. simpl length. lia.
Qed.

Lemma mean_axis_err l s c : is_sum1 l s -> l <> [] -> (forall x, In x l -> finite x) ->
  (forall x, In x l -> Rabs (B2R x) <= bpow radix2 900)%R ->
  (Z.of_nat (length l) <= 2 ^ 53)%Z -> B2R c = INR (length l) ->
  finite (f64_div s c) /\
  (Rabs (B2R (f64_div s c) - mean (map B2R l))
   <= mean_err (length l) (mean (map (fun x => Rabs (B2R x)) l)))%R.
Proof.
  intros Hs Hne HF HM Hn Hc.
  pose proof (moderate_bound l Hn HM) as HB.
  destruct (sum1_err l s Hs Hne HF HB) as (Fs & Es).
  assert (Pn : (1 <= INR (length l))%R).
  { replace 1%R with (INR 1) by reflexivity. apply le_INR. destruct l; [congruence|simpl; lia]. }
  pose proof (pow1u_ge1 (length l)) as P1. pose proof (sum_abs_pos l) as SP.
  pose proof (sum_val_abs l) as SV.
  set (g := ((1 + u64) ^ length l)%R) in *. set (N := INR (length l)) in *.
  assert (Bs : (Rabs (B2R s) <= g * sum_abs l)%R).
  { replace (B2R s) with ((B2R s - sum_val l) + sum_val l)%R by ring.
    eapply Rle_trans; [apply Rabs_triang|]. lra. }
  assert (Q : (Rabs (B2R s / N) <= g * (sum_abs l / N))%R).
  { unfold Rdiv. rewrite Rabs_mult, Rabs_inv, (Rabs_pos_eq N) by lra.
    rewrite <- Rmult_assoc. apply Rmult_le_compat_r; [|exact Bs].
    left. apply Rinv_0_lt_compat. lra. }
  assert (SN : (sum_abs l / N <= sum_abs l)%R).
  { apply (Rmult_le_reg_r N); [lra|]. unfold Rdiv. rewrite Rmult_assoc, Rinv_l by lra. nra. }
  assert (SNp : (0 <= sum_abs l / N)%R).
  { apply Rmult_le_pos; auto. left. apply Rinv_0_lt_compat. lra. }
  destruct (div_finite s c 1023 Fs) as (Fd & Ed); [rewrite Hc; lra|lia| |].
  { rewrite Hc. eapply Rle_trans; [exact Q|]. eapply Rle_trans; [|exact HB].
    apply Rmult_le_compat_l; [change (0 <= g)%R; lra|exact SN]. }
  split; auto. rewrite Ed, Hc. unfold mean. rewrite !map_length.
  change (Rabs (rnd (B2R s / N) - sum_val l / N) <= ((1 + u64) * g - 1) * (sum_abs l / N) + eta64)%R.
  pose proof (rnd_err (B2R s / N)) as R.
  assert (D : (Rabs (B2R s / N - sum_val l / N) <= (g - 1) * (sum_abs l / N))%R).
  { replace (B2R s / N - sum_val l / N)%R with ((B2R s - sum_val l) * / N)%R by (unfold Rdiv; ring).
    rewrite Rabs_mult, Rabs_inv, (Rabs_pos_eq N) by lra. unfold Rdiv. rewrite <- Rmult_assoc.
    apply Rmult_le_compat_r; [|exact Es]. left. apply Rinv_0_lt_compat. lra. }
  replace (rnd (B2R s / N) - sum_val l / N)%R
    with ((rnd (B2R s / N) - B2R s / N) + (B2R s / N - sum_val l / N))%R by ring.
  eapply Rle_trans; [apply Rabs_triang|].
  assert (u64 * Rabs (B2R s / N) <= u64 * (g * (sum_abs l / N)))%R.
  { apply Rmult_le_compat_l; [pose proof u64_pos; lra|exact Q]. }
  nra.
Qed.

Lemma emit_approx (l : list (vec4 Fnum)) s : is_sum l s -> l <> [] ->
  (forall p, In p l -> usable p) -> (Z.of_nat (length l) <= 2 ^ 53)%Z -> approx_mean l (emit s).
Proof.
  intros Hs Hne HU Hn. destruct (is_sum_axis l s Hs) as (Sx & Sy & Sz & Sw).
  assert (Hmap : forall f : vec4 Fnum -> f64, map f l <> []) by (intros f; destruct l; [congruence|discriminate]).
  destruct (ones_sum1 _ _ Sw) as (Fw & Ew); auto.
  { intros x Hx. apply in_map_iff in Hx. destruct Hx as (p & <- & Hp). apply HU; auto. }
  { rewrite map_length. exact Hn. }
  rewrite map_length in Ew.
  assert (AX : forall f : vec4 Fnum -> f64, f = vx \/ f = vy \/ f = vz -> is_sum1 (map f l) (f s) ->
     finite (f64_div (f s) (vw s)) /\
     (Rabs (B2R (f64_div (f s) (vw s)) - axis_mean f l) <= mean_err (length l) (axis_mean_abs f l))%R).
  { intros f Hf Hsf. destruct (mean_axis_err (map f l) (f s) (vw s)) as (A & B); auto.
    - intros x Hx. apply in_map_iff in Hx. destruct Hx as (p & <- & Hp). apply (HU p Hp); auto.
    - intros x Hx. apply in_map_iff in Hx. destruct Hx as (p & <- & Hp). apply (HU p Hp); auto.
    - rewrite map_length. exact Hn.
    - rewrite map_length. exact Ew.
    - split; auto. unfold axis_mean, axis_mean_abs. rewrite map_length, !map_map in B. exact B. }
  unfold approx_mean, approx_axis, emit, vdivs. cbn [vx vy vz vw]. change (@ndiv Fnum) with f64_div.
  split; [|split; [|split]].
  - apply (AX vx); auto.
  - apply (AX vy); auto.
  - apply (AX vz); auto.
  - apply div_self; auto. rewrite Ew. apply not_0_INR. destruct l; [congruence|discriminate].
Qed.

(** ** Keys *)
Lemma in_axisb_iff inv x : in_axisb inv x = true <-> in_axis inv x.
Proof.
  unfold in_axisb, in_axis. rewrite !andb_true_iff, Z.leb_le, Z.ltb_lt.
  destruct (is_finite (f64_mul x inv)); intuition (auto; discriminate).
Qed.
Lemma in_gridb_iff inv p : in_gridb inv p = true <-> in_grid inv p.
Proof. unfold in_gridb, in_grid. rewrite !andb_true_iff, !in_axisb_iff. tauto. Qed.
Lemma cell_eqb_iff a b : cell_eqb a b = true <-> a = b.
Proof.
  destruct a as [[a1 a2] a3], b as [[b1 b2] b3]. simpl. split; intros H.
  - assert (a1 = b1 /\ a2 = b2 /\ a3 = b3) by lia. intuition congruence.
  - inversion H; subst. lia.
Qed.

Lemma voxel_coord_safe inv x : safe_axis inv x -> voxel_coord Strict inv x = voxel_coord X86 inv x.
Proof.
  intros [F H]. unfold voxel_coord, axis_cell in *.
  rewrite !fast_floor_correct; auto; try (apply in_int_iff; unfold INT_MIN, INT_MAX; lia).
  cbn [bind]. unfold int_result. rewrite (proj2 (in_int_iff _)); auto.
  unfold INT_MIN, INT_MAX, COORD_OFFSET. lia.
Qed.

Lemma voxel_key_safe m inv p : safe m inv p -> voxel_key m inv p = voxel_key X86 inv p.
Proof.
  intros [->|(Hx & Hy & Hz & Hw)]; auto. destruct m; auto.
  unfold voxel_key. rewrite !voxel_coord_safe by auto. reflexivity.
Qed.

Definition fkey (inv : f64) (p : vec4 Fnum) : N :=
  if in_gridb inv p then grid_key (cell inv p) else INVALID_COORD.

Lemma voxel_key_fkey m inv p : safe m inv p -> voxel_key m inv p = Ok (fkey inv p).
Proof.
  intros Hs. rewrite voxel_key_safe by auto. unfold fkey. destruct (in_gridb inv p) eqn:E.
  - apply in_gridb_iff in E. apply voxel_key_in. auto.
  - apply voxel_key_out. rewrite <- in_gridb_iff, E. discriminate.
Qed.

Lemma fkey_bound inv p : (fkey inv p <= INVALID_COORD)%N.
Proof.
  unfold fkey. destruct (in_gridb inv p) eqn:E; [|lia].
  apply in_gridb_iff in E. apply in_grid_box, grid_key_valid in E. lia.
Qed.

Lemma fkey_valid inv p : fkey inv p <> INVALID_COORD <-> in_grid inv p.
Proof.
  rewrite <- in_gridb_iff. unfold fkey. destruct (in_gridb inv p) eqn:E.
  - apply in_gridb_iff in E. apply in_grid_box, grid_key_valid in E. split; auto. lia.
  - split; [congruence|discriminate].
Qed.

Lemma fkey_cell inv p q : in_grid inv p -> in_grid inv q -> (fkey inv p = fkey inv q <-> cell inv p = cell inv q).
Proof.
  intros Hp Hq. unfold fkey. rewrite (proj2 (in_gridb_iff _ _) Hp), (proj2 (in_gridb_iff _ _) Hq).
  apply grid_key_inj; apply in_grid_box; auto.
Qed.

Section Top.
Context (sort : forall A : Type, (A -> A -> bool) -> list A -> list A).
Hypothesis SC : sort_contract sort.
Context (m : int_mode) (inv : f64) (points : list (vec4 Fnum)).
Hypothesis HS : forall p, In p points -> safe m inv p.
Hypothesis HU : forall p, In p points -> in_grid inv p -> usable p.
Hypothesis Hn : (Z.of_nat (length points) <= 2 ^ 53)%Z.

Definition fkeys (i : nat) : N :=
  match nth_error points i with Some p => fkey inv p | None => INVALID_COORD end.

Lemma fkeys_keyed : keyed (voxel_key m inv) points fkeys.
Proof.
  intros i p Hp. unfold fkeys. rewrite Hp. split; [|apply fkey_bound].
  apply voxel_key_fkey. apply HS. eapply nth_error_In; eauto.
Qed.

(** Points of a group of positions with a common valid key. *)
Lemma pick_in g p : In p (pick points g) -> exists i, In i g /\ nth_error points i = Some p.
Proof.
  unfold pick. intros H. apply in_flat_map in H. destruct H as (i & Hi & H).
  destruct (nth_error points i) as [q|] eqn:E; [|destruct H]. destruct H as [<-|[]]. eauto.
Qed.
Lemma pick_length g : (forall i, In i g -> i < length points) -> length (pick points g) = length g.
Proof.
  induction g as [|i g IH]; intros H; simpl; auto. unfold pick in *. simpl. rewrite app_length, IH.
  - destruct (nth_error points i) eqn:E; [reflexivity|]. apply nth_error_None in E.
    specialize (H i (or_introl eq_refl)). lia.
  - intros; apply H; right; auto.
Qed.

Lemma fkeys_valid i : fkeys i <> INVALID_COORD -> exists p, nth_error points i = Some p /\ in_grid inv p.
Proof.
  unfold fkeys. destruct (nth_error points i) as [p|]; [|congruence]. intros H.
  exists p. split; auto. apply fkey_valid. exact H.
Qed.

Lemma group_approx k g s : k <> INVALID_COORD -> g <> [] -> NoDup g -> (forall i, In i g -> fkeys i = k) ->
  is_sum (pick points g) s -> approx_mean (pick points g) (emit s).
Proof.
  intros Hk Hg Nd Hi Hs.
  assert (Hlt : forall i, In i g -> i < length points).
  { intros i Hin. destruct (fkeys_valid i) as (p & Hp & _); [rewrite (Hi i Hin); auto|].
    apply nth_error_Some. congruence. }
  assert (Hlen : length (pick points g) <= length points).
  { rewrite pick_length by auto. rewrite <- (seq_length (length points) 0).
    apply NoDup_incl_length; auto. intros i Hin. apply in_seq. specialize (Hlt i Hin). lia. }
  apply emit_approx; auto.
  - intros E. pose proof (pick_length g Hlt) as L. rewrite E in L. destruct g; [congruence|discriminate].
  - intros p Hp. apply pick_in in Hp. destruct Hp as (i & Hin & Ep).
    apply HU; [eapply nth_error_In; eauto|]. apply fkey_valid.
    specialize (Hi i Hin). unfold fkeys in Hi. rewrite Ep in Hi. congruence.
  - lia.
Qed.

Theorem serial_groups : (exists p, In p points /\ in_grid inv p) ->
  exists out cells, voxelgrid_sampling (voxel_key m inv) sort points = Ok out /\
    StronglySorted cell_lt cells /\
    (forall c, In c cells <-> exists p, In p points /\ in_grid inv p /\ cell inv p = c) /\
    Forall2 (fun c o => exists l, Permutation l (filter (in_voxel inv c) points) /\
      exists s, is_sum l s /\ o = emit s) cells out.
Proof using SC HS.
  clear HU Hn.
  intros (p0 & Hp0 & G0).
  destruct (serial_spec sort SC Fnum (voxel_key m inv) points fkeys fkeys_keyed)
    as (out & gs & E & (V1 & V2 & V3) & G).
  { apply In_nth_error in Hp0. destruct Hp0 as (i & Hi). exists i. split; [apply nth_error_Some; congruence|].
    unfold in_range, fkeys. rewrite Hi. apply fkey_valid in G0. lia. }
  set (first_cell := fun g : N * list nat =>
     match pick points (snd g) with p :: _ => cell inv p | [] => (0, 0, 0)%Z end).
  assert (GC : forall k g, In (k, g) gs -> k = grid_key (first_cell (k, g)) /\
     (forall i, In i g -> fkeys i = k) /\ NoDup g /\ in_box (first_cell (k, g)) /\
     exists p, In p points /\ in_grid inv p /\ cell inv p = first_cell (k, g)).
  { intros k g Hg. destruct (V2 k g Hg) as (Hne & Hk & HP).
    assert (Hi : forall i, In i g -> fkeys i = k).
    { intros i Hin. apply (Permutation_in _ HP) in Hin. apply filter_In in Hin. destruct Hin. lia. }
    destruct g as [|i g]; [congruence|].
    destruct (fkeys_valid i) as (p & Hp & Hgp); [rewrite (Hi i); [auto|left; auto]|].
    assert (FC : first_cell (k, i :: g) = cell inv p).
    { unfold first_cell, pick. cbn [snd flat_map]. rewrite Hp. reflexivity. }
    rewrite FC. split; [|split; [exact Hi|split; [|split]]].
    - specialize (Hi i (or_introl eq_refl)). unfold fkeys in Hi. rewrite Hp in Hi.
      unfold fkey in Hi. rewrite (proj2 (in_gridb_iff _ _) Hgp) in Hi. auto.
    - eapply Permutation_NoDup; [apply Permutation_sym; exact HP|]. apply NoDup_filter, seq_NoDup.
    - apply in_grid_box. auto.
    - exists p. split; [eapply nth_error_In; eauto|auto]. }
  exists out, (map first_cell gs). split; auto. split; [|split].
  - clear G V2 V3 E. induction gs as [|[k g] gs IH]; simpl; [constructor|].
    simpl in V1. inversion V1 as [|? ? W1 W2]; subst. constructor.
    + apply IH; auto. intros; apply GC; right; auto.
    + rewrite Forall_forall in *. intros c Hc. apply in_map_iff in Hc. destruct Hc as ([k' g'] & <- & Hg').
      specialize (W2 k' (in_map fst _ _ Hg')).
      destruct (GC k g (or_introl eq_refl)) as (Ek & _ & _ & Bk & _).
      destruct (GC k' g' (or_intror Hg')) as (Ek' & _ & _ & Bk' & _).
      apply grid_key_lt; auto. rewrite <- Ek, <- Ek'. exact W2.
  - intros c. split.
    + intros Hc. apply in_map_iff in Hc. destruct Hc as ([k g] & <- & Hg). apply GC. exact Hg.
    + intros (p & Hp & Hgp & <-). apply In_nth_error in Hp. destruct Hp as (i & Hi).
      assert (Fi : fkeys i = grid_key (cell inv p)).
      { unfold fkeys, fkey. rewrite Hi, (proj2 (in_gridb_iff _ _) Hgp). reflexivity. }
      assert (Hv : in_range fkeys i = true).
      { unfold in_range. rewrite Fi. pose proof (grid_key_valid _ (in_grid_box _ _ Hgp)). lia. }
      specialize (V3 i ltac:(apply nth_error_Some; congruence) Hv).
      apply in_map_iff in V3. destruct V3 as ([k g] & Ek & Hg). cbn [fst] in Ek.
      destruct (GC k g Hg) as (Ek' & _ & _ & Bk & _).
      assert (first_cell (k, g) = cell inv p).
      { apply grid_key_inj; auto; [apply in_grid_box; auto|]. congruence. }
      rewrite <- H. apply in_map. exact Hg.
  - clear E V1 V3. unfold group_means in G.
    induction G as [|[k g] o gs out (s & Hs & ->) G IH]; simpl; constructor.
    + destruct (V2 k g (or_introl eq_refl)) as (Hne & Hk & HP). cbn [snd] in Hs.
      destruct (GC k g (or_introl eq_refl)) as (Ek & Hi & Nd & Bk & _).
      exists (pick points g). split; [|exists s; auto].
      eapply perm_trans; [apply pick_perm; exact HP|].
      rewrite (pick_filter points (in_voxel inv (first_cell (k, g)))); [apply Permutation_refl|].
      intros i p Hp. unfold fkeys. rewrite Hp. unfold in_voxel, fkey.
      destruct (in_gridb inv p) eqn:Gp; cbn [andb].
      * apply in_gridb_iff in Gp. rewrite Ek at 1.
        destruct (cell_eqb (cell inv p) (first_cell (k, g))) eqn:Q.
        -- apply cell_eqb_iff in Q. rewrite Q. apply N.eqb_refl.
        -- apply N.eqb_neq. intros C. apply grid_key_inj in C; auto; [|apply in_grid_box; auto].
           apply cell_eqb_iff in C. congruence.
      * apply N.eqb_neq. auto.
    + apply IH; intros; [apply V2|apply GC]; right; auto.
Qed.

(** Points of an occupied voxel. *)
Lemma voxel_points c l p : Permutation l (filter (in_voxel inv c) points) -> In p l ->
  In p points /\ in_grid inv p /\ cell inv p = c.
Proof.
  intros HP Hp. apply (Permutation_in _ HP) in Hp. apply filter_In in Hp. destruct Hp as [H1 H2].
  unfold in_voxel in H2. apply andb_true_iff in H2. destruct H2 as [H2 H3].
  apply in_gridb_iff in H2. apply cell_eqb_iff in H3. auto.
Qed.
Lemma voxel_nonempty c l : Permutation l (filter (in_voxel inv c) points) ->
  (exists p, In p points /\ in_grid inv p /\ cell inv p = c) -> l <> [].
Proof.
  intros HP (p & Hp & Hg & Hc) ->. apply Permutation_nil in HP.
  assert (H : In p (filter (in_voxel inv c) points)).
  { apply filter_In. split; auto. unfold in_voxel. apply andb_true_iff. split; [apply in_gridb_iff; auto|apply cell_eqb_iff; auto]. }
  rewrite HP in H. destruct H.
Qed.
Lemma filter_short {A} (f : A -> bool) l : length (filter f l) <= length l.
Proof. induction l as [|x l IH]; simpl; auto. destruct (f x); simpl; lia. Qed.
Lemma voxel_length c l : Permutation l (filter (in_voxel inv c) points) -> length l <= length points.
Proof. intros HP. rewrite (Permutation_length HP). apply filter_short. Qed.

Theorem serial_f64 : (exists p, In p points /\ in_grid inv p) ->
  exists out cells, voxelgrid_sampling (voxel_key m inv) sort points = Ok out /\
    StronglySorted cell_lt cells /\
    (forall c, In c cells <-> exists p, In p points /\ in_grid inv p /\ cell inv p = c) /\
    Forall2 (fun c o => exists l, Permutation l (filter (in_voxel inv c) points) /\ approx_mean l o) cells out.
Proof.
  intros H0. destruct (serial_groups H0) as (out & cells & E & S & C & G).
  exists out, cells. split; auto. split; auto. split; auto.
  assert (C' : forall c, In c cells -> exists p, In p points /\ in_grid inv p /\ cell inv p = c) by (intros; apply C; auto).
  clear -HU Hn G C'. induction G as [|c o cells out (l & HP & s & Hs & ->) G IH]; constructor.
  - exists l. split; auto. apply emit_approx; auto.
    + apply (voxel_nonempty c l HP). apply C'. left; auto.
    + intros p Hp. destruct (voxel_points c l p HP Hp) as (A & B & _). auto.
    + pose proof (voxel_length c l HP). lia.
  - apply IH. intros; apply C'; right; auto.
Qed.

(** In-grid positions. *)
Definition grid_positions : list nat :=
  filter (fun i => match nth_error points i with Some p => in_gridb inv p | None => false end)
    (seq 0 (length points)).
(** Number of occupied voxels. *)
Definition cell_dec : forall a b : Z * Z * Z, {a = b} + {a <> b}.
Proof. decide equality; [apply Z.eq_dec|decide equality; apply Z.eq_dec]. Defined.
Definition num_voxels : nat :=
  length (nodup cell_dec (map (cell inv) (filter (in_gridb inv) points))).

Lemma grid_positions_eq : filter (in_range fkeys) (seq 0 (length points)) = grid_positions.
Proof.
  unfold grid_positions. apply filter_ext. intros i. unfold in_range, fkeys.
  destruct (nth_error points i) as [p|]; [|reflexivity]. unfold fkey.
  destruct (in_gridb inv p) eqn:E; [|reflexivity].
  apply in_gridb_iff, in_grid_box, grid_key_valid in E. lia.
Qed.

Lemma pick_grid : pick points grid_positions = filter (in_gridb inv) points.
Proof.
  unfold grid_positions. apply pick_filter. intros i p Hp. rewrite Hp. reflexivity.
Qed.

Lemma num_keys_voxels :
  length (nodup N.eq_dec (map fkeys grid_positions)) <= num_voxels.
Proof.
  unfold num_voxels.
  set (ks := nodup N.eq_dec (map fkeys grid_positions)).
  set (cs := nodup cell_dec (map (cell inv) (filter (in_gridb inv) points))).
  rewrite <- (map_length grid_key cs). apply NoDup_incl_length; [apply NoDup_nodup|].
  intros k Hk. apply nodup_In in Hk. apply in_map_iff in Hk. destruct Hk as (i & <- & Hi).
  unfold grid_positions in Hi. apply filter_In in Hi. destruct Hi as [_ Hi].
  unfold fkeys. destruct (nth_error points i) as [p|] eqn:Ep; [|discriminate].
  unfold fkey. rewrite Hi. apply in_map. apply nodup_In. apply in_map.
  apply filter_In. split; auto. eapply nth_error_In; eauto.
Qed.

Theorem parallel_f64 sizes : list_sum sizes = length points -> Forall (fun s => 0 < s) sizes ->
  exists outs groups bad,
    parallel_blocks (voxel_key m inv) sort points sizes = Ok outs /\
    (forall g, In g groups -> g <> [] /\ exists c, forall i, In i g ->
       exists p, nth_error points i = Some p /\ in_grid inv p /\ cell inv p = c) /\
    Permutation (concat groups) grid_positions /\
    length groups <= num_voxels + (length sizes - 1) /\
    length bad = length (filter (fun s => length grid_positions <=? s) (starts 0 sizes)) /\
    (forall j, In j bad -> exists p, nth_error points j = Some p /\ ~ in_grid inv p) /\
    length (concat outs) <= length points /\
    exists outs1 outs2, concat outs = outs1 ++ outs2 /\
      Forall2 (fun g o => approx_mean (pick points g) o) groups outs1 /\
      Forall2 (fun j o => exists p, nth_error points j = Some p /\ (o = emit p \/ o = emit (vadd vzero p))) bad outs2.
Proof.
  intros H1 H2.
  destruct (parallel_struct sort SC Fnum (voxel_key m inv) points fkeys fkeys_keyed sizes H1 H2)
    as (outs & gs & bad & E & (S1 & S2 & S3 & S4 & S5 & S6) & L & G).
  rewrite grid_positions_eq in *.
  assert (FL : forall A B (R : A -> B -> Prop) a b, Forall2 R a b -> length a = length b)
    by (induction 1; simpl; auto).
  pose proof (FL _ _ _ _ _ G) as LG. rewrite app_length, map_length in LG.
  exists outs, (map snd gs), bad. split; auto.
  assert (FM : concat (map snd gs) = flat_map snd gs) by (symmetry; apply flat_map_concat_map).
  split; [|split; [|split; [|split; [|split; [|split]]]]].
  - intros g Hg. apply in_map_iff in Hg. destruct Hg as ([k g'] & <- & Hg). cbn [snd].
    destruct (S1 k g' Hg) as (Hne & Hk & Hi). split; auto.
    destruct g' as [|i0 g']; [congruence|].
    destruct (fkeys_valid i0) as (p0 & Hp0 & Hg0); [rewrite (Hi i0); [auto|left; auto]|].
    exists (cell inv p0). intros i Hin.
    destruct (fkeys_valid i) as (p & Hp & Hgp); [rewrite (Hi i); auto|].
    exists p. split; auto. split; auto. apply fkey_cell; auto.
    pose proof (Hi i Hin) as A1. pose proof (Hi i0 (or_introl eq_refl)) as A2.
    unfold fkeys in A1, A2. rewrite Hp in A1. rewrite Hp0 in A2. congruence.
  - rewrite FM. exact S2.
  - rewrite map_length. pose proof num_keys_voxels. lia.
  - exact S5.
  - intros j Hj. destruct (S6 j Hj) as (Hj1 & Hj2).
    destruct (nth_error points j) as [p|] eqn:Ep; [|apply nth_error_None in Ep; lia].
    exists p. split; auto. intros Hgp. apply fkey_valid in Hgp. unfold fkeys in Hj2. rewrite Ep in Hj2. congruence.
  - rewrite <- LG. exact S4.
  - unfold group_means in G. apply Forall2_app_inv_l in G.
    destruct G as (outs1 & outs2 & G1 & G2 & Eo). exists outs1, outs2. split; auto. split.
    + assert (ND : NoDup (flat_map snd gs)).
      { eapply Permutation_NoDup; [apply Permutation_sym; exact S2|].
        unfold grid_positions. apply NoDup_filter, seq_NoDup. }
      clear -G1 S1 ND HU Hn HS SC. induction G1 as [|[k g] o gs out (s & Hs & ->) G IH]; simpl; constructor.
      * destruct (S1 k g (or_introl eq_refl)) as (Hne & Hk & Hi). cbn [snd] in *.
        eapply group_approx; eauto. simpl in ND. eapply NoDup_app_l; eauto.
      * apply IH; [intros; apply S1; right; auto|]. simpl in ND. eapply NoDup_app_r; eauto.
    + clear -G2 S6. remember (map (fun j => (INVALID_COORD, [j])) bad) as bm.
      revert bad Heqbm S6. induction G2 as [|x o l out (s & Hs & ->) G IH]; intros bad Hb S6.
      * destruct bad; [constructor|discriminate].
      * destruct bad as [|j bad]; [discriminate|]. inversion Hb; subst. constructor.
        -- destruct (S6 j (or_introl eq_refl)) as (Hj & _).
           destruct (nth_error points j) as [p|] eqn:Ep; [|apply nth_error_None in Ep; lia].
           exists p. split; auto. cbn [snd] in Hs. unfold pick in Hs. cbn [flat_map] in Hs. rewrite Ep in Hs.
           destruct Hs as [->|(q & r & Eq & ->)]; [right; reflexivity|].
           inversion Eq; subst. left. reflexivity.
        -- apply IH; auto. intros; apply S6; right; auto.
Qed.
End Top.
