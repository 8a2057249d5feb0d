(** Downsampling as the first stage of the pipeline: proofs. *)
From Coq Require Import Reals Lra Psatz.
From Flocq Require Import Core IEEE754.BinarySingleNaN.
From Verif Require Import Base BaseProofs Num Vec F64 F64Proofs F64Err FloorModel SortSpec VoxModel VoxSpec VoxProofs VoxPar VoxF64 KdF64 Prop_Vox Prop_Vmap PipeSpec.
Open Scope nat_scope.

#[local] Instance fexp64_ok : Valid_exp fexp64 := fexp_correct 53 1024 prec53.
Section Grid.
Open Scope R_scope.
Lemma in_axis_bound inv x : moderate inv -> in_axis inv x -> is_finite x = true /\ Rabs (B2R x) <= bpow radix2 900.
Proof.
  intros [Fi Hi] [F B]. split.
  { destruct x; auto; destruct inv; discriminate. }
  pose proof (mul_B2R x inv F) as E. unfold axis_cell in B. rewrite E in B.
  set (y := B2R x * B2R inv) in *.
  assert (A : Rabs (rnd y) <= bpow radix2 20).
  { pose proof (Zfloor_lb (rnd y)) as L. pose proof (Zfloor_ub (rnd y)) as U.
    assert (IZR (Zfloor (rnd y)) >= -1048576) by (apply Rle_ge; apply (IZR_le (-1048576)); lia).
    assert (IZR (Zfloor (rnd y)) <= 1048575) by (apply (IZR_le _ 1048575); lia).
    change (bpow radix2 20) with 1048576. apply Rabs_le. lra. }
  assert (A2 : Rabs y < bpow radix2 21).
  { destruct (Rlt_or_le (Rabs y) (bpow radix2 21)) as [|G]; auto. exfalso.
    assert (bpow radix2 21 <= Rabs (rnd y)).
    { unfold rnd. apply abs_round_ge_generic; auto with typeclass_instances.
      apply generic_format_bpow. vm_compute. discriminate. }
    assert (bpow radix2 20 < bpow radix2 21) by (apply bpow_lt; lia). lra. }
  unfold y in A2. rewrite Rabs_mult in A2. rewrite (Rabs_pos_eq (B2R inv)) in A2.
  2:{ pose proof (bpow_ge_0 radix2 (-800)). lra. }
  assert (P : Rabs (B2R x) * bpow radix2 (-800) < bpow radix2 21).
  { eapply Rle_lt_trans; [|exact A2]. apply Rmult_le_compat_l; [apply Rabs_pos|exact Hi]. }
  assert (Q : Rabs (B2R x) < bpow radix2 21 * bpow radix2 800).
  { replace (Rabs (B2R x)) with (Rabs (B2R x) * bpow radix2 (-800) * bpow radix2 800).
    - apply Rmult_lt_compat_r; [apply bpow_gt_0|exact P].
    - rewrite Rmult_assoc, <- bpow_plus. change (bpow radix2 (-800 + 800)) with 1. ring. }
  rewrite <- bpow_plus in Q. apply Rlt_le. eapply Rlt_le_trans; [exact Q|]. apply bpow_le. lia.
Qed.
Lemma in_grid_usable inv p : moderate inv -> homogeneous p -> in_grid inv p -> usable p.
Proof.
  intros M H (X & Y & Z & W). split; [exact H|].
  intros f [-> |[-> | ->]]; eapply in_axis_bound; eauto.
Qed.
End Grid.

Lemma approx_mean_finite g o : approx_mean g o -> vfinite o.
Proof.
  intros ((X & _) & (Y & _) & (Z & _) & W).
  unfold vfinite. repeat split; auto. rewrite W. reflexivity.
Qed.

Lemma summarised_finite inv points out : summarised inv points out -> forall p, In p out -> vfinite p.
Proof.
  intros (gs & _ & _ & F) p Hp. apply In_nth_error in Hp. destruct Hp as [i Ei].
  revert i Ei. induction F as [|g o gs out Hg F IH]; intros [|i] Ei; try discriminate.
  - inversion Ei; subst. eapply approx_mean_finite; eauto.
  - eapply IH; eauto.
Qed.
Lemma concat_length_ge {A} (gs : list (list A)) : (forall g, In g gs -> g <> []) -> length gs <= length (concat gs).
Proof.
  induction gs as [|g gs IH]; intros H; cbn [concat length]; [lia|]. rewrite app_length.
  specialize (IH (fun g' H' => H g' (or_intror H'))). specialize (H g (or_introl eq_refl)).
  destruct g; [congruence|]. cbn [length]. lia.
Qed.
Lemma summarised_length inv points out : summarised inv points out -> length out <= length points /\
  ((exists p, In p points /\ in_grid inv p) -> out <> []).
Proof.
  intros (gs & G & P & F).
  assert (L : length gs = length out) by (clear -F; induction F; simpl; auto).
  apply Permutation_length in P as PL.
  split.
  - pose proof (concat_length_ge gs (fun g H => proj1 (G g H))).
    assert (length (filter (in_gridb inv) points) <= length points).
    { clear. induction points as [|p ps IH]; simpl; auto. destruct (in_gridb inv p); simpl; lia. }
    lia.
  - intros (p & Hp & Hg) ->. destruct gs; [|discriminate]. cbn in P. apply Permutation_nil in P.
    assert (In p (filter (in_gridb inv) points)) by (apply filter_In; split; auto; apply in_gridb_iff; auto).
    rewrite P in H. exact H.
Qed.

(** Splitting the in-range points by voxel. *)
Lemma filter_partition inv cells : NoDup cells -> forall points,
  (forall p, In p points -> in_grid inv p -> In (cell inv p) cells) ->
  Permutation (concat (map (fun c => filter (in_voxel inv c) points) cells)) (filter (in_gridb inv) points).
Proof.
  intros ND. induction points as [|p ps IH]; intros H.
  - cbn. clear. induction cells; simpl; auto.
  - cbn [filter]. specialize (IH (fun q Hq => H q (or_intror Hq))).
    destruct (in_gridb inv p) eqn:G.
    + assert (Hc : In (cell inv p) cells) by (apply H; [left; auto|apply in_gridb_iff; auto]).
      apply in_split in Hc. destruct Hc as (c1 & c2 & Ec).
      assert (N1 : ~ In (cell inv p) (c1 ++ c2)) by (rewrite Ec in ND; apply NoDup_remove_2 in ND; exact ND).
      assert (Oth : forall l, ~ In (cell inv p) l ->
        map (fun c => if in_voxel inv c p then p :: filter (in_voxel inv c) ps else filter (in_voxel inv c) ps) l =
        map (fun c => filter (in_voxel inv c) ps) l).
      { intros l Hl. apply map_ext_in. intros c Hcl. unfold in_voxel at 1. rewrite G. cbn [andb].
        destruct (cell_eqb (cell inv p) c) eqn:Q; auto. apply cell_eqb_iff in Q. subst. contradiction. }
      rewrite Ec in *. rewrite map_app, concat_app in *. cbn [map concat] in *.
      rewrite (Oth c1), (Oth c2) by (intros X; apply N1, in_or_app; auto).
      assert (in_voxel inv (cell inv p) p = true) as ->.
      { unfold in_voxel. rewrite G. cbn [andb]. apply cell_eqb_iff. reflexivity. }
      cbn [app]. apply Permutation_sym. apply Permutation_cons_app. apply Permutation_sym. exact IH.
    + rewrite (map_ext_in _ (fun c => filter (in_voxel inv c) ps)); [exact IH|].
      intros c _. unfold in_voxel at 1. rewrite G. reflexivity.
Qed.

Lemma Forall2_choose {A B C} (R : A -> B -> C -> Prop) la lb :
  Forall2 (fun a b => exists c, R a b c) la lb -> exists lc, Forall2 (fun a bc => R a (fst bc) (snd bc)) la (combine lb lc) /\ length lc = length lb.
Proof.
  induction 1 as [|a b la lb (c & H) F (lc & IH & L)].
  - exists []. split; constructor.
  - exists (c :: lc). split; [constructor; auto|simpl; congruence].
Qed.

Lemma cell_lt_irrefl c : ~ cell_lt c c.
Proof. destruct c as [[x y] z]. unfold cell_lt. lia. Qed.
Lemma sorted_cells_NoDup cells : StronglySorted cell_lt cells -> NoDup cells.
Proof.
  induction 1 as [|c l S IH F]; constructor; auto. intros Hin. rewrite Forall_forall in F.
  apply (cell_lt_irrefl c). apply F. exact Hin.
Qed.

(** The serial function. *)
Lemma serial_summarised sort m inv points : sort_contract sort -> moderate inv ->
  (forall p, In p points -> safe m inv p) -> (forall p, In p points -> homogeneous p) ->
  (Z.of_nat (length points) <= 2 ^ 53)%Z -> (exists p, In p points /\ in_grid inv p) ->
  exists out, voxelgrid_sampling (voxel_key m inv) sort points = Ok out /\ summarised_once inv points out.
Proof.
  intros SC M HS HH Hn Hex.
  destruct (C09_voxelgrid_centroids sort m inv points SC HS) as (out & cells & E & Sd & Cs & F); auto.
  { intros p Hp Hg. apply (in_grid_usable inv); auto. }
  exists out. split; [exact E|].
  pose proof (sorted_cells_NoDup _ Sd) as ND.
  assert (X : exists groups, Forall2 (fun c g => Permutation g (filter (in_voxel inv c) points)) cells groups /\ Forall2 approx_mean groups out).
  { clear -F. induction F as [|c o cells out (l & P & A) F (gs & G1 & G2)].
    - exists []. split; constructor.
    - exists (l :: gs). split; constructor; auto. }
  destruct X as (groups & G1 & G2).
  assert (NE : forall c g i, nth_error cells i = Some c -> nth_error groups i = Some g ->
     Permutation g (filter (in_voxel inv c) points)).
  { clear -G1. induction G1; intros c g [|i] A B; try discriminate; cbn in *.
    - congruence.
    - eapply IHG1; eauto. }
  assert (L : length cells = length groups) by (clear -G1; induction G1; simpl; auto).
  assert (Cell : forall i g p, nth_error groups i = Some g -> In p g -> in_grid inv p /\ nth_error cells i = Some (cell inv p)).
  { intros i g p Eg Hp. destruct (nth_error cells i) as [c|] eqn:Ec.
    2:{ apply nth_error_None in Ec. assert (i < length groups) by (apply nth_error_Some; congruence). lia. }
    apply (Permutation_in _ (NE c g i Ec Eg)) in Hp. apply filter_In in Hp. destruct Hp as [_ Hv].
    unfold in_voxel in Hv. apply andb_prop in Hv. destruct Hv as [A B].
    apply in_gridb_iff in A. apply cell_eqb_iff in B. subst c. auto. }
  exists groups. split; [|split; [|split]].
  - intros g Hg. apply In_nth_error in Hg. destruct Hg as [i Eg]. split.
    + intros ->. destruct (nth_error cells i) as [c|] eqn:Ec.
      2:{ apply nth_error_None in Ec. assert (i < length groups) by (apply nth_error_Some; congruence). lia. }
      pose proof (NE c [] i Ec Eg) as P. apply Permutation_nil in P.
      apply nth_error_In in Ec. apply Cs in Ec. destruct Ec as (p & Hp & Hg & Hc).
      assert (In p (filter (in_voxel inv c) points)) as Q.
      { apply filter_In. split; auto. unfold in_voxel. apply andb_true_intro. split; [apply in_gridb_iff|apply cell_eqb_iff]; auto. }
      rewrite P in Q. exact Q.
    + destruct g as [|p g].
      * exists (0, 0, 0)%Z. intros p [].
      * exists (cell inv p). destruct (Cell i _ p Eg (or_introl eq_refl)) as [_ E1].
        intros q Hq. destruct (Cell i _ q Eg Hq) as [A E2]. split; auto. congruence.
  - intros i j g h p q Ei Ej Hp Hq Ec. destruct (Cell i g p Ei Hp) as [_ A], (Cell j h q Ej Hq) as [_ B].
    rewrite Ec in A. eapply NoDup_nth_error; eauto; [|congruence]. apply nth_error_Some. congruence.
  - eapply perm_trans; [|apply (filter_partition inv cells ND points)].
    + clear -G1. induction G1; cbn; auto. apply Permutation_app; auto.
    + intros p Hp Hg. apply Cs. eauto.
  - exact G2.
Qed.
Lemma summarised_once_summarised inv points out : summarised_once inv points out -> summarised inv points out.
Proof. intros (g & A & _ & B & C). exists g. auto. Qed.
