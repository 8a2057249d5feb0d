(** C81: the statistics of Gaussian voxels in doubles. *)
From Coq Require Import Reals ZArith List Lia Lra Psatz.
From Flocq Require Import Core IEEE754.BinarySingleNaN.
From Verif Require Import Base BaseProofs Num Vec F64 F64Proofs F64Err FloorModel FloorProofs VoxModel VoxSpec VmapModel VmapSpec VmapProofs VmapHist FlatSpec GaussF64Spec GaussF64 Prop_KdTree.
Open Scope nat_scope.

(** After any history of insertions every voxel knows how many points it was given since it was
    created, and its mean and covariance are the means of the points and covariances up to
    rounding: one rounding for each point and two for each insertion that visited it. *)
Theorem C81_statistics : forall of_nat (coord_of : vec4 Fnum -> outcome coord) (pose : Type) (act : pose -> item Fnum -> item Fnum)
  (horizon cycle : N) h st v M Mc, counts of_nat ->
  let C := gauss_contents (D := Fnum) of_nat in
  inserts coord_of pose act (new_map Fnum C horizon cycle) h = Ok st -> In v (flat_voxels st) ->
  exists s, s < length h /\
    ~ holds Fnum C coord_of pose act horizon cycle (firstn s h) (v_coord v) /\
    (forall m, s < m <= length h -> holds Fnum C coord_of pose act horizon cycle (firstn m h) (v_coord v)) /\
    let qs := flat_map (here coord_of act (v_coord v)) (skipn s h) in
    let n := length qs in
    let c := visits coord_of act (v_coord v) (skipn s h) in
    ((Z.of_nat (n + 2 * c) <= 2 ^ 52)%Z -> (0 <= M <= bpow radix2 900)%R -> (0 <= Mc <= bpow radix2 900)%R ->
     (forall q i, In q qs -> within M (vcomp (it_pt q) i)) -> (forall q i j, In q qs -> within Mc (entry_at (it_cov q) i j)) ->
     num_points (v_body v) = n /\ 1 <= c <= n /\
     (forall i, near_mean n c M (vcomp (g_mean (v_body v)) i) (map (fun q => vcomp (it_pt q) i) qs)) /\
     (forall i j, near_mean n c Mc (entry_at (g_cov (v_body v)) i j) (map (fun q => entry_at (it_cov q) i j) qs)) /\
     ((forall q, In q qs -> vw (it_pt q) = f64_of 1 0) -> vw (g_mean (v_body v)) = f64_of 1 0)).
Proof.
  intros of_nat coord_of pose act horizon cycle h st v M Mc CT C E I. subst C.
  destruct (voxel_body Fnum _ coord_of pose act horizon cycle h st v E I) as (s & L & NO & YES & T & B).
  exists s. split; auto. split; auto. split; auto. intros qs n c Hn HM HMc HP HC. unfold n, c, qs in *. clear n c qs.
  destruct T as (k & Ek & NE).
  assert (SK : skipn s h = k :: skipn (S s) h).
  { clear -Ek. revert h Ek. induction s as [|s IH]; intros [|x h] Ek; simpl in *; try discriminate.
    - inversion Ek. auto.
    - rewrite (IH h Ek). destruct h; auto. }
  rewrite SK in *. set (ks := skipn (S s) h) in *. set (qs := flat_map (here coord_of act (v_coord v)) (k :: ks)) in *.
  assert (FP : forall i, Forall (fun q => within M (vcomp (D := Fnum) (it_pt q) i)) qs) by (intros i; apply Forall_forall; intros q Hq; apply HP; exact Hq).
  assert (FC : forall i j, Forall (fun q => within Mc (entry_at (it_cov q) i j)) qs) by (intros i j; apply Forall_forall; intros q Hq; apply HC; exact Hq).
  assert (OK := fun i => history_ok of_nat CT _ _ (mean_component of_nat i) M (proj1 HM) (proj2 HM) coord_of act (v_coord v) k ks NE Hn (FP i)).
  rewrite B. split; [|split; [|split; [|split]]].
  - destruct (OK 0) as (_ & _ & _ & N & _). exact N.
  - destruct (OK 0) as (C1 & _). split; [exact C1|]. unfold qs, visits. clear. induction (k :: ks) as [|x l IH]; cbn [filter flat_map length]; [apply le_n|].
    destruct (here coord_of act (v_coord v) x) as [|y ys]; [exact IH|]. rewrite app_length. cbn [length]. lia.
  - intros i. exact (ok_near (fun g => vcomp (D := Fnum) (g_mean g) i) (fun q => vcomp (D := Fnum) (it_pt q) i) M (proj1 HM) _ _ _ (OK i) Hn).
  - intros i j. refine (ok_near (fun g => entry_at (g_cov g) i j) (fun q => entry_at (it_cov q) i j) Mc (proj1 HMc) _ _ _ _ Hn).
    exact (history_ok of_nat CT _ _ (cov_component of_nat i j) Mc (proj1 HMc) (proj2 HMc) coord_of act (v_coord v) k ks NE Hn (FC i j)).
  - intros HW. apply (one_history of_nat CT coord_of act (v_coord v) k ks NE).
    + unfold small. fold qs. lia.
    + apply Forall_forall. exact HW.
Qed.

(** How the same points are spread over insertions, and their order, changes the mean by rounding only. *)
Theorem C81_batching : forall of_nat (coord_of : vec4 Fnum -> outcome coord) (pose : Type) (act : pose -> item Fnum -> item Fnum)
  co k1 h1 k2 h2 M, counts of_nat ->
  let C := gauss_contents (D := Fnum) of_nat in
  let run h := fold_left (batch Fnum C coord_of pose act co) h (empty C) in
  let points h := flat_map (here coord_of act co) h in
  let n := length (points (k1 :: h1)) in
  let c1 := visits coord_of act co (k1 :: h1) in let c2 := visits coord_of act co (k2 :: h2) in
  here coord_of act co k1 <> [] -> here coord_of act co k2 <> [] -> Permutation (points (k1 :: h1)) (points (k2 :: h2)) ->
  (Z.of_nat (n + 2 * c1) <= 2 ^ 52)%Z -> (Z.of_nat (n + 2 * c2) <= 2 ^ 52)%Z -> (0 <= M <= bpow radix2 900)%R ->
  (forall q i, In q (points (k1 :: h1)) -> within M (vcomp (it_pt q) i)) ->
  num_points (run (k1 :: h1)) = num_points (run (k2 :: h2)) /\
  forall i, (Rabs (B2R (vcomp (g_mean (run (k1 :: h1))) i) - B2R (vcomp (g_mean (run (k2 :: h2))) i)) <= accuracy n c1 M + accuracy n c2 M)%R.
Proof.
  intros of_nat coord_of pose act co k1 h1 k2 h2 M CT C run points n c1 c2 N1 N2 P L1 L2 HM HP. unfold n, c1, c2, run, points, C in *. clear n c1 c2 run points C.
  set (q1 := flat_map (here coord_of act co) (k1 :: h1)) in *. set (q2 := flat_map (here coord_of act co) (k2 :: h2)) in *.
  pose proof (Permutation_length P) as PL.
  assert (F1 : forall i, Forall (fun q => within M (vcomp (D := Fnum) (it_pt q) i)) q1) by (intros i; apply Forall_forall; intros q Hq; apply HP; exact Hq).
  assert (F2 : forall i, Forall (fun q => within M (vcomp (D := Fnum) (it_pt q) i)) q2).
  { intros i. apply Forall_forall. intros q Hq. apply HP. apply (Permutation_in _ (Permutation_sym P) Hq). }
  assert (L2' : small (length q2 + 2 * visits coord_of act co (k2 :: h2))) by (unfold small; rewrite <- PL; exact L2).
  assert (O1 := fun i => history_ok of_nat CT _ _ (mean_component of_nat i) M (proj1 HM) (proj2 HM) coord_of act co k1 h1 N1 L1 (F1 i)).
  assert (O2 := fun i => history_ok of_nat CT _ _ (mean_component of_nat i) M (proj1 HM) (proj2 HM) coord_of act co k2 h2 N2 L2' (F2 i)).
  fold q1 in O1. fold q2 in O2. split.
  - destruct (O1 0) as (_ & _ & _ & E1 & _). destruct (O2 0) as (_ & _ & _ & E2 & _). rewrite E1, E2. exact PL.
  - intros i. pose proof (ok_near (fun g => vcomp (D := Fnum) (g_mean g) i) (fun q => vcomp (D := Fnum) (it_pt q) i) M (proj1 HM) _ _ _ (O1 i) L1) as [_ A1]. pose proof (ok_near (fun g => vcomp (D := Fnum) (g_mean g) i) (fun q => vcomp (D := Fnum) (it_pt q) i) M (proj1 HM) _ _ _ (O2 i) L2') as [_ A2].
    assert (Q : mean (map B2R (map (fun q : item Fnum => vcomp (D := Fnum) (it_pt q) i) q2)) = mean (map B2R (map (fun q : item Fnum => vcomp (D := Fnum) (it_pt q) i) q1))).
    { unfold mean. rewrite !map_length, PL. f_equal. rewrite !map_map. clear -P. induction P; cbn [map]; [reflexivity| | |congruence].
      - unfold Rsum in *. cbn [fold_right]. rewrite IHP. reflexivity.
      - unfold Rsum. cbn [fold_right]. ring. }
    fold q1 in A1. fold q2 in A2. rewrite <- PL in A2.
    set (m1 := mean _) in A1. set (m2 := mean _) in A2. assert (E : m2 = m1) by exact Q. rewrite E in A2. clearbody m1. clear E Q.
    apply Rabs_le. apply Rabs_le_inv in A1. apply Rabs_le_inv in A2. cbv beta in A1, A2.
    split; lra.
Qed.

(** It does change it, even for points with whole coordinates: seven points and then an eighth,
    against all eight at once. *)
Definition eight : list (item Fnum) := map (fun x => mkItem (D := Fnum) (fpt x 1 1) vzero (mzero (D := Fnum))) [4; 4; 4; 4; 4; 4; 5; 1]%Z.
Definition count_of (n : nat) : f64 := f64_of (Z.of_nat n) 0.
Definition mean_x (h : list (unit * list (item Fnum))) : option f64 :=
  let C := gauss_contents (D := Fnum) count_of in
  match inserts (voxel_of Strict (f64_of 1 (-3))) unit (fun _ q => q) (new_map Fnum C 100 10) h with
  | Ok st => match flat_voxels st with [v] => Some (vx (g_mean (v_body v))) | _ => None end
  | _ => None
  end.
Lemma eight_means : match mean_x [(tt, eight)], mean_x [(tt, firstn 7 eight); (tt, skipn 7 eight)] with
  | Some a, Some b => f64_lt a b | _, _ => false end = true.
Proof. vm_compute. reflexivity. Qed.
Theorem C81_batching_refuted : exists of_nat coord_of (points : list (item Fnum)) i st1 st2 v1 v2, counts of_nat /\ i < length points /\
  (forall p, In p points -> exists x y z, it_pt p = fpt x y z /\ (0 < x < 8 /\ y = 1 /\ z = 1)%Z) /\
  let C := gauss_contents (D := Fnum) of_nat in
  inserts coord_of unit (fun _ q => q) (new_map Fnum C 100 10) [(tt, points)] = Ok st1 /\ flat_voxels st1 = [v1] /\
  inserts coord_of unit (fun _ q => q) (new_map Fnum C 100 10) [(tt, firstn i points); (tt, skipn i points)] = Ok st2 /\ flat_voxels st2 = [v2] /\
  g_mean (v_body v1) <> g_mean (v_body v2).
Proof.
  exists count_of, (voxel_of Strict (f64_of 1 (-3))), eight, 7.
  pose proof eight_means as H. unfold mean_x in H. cbv zeta in H.
  destruct (inserts _ unit _ _ [(tt, eight)]) as [st1| | |] eqn:R1; [|discriminate H|discriminate H|discriminate H].
  destruct (flat_voxels st1) as [|v1 [|? ?]] eqn:E1; [discriminate H| |discriminate H].
  destruct (inserts _ unit _ _ [(tt, firstn 7 eight); (tt, skipn 7 eight)]) as [st2| | |] eqn:R2; [|discriminate H|discriminate H|discriminate H].
  destruct (flat_voxels st2) as [|v2 [|? ?]] eqn:E2; [discriminate H| |discriminate H].
  exists st1, st2, v1, v2. split; [|split; [|split]].
  - intros n Hn. destruct (f64_of_int (Z.of_nat n)) as [F E]; [lia|]. split; [exact F|]. rewrite INR_IZR_INZ. exact E.
  - unfold eight. rewrite map_length. cbn. lia.
  - intros p Hp. unfold eight in Hp. apply in_map_iff in Hp. destruct Hp as (x & <- & Hx). exists x, 1%Z, 1%Z. split; [reflexivity|].
    split; [|split; reflexivity]. repeat destruct Hx as [<-|Hx]; try destruct Hx; lia.
  - split; [exact R1|]. split; [exact E1|]. split; [exact R2|]. split; [exact E2|]. intros Q. rewrite Q in H.
    assert (X : forall x : f64, f64_lt x x = true -> False).
    { intros x Hx. destruct (is_nan x) eqn:N.
      - destruct x; discriminate.
      - apply f64_lt_val in Hx; try (unfold notnan; exact N). lra. }
    exact (X _ H).
Qed.

(** * The hypotheses are met. *)
(** The eight points in two insertions: nobody else's voxel, and the bounds are met. *)
Lemma eight_run : match inserts (voxel_of Strict (f64_of 1 (-3))) unit (fun _ q => q) (new_map Fnum (gauss_contents (D := Fnum) count_of) 100 10)
    [(tt, firstn 7 eight); (tt, skipn 7 eight)] with
  | Ok st => match flat_voxels st with [v] => (num_points (v_body v) =? 8) && coord_eqb (v_coord v) (0, 0, 0)%Z | _ => false end
  | _ => false end = true.
Proof. vm_compute. reflexivity. Qed.
Example C81_case : exists st v, counts count_of /\
  inserts (voxel_of Strict (f64_of 1 (-3))) unit (fun _ q => q) (new_map Fnum (gauss_contents (D := Fnum) count_of) 100 10)
    [(tt, firstn 7 eight); (tt, skipn 7 eight)] = Ok st /\ In v (flat_voxels st) /\ num_points (v_body v) = 8 /\
  (forall q i, In q eight -> within 5 (vcomp (it_pt q) i)) /\ (forall q i j, In q eight -> within 0 (entry_at (it_cov q) i j)) /\
  (0 <= 5 <= bpow radix2 900)%R /\ (0 <= 0 <= bpow radix2 900)%R.
Proof.
  pose proof eight_run as H. destruct (inserts _ unit _ _ _) as [st| | |]; [|discriminate H|discriminate H|discriminate H]. destruct (flat_voxels st) as [|v [|? ?]] eqn:E; [discriminate H| |discriminate H].
  apply andb_prop in H. destruct H as [H _]. apply Nat.eqb_eq in H.
  exists st, v. split; [|split; [reflexivity|split; [rewrite E; left; reflexivity|split; [exact H|split; [|split; [|split; [split; [lra|]|split; [lra|left; apply bpow_gt_0]]]]]]]].
  - intros n Hn. destruct (f64_of_int (Z.of_nat n)) as [F Ef]; [lia|]. split; [exact F|]. rewrite INR_IZR_INZ. exact Ef.
  - assert (X : forall x, (0 <= x <= 5)%Z -> within 5 (f64_of x 0)).
    { intros x Hx. destruct (f64_of_int x) as [F Ef]; [lia|]. split; [exact F|]. rewrite Ef, Rabs_pos_eq by (apply IZR_le; lia). apply IZR_le. lia. }
    intros q i Hq. unfold eight in Hq. apply in_map_iff in Hq. destruct Hq as (x & <- & Hx).
    assert (B : (0 <= x <= 5)%Z) by (repeat destruct Hx as [<-|Hx]; try destruct Hx; lia).
    destruct i as [|[|[|i]]]; apply X; lia.
  - intros q i j Hq. unfold eight in Hq. apply in_map_iff in Hq. destruct Hq as (x & <- & Hx).
    assert (Q : entry_at (mzero (D := Fnum)) i j = f64_of 0 0) by (destruct i as [|[|[|i]]]; destruct j as [|[|[|j]]]; reflexivity).
    cbn [it_cov]. rewrite Q. split; [reflexivity|]. change (B2R (f64_of 0 0)) with 0%R. rewrite Rabs_R0. apply Rle_refl.
  - change (5 <= bpow radix2 900)%R. apply Rle_trans with (bpow radix2 3); [change (bpow radix2 3) with 8%R; lra|apply bpow_le; lia].
Qed.
(** All eight at once, against seven and one. *)
Example C81_batching_case : let here := here (voxel_of Strict (f64_of 1 (-3))) (fun (_ : unit) q => q) (0, 0, 0)%Z in
  length (here (tt, eight)) = 8 /\ here (tt, eight) <> [] /\ here (tt, firstn 7 eight) <> [] /\
  Permutation (flat_map here [(tt, eight)]) (flat_map here [(tt, firstn 7 eight); (tt, skipn 7 eight)]).
Proof.
  cbv zeta. set (e := here _ _ _).
  assert (L : (length (e (tt, eight)) =? 8) && (length (e (tt, firstn 7 eight)) =? 7) = true) by (vm_compute; reflexivity).
  apply andb_prop in L. destruct L as [L1 L2]. apply Nat.eqb_eq in L1. apply Nat.eqb_eq in L2.
  split; [exact L1|]. split; [intros Z; rewrite Z in L1; discriminate L1|]. split; [intros Z; rewrite Z in L2; discriminate L2|].
  cbn [flat_map]. rewrite !app_nil_r. unfold e, here. rewrite <- filter_app, <- map_app. cbn [snd]. rewrite firstn_skipn. apply Permutation_refl.
Qed.

Print Assumptions C81_statistics.
Print Assumptions C81_batching.
Print Assumptions C81_batching_refuted.
