(** C18-C24 and C46: the incremental voxel map. *)
From Coq Require Import Reals Lra Psatz ZArith ZifyBool ZifyNat ZifyN.
From Flocq Require Import Core IEEE754.BinarySingleNaN.
From Verif Require Import Base BaseProofs Num Vec RNum F64 F64Proofs F64Err FloorModel FloorProofs
  KnnModel KnnSpec KnnProofs KdF64 KdReal VoxSpec VoxReal
  VmapModel VmapSpec VmapProofs VmapHist VmapSearch VmapBody.
Open Scope nat_scope.

(** ** C18: consistency over any history *)

(** Any contents, any number system, any poses, any interleaving of inserts, offset changes
    and LRU parameter changes: coordinates are distinct and lookup finds exactly the voxel. *)
Theorem C18_voxelmap_consistent :
  forall (D : num) (C : contents D) (coord_of : vec4 D -> outcome coord)
         (pose : Type) (act : pose -> item D -> item D)
         (horizon cycle : N) (calls : list (op D pose)) (st : vmap D C),
  do_ops D C coord_of pose act (new_map D C horizon cycle) calls = Ok st ->
  NoDup (map v_coord (flat_voxels st)) /\
  forall c i, lookup (voxels st) c = Some i <->
              exists v, nth_error (flat_voxels st) i = Some v /\ v_coord v = c.
Proof.
  intros D C coord_of pose act horizon cycle calls st E.
  destruct (do_ops_good D C coord_of pose act (fun _ _ => True) calls) with (3 := E) as [IX _].
  - split; auto.
  - apply good_new.
  - split; [eapply idx_ok_NoDup; eauto|exact IX].
Qed.

(** IEEE doubles, point voxels: every stored point lies in the voxel that holds it. *)
Theorem C18_points_in_their_voxel :
  forall (m : int_mode) (inv : f64) (order : sumtree) (hn hc : bool) (min_sq_dist : f64)
         (max_points : nat) (pose : Type) (act : pose -> item Fnum -> item Fnum)
         (horizon cycle : N) (calls : list (op Fnum pose)) st,
  let C := flat_contents (D := Fnum) (fsqd order) hn hc min_sq_dist max_points in
  do_ops Fnum C (voxel_of m inv) pose act (new_map Fnum C horizon cycle) calls = Ok st ->
  forall v p, In v (flat_voxels st) -> In p (fc_points (v_body v)) ->
  voxel_of m inv p = Ok (v_coord v).
Proof.
  intros m inv order hn hc min_sq_dist max_points pose act horizon cycle calls st C E v p Iv Ip.
  destruct (do_ops_good Fnum C (voxel_of m inv) pose act
              (flat_voxel_ok (fsqd order) hn hc min_sq_dist max_points (voxel_of m inv)) calls)
    with (3 := E) as [_ F].
  - apply flat_body_inv.
  - apply good_new.
  - rewrite Forall_forall in F. destruct (F v Iv) as (_ & _ & G). rewrite Forall_forall in G. auto.
Qed.

(** Every history completes when each transformed point has a voxel coordinate and the clear
    cycle is not zero. *)
Theorem C18_inserts_complete :
  forall (D : num) (C : contents D) (coord_of : vec4 D -> outcome coord)
         (pose : Type) (act : pose -> item D -> item D) (horizon cycle : N) h,
  cycle <> 0%N ->
  Forall (fun k => forall q, In q (snd k) -> exists c, coord_of (it_pt (act (fst k) q)) = Ok c) h ->
  exists st, inserts coord_of pose act (new_map D C horizon cycle) h = Ok st.
Proof.
  intros D C coord_of pose act horizon cycle h CY OK.
  apply inserts_complete; auto. apply (good_new D C (fun _ _ => True)).
Qed.

(** lru_clear_cycle = 0 ("never clear") is a remainder by zero: no insert is defined. *)
Theorem C18_zero_clear_cycle_refuted :
  forall (D : num) (C : contents D) (coord_of : vec4 D -> outcome coord)
         (pose : Type) (act : pose -> item D -> item D) (horizon : N) T,
  insert coord_of pose act (new_map D C horizon 0) (T, []) = UB.
Proof. reflexivity. Qed.

(** ** C19: eviction *)

(** A voxel is in the map iff some insert put a point into it and no later clear cycle found
    that insert out of the horizon. *)
Theorem C19_lru_policy :
  forall (D : num) (C : contents D) (coord_of : vec4 D -> outcome coord)
         (pose : Type) (act : pose -> item D -> item D) (horizon cycle : N) h st c,
  inserts coord_of pose act (new_map D C horizon cycle) h = Ok st ->
  (N.of_nat (length h) + horizon < 18446744073709551616)%N ->
  ((exists v, In v (flat_voxels st) /\ v_coord v = c) <->
   (exists t, touched coord_of act h t c /\ survives horizon cycle t (length h))).
Proof.
  intros D C coord_of pose act horizon cycle h st c E W.
  assert (HC := holds_crun D C coord_of pose act horizon cycle h st c E).
  assert (HL := crun_lru D C coord_of pose act horizon cycle c h W).
  assert (HE : holds D C coord_of pose act horizon cycle h c <->
               exists v, In v (flat_voxels st) /\ v_coord v = c).
  { split.
    - intros (st' & v & E' & I & Ec). rewrite E in E'. inversion E'; subst st'. eauto.
    - intros (v & I & Ec). exists st, v. auto. }
  rewrite <- HE, HC. destruct (snd (crun D C coord_of pose act horizon cycle c h)) as [[t b]|].
  - destruct HL as (t' & _ & T & S & _). split; [eauto|discriminate].
  - split; [congruence|]. intros (t & T & S). exfalso. exact (HL t T S).
Qed.

Section C19_corollaries.
Context (D : num) (C : contents D) (coord_of : vec4 D -> outcome coord)
        (pose : Type) (act : pose -> item D -> item D) (horizon cycle : N).
Notation present st c := (exists v, In v (flat_voxels st) /\ v_coord v = c).
Notation run h := (inserts coord_of pose act (new_map D C horizon cycle) h).

(** Voxels touched within the horizon are never lost. *)
Theorem C19_recent_voxels_kept : forall h st c t,
  run h = Ok st -> (N.of_nat (length h) + horizon < 18446744073709551616)%N ->
  touched coord_of act h t c -> (N.of_nat (length h) <= N.of_nat t + horizon)%N ->
  present st c.
Proof.
  intros h st c t E W T L. apply (C19_lru_policy D C coord_of pose act horizon cycle h st c E W).
  exists t. split; auto. intros m R _. lia.
Qed.

(** After a clear cycle every remaining voxel was touched within the horizon. *)
Theorem C19_stale_voxels_removed : forall h st c,
  run h = Ok st -> (N.of_nat (length h) + horizon < 18446744073709551616)%N ->
  h <> [] -> (N.of_nat (length h) mod cycle = 0)%N -> present st c ->
  exists t, touched coord_of act h t c /\ (N.of_nat (length h) <= N.of_nat t + horizon)%N.
Proof.
  intros h st c E W NE M P. apply (C19_lru_policy D C coord_of pose act horizon cycle h st c E W) in P.
  destruct P as (t & T & S). exists t. split; auto. apply S; auto.
  split; [|lia]. eapply touched_lt; eauto.
Qed.

(** A voxel disappears only at a clear cycle and only if every touch is out of the horizon. *)
Theorem C19_removed_only_when_stale : forall h k st st' c,
  run h = Ok st -> run (h ++ [k]) = Ok st' ->
  (N.of_nat (length h) + 1 + horizon < 18446744073709551616)%N ->
  present st c -> ~ present st' c ->
  (N.of_nat (length (h ++ [k])) mod cycle = 0)%N /\
  forall t, touched coord_of act (h ++ [k]) t c ->
            (N.of_nat t + horizon < N.of_nat (length (h ++ [k])))%N.
Proof.
  intros h k st st' c E E' W P NP.
  assert (L : length (h ++ [k]) = length h + 1) by (rewrite app_length; reflexivity).
  assert (N' : forall t, touched coord_of act (h ++ [k]) t c -> survives horizon cycle t (length (h ++ [k])) -> False).
  { intros t T S. apply NP. apply (C19_lru_policy D C coord_of pose act horizon cycle _ _ c E'); [lia|eauto]. }
  apply (C19_lru_policy D C coord_of pose act horizon cycle h st c E) in P; [|lia].
  destruct P as (t0 & T0 & S0).
  assert (T0' : touched coord_of act (h ++ [k]) t0 c) by (apply touched_snoc; auto).
  assert (L0 := touched_lt _ coord_of pose act h t0 c T0).
  split.
  - destruct (N.eq_dec (N.of_nat (length (h ++ [k])) mod cycle) 0) as [|NZ]; auto. exfalso.
    apply (N' t0 T0'). intros m R M. destruct (Nat.eq_dec m (length (h ++ [k]))) as [->|]; [tauto|].
    apply S0; auto. lia.
  - intros t T. apply N.nle_gt. intros G. apply (N' t T). intros m R M.
    lia.
Qed.
End C19_corollaries.

(** lru + lru_horizon is computed modulo 2^64.  With lru_horizon = SIZE_MAX ("never drop
    anything") a voxel touched in the very insert that just ran is dropped. *)
Definition nowhere {D : num} : item D := mkItem vzero vzero mzero.
Theorem C19_huge_horizon_refuted :
  exists st1 st2,
    let C := flat_contents (D := Znum) (fun _ _ => 0%Z) false false 0%Z 10 in
    let ins := insert (C := C) (fun p => Ok (vx p, vy p, vz p)) unit (fun _ q => q) in
    let m0 := new_map Znum C 18446744073709551615 2 in
    ins m0 (tt, []) = Ok st1 /\ ins st1 (tt, [nowhere]) = Ok st2 /\ flat_voxels st2 = [].
Proof.
  set (C := flat_contents (D := Znum) (fun _ _ => 0%Z) false false 0%Z 10).
  set (ins := insert (C := C) (fun p => Ok (vx p, vy p, vz p)) unit (fun _ q => q)).
  destruct (outcome_witness (ins (new_map Znum C 18446744073709551615 2) (tt, []))
     (fun st1 => match ins st1 (tt, [nowhere]) with Ok st2 => length (flat_voxels st2) =? 0 | _ => false end))
    as (st1 & E1 & H); [vm_compute; reflexivity|].
  destruct (ins st1 (tt, [nowhere])) as [st2| | |] eqn:E2; try discriminate H.
  exists st1, st2. split; [exact E1|]. split; [exact E2|].
  destruct (flat_voxels st2); [reflexivity|discriminate H].
Qed.

(** ** C20: point voxels *)
Theorem C20_container_capacity_and_spacing :
  forall (D : num) (dist : vec4 D -> vec4 D -> car D) (hn hc : bool) (min_sq_dist : car D)
         (max_points : nat) (offered : list (item D)),
  let b := fold_left (flat_add dist hn hc min_sq_dist max_points) offered (mkFlat [] [] []) in
  length (fc_points b) <= max_points /\
  (forall i j p q, i < j -> nth_error (fc_points b) i = Some p -> nth_error (fc_points b) j = Some q ->
     nlt (dist p q) min_sq_dist = false) /\
  (exists kept, incl kept offered /\ fc_points b = map it_pt kept /\
     fc_normals b = (if hn then map it_normal kept else []) /\
     fc_covs b = (if hc then map it_cov kept else [])) /\
  (forall q, let b' := flat_add dist hn hc min_sq_dist max_points b q in
     fc_points b' = fc_points b ++ [it_pt q] \/
     b' = b /\ (max_points <= length (fc_points b) \/
                exists p, In p (fc_points b) /\ nlt (dist p (it_pt q)) min_sq_dist = true)).
Proof.
  intros D dist hn hc min_sq_dist max_points offered b.
  destruct (fold_fadd D dist hn hc min_sq_dist max_points offered (mkFlat [] [] []) []
              (flat_empty_inv D dist min_sq_dist max_points) (flat_empty_items D hn hc)) as (kept & IN & [I1 I2] & K).
  fold b in I1, I2, K. split; [exact I1|]. split; [exact I2|]. split.
  - exists kept. split; auto.
  - intros q. cbv zeta.
    destruct (fadd_cases D dist hn hc min_sq_dist max_points b q) as [H|(_ & _ & E & _)]; auto.
Qed.

(** In the map (IEEE doubles, conversions that are not undefined): capacity, spacing between
    any two stored points in either order, and aligned arrays hold for every voxel of every
    reachable map. *)
Theorem C20_voxels_of_the_map :
  forall (inv : f64) (order : sumtree) (hn hc : bool) (min_sq_dist : f64)
         (max_points : nat) (pose : Type) (act : pose -> item Fnum -> item Fnum)
         (horizon cycle : N) (calls : list (op Fnum pose)) st,
  let C := flat_contents (D := Fnum) (fsqd order) hn hc min_sq_dist max_points in
  do_ops Fnum C (voxel_of Strict inv) pose act (new_map Fnum C horizon cycle) calls = Ok st ->
  forall v, In v (flat_voxels st) ->
  let b := v_body v in
  length (fc_points b) <= max_points /\
  (forall i j p q, i <> j -> nth_error (fc_points b) i = Some p -> nth_error (fc_points b) j = Some q ->
     f64_lt (fsqd order p q) min_sq_dist = false) /\
  length (fc_normals b) = (if hn then length (fc_points b) else 0) /\
  length (fc_covs b) = (if hc then length (fc_points b) else 0).
Proof.
  intros inv order hn hc min_sq_dist max_points pose act horizon cycle calls st C E v Iv b.
  destruct (do_ops_good Fnum C (voxel_of Strict inv) pose act
              (flat_voxel_ok (fsqd order) hn hc min_sq_dist max_points (voxel_of Strict inv)) calls)
    with (3 := E) as [_ F].
  - apply flat_body_inv.
  - apply good_new.
  - rewrite Forall_forall in F. destruct (F v Iv) as ([I1 I2] & (kept & K1 & K2 & K3) & G). subst b.
    rewrite Forall_forall in G.
    assert (FIN : forall p, In p (fc_points (v_body v)) -> vfinite p).
    { intros p I. eapply voxel_of_finite. apply G. exact I. }
    split; [exact I1|]. split; [|split].
    + intros i j p q N Ei Ej. destruct (Nat.lt_ge_cases i j) as [L|L].
      * exact (I2 i j p q L Ei Ej).
      * change (too_close (D := Fnum) (fsqd order) min_sq_dist p q = false).
        rewrite too_close_sym by (apply FIN; eapply nth_error_In; eauto).
        apply (I2 j i q p); auto. lia.
    + apply (f_equal (@length _)) in K1, K2. rewrite map_length in K1.
      etransitivity; [exact K2|]. destruct hn; auto. rewrite map_length. symmetry. exact K1.
    + apply (f_equal (@length _)) in K1, K3. rewrite map_length in K1.
      etransitivity; [exact K3|]. destruct hc; auto. rewrite map_length. symmetry. exact K1.
Qed.

(** Which points a voxel of the map holds: the container built from exactly the points that
    fell into the voxel since it was created, in order; and each of those points is stored,
    or lies too close to a stored point, or the voxel is full. *)
Lemma flat_add_grows (D : num) (dist : vec4 D -> vec4 D -> car D) hn hc (mn : car D) mx (q : item D) b p :
  In p (fc_points b) -> In p (fc_points (flat_add dist hn hc mn mx b q)).
Proof.
  unfold flat_add. destruct (_ || _); auto. cbn [fc_points]. intros I. apply in_app_iff. auto.
Qed.
Lemma flat_fold_grows (D : num) (dist : vec4 D -> vec4 D -> car D) hn hc (mn : car D) mx : forall (qs : list (item D)) b,
  (forall p, In p (fc_points b) -> In p (fc_points (fold_left (flat_add dist hn hc mn mx) qs b))) /\
  length (fc_points b) <= length (fc_points (fold_left (flat_add dist hn hc mn mx) qs b)).
Proof.
  induction qs as [|q qs IH]; intros b; [split; auto|]. cbn [fold_left].
  destruct (IH (flat_add dist hn hc mn mx b q)) as [A B]. split.
  - intros p I. apply A. apply flat_add_grows. auto.
  - eapply Nat.le_trans; [|exact B]. unfold flat_add. destruct (_ || _); auto. cbn [fc_points].
    rewrite app_length. lia.
Qed.

Theorem C20_voxel_contents_from_history :
  forall (D : num) (coord_of : vec4 D -> outcome coord) (dist : vec4 D -> vec4 D -> car D)
         (hn hc : bool) (min_sq_dist : car D) (max_points : nat)
         (pose : Type) (act : pose -> item D -> item D) (horizon cycle : N) h st v,
  let C := flat_contents dist hn hc min_sq_dist max_points in
  inserts coord_of pose act (new_map D C horizon cycle) h = Ok st ->
  In v (flat_voxels st) ->
  exists s,
    s < length h /\
    ~ holds D C coord_of pose act horizon cycle (firstn s h) (v_coord v) /\
    (forall m, s < m <= length h -> holds D C coord_of pose act horizon cycle (firstn m h) (v_coord v)) /\
    let qs := flat_map (here coord_of act (v_coord v)) (skipn s h) in
    v_body v = fold_left (flat_add dist hn hc min_sq_dist max_points) qs (mkFlat [] [] []) /\
    forall q, In q qs ->
      In (it_pt q) (fc_points (v_body v)) \/ max_points <= length (fc_points (v_body v)) \/
      exists p, In p (fc_points (v_body v)) /\ nlt (dist p (it_pt q)) min_sq_dist = true.
Proof.
  intros D coord_of dist hn hc mn mx pose act horizon cycle h st v C E I. subst C.
  destruct (voxel_body D _ coord_of pose act horizon cycle h st v E I) as (s & L & NO & YES & _ & B).
  exists s. split; auto. split; auto. split; auto. cbv zeta.
  assert (B' : v_body v = fold_left (flat_add dist hn hc mn mx)
            (flat_map (here coord_of act (v_coord v)) (skipn s h)) (mkFlat [] [] [])).
  { rewrite B. clear B. unfold batch. cbn [flat_contents finalize empty add].
    generalize (mkFlat (D := D) [] [] []). induction (skipn s h) as [|k l IH]; intros b0; [reflexivity|].
    cbn [fold_left flat_map]. rewrite fold_left_app. exact (IH _). }
  split; [exact B'|]. intros q Iq. apply in_split in Iq. destruct Iq as (l1 & l2 & Eq).
  rewrite B', Eq, fold_left_app. cbn [fold_left].
  set (b1 := fold_left (flat_add dist hn hc mn mx) l1 (mkFlat [] [] [])).
  assert (CS : In (it_pt q) (fc_points (flat_add dist hn hc mn mx b1 q)) \/
               mx <= length (fc_points (flat_add dist hn hc mn mx b1 q)) \/
               exists p, In p (fc_points (flat_add dist hn hc mn mx b1 q)) /\ nlt (dist p (it_pt q)) mn = true).
  { unfold flat_add. destruct (Nat.leb_spec mx (length (fc_points b1))); [right; left; simpl; auto|].
    cbn [orb]. destruct (existsb _ (fc_points b1)) eqn:EX.
    - right. right. apply existsb_exists in EX. exact EX.
    - left. cbn [fc_points]. apply in_app_iff. right. left. reflexivity. }
  destruct (flat_fold_grows D dist hn hc mn mx l2 (flat_add dist hn hc mn mx b1 q)) as [H1 H2].
  destruct CS as [CS|[CS|(p & Ip & Lp)]]; [left; auto|right; left; lia|right; right; eauto].
Qed.

(** ** C21: Gaussian voxels *)

(** Exact arithmetic: a voxel holds the count, mean and mean covariance of all points put
    into it since it was created, whatever the batching. *)
Theorem C21_gaussian_voxel_is_batch_mean :
  forall (coord_of : vec4 Rnum -> outcome coord) (pose : Type) (act : pose -> item Rnum -> item Rnum)
         (horizon cycle : N) h st v,
  let C := gauss_contents (D := Rnum) INR in
  inserts coord_of pose act (new_map Rnum C horizon cycle) h = Ok st ->
  In v (flat_voxels st) ->
  exists s,
    (* the voxel was created by insert number s and has been in the map since *)
    s < length h /\
    ~ holds Rnum C coord_of pose act horizon cycle (firstn s h) (v_coord v) /\
    (forall m, s < m <= length h -> holds Rnum C coord_of pose act horizon cycle (firstn m h) (v_coord v)) /\
    let qs := flat_map (here coord_of act (v_coord v)) (skipn s h) in
    qs <> [] /\
    num_points (v_body v) = length qs /\
    (forall i, vcomp (g_mean (v_body v)) i = mean (map (fun q => vcomp (it_pt q) i) qs)) /\
    (forall i j, mcomp (g_cov (v_body v)) i j = mean (map (fun q => mcomp (it_cov q) i j) qs)).
Proof.
  intros coord_of pose act horizon cycle h st v C E I. subst C.
  destruct (voxel_body Rnum _ coord_of pose act horizon cycle h st v E I) as (s & L & NO & YES & T & B).
  exists s. split; auto. split; auto. split; auto.
  destruct T as (k & Ek & NE).
  assert (SK : skipn s h = k :: skipn (S s) h).
  { clear -Ek. revert h Ek. induction s as [|s IH]; intros [|x h] Ek; simpl in *; try discriminate.
    - inversion Ek. auto.
    - rewrite (IH h Ek). destruct h; auto. }
  rewrite SK in *. destruct (gauss_history coord_of pose act (v_coord v) k (skipn (S s) h) NE) as [R' F'].
  assert (R : gauss_rep (v_body v) (flat_map (here coord_of act (v_coord v)) (k :: skipn (S s) h)))
    by (rewrite B; exact R').
  assert (F : finalized (v_body v) = true) by (rewrite B; exact F').
  cbv zeta. split.
  - simpl. destruct (here coord_of act (v_coord v) k); [congruence|discriminate].
  - split; [exact (gr_num _ _ R)|]. split.
    + intros i. rewrite (gr_mean _ _ R i), F. reflexivity.
    + intros i j. rewrite (gr_cov _ _ R i j), F. reflexivity.
Qed.

(** Two histories that put the same points into the voxel since its creation agree, however
    the points were split into calls. *)
Theorem C21_batching_does_not_matter :
  forall (coord_of : vec4 Rnum -> outcome coord) (pose : Type) (act : pose -> item Rnum -> item Rnum)
         c (k1 k2 : pose * list (item Rnum)) h1 h2,
  let C := gauss_contents (D := Rnum) INR in
  let run h := fold_left (batch Rnum C coord_of pose act c) h (empty C) in
  here coord_of act c k1 <> [] -> here coord_of act c k2 <> [] ->
  Permutation (flat_map (here coord_of act c) (k1 :: h1)) (flat_map (here coord_of act c) (k2 :: h2)) ->
  num_points (run (k1 :: h1)) = num_points (run (k2 :: h2)) /\
  g_mean (run (k1 :: h1)) = g_mean (run (k2 :: h2)) /\
  g_cov (run (k1 :: h1)) = g_cov (run (k2 :: h2)).
Proof.
  intros coord_of pose act c k1 k2 h1 h2 C run N1 N2 P.
  destruct (gauss_history coord_of pose act c k1 h1 N1) as [R1 F1].
  destruct (gauss_history coord_of pose act c k2 h2 N2) as [R2 F2].
  fold C in R1, F1, R2, F2. fold (run (k1 :: h1)) in R1, F1. fold (run (k2 :: h2)) in R2, F2.
  assert (M : forall i, vcomp (g_mean (run (k1 :: h1))) i = vcomp (g_mean (run (k2 :: h2))) i).
  { intros i. rewrite (gr_mean _ _ R1 i), (gr_mean _ _ R2 i), F1, F2. apply mean_perm. apply Permutation_map. auto. }
  assert (Q : forall i j, mcomp (g_cov (run (k1 :: h1))) i j = mcomp (g_cov (run (k2 :: h2))) i j).
  { intros i j. rewrite (gr_cov _ _ R1 i j), (gr_cov _ _ R2 i j), F1, F2. apply mean_perm. apply Permutation_map. auto. }
  assert (VE : forall a b : vec4 Rnum, (forall i, vcomp a i = vcomp b i) -> a = b).
  { intros [a1 a2 a3 a4] [b1 b2 b3 b4] H.
    pose proof (H 0). pose proof (H 1). pose proof (H 2). pose proof (H 3). simpl in *. congruence. }
  split; [|split].
  - rewrite (gr_num _ _ R1), (gr_num _ _ R2). apply Permutation_length. auto.
  - apply VE. exact M.
  - destruct (g_cov (run (k1 :: h1))) as [a0 a1 a2 a3], (g_cov (run (k2 :: h2))) as [b0 b1 b2 b3].
    f_equal; apply VE; intros j; [exact (Q 0 j)|exact (Q 1 j)|exact (Q 2 j)|exact (Q 3 j)].
Qed.

(** ** C22: indices resolve *)

(** The packed index splits back into voxel and point number. *)
Theorem C22_packed_index_splits :
  forall i j, (N.of_nat i < 4294967296)%N -> (N.of_nat j < 4294967296)%N ->
  voxel_id (calc_index i j) = i /\ point_id (calc_index i j) = j.
Proof. exact calc_index_split. Qed.

(** Beyond 2^32 points in one voxel two different points get the same index. *)
Theorem C22_oversized_voxel_refuted :
  N.lor (wrap64 (N.shiftl 1 32)) 0 = N.lor (wrap64 (N.shiftl 0 32)) 4294967296.
Proof. reflexivity. Qed.

Lemma NoDup_app_disjoint {A} (l1 l2 : list A) x : NoDup (l1 ++ l2) -> In x l1 -> In x l2 -> False.
Proof.
  induction l1 as [|y l1 IH]; simpl; intros ND F1 F2; [auto|]. inversion ND; subst.
  destruct F1 as [<-|F1]; [|auto]. apply H1. apply in_app_iff. auto.
Qed.

Section Searches.
Context (D : num) (C : contents D) (ok : car D -> Prop) (OL : order_laws D ok).
Context (coord_of : vec4 D -> outcome coord) (dist : vec4 D -> vec4 D -> car D) (m : int_mode).
Context (pose : Type) (act : pose -> item D -> item D).

Lemma reachable_idx horizon cycle calls st :
  do_ops D C coord_of pose act (new_map D C horizon cycle) calls = Ok st ->
  idx_ok (flat_voxels st) (voxels st).
Proof. intros E. exact (proj2 (C18_voxelmap_consistent _ _ _ _ _ _ _ _ _ E)). Qed.

Definition is_search (st : vmap D C) (q : vec4 D) (k : nat) (r : knn_result D) : Prop :=
  (k = 1 /\ nearest_neighbor_search coord_of dist m st q = Ok r) \/
  (0 < k /\ (Z.of_nat k < 2147483648)%Z /\ knn_search coord_of dist m st (N.of_nat k) q = Ok r).

Lemma is_search_init st q k r : is_search st q k r ->
  exists sn kn r0, knn_init D sn kn = Ok r0 /\ buffer_size r0 = k /\ 0 < k /\
    search_loop coord_of dist m st q r0 = Ok r.
Proof.
  intros [[-> E]|(K0 & K & E)].
  - unfold nearest_neighbor_search in E. apply bind_Ok in E. destruct E as (r0 & E0 & E).
    exists (Some 1), (-1)%Z, r0. inversion E0. subst r0. cbn [buffer_size static_n]. split; auto.
  - unfold knn_search in E. apply bind_Ok in E. destruct E as (r0 & E0 & E).
    exists None, (wrap32 (Z.of_N (N.of_nat k))), r0. split; auto.
    assert (W : wrap32 (Z.of_N (N.of_nat k)) = Z.of_nat k).
    { unfold wrap32. rewrite Z.mod_small by lia. lia. }
    rewrite W in *. unfold knn_init in E0. destruct (Z.leb_spec (Z.of_nat k) 0); [lia|].
    inversion E0; subst r0. unfold buffer_size at 1. cbn [static_n capacity]. rewrite Nat2Z.id.
    split; [reflexivity|]. split; [exact K0|]. rewrite Nat2Z.id in E. exact E.
Qed.

Lemma search_core horizon cycle calls st q k r :
  do_ops D C coord_of pose act (new_map D C horizon cycle) calls = Ok st ->
  sizes_ok st -> dist_ok D C ok dist st q -> is_search st q k r ->
  exists center cs S,
    coord_of q = Ok center /\ mapM (shift m center) (search_offsets st) = Ok cs /\
    (NoDup cs -> NoDup (map fst S)) /\
    ascending S /\ stable_sort_of (filter reachable_dist (flat_map (ccands D C dist st q) cs)) S /\
    (forall e, In e S <-> entry_of dist st cs q e /\ nlt (snd e) nmaxv = true) /\
    num_found_neighbors r = length (firstn k S) /\
    indices r = map fst (firstn k S) ++ repeat INVALID (k - length (firstn k S)) /\
    distances r = map snd (firstn k S) ++ repeat nmaxv (k - length (firstn k S)).
Proof.
  intros E SZ DO IS. pose proof (reachable_idx _ _ _ _ E) as IX.
  destruct (is_search_init _ _ _ _ IS) as (sn & kn & r0 & Hi & Hk & Kp & HS).
  destruct (search_topk D C ok OL coord_of dist m st q sn kn r0 r IX SZ DO Hi ltac:(lia) HS)
    as (center & cs & L & S & Ec & Em & EL & ST & R). cbv zeta in R. rewrite Hk in R.
  destruct R as (_ & R1 & R2 & R3). exists center, cs, S. split; [auto|]. split; [auto|].
  destruct ST as (P & A & ST'). split; [|split; [exact A|split; [|split; [|auto]]]].
  - intros ND. apply (Permutation_NoDup (Permutation_map fst P)).
    apply NoDup_map_filter. subst L. apply cands_NoDup; auto.
  - subst L. split; auto.
  - intros e. rewrite <- (ccands_In D C coord_of dist st q cs e IX SZ). subst L. split.
    + intros I. apply (Permutation_in _ (Permutation_sym P)) in I. apply filter_In in I. exact I.
    + intros I. apply (Permutation_in _ P). apply filter_In. exact I.
Qed.

(** Any contents, any number system: every reported pair names a stored point of the map at
    exactly that distance. *)
Theorem C22_results_resolve : forall horizon cycle calls st q k r i,
  do_ops D C coord_of pose act (new_map D C horizon cycle) calls = Ok st ->
  sizes_ok st -> dist_ok D C ok dist st q -> is_search st q k r ->
  i < num_found_neighbors r ->
  exists idx d p,
    nth_error (indices r) i = Some idx /\ nth_error (distances r) i = Some d /\
    map_point st idx = Ok p /\ d = dist p q.
Proof.
  intros horizon cycle calls st q k r i E SZ DO IS Li.
  destruct (search_core _ _ _ _ _ _ _ E SZ DO IS) as (center & cs & S & _ & _ & _ & _ & _ & IN & R1 & R2 & R3).
  rewrite R1 in Li. destruct (nth_error (firstn k S) i) as [e|] eqn:Ee; [|apply nth_error_None in Ee; lia].
  assert (IS' : In e S).
  { apply nth_error_In in Ee. rewrite <- (firstn_skipn k S). apply in_app_iff. auto. }
  apply IN in IS'. destruct IS' as [(vi & v & j & p & Ev & _ & Ep & ->) _].
  destruct SZ as [SZ1 SZ2]. rewrite Forall_forall in SZ2. pose proof (SZ2 v (nth_error_In _ _ Ev)) as SZv.
  assert (vi < length (flat_voxels st)) by (apply nth_error_Some; congruence).
  assert (j < length (stored C (v_body v))) by (apply nth_error_Some; congruence).
  exists (calc_index vi j), (dist p q), p.
  assert (M1 : nth_error (map fst (firstn k S)) i = Some (calc_index vi j)).
  { rewrite nth_error_map, Ee. simpl. rewrite calc_index_lor by lia. reflexivity. }
  assert (M2 : nth_error (map snd (firstn k S)) i = Some (dist p q)) by (rewrite nth_error_map, Ee; reflexivity).
  rewrite R2, R3, !nth_error_app1 by (rewrite map_length; auto). split; [auto|]. split; [auto|]. split; [|auto].
  unfold map_point. destruct (calc_index_split vi j ltac:(lia) ltac:(lia)) as [-> ->].
  rewrite (proj2 (get_Ok _ _ _) Ev). cbn [bind]. apply get_Ok. auto.
Qed.

(** C23: with distinct offsets the answer is the first k entries of an ascending enumeration,
    without repetition, of all points in the searched voxels. *)
Theorem C23_knn_exact_over_searched_voxels : forall horizon cycle calls st q k r,
  do_ops D C coord_of pose act (new_map D C horizon cycle) calls = Ok st ->
  sizes_ok st -> dist_ok D C ok dist st q -> is_search st q k r ->
  NoDup (search_offsets st) -> Forall small_offset (search_offsets st) ->
  exists center cs S,
    coord_of q = Ok center /\ mapM (shift m center) (search_offsets st) = Ok cs /\
    NoDup (map fst S) /\ ascending S /\
    (forall e, In e S <-> entry_of dist st cs q e /\ nlt (snd e) nmaxv = true) /\
    num_found_neighbors r = length (firstn k S) /\
    indices r = map fst (firstn k S) ++ repeat INVALID (k - length (firstn k S)) /\
    distances r = map snd (firstn k S) ++ repeat nmaxv (k - length (firstn k S)).
Proof.
  intros horizon cycle calls st q k r E SZ DO IS ND SM.
  destruct (search_core _ _ _ _ _ _ _ E SZ DO IS) as (center & cs & S & Ec & Em & NS & A & _ & R).
  exists center, cs, S. split; [auto|]. split; [auto|]. split; [|auto].
  apply NS. eapply mapM_shift_NoDup; eauto.
Qed.

(** With 27 offsets on a freshly constructed map the centre voxel is searched twice: a
    search whose buffer is not full always repeats every point of the centre voxel. *)
Theorem C23_mode27_repeats_neighbours_refuted : forall horizon cycle calls st q k r center vi v p,
  do_ops D C coord_of pose act (new_map D C horizon cycle) calls = Ok st ->
  sizes_ok st -> dist_ok D C ok dist st q -> is_search st q k r ->
  search_offsets st = next_offsets [(0, 0, 0)%Z] 27 ->
  coord_of q = Ok center -> shift m center (0, 0, 0)%Z = Ok center ->
  nth_error (flat_voxels st) vi = Some v -> v_coord v = center -> In p (stored C (v_body v)) ->
  nlt (dist p q) nmaxv = true -> num_found_neighbors r < k ->
  ~ NoDup (firstn (num_found_neighbors r) (indices r)).
Proof.
  intros horizon cycle calls st q k r center vi v p E SZ DO IS OF Ec Es Ev Evc Ip LT LK ND.
  pose proof (reachable_idx _ _ _ _ E) as IX.
  destruct (search_core _ _ _ _ _ _ _ E SZ DO IS) as (center' & cs & S & Ec' & Em & _ & _ & ST & IN & R1 & R2 & R3).
  rewrite Ec in Ec'. inversion Ec'; subst center'.
  assert (LS : length S < k) by (rewrite firstn_length in R1; lia).
  rewrite firstn_all2 in R1, R2 by lia.
  rewrite R2, firstn_app, map_length, R1, Nat.sub_diag, firstn_all2 in ND by (rewrite map_length; lia).
  simpl in ND. rewrite app_nil_r in ND.
  destruct ST as (P & _). apply (Permutation_NoDup (Permutation_sym (Permutation_map fst P))) in ND.
  rewrite OF in Em. change (next_offsets [(0, 0, 0)%Z] 27) with ((0, 0, 0)%Z :: cube27) in Em.
  rewrite mapM_cons, Es in Em. cbn [bind] in Em. apply bind_Ok in Em. destruct Em as (cs' & Em' & Ecs).
  inversion Ecs; subst cs.
  assert (I2 : In center cs').
  { apply (mapM_In _ _ _ _ Em'). exists (0, 0, 0)%Z. split; auto. vm_compute. tauto. }
  assert (El : lookup (voxels st) center = Some vi) by (apply IX; eauto).
  apply In_nth_error in Ip. destruct Ip as [j Ej].
  set (e := (calc_index vi j, dist p q)).
  assert (I1 : In e (ccands D C dist st q center)).
  { unfold ccands. rewrite El, Ev. unfold vcands. apply in_map_iff. exists (j, p). split; auto.
    apply combine_seq_In. rewrite Nat.sub_0_r. split; [lia|auto]. }
  cbn [flat_map] in ND. rewrite filter_app, map_app in ND.
  assert (F1 : In (fst e) (map fst (filter reachable_dist (ccands D C dist st q center)))).
  { apply in_map. apply filter_In. auto. }
  assert (F2 : In (fst e) (map fst (filter reachable_dist (flat_map (ccands D C dist st q) cs')))).
  { apply in_map. apply filter_In. split; auto. apply in_flat_map. exists center. auto. }
  exact (NoDup_app_disjoint _ _ _ ND F1 F2).
Qed.

End Searches.

(** Offset lists of the modes 1 and 7 (and of any unsupported number) are distinct. *)
Theorem C23_modes_1_and_7_distinct : forall old n, n <> 27%Z ->
  NoDup (next_offsets old n) /\ Forall small_offset (next_offsets old n).
Proof.
  intros old n H. unfold next_offsets. destruct (Z.eqb_spec n 7); [|destruct (Z.eqb_spec n 27); [tauto|]].
  - split.
    + unfold star7. repeat (constructor; [simpl; intuition congruence|]). constructor.
    + unfold star7. repeat (constructor; [simpl; lia|]). constructor.
  - split; [constructor; [simpl; tauto|constructor]|].
    constructor; [simpl; lia|constructor].
Qed.

(** Point voxels on IEEE doubles: no hypothesis about distances is needed, because a point
    with a voxel coordinate is finite. *)
Theorem C22_C23_point_voxels_f64 :
  forall (inv : f64) (order : sumtree) (hn hc : bool) (min_sq_dist : f64) (max_points : nat)
         (pose : Type) (act : pose -> item Fnum -> item Fnum)
         (horizon cycle : N) (calls : list (op Fnum pose)) st q k r,
  let C := flat_contents (D := Fnum) (fsqd order) hn hc min_sq_dist max_points in
  do_ops Fnum C (voxel_of Strict inv) pose act (new_map Fnum C horizon cycle) calls = Ok st ->
  sizes_ok st ->
  is_search Fnum C (voxel_of Strict inv) (fsqd order) Strict st q k r ->
  (forall i, i < num_found_neighbors r ->
     exists idx d p, nth_error (indices r) i = Some idx /\ nth_error (distances r) i = Some d /\
       map_point st idx = Ok p /\ d = fsqd order p q) /\
  (NoDup (search_offsets st) -> Forall small_offset (search_offsets st) ->
   exists center cs S,
     voxel_of Strict inv q = Ok center /\ mapM (shift Strict center) (search_offsets st) = Ok cs /\
     NoDup (map fst S) /\ ascending S /\
     (forall e, In e S <-> entry_of (fsqd order) st cs q e /\ f64_lt (snd e) f64_max = true) /\
     num_found_neighbors r = length (firstn k S) /\
     indices r = map fst (firstn k S) ++ repeat INVALID (k - length (firstn k S)) /\
     distances r = map snd (firstn k S) ++ repeat f64_max (k - length (firstn k S))).
Proof.
  intros inv order hn hc min_sq_dist max_points pose act horizon cycle calls st q k r C E SZ IS.
  assert (DO : dist_ok Fnum C notnan (fsqd order) st q).
  { destruct (is_search_init _ _ _ _ _ _ _ _ _ IS) as (sn & kn & r0 & _ & _ & _ & HS).
    unfold search_loop in HS. apply bind_Ok in HS. destruct HS as (center & Ec & _).
    apply voxel_of_finite in Ec. apply Forall_forall. intros v Iv. apply Forall_forall. intros p Ip.
    apply fsqd_ok; auto. eapply voxel_of_finite. eapply C18_points_in_their_voxel; eauto. }
  split.
  - intros i Li. exact (C22_results_resolve Fnum C notnan f64_order _ _ _ _ _ _ _ _ _ _ _ _ i E SZ DO IS Li).
  - intros ND SM. exact (C23_knn_exact_over_searched_voxels Fnum C notnan f64_order _ _ _ _ _ _ _ _ _ _ _ _ E SZ DO IS ND SM).
Qed.

(** ** C24: the 27-neighbourhood covers one leaf size *)

Lemma do_ops_finalized (D : num) (C : contents D) coord_of pose act : forall calls st st',
  Forall (fun v => exists b, v_body v = finalize C b) (flat_voxels st) ->
  do_ops D C coord_of pose act st calls = Ok st' ->
  Forall (fun v => exists b, v_body v = finalize C b) (flat_voxels st').
Proof.
  induction calls as [|o calls IH]; intros st st' F E.
  - inversion E; subst; auto.
  - unfold do_ops in E. cbn [foldM] in E. apply bind_Ok in E. destruct E as (st1 & E1 & E2).
    eapply IH; [|exact E2]. destruct o as [[T pts]|n|h c]; cbn [do_op] in E1; try (inversion E1; exact F).
    unfold insert in E1. apply bind_Ok in E1. destruct E1 as ([flat idx] & _ & E1).
    apply bind_Ok in E1. destruct E1 as ([flat' idx'] & _ & E1). inversion E1. cbn [flat_voxels].
    apply Forall_forall. intros v I. apply in_map_iff in I. destruct I as (w & <- & _). simpl. eauto.
Qed.

Lemma mapM_In_l {A B} (f : A -> outcome B) l : forall l' a, mapM f l = Ok l' -> In a l ->
  exists b, f a = Ok b /\ In b l'.
Proof.
  induction l as [|x l IH]; intros l' a E I; [destruct I|].
  rewrite mapM_cons in E. apply bind_Ok in E. destruct E as (b1 & E1 & E).
  apply bind_Ok in E. destruct E as (bs & E2 & E). inversion E; subst l'.
  destruct I as [<-|I].
  - exists b1. simpl. auto.
  - destruct (IH bs a E2 I) as (b & Fb & Ib). exists b. simpl. auto.
Qed.

Lemma shift_Strict x y z dx dy dz c : shift Strict (x, y, z) (dx, dy, dz) = Ok c ->
  c = (x + dx, y + dy, z + dz)%Z.
Proof.
  unfold shift, int_result. destruct (in_int (x + dx)), (in_int (y + dy)), (in_int (z + dz));
    cbn [bind]; intros E; inversion E; reflexivity.
Qed.

(** A voxel whose coordinates differ from the centre by at most one is searched. *)
Lemma near_voxel_searched center offs cs c :
  mapM (shift Strict center) offs = Ok cs -> incl cube27 offs ->
  (let '(x, y, z) := center in let '(a, b, d) := c in
   Z.abs (a - x) <= 1 /\ Z.abs (b - y) <= 1 /\ Z.abs (d - z) <= 1)%Z -> In c cs.
Proof.
  destruct center as [[x y] z], c as [[a b] d]. intros Em IN H.
  assert (I : In (a - x, b - y, d - z)%Z offs) by (apply IN; apply cube27_In; auto).
  destruct (mapM_In_l _ _ _ _ Em I) as (c & Ec & Ic). apply shift_Strict in Ec. subst c.
  replace (x + (a - x))%Z with a in Ic by lia. replace (y + (b - y))%Z with b in Ic by lia.
  replace (z + (d - z))%Z with d in Ic by lia. exact Ic.
Qed.

Lemma voxel_points_In {D : num} {C : contents D} (st : vmap D C) p :
  In p (voxel_points st) <-> exists v, In v (flat_voxels st) /\ In p (stored C (v_body v)).
Proof. unfold voxel_points. apply in_flat_map. Qed.

Section C24.
Context (C : contents Rnum) (leaf : R) (LP : (0 < leaf)%R) (LB : (leaf * leaf < bpow radix2 1024)%R).
Context (order : sumtree) (FS : full_sum order).
Context (pose : Type) (act : pose -> item Rnum -> item Rnum).
Notation coord_of := (rcoord (1 / leaf)).

Lemma real_near (p q : vec4 Rnum) : (rsqd order p q <= leaf * leaf)%R ->
  (Z.abs (real_cell (1 / leaf) (vx p) - real_cell (1 / leaf) (vx q)) <= 1 /\
   Z.abs (real_cell (1 / leaf) (vy p) - real_cell (1 / leaf) (vy q)) <= 1 /\
   Z.abs (real_cell (1 / leaf) (vz p) - real_cell (1 / leaf) (vz q)) <= 1)%Z.
Proof.
  intros H. rewrite (rsqd_eq order p q FS) in H.
  assert (A : forall a b : R, ((a - b) ^ 2 <= leaf * leaf)%R ->
     (Z.abs (real_cell (1 / leaf) a - real_cell (1 / leaf) b) <= 1)%Z).
  { intros a b Hab. apply Zfloor_near.
    replace (a * (1 / leaf) - b * (1 / leaf))%R with ((a - b) * / leaf)%R by (field; lra).
    rewrite Rabs_mult, (Rabs_pos_eq (/ leaf)) by (left; apply Rinv_0_lt_compat; auto).
    apply (Rmult_le_reg_r leaf); auto. rewrite Rmult_assoc, Rinv_l by lra.
    rewrite Rmult_1_r, Rmult_1_l. apply Rabs_le. nra. }
  pose proof (pow2_ge_0 (vx p - vx q)) as P1. pose proof (pow2_ge_0 (vy p - vy q)) as P2.
  pose proof (pow2_ge_0 (vz p - vz q)) as P3. pose proof (pow2_ge_0 (vw p - vw q)) as P4.
  split; [|split]; apply A; lra.
Qed.

Lemma C24_core horizon cycle calls (st : vmap Rnum C) q r :
  do_ops Rnum C coord_of pose act (new_map Rnum C horizon cycle) calls = Ok st ->
  (forall v p, In v (flat_voxels st) -> In p (stored C (v_body v)) -> coord_of p = Ok (v_coord v)) ->
  sizes_ok st -> incl cube27 (search_offsets st) ->
  nearest_neighbor_search coord_of (rsqd order) Strict st q = Ok r ->
  (exists p, In p (voxel_points st) /\ (rsqd order p q <= leaf * leaf)%R) ->
  exists idx d p0, num_found_neighbors r = 1 /\ indices r = [idx] /\ distances r = [d] /\
    map_point st idx = Ok p0 /\ d = rsqd order p0 q /\
    forall p, In p (voxel_points st) -> (d <= rsqd order p q)%R.
Proof.
  intros E IV SZ OF NN (p1 & Ip1 & Lp1).
  assert (DO : dist_ok Rnum C (fun _ => True) (rsqd order) st q).
  { apply Forall_forall. intros v _. apply Forall_forall. auto. }
  assert (IS : is_search Rnum C coord_of (rsqd order) Strict st q 1 r) by (left; auto).
  destruct (search_core Rnum C _ Rnum_order coord_of (rsqd order) Strict pose act
              _ _ _ _ _ _ _ E SZ DO IS) as (center & cs & S & Ec & Em & _ & A & _ & IN & R1 & R2 & R3).
  assert (NEAR : forall p, In p (voxel_points st) -> (rsqd order p q <= leaf * leaf)%R ->
     exists e, In e S /\ snd e = rsqd order p q).
  { intros p Ip Lp. apply voxel_points_In in Ip. destruct Ip as (v & Iv & Ip).
    pose proof (IV v p Iv Ip) as Cp. apply In_nth_error in Iv, Ip.
    destruct Iv as [i Ei], Ip as [j Ej].
    exists (N.lor (N.shiftl (N.of_nat i) 32) (N.of_nat j), rsqd order p q). split; [|reflexivity].
    apply IN. split.
    - exists i, v, j, p. split; auto. split; auto.
      eapply near_voxel_searched; [exact Em|exact OF|]. unfold rcoord in Cp, Ec.
      inversion Cp as [Cv]. inversion Ec as [Cq]. apply real_near. exact Lp.
    - cbn [snd nlt Rnum]. change (@nmaxv Rnum) with (bpow radix2 1024). apply Rlt_bool_iff. lra. }
  destruct (NEAR p1 Ip1 Lp1) as (e1 & Ie1 & De1).
  destruct S as [|e0 S]; [destruct Ie1|].
  change (firstn 1 (e0 :: S)) with [e0] in R1, R2, R3. cbn [length map repeat app Nat.sub] in R1, R2, R3.
  assert (MIN : forall e, In e (e0 :: S) -> (snd e0 <= snd e)%R).
  { intros e [<-|Ie]; [apply Rle_refl|]. unfold ascending in A. apply StronglySorted_inv in A. destruct A as [_ A].
    rewrite Forall_forall in A. apply A in Ie. cbn [nlt Rnum] in Ie. apply Rlt_bool_false_iff in Ie. exact Ie. }
  destruct (proj1 (IN e0) (or_introl eq_refl)) as [(i & v & j & p & Ev & _ & Ep & EE) _].
  exists (fst e0), (snd e0), p. split; auto. split; auto. split; auto. split; [|split].
  - destruct SZ as [SZ1 SZ2]. rewrite Forall_forall in SZ2. pose proof (SZ2 v (nth_error_In _ _ Ev)) as SZv.
    assert (i < length (flat_voxels st)) by (apply nth_error_Some; congruence).
    assert (j < length (stored C (v_body v))) by (apply nth_error_Some; congruence).
    rewrite EE. cbn [fst]. rewrite <- calc_index_lor by lia.
    unfold map_point. destruct (calc_index_split i j ltac:(lia) ltac:(lia)) as [-> ->].
    rewrite (proj2 (get_Ok _ _ _) Ev). cbn [bind]. apply get_Ok. auto.
  - rewrite EE. reflexivity.
  - intros p' Ip'. destruct (Rle_lt_dec (rsqd order p' q) (leaf * leaf)) as [L|G].
    + destruct (NEAR p' Ip' L) as (e' & Ie' & <-). apply MIN. auto.
    + apply MIN in Ie1. rewrite De1 in Ie1. change (car Rnum) with R in *.
      eapply Rle_trans; [exact Ie1|]. eapply Rle_trans; [exact Lp1|]. left. exact G.
Qed.
End C24.

(** Point voxels, exact arithmetic: whenever some stored point is within leaf_size, the
    reported neighbour is the nearest of all stored points. *)
Theorem C24_point_voxels :
  forall (leaf : R) (order : sumtree) hn hc (min_sq_dist : R) max_points
         (pose : Type) (act : pose -> item Rnum -> item Rnum) horizon cycle calls st q r,
  let C := flat_contents (D := Rnum) (rsqd order) hn hc min_sq_dist max_points in
  (0 < leaf)%R -> (leaf * leaf < bpow radix2 1024)%R -> full_sum order ->
  do_ops Rnum C (rcoord (1 / leaf)) pose act (new_map Rnum C horizon cycle) calls = Ok st ->
  sizes_ok st -> incl cube27 (search_offsets st) ->
  nearest_neighbor_search (rcoord (1 / leaf)) (rsqd order) Strict st q = Ok r ->
  (exists p, In p (voxel_points st) /\ (rsqd order p q <= leaf * leaf)%R) ->
  exists idx d p0, num_found_neighbors r = 1 /\ indices r = [idx] /\ distances r = [d] /\
    map_point st idx = Ok p0 /\ d = rsqd order p0 q /\
    forall p, In p (voxel_points st) -> (d <= rsqd order p q)%R.
Proof.
  intros leaf order hn hc min_sq_dist max_points pose act horizon cycle calls st q r C LP LB FS E SZ OF NN EX.
  apply (C24_core C leaf LP LB order FS pose act horizon cycle calls st q r); auto.
  intros v p Iv Ip.
  destruct (do_ops_good Rnum C (rcoord (1 / leaf)) pose act
              (flat_voxel_ok (rsqd order) hn hc min_sq_dist max_points (rcoord (1 / leaf))) calls)
    with (3 := E) as [_ F].
  - apply flat_body_inv.
  - apply good_new.
  - rewrite Forall_forall in F. destruct (F v Iv) as (_ & _ & G). rewrite Forall_forall in G. exact (G p Ip).
Qed.

(** Gaussian voxels, exact arithmetic: voxel means lie in their voxels (C18) and the same
    nearest-mean guarantee holds. *)
Theorem C18_gaussian_mean_in_its_voxel :
  forall (inv : R) (pose : Type) (act : pose -> item Rnum -> item Rnum) horizon cycle calls st,
  let C := gauss_contents (D := Rnum) INR in
  (0 < inv)%R ->
  do_ops Rnum C (rcoord inv) pose act (new_map Rnum C horizon cycle) calls = Ok st ->
  forall v, In v (flat_voxels st) -> rcoord inv (g_mean (v_body v)) = Ok (v_coord v).
Proof.
  intros inv pose act horizon cycle calls st C IP E v Iv.
  destruct (do_ops_good Rnum C (rcoord inv) pose act (gauss_voxel_ok inv) calls) with (3 := E) as [_ F].
  - apply gauss_body_inv.
  - apply good_new.
  - rewrite Forall_forall in F. refine (gauss_mean_in_voxel inv _ _ IP (F v Iv) _).
    pose proof (do_ops_finalized Rnum C _ _ _ calls (new_map Rnum C horizon cycle) st (Forall_nil _) E) as FF.
    rewrite Forall_forall in FF. destruct (FF v Iv) as [b Eb].
    change (finalized (v_body (C := C) v) = true). rewrite Eb.
    cbn [C gauss_contents finalize]. unfold gauss_finalize. destruct (finalized b) eqn:Fb; auto.
Qed.

Theorem C24_gaussian_voxels :
  forall (leaf : R) (order : sumtree)
         (pose : Type) (act : pose -> item Rnum -> item Rnum) horizon cycle calls st q r,
  let C := gauss_contents (D := Rnum) INR in
  (0 < leaf)%R -> (leaf * leaf < bpow radix2 1024)%R -> full_sum order ->
  do_ops Rnum C (rcoord (1 / leaf)) pose act (new_map Rnum C horizon cycle) calls = Ok st ->
  sizes_ok st -> incl cube27 (search_offsets st) ->
  nearest_neighbor_search (rcoord (1 / leaf)) (rsqd order) Strict st q = Ok r ->
  (exists p, In p (voxel_points st) /\ (rsqd order p q <= leaf * leaf)%R) ->
  exists idx d p0, num_found_neighbors r = 1 /\ indices r = [idx] /\ distances r = [d] /\
    map_point st idx = Ok p0 /\ d = rsqd order p0 q /\
    forall p, In p (voxel_points st) -> (d <= rsqd order p q)%R.
Proof.
  intros leaf order pose act horizon cycle calls st q r C LP LB FS E SZ OF NN EX.
  apply (C24_core C leaf LP LB order FS pose act horizon cycle calls st q r); auto.
  intros v p Iv Ip. destruct Ip as [<-|[]].
  apply (C18_gaussian_mean_in_its_voxel (1 / leaf) pose act horizon cycle calls st); auto.
  apply Rdiv_lt_0_compat; lra.
Qed.

(** IEEE doubles, point voxels: every stored point whose coordinates differ from the query's
    by at most (1 - 2^-19) voxels on each axis is considered. *)
Lemma mul_B2R (x y : f64) : is_finite (f64_mul x y) = true -> B2R (f64_mul x y) = rnd (B2R x * B2R y).
Proof.
  intros F. unfold f64_mul in *.
  pose proof (Bmult_correct 53 1024 _ _ mode_NE x y) as Cr. cbn [round_mode] in Cr.
  fold (rnd (B2R x * B2R y)) in Cr. fold E1024 in Cr.
  destruct (Rlt_bool_spec (Rabs (rnd (B2R x * B2R y))) E1024).
  - apply Cr.
  - unfold binary_overflow, overflow_to_inf in Cr. apply B2SF_inf in Cr. rewrite Cr in F. discriminate.
Qed.

Lemma f64_near inv x q a b :
  is_finite (f64_mul x inv) = true -> Zfloor (B2R (f64_mul x inv)) = a -> in_int a = true ->
  is_finite (f64_mul q inv) = true -> Zfloor (B2R (f64_mul q inv)) = b -> in_int b = true ->
  (Rabs ((B2R x - B2R q) * B2R inv) <= 1 - bpow radix2 (-19))%R -> (Z.abs (a - b) <= 1)%Z.
Proof.
  intros Fx Ea Ia Fq Eb Ib H. rewrite <- Ea, <- Eb. apply Zfloor_near.
  assert (K : forall t c, is_finite (f64_mul t inv) = true -> Zfloor (B2R (f64_mul t inv)) = c ->
     in_int c = true -> (Rabs (B2R (f64_mul t inv) - B2R t * B2R inv) <= bpow radix2 (-20))%R).
  { clear. intros t c F E I. rewrite (mul_B2R _ _ F) in *.
    pose proof (rnd_err (B2R t * B2R inv)) as ER. set (y := (B2R t * B2R inv)%R) in *.
    apply in_int_iff in I. unfold INT_MIN, INT_MAX in I.
    pose proof (Zfloor_lb (rnd y)) as LB. pose proof (Zfloor_ub (rnd y)) as UB. rewrite E in LB, UB.
    assert (C1 : (-2147483648 <= IZR c <= 2147483647)%R) by (split; apply IZR_le; lia).
    assert (U : u64 = (/ 9007199254740992)%R) by (unfold u64; simpl; lra).
    assert (ET : (0 < eta64 <= / 9007199254740992)%R).
    { split; [apply eta64_pos|]. rewrite <- U. unfold eta64, u64. apply bpow_le. lia. }
    assert (B20 : bpow radix2 (-20) = (/ 1048576)%R) by (simpl; lra).
    assert (AB : (Rabs y <= 2147483648 + 1 + Rabs (rnd y - y))%R).
    { replace y with (rnd y - (rnd y - y))%R at 1 by lra.
      eapply Rle_trans; [apply Rabs_triang|]. rewrite Rabs_Ropp. apply Rplus_le_compat_r. apply Rabs_le. lra. }
    rewrite U in ER. rewrite B20. lra. }
  pose proof (K x a Fx Ea Ia) as K1. pose proof (K q b Fq Eb Ib) as K2.
  assert (B19 : bpow radix2 (-19) = (bpow radix2 (-20) + bpow radix2 (-20))%R) by (simpl; lra).
  rewrite B19 in H.
  apply Rabs_le. apply Rabs_le_inv in K1, K2, H. lra.
Qed.

Theorem C24_point_voxels_f64 :
  forall (inv : f64) (order : sumtree) (hn hc : bool) (min_sq_dist : f64) (max_points : nat)
         (pose : Type) (act : pose -> item Fnum -> item Fnum)
         (horizon cycle : N) (calls : list (op Fnum pose)) st (q : vec4 Fnum) r,
  let C := flat_contents (D := Fnum) (fsqd order) hn hc min_sq_dist max_points in
  do_ops Fnum C (voxel_of Strict inv) pose act (new_map Fnum C horizon cycle) calls = Ok st ->
  sizes_ok st -> incl cube27 (search_offsets st) ->
  nearest_neighbor_search (voxel_of Strict inv) (fsqd order) Strict st q = Ok r ->
  exists d, distances r = [d] /\
    forall p : vec4 Fnum, In p (voxel_points st) ->
      (Rabs ((B2R (vx p) - B2R (vx q)) * B2R inv) <= 1 - bpow radix2 (-19))%R ->
      (Rabs ((B2R (vy p) - B2R (vy q)) * B2R inv) <= 1 - bpow radix2 (-19))%R ->
      (Rabs ((B2R (vz p) - B2R (vz q)) * B2R inv) <= 1 - bpow radix2 (-19))%R ->
      f64_lt (fsqd order p q) d = false.
Proof.
  intros inv order hn hc min_sq_dist max_points pose act horizon cycle calls st q r C E SZ OF NN.
  assert (PV : forall v p, In v (flat_voxels st) -> In p (fc_points (v_body v)) ->
     voxel_of Strict inv p = Ok (v_coord v)) by (eapply C18_points_in_their_voxel; exact E).
  assert (IS : is_search Fnum C (voxel_of Strict inv) (fsqd order) Strict st q 1 r) by (left; auto).
  assert (FQ : exists center, voxel_of Strict inv q = Ok center).
  { unfold nearest_neighbor_search in NN. apply bind_Ok in NN. destruct NN as (r0 & _ & HS).
    unfold search_loop in HS. apply bind_Ok in HS. destruct HS as (center & Ec & _). eauto. }
  destruct FQ as [center0 FQ].
  assert (DO : dist_ok Fnum C notnan (fsqd order) st q).
  { apply Forall_forall. intros v Iv. apply Forall_forall. intros p Ip.
    apply fsqd_ok; eapply voxel_of_finite; eauto. }
  destruct (search_core Fnum C _ f64_order (voxel_of Strict inv) (fsqd order) Strict pose act
              _ _ _ _ _ _ _ E SZ DO IS) as (center & cs & S & Ec & Em & _ & A & _ & IN & R1 & R2 & R3).
  assert (ALL : forall e, In e S -> notnan (snd e)).
  { intros e Ie. apply IN in Ie. destruct Ie as [(i & v & j & p & Ev & _ & Ep & ->) _]. cbn [snd].
    apply nth_error_In in Ev, Ep. unfold dist_ok in DO. rewrite Forall_forall in DO.
    specialize (DO v Ev). rewrite Forall_forall in DO. auto. }
  set (d := match S with e :: _ => snd e | [] => f64_max end).
  exists d. split.
  { rewrite R3. unfold d. destruct S; reflexivity. }
  intros p Ip Hx Hy Hz. apply voxel_points_In in Ip. destruct Ip as (v & Iv & Ip).
  pose proof (PV v p Iv Ip) as Cp.
  assert (Dp : notnan (fsqd order p q)) by (apply fsqd_ok; eapply voxel_of_finite; eauto).
  destruct center as [[x y] z]. destruct (v_coord v) as [[a b] c] eqn:Ev.
  apply voxel_of_Strict in Cp, Ec.
  destruct Cp as ((x1 & x2 & x3) & (y1 & y2 & y3) & (z1 & z2 & z3) & _).
  destruct Ec as ((x4 & x5 & x6) & (y4 & y5 & y6) & (z4 & z5 & z6) & _).
  assert (IC : In (v_coord v) cs).
  { eapply near_voxel_searched; [exact Em|exact OF|]. rewrite Ev.
    split; [|split]; [exact (f64_near _ _ _ _ _ x1 x2 x3 x4 x5 x6 Hx)|exact (f64_near _ _ _ _ _ y1 y2 y3 y4 y5 y6 Hy)|exact (f64_near _ _ _ _ _ z1 z2 z3 z4 z5 z6 Hz)]. }
  apply In_nth_error in Iv, Ip. destruct Iv as [i Ei], Ip as [j Ej].
  set (e := (N.lor (N.shiftl (N.of_nat i) 32) (N.of_nat j), fsqd order p q)).
  assert (EO : entry_of (C := C) (fsqd order) st cs q e) by (exists i, v, j, p; auto).
  destruct (f64_lt (fsqd order p q) f64_max) eqn:LT.
  - assert (Ie : In e S) by (apply IN; auto). destruct S as [|e0 S]; [destruct Ie|]. unfold d.
    destruct Ie as [->|Ie]; [apply (ol_irrefl _ _ f64_order); exact Dp|].
    apply StronglySorted_inv in A. destruct A as [_ A]. rewrite Forall_forall in A. exact (A e Ie).
  - destruct S as [|e0 S]; [exact LT|]. unfold d.
    assert (L0 : f64_lt (snd e0) f64_max = true) by (apply IN; left; auto).
    destruct (f64_lt (fsqd order p q) (snd e0)) eqn:LL; auto.
    assert (X : f64_lt (fsqd order p q) f64_max = true).
    { eapply (ol_trans _ _ f64_order); [exact Dp|apply ALL; left; reflexivity|reflexivity|exact LL|exact L0]. }
    congruence.
Qed.

(** ** C46: the map as a point cloud *)

(** point_indices / voxel_points enumerate the stored points... *)
Theorem C46_point_indices_enumerate :
  forall (D : num) (C : contents D) (st : vmap D C), sizes_ok st ->
  mapM (map_point st) (point_indices st) = Ok (voxel_points st).
Proof.
  intros D C st [SZ1 SZ2]. unfold point_indices, voxel_points.
  assert (H : forall pre l, flat_voxels st = pre ++ l ->
    mapM (map_point st)
      (flat_map (fun iv => map (calc_index (fst iv)) (seq 0 (length (stored C (v_body (snd iv))))))
         (combine (seq (length pre) (length l)) l)) = Ok (flat_map (fun v => stored C (v_body v)) l)).
  2:{ exact (H [] _ eq_refl). }
  intros pre l. revert pre. induction l as [|v l IH]; intros pre EQ; [reflexivity|].
  cbn [length seq combine flat_map fst snd].
  specialize (IH (pre ++ [v])). rewrite app_length in IH. simpl in IH. rewrite Nat.add_1_r in IH.
  assert (MA : forall (A B : Type) (f : A -> outcome B) a b x y, mapM f a = Ok x -> mapM f b = Ok y ->
     mapM f (a ++ b) = Ok (x ++ y)).
  { clear. intros A B f a b. induction a as [|h a IH]; intros x y Ea Eb.
    - inversion Ea. exact Eb.
    - rewrite mapM_cons in Ea. apply bind_Ok in Ea. destruct Ea as (b1 & E1 & Ea).
      apply bind_Ok in Ea. destruct Ea as (bs & E2 & Ea). inversion Ea; subst x.
      cbn [app]. rewrite mapM_cons, E1. cbn [bind]. rewrite (IH bs y E2 Eb). reflexivity. }
  apply MA; [|apply IH; rewrite <- app_assoc; auto].
  assert (Ev : nth_error (flat_voxels st) (length pre) = Some v).
  { rewrite EQ, nth_error_app2, Nat.sub_diag by lia. reflexivity. }
  assert (LP : length pre < length (flat_voxels st)) by (apply nth_error_Some; congruence).
  rewrite Forall_forall in SZ2. pose proof (SZ2 v (nth_error_In _ _ Ev)) as SZv.
  assert (G : forall pre2 l2, stored C (v_body v) = pre2 ++ l2 ->
    mapM (map_point st) (map (calc_index (length pre)) (seq (length pre2) (length l2))) = Ok l2).
  2:{ exact (G [] _ eq_refl). }
  intros pre2 l2. revert pre2. induction l2 as [|p l2 IH2]; intros pre2 EQ2; [reflexivity|].
  cbn [length seq map]. rewrite mapM_cons.
  assert (Ep : nth_error (stored C (v_body v)) (length pre2) = Some p).
  { rewrite EQ2, nth_error_app2, Nat.sub_diag by lia. reflexivity. }
  assert (L2 : length pre2 < length (stored C (v_body v))) by (apply nth_error_Some; congruence).
  unfold map_point at 1.
  destruct (calc_index_split (length pre) (length pre2) ltac:(lia) ltac:(lia)) as [-> ->].
  rewrite (proj2 (get_Ok _ _ _) Ev). cbn [bind]. rewrite (proj2 (get_Ok _ _ _) Ep). cbn [bind].
  specialize (IH2 (pre2 ++ [p])). rewrite app_length in IH2. simpl in IH2. rewrite Nat.add_1_r in IH2.
  rewrite IH2; [reflexivity|]. rewrite <- app_assoc. auto.
Qed.

(** ...but positions 0..size()-1 do not: size() counts voxels, and every such index reads
    voxel 0.  With Gaussian voxels each of them yields the mean of voxel 0; with point voxels
    an index beyond the points of voxel 0 is an out-of-range read. *)
Theorem C46_positions_are_not_points_refuted :
  forall (D : num) (C : contents D) (st : vmap D C) v0 i,
  (N.of_nat (map_size st) <= 4294967296)%N -> nth_error (flat_voxels st) 0 = Some v0 ->
  i < map_size st ->
  map_point st (N.of_nat i) = get (stored C (v_body v0)) i.
Proof.
  intros D C st v0 i SZ E0 L. unfold map_point, voxel_id, point_id.
  assert (LT : (N.of_nat i < 4294967296)%N) by lia.
  rewrite N.shiftr_div_pow2. change (2 ^ 32)%N with 4294967296%N. rewrite N.div_small by auto.
  change (N.to_nat 0) with 0. rewrite (proj2 (get_Ok _ _ _) E0). cbn [bind].
  change 4294967295%N with (N.ones 32). rewrite N.land_ones. change (2 ^ 32)%N with 4294967296%N.
  rewrite N.mod_small by auto. rewrite Nat2N.id. reflexivity.
Qed.

(** A reachable map with two one-point voxels: traits::point(map, 1) is an out-of-range read
    although size() = 2. *)
Definition Zitem (x : Z) : item Znum := mkItem (D := Znum) (V4 (D := Znum) x 0%Z 0%Z 1%Z) vzero mzero.
Definition ZC : contents Znum := flat_contents (D := Znum)
  (fun p q => ((vx p - vx q) * (vx p - vx q))%Z) false false 1%Z 10.
Definition Zcoord (p : vec4 Znum) : outcome coord := Ok (Z.div (vx p) 10, Z.div (vy p) 10, Z.div (vz p) 10)%Z.
Theorem C46_second_position_reads_out_of_range_refuted :
  exists st, inserts (C := ZC) Zcoord unit (fun _ q => q) (new_map Znum ZC 100 10) [(tt, [Zitem 3; Zitem 17])] = Ok st /\
    map_size st = 2 /\ map_point st 1 = UB.
Proof.
  destruct (outcome_witness
     (inserts (C := ZC) Zcoord unit (fun _ q => q) (new_map Znum ZC 100 10) [(tt, [Zitem 3; Zitem 17])])
     (fun st => (map_size st =? 2) && is_UB (map_point st 1))) as (st & E & H); [vm_compute; reflexivity|].
  apply andb_prop in H. destruct H as [H1 H2]. exists st. split; [exact E|].
  split; [apply Nat.eqb_eq; exact H1|apply is_UB_eq; exact H2].
Qed.


(** ** Searches are defined for every query away from the ends of the int range *)

Lemma do_ops_offsets (D : num) (C : contents D) coord_of pose act : forall calls st st',
  Forall small_offset (search_offsets st) ->
  do_ops D C coord_of pose act st calls = Ok st' -> Forall small_offset (search_offsets st').
Proof.
  induction calls as [|o calls IH]; intros st st' F E.
  - inversion E; subst; auto.
  - unfold do_ops in E. cbn [foldM] in E. apply bind_Ok in E. destruct E as (st1 & E1 & E2).
    eapply IH; [|exact E2]. destruct o as [[T pts]|n|h c]; cbn [do_op] in E1.
    + unfold insert in E1. apply bind_Ok in E1. destruct E1 as ([flat idx] & _ & E1).
      apply bind_Ok in E1. destruct E1 as ([flat' idx'] & _ & E1). inversion E1. exact F.
    + inversion E1. cbn [set_search_offsets search_offsets]. unfold next_offsets.
      destruct (n =? 7)%Z; [|destruct (n =? 27)%Z].
      * repeat (constructor; [simpl; lia|]). constructor.
      * apply Forall_app. split; auto. repeat (constructor; [simpl; lia|]). constructor.
      * constructor; [simpl; lia|constructor].
    + inversion E1. exact F.
Qed.

Lemma mapM_shift_total m x y z offs : Forall small_offset offs ->
  (INT_MIN < x < INT_MAX)%Z -> (INT_MIN < y < INT_MAX)%Z -> (INT_MIN < z < INT_MAX)%Z ->
  exists cs, mapM (shift m (x, y, z)) offs = Ok cs.
Proof.
  intros F Hx Hy Hz. induction F as [|[[a b] c] offs (Ha & Hb & Hc) F IH]; [eexists; reflexivity|].
  destruct IH as [cs IH]. rewrite mapM_cons, IH. unfold shift, int_result.
  assert (I : forall u v, (INT_MIN < u < INT_MAX)%Z -> (-1 <= v <= 1)%Z -> in_int (u + v) = true).
  { intros u v Hu Hv. apply in_int_iff. lia. }
  rewrite !I by lia. cbn [bind]. eauto.
Qed.

Theorem C22_searches_are_total :
  forall (D : num) (C : contents D) (ok : car D -> Prop) (OL : order_laws D ok)
         (coord_of : vec4 D -> outcome coord) (dist : vec4 D -> vec4 D -> car D) (m : int_mode)
         (pose : Type) (act : pose -> item D -> item D) horizon cycle calls st q x y z,
  do_ops D C coord_of pose act (new_map D C horizon cycle) calls = Ok st ->
  sizes_ok st -> dist_ok D C ok dist st q ->
  coord_of q = Ok (x, y, z) ->
  (INT_MIN < x < INT_MAX)%Z -> (INT_MIN < y < INT_MAX)%Z -> (INT_MIN < z < INT_MAX)%Z ->
  (exists r, nearest_neighbor_search coord_of dist m st q = Ok r) /\
  (forall k, 0 < k -> (Z.of_nat k < 2147483648)%Z -> exists r, knn_search coord_of dist m st (N.of_nat k) q = Ok r).
Proof.
  intros D C ok OL coord_of dist m pose act horizon cycle calls st q x y z E SZ DO Ec Hx Hy Hz.
  assert (F : Forall small_offset (search_offsets st)).
  { eapply do_ops_offsets; [|exact E]. constructor; [simpl; lia|constructor]. }
  destruct (mapM_shift_total m x y z _ F Hx Hy Hz) as [cs Em].
  pose proof (C18_voxelmap_consistent D C coord_of pose act horizon cycle calls st E) as [_ IX].
  assert (T : forall sn kn r0, knn_init D sn kn = Ok r0 -> 0 < buffer_size r0 ->
     exists r, search_loop coord_of dist m st q r0 = Ok r).
  { intros sn kn r0 Hi Hb.
    destruct (push_all_topk D ok OL sn kn r0 (flat_map (ccands D C dist st q) cs) Hi Hb) as (r & S & Ep & _).
    { apply cands_ok; auto. }
    exists r. eapply search_loop_complete; eauto. }
  split.
  - unfold nearest_neighbor_search. cbn [knn_init bind].
    apply (T (Some 1) (-1)%Z); [reflexivity|]. unfold buffer_size. cbn [static_n]. lia.
  - intros k K0 K. unfold knn_search.
    assert (W : wrap32 (Z.of_N (N.of_nat k)) = Z.of_nat k).
    { unfold wrap32. rewrite Z.mod_small by lia. lia. }
    rewrite W. destruct (knn_init D None (Z.of_nat k)) as [r0| | |] eqn:Hi;
      try (unfold knn_init in Hi; destruct (Z.leb_spec (Z.of_nat k) 0); [lia|discriminate]).
    cbn [bind]. apply (T None (Z.of_nat k) r0 Hi).
    unfold knn_init in Hi. destruct (Z.leb_spec (Z.of_nat k) 0); [lia|]. inversion Hi; subst r0.
    unfold buffer_size. cbn [static_n capacity]. lia.
Qed.

(** At the end of the range the neighbour coordinate overflows. *)
Theorem C22_search_at_int_max_refuted :
  forall (D : num) (C : contents D) (dist : vec4 D -> vec4 D -> car D) (st : vmap D C) q y z,
  search_offsets st = star7 -> lookup (voxels st) (INT_MAX, y, z) = None ->
  in_int y = true -> in_int z = true ->
  nearest_neighbor_search (fun _ => Ok (INT_MAX, y, z)) dist Strict st q = UB.
Proof.
  intros D C dist st q y z OF LK Iy Iz.
  unfold nearest_neighbor_search. cbn [knn_init bind]. unfold search_loop. rewrite OF. cbn [bind].
  unfold star7. cbn [foldM]. unfold shift at 1. unfold int_result.
  rewrite !Z.add_0_r, Iy, Iz. change (in_int INT_MAX) with true. cbn [bind]. rewrite LK. cbn [bind].
  change (in_int (INT_MAX + 1)) with false. cbn [bind]. reflexivity.
Qed.

(** ** Concrete cases *)

(** Doubles, leaf size 1: points in three voxels and the 27-neighbourhood. *)
Definition fitem (x y z : Z) : item Fnum :=
  mkItem (D := Fnum) (V4 (D := Fnum) (f64_of x (-2)) (f64_of y (-2)) (f64_of z (-2)) (f64_of 1 0)) vzero mzero.
Definition forder : sumtree := eigen_order.
Definition FC : contents Fnum := flat_contents (D := Fnum) (fsqd forder) false false (f64_of 1 (-4)) 10.
Definition fcalls : list (op Fnum unit) :=
  [OpOffsets _ _ 27; OpInsert _ _ (tt, [fitem 1 1 1; fitem 3 1 1; fitem 6 1 1]);
   OpInsert _ _ (tt, [fitem 3 1 1; fitem 2 2 2; fitem (-3) 1 1])].
Definition frun := do_ops Fnum FC (voxel_of Strict (f64_of 1 0)) unit (fun _ q => q) (new_map Fnum FC 100 10) fcalls.

Example vmap_f64_run :
  (let* st := frun in Ok (map v_coord (flat_voxels st), map (fun v => length (fc_points (v_body (C := FC) v))) (flat_voxels st)))
  = Ok ([(0, 0, 0); (1, 0, 0); (-1, 0, 0)]%Z, [3; 1; 1]).
Proof. vm_compute. reflexivity. Qed.

(** The nearest stored point to (1.25, .25, .25) is found; with k = 3 the point of the query's
    own voxel is reported twice because the 27 offsets are appended to (0,0,0). *)
Example vmap_f64_search :
  (let* st := frun in
   let* r := nearest_neighbor_search (voxel_of Strict (f64_of 1 0)) (fsqd forder) Strict st (it_pt (fitem 5 1 1)) in
   let* r3 := knn_search (voxel_of Strict (f64_of 1 0)) (fsqd forder) Strict st 3 (it_pt (fitem 5 1 1)) in
   Ok (indices r, map B2SF (distances r), indices r3))
  = Ok ([4294967296%N], [B2SF (f64_of 1 (-4))], [4294967296; 4294967296; 1]%N).
Proof. vm_compute. reflexivity. Qed.

Example C24_f64_env :
  exists st r, frun = Ok st /\ sizes_ok st /\ incl cube27 (search_offsets st) /\
    nearest_neighbor_search (voxel_of Strict (f64_of 1 0)) (fsqd forder) Strict st (it_pt (fitem 5 1 1)) = Ok r.
Proof.
  destruct (outcome_witness frun (fun st =>
     match nearest_neighbor_search (voxel_of Strict (f64_of 1 0)) (fsqd forder) Strict st (it_pt (fitem 5 1 1)) with
     | Ok _ => forallb (fun o => existsb (coord_eqb o) (search_offsets st)) cube27
               && (length (flat_voxels st) <=? 100)
               && forallb (fun v => length (stored FC (v_body v)) <=? 100) (flat_voxels st)
     | _ => false end)) as (st & E & H); [vm_compute; reflexivity|].
  destruct (nearest_neighbor_search _ _ _ _ _) as [r| | |] eqn:En; try (exfalso; clear - H; congruence).
  exists st, r. apply andb_prop in H. destruct H as [H H3]. apply andb_prop in H. destruct H as [H1 H2].
  split; [exact E|]. split; [|split; [|exact En]].
  - split; [apply Nat.leb_le in H2; lia|]. rewrite forallb_forall in H3. apply Forall_forall.
    intros v Iv. apply H3 in Iv. apply Nat.leb_le in Iv. lia.
  - intros o Io. rewrite forallb_forall in H1. apply H1 in Io. apply existsb_exists in Io.
    destruct Io as (o' & Io & Eo). apply coord_eqb_spec in Eo. subst. exact Io.
Qed.

(** Eviction: with horizon 1 and clear cycle 2 the voxel of the first insert is gone after
    the fourth, the one touched by inserts 2 and 3 is still there. *)
Example C19_run :
  (let* st := inserts (C := ZC) Zcoord unit (fun _ q => q) (new_map Znum ZC 1 2)
      [(tt, [Zitem 3; Zitem 7]); (tt, [Zitem 17]); (tt, [Zitem 25; Zitem 17; Zitem 19]); (tt, [Zitem 26])] in
   Ok (map v_coord (flat_voxels st), voxels st))
  = Ok ([(2, 0, 0)]%Z, [((2, 0, 0)%Z, 0)]).
Proof. vm_compute. reflexivity. Qed.

(** Real arithmetic: a map holding one point answers a query at distance 0. *)
Definition Ritem : item Rnum := mkItem (D := Rnum) (V4 (D := Rnum) 0%R 0%R 0%R 1%R) vzero mzero.
Lemma real_env (C : contents Rnum) :
  In (it_pt Ritem) (stored C (finalize C (add C (empty C) Ritem))) ->
  length (stored C (finalize C (add C (empty C) Ritem))) <= 1 ->
  exists st r, do_ops Rnum C (rcoord (1 / 1)) unit (fun _ q => q) (new_map Rnum C 100 10)
       [OpOffsets _ _ 27; OpInsert _ _ (tt, [Ritem])] = Ok st /\
    sizes_ok st /\ incl cube27 (search_offsets st) /\
    nearest_neighbor_search (rcoord (1 / 1)) (rsqd forder) Strict st (it_pt Ritem) = Ok r /\
    exists p, In p (voxel_points st) /\ (rsqd forder p (it_pt Ritem) <= 1 * 1)%R.
Proof.
  intros I0 L0.
  assert (E : exists st, do_ops Rnum C (rcoord (1 / 1)) unit (fun _ q => q) (new_map Rnum C 100 10)
       [OpOffsets _ _ 27; OpInsert _ _ (tt, [Ritem])] = Ok st /\
       (exists c, flat_voxels st = [mkVoxel 0 c (finalize C (add C (empty C) Ritem))]) /\
       search_offsets st = (0, 0, 0)%Z :: cube27).
  { eexists. split; [reflexivity|]. split; [eexists|]; reflexivity. }
  destruct E as (st & E & (c & FV) & OF).
  assert (SZ : sizes_ok st).
  { split; rewrite FV; [simpl; lia|]. constructor; [cbn [v_body]; lia|constructor]. }
  assert (DO : dist_ok Rnum C (fun _ => True) (rsqd forder) st (it_pt Ritem)).
  { apply Forall_forall. intros v _. apply Forall_forall. auto. }
  assert (Z0 : real_cell (1 / 1) 0 = 0%Z).
  { unfold real_cell. rewrite Rmult_0_l. apply (Zfloor_IZR 0). }
  destruct (C22_searches_are_total Rnum C _ Rnum_order (rcoord (1 / 1)) (rsqd forder) Strict
     unit (fun _ q => q) 100 10 _ st (it_pt Ritem) 0 0 0 E SZ DO) as [[r NN] _];
    try (unfold INT_MIN, INT_MAX; lia).
  { unfold rcoord. cbn [it_pt Ritem vx vy vz]. rewrite Z0. reflexivity. }
  exists st, r. split; [exact E|]. split; [exact SZ|]. split; [rewrite OF; apply incl_tl, incl_refl|].
  split; [exact NN|]. exists (it_pt Ritem). split.
  - apply voxel_points_In. exists (mkVoxel 0 c (finalize C (add C (empty C) Ritem))).
    rewrite FV. split; [left; reflexivity|exact I0].
  - rewrite rsqd_eq by (unfold full_sum, forder, eigen_order; simpl; constructor; apply perm_swap). cbn [it_pt Ritem vx vy vz vw]. lra.
Qed.
Example C24_env_points : exists st r,
  let C := flat_contents (D := Rnum) (rsqd forder) false false 1%R 10 in
  do_ops Rnum C (rcoord (1 / 1)) unit (fun _ q => q) (new_map Rnum C 100 10)
       [OpOffsets _ _ 27; OpInsert _ _ (tt, [Ritem])] = Ok st /\
    sizes_ok st /\ incl cube27 (search_offsets st) /\
    nearest_neighbor_search (rcoord (1 / 1)) (rsqd forder) Strict st (it_pt Ritem) = Ok r /\
    exists p, In p (voxel_points st) /\ (rsqd forder p (it_pt Ritem) <= 1 * 1)%R.
Proof. apply real_env; [left; reflexivity|simpl; lia]. Qed.
Example C21_C24_env_gaussian : exists st r,
  let C := gauss_contents (D := Rnum) INR in
  do_ops Rnum C (rcoord (1 / 1)) unit (fun _ q => q) (new_map Rnum C 100 10)
       [OpOffsets _ _ 27; OpInsert _ _ (tt, [Ritem])] = Ok st /\
    sizes_ok st /\ incl cube27 (search_offsets st) /\
    nearest_neighbor_search (rcoord (1 / 1)) (rsqd forder) Strict st (it_pt Ritem) = Ok r /\
    exists p, In p (voxel_points st) /\ (rsqd forder p (it_pt Ritem) <= 1 * 1)%R.
Proof.
  apply real_env; [left|simpl; lia].
  cbn. unfold vscale, vadd, vzero. cbn. f_equal; field.
Qed.

Print Assumptions C18_voxelmap_consistent.
Print Assumptions C18_points_in_their_voxel.
Print Assumptions C18_inserts_complete.
Print Assumptions C18_gaussian_mean_in_its_voxel.
Print Assumptions C18_zero_clear_cycle_refuted.
Print Assumptions C19_lru_policy.
Print Assumptions C19_recent_voxels_kept.
Print Assumptions C19_stale_voxels_removed.
Print Assumptions C19_removed_only_when_stale.
Print Assumptions C19_huge_horizon_refuted.
Print Assumptions C20_container_capacity_and_spacing.
Print Assumptions C20_voxels_of_the_map.
Print Assumptions C20_voxel_contents_from_history.
Print Assumptions C21_gaussian_voxel_is_batch_mean.
Print Assumptions C21_batching_does_not_matter.
Print Assumptions C22_packed_index_splits.
Print Assumptions C22_oversized_voxel_refuted.
Print Assumptions C22_results_resolve.
Print Assumptions C22_searches_are_total.
Print Assumptions C22_search_at_int_max_refuted.
Print Assumptions C23_knn_exact_over_searched_voxels.
Print Assumptions C23_mode27_repeats_neighbours_refuted.
Print Assumptions C23_modes_1_and_7_distinct.
Print Assumptions C22_C23_point_voxels_f64.
Print Assumptions C24_point_voxels.
Print Assumptions C24_gaussian_voxels.
Print Assumptions C24_point_voxels_f64.
Print Assumptions C46_point_indices_enumerate.
Print Assumptions C46_positions_are_not_points_refuted.
Print Assumptions C46_second_position_reads_out_of_range_refuted.
