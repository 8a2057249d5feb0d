(** C08-C13: fast_floor and voxel grid downsampling. *)
From Coq Require Import Reals ZArith Lra ZifyBool ZifyNat ZifyN.
From Flocq Require Import Core.
From Flocq Require Import IEEE754.BinarySingleNaN.
From Verif Require Import Base BaseProofs Num Vec RNum F64 F64Proofs F64Err FloorModel FloorProofs KdModel KdSpec
  NthElement SortSpec VoxModel VoxSpec VoxProofs VoxKey VoxPar VoxReal VoxF64 Prop_KdTree.
Open Scope nat_scope.

(** * C08: fast_floor *)
Theorem C08_fast_floor_is_floor m x :
  is_finite x = true -> (-2147483648 <= Zfloor (B2R x) <= 2147483647)%Z ->
  fast_floor m x = Ok (Zfloor (B2R x)).
Proof. intros F H. apply fast_floor_correct; auto. apply in_int_iff. exact H. Qed.

(** Outside that range the behaviour is undefined by the standard, and not a floor on x86. *)
Theorem C08_fast_floor_out_of_range x :
  is_finite x = false \/ ~ (-2147483648 <= Zfloor (B2R x) <= 2147483647)%Z ->
  fast_floor Strict x = UB /\
  (fast_floor X86 x = Ok (-2147483648)%Z \/ fast_floor X86 x = Ok 2147483647%Z).
Proof.
  intros H.
  assert (H' : is_finite x = false \/ in_int (Zfloor (B2R x)) = false).
  { destruct H as [H|H]; auto. right. destruct (in_int (Zfloor (B2R x))) eqn:E; auto.
    apply in_int_iff in E. contradiction. }
  split; [|apply fast_floor_x86_out; exact H'].
  destruct (is_finite x) eqn:F.
  - apply fast_floor_ub; auto. destruct H'; [discriminate|auto].
  - apply fast_floor_ub_nonfinite; auto.
Qed.

(** floor(-2.5) = -3, floor(-2) = -2, floor(2.75) = 2 *)
Example C08_values :
  fast_floor Strict (f64_of (-5) (-1)) = Ok (-3)%Z /\ fast_floor Strict (f64_of (-2) 0) = Ok (-2)%Z /\
  fast_floor Strict (f64_of 11 (-2)) = Ok 2%Z.
Proof. split; [|split]; vm_compute; reflexivity. Qed.
Example C08_hypotheses : is_finite (f64_of (-7) 0) = true /\
  (-2147483648 <= Zfloor (B2R (f64_of (-7) 0)) <= 2147483647)%Z.
Proof.
  destruct (f64_of_int (-7)) as [F E]; [lia|]. split; auto. rewrite E, Zfloor_IZR. lia.
Qed.
Example C08_out_of_range_case :
  fast_floor Strict (f64_of 1 31) = UB /\ fast_floor X86 (f64_of 1 31) = Ok (-2147483648)%Z.
Proof. split; vm_compute; reflexivity. Qed.

(** * C11: keys *)
(** Two points in the grid share a key exactly when they are in the same cell, keys sort
    like cells, and points outside the grid get the reserved key. *)
Theorem C11_voxel_keys m inv p q :
  safe m inv p -> safe m inv q ->
  exists kp kq, voxel_key m inv p = Ok kp /\ voxel_key m inv q = Ok kq /\
    (kp = INVALID_COORD <-> ~ in_grid inv p) /\
    (in_grid inv p -> in_grid inv q ->
       (kp = kq <-> cell inv p = cell inv q) /\ ((kp < kq)%N <-> cell_lt (cell inv p) (cell inv q))).
Proof.
  intros Hp Hq. exists (fkey inv p), (fkey inv q).
  split; [apply voxel_key_fkey; auto|]. split; [apply voxel_key_fkey; auto|]. split.
  - pose proof (fkey_valid inv p) as V. destruct (N.eq_dec (fkey inv p) INVALID_COORD); tauto.
  - intros Gp Gq. split; [apply fkey_cell; auto|].
    unfold fkey. rewrite (proj2 (in_gridb_iff _ _) Gp), (proj2 (in_gridb_iff _ _) Gq).
    apply grid_key_lt; apply in_grid_box; auto.
Qed.

(** By the standard, a coordinate that does not fit an int makes the call undefined. *)
Theorem C11_voxel_keys_strict_ub (inv : f64) (p : vec4 Fnum) :
  (is_finite (f64_mul (vx p) inv) = false \/ ~ (-2147483648 <= axis_cell inv (vx p) <= 2147483647 - 1048576)%Z) ->
  voxel_key Strict inv p = UB.
Proof.
  intros H. unfold voxel_key. rewrite voxel_coord_strict_ub; [reflexivity|].
  unfold INT_MIN, INT_MAX, COORD_OFFSET. destruct H; [auto|]. right. lia.
Qed.

(** Deciding grid membership by computation. *)
Lemma in_grid_compute inv p :
  (match voxel_key X86 inv p with Ok k => negb (k =? INVALID_COORD)%N | _ => false end) = true -> in_grid inv p.
Proof.
  rewrite (voxel_key_fkey X86 inv p (or_introl eq_refl)). intros H. apply fkey_valid. lia.
Qed.
Lemma not_in_grid_compute inv p :
  (match voxel_key X86 inv p with Ok k => (k =? INVALID_COORD)%N | _ => false end) = true -> ~ in_grid inv p.
Proof.
  rewrite (voxel_key_fkey X86 inv p (or_introl eq_refl)). intros H G. apply fkey_valid in G. lia.
Qed.

Definition one64 : f64 := f64_of 1 0.
Example C11_in_and_out : in_grid one64 (fpt (-3) 5 7) /\ ~ in_grid one64 (fpt 2000000 0 0) /\
  ~ in_grid one64 (V4 (D := Fnum) f64_nan one64 one64 one64).
Proof.
  split; [apply in_grid_compute; vm_compute; reflexivity|].
  split; apply not_in_grid_compute; vm_compute; reflexivity.
Qed.

(** * C09: serial downsampling *)
Theorem C09_voxelgrid_centroids sort m inv (points : list (vec4 Fnum)) :
  sort_contract sort ->
  (forall p, In p points -> safe m inv p) ->
  (forall p, In p points -> in_grid inv p -> usable p) ->
  (Z.of_nat (length points) <= 2 ^ 53)%Z ->
  (exists p, In p points /\ in_grid inv p) ->
  exists out cells, voxelgrid_sampling (voxel_key m inv) sort points = Ok out /\
    StronglySorted cell_lt cells /\
    (forall c, In c cells <-> exists p, In p points /\ in_grid inv p /\ cell inv p = c) /\
    Forall2 (fun c o => exists l, Permutation l (filter (in_voxel inv c) points) /\ approx_mean l o) cells out.
Proof. intros. apply serial_f64; auto. Qed.

(** With exact arithmetic: exactly the means, for every keying of the points. *)
Theorem C09_voxelgrid_exact_means sort (kf : vec4 Rnum -> N) (points : list (vec4 Rnum)) :
  sort_contract sort -> (forall p, (kf p <= INVALID_COORD)%N) ->
  (forall p, In p points -> vw p = 1%R) -> (exists k, occupied kf points k) ->
  exists ks, StronglySorted N.lt ks /\ (forall k, In k ks <-> occupied kf points k) /\
    voxelgrid_sampling (fun p => Ok (kf p)) sort points
    = Ok (map (fun k => mean4 (filter (fun p => (kf p =? k)%N) points)) ks).
Proof. intros. apply serial_mean; auto. Qed.

Theorem C09_voxelgrid_order_irrelevant sort (kf : vec4 Rnum -> N) (points points' : list (vec4 Rnum)) :
  sort_contract sort -> (forall p, (kf p <= INVALID_COORD)%N) ->
  Permutation points points' ->
  (forall p, In p points -> vw p = 1%R) -> (exists k, occupied kf points k) ->
  voxelgrid_sampling (fun p => Ok (kf p)) sort points = voxelgrid_sampling (fun p => Ok (kf p)) sort points'.
Proof. intros. apply serial_order; auto. Qed.

(** With exact arithmetic every centroid lies in its voxel, and downsampling a
    downsampled cloud changes nothing. *)
Theorem C09_voxelgrid_idempotent sort (inv : R) (points out : list (vec4 Rnum)) :
  sort_contract sort -> (0 < inv)%R ->
  (forall p, In p points -> vw p = 1%R) ->
  (exists p, In p points /\ real_key inv p <> INVALID_COORD) ->
  voxelgrid_sampling (fun p => Ok (real_key inv p)) sort points = Ok out ->
  voxelgrid_sampling (fun p => Ok (real_key inv p)) sort out = Ok out.
Proof.
  intros SC Hi Hw (p & Hp & Hk). apply (serial_idem sort SC (real_key inv)); auto.
  - apply real_key_bound.
  - apply real_key_keeps. exact Hi.
  - exists (real_key inv p). split; eauto.
Qed.

(** The sort contract is satisfiable. *)
Definition isort : forall A : Type, (A -> A -> bool) -> list A -> list A := @insertion_sort.
Lemma isort_contract : sort_contract isort.
Proof.
  intros A lt l H. split; [apply insertion_sort_Permutation|].
  apply (insertion_sort_sorted lt l H).
Qed.

Lemma usable_int x y z : (Z.abs x <= 2 ^ 53)%Z -> (Z.abs y <= 2 ^ 53)%Z -> (Z.abs z <= 2 ^ 53)%Z -> usable (fpt x y z).
Proof.
  intros Hx Hy Hz. split; [reflexivity|].
  assert (A : forall n, (Z.abs n <= 2 ^ 53)%Z -> is_finite (f64_of n 0) = true /\ (Rabs (B2R (f64_of n 0)) <= bpow radix2 900)%R).
  { intros n Hn. destruct (f64_of_int n Hn) as [F E]. split; auto. rewrite E, <- abs_IZR.
    eapply Rle_trans; [apply IZR_le; exact Hn|]. change (IZR (2 ^ 53)) with (bpow radix2 53). apply bpow_le. lia. }
  intros f [->|[->| ->]]; apply A; auto.
Qed.

(** A cloud with two points in one voxel, one in another and one out of range. *)
Definition half64 : f64 := f64_of 1 (-1).
Definition cloud4 : list (vec4 Fnum) := [fpt 1 0 0; fpt (-4) 2 9; fpt 0 1 1; fpt 100000000 0 0].
Example C09_hypotheses :
  sort_contract isort /\ (forall p, In p cloud4 -> safe X86 half64 p) /\
  (forall p, In p cloud4 -> in_grid half64 p -> usable p) /\
  (Z.of_nat (length cloud4) <= 2 ^ 53)%Z /\ exists p, In p cloud4 /\ in_grid half64 p.
Proof.
  split; [apply isort_contract|]. split; [intros; left; reflexivity|]. split.
  - intros p Hp _. cbn [cloud4 In] in Hp.
    destruct Hp as [<-|[<-|[<-|[<-|[]]]]]; apply usable_int; lia.
  - split; [cbv; discriminate|]. exists (fpt 1 0 0). split; [left; reflexivity|].
    apply in_grid_compute. vm_compute. reflexivity.
Qed.
(** Its downsampled cloud: (-4,2,9) and the mean (0.5,0.5,0.5), in key order. *)
Example C09_run :
  match voxelgrid_sampling (voxel_key X86 half64) isort cloud4 with
  | Ok [a; b] => (B2SF (vx a), B2SF (vz a), B2SF (vw a)) = (B2SF half64, B2SF half64, B2SF one64) /\
                 (B2SF (vx b), B2SF (vy b)) = (B2SF (f64_of (-4) 0), B2SF (f64_of 2 0))
  | _ => False
  end.
Proof. vm_compute. split; reflexivity. Qed.

Definition rpt (x y z : R) : vec4 Rnum := V4 (D := Rnum) x y z 1%R.
Example C09_real_hypotheses :
  let points := [rpt 0 0 0; rpt (1/2) 0 0] in
  (0 < 1)%R /\ (forall p, In p points -> vw p = 1%R) /\
  exists p, In p points /\ real_key 1 p <> INVALID_COORD.
Proof.
  cbv zeta. split; [lra|]. split; [intros p [<-|[<-|[]]]; reflexivity|].
  exists (rpt 0 0 0). split; [left; reflexivity|]. unfold real_key, rpt, real_cell. cbn [vx vy vz vw].
  replace (0 * 1)%R with (IZR 0) by ring. replace (1 * 1)%R with (IZR 1) by ring. rewrite !Zfloor_IZR.
  vm_compute. discriminate.
Qed.

(** * C10: points out of range *)
(** As soon as one point is in range, points out of range have no influence. *)
Theorem C10_out_of_range_ignored sort (kf : vec4 Rnum -> N) (points : list (vec4 Rnum)) :
  sort_contract sort -> (forall p, (kf p <= INVALID_COORD)%N) ->
  (forall p, In p points -> vw p = 1%R) -> (exists k, occupied kf points k) ->
  voxelgrid_sampling (fun p => Ok (kf p)) sort points
  = voxelgrid_sampling (fun p => Ok (kf p)) sort (filter (fun p => negb (kf p =? INVALID_COORD)%N) points).
Proof.
  intros SC KB Hw Ho. set (v := fun p : vec4 Rnum => negb (kf p =? INVALID_COORD)%N).
  assert (Occ : forall k, occupied kf points k <-> occupied kf (filter v points) k).
  { intros k. unfold occupied. split; intros (Hk & p & Hp & E); split; auto; exists p; split; auto.
    - apply filter_In. split; auto. unfold v. lia.
    - apply filter_In in Hp. tauto. }
  destruct (serial_mean sort SC kf KB points Hw Ho) as (ks & S1 & O1 & E1).
  destruct (serial_mean sort SC kf KB (filter v points)) as (ks' & S2 & O2 & E2).
  { intros p Hp. apply filter_In in Hp. apply Hw. tauto. }
  { destruct Ho as (k & Hk). exists k. apply Occ. exact Hk. }
  rewrite E1, E2. f_equal.
  assert (ks = ks') by (apply sorted_lt_unique; auto; intros k; rewrite O1, O2; apply Occ).
  subst ks'. apply map_ext_in. intros k Hk. f_equal. apply O1 in Hk. destruct Hk as [Hk _].
  clear -Hk. induction points as [|p ps IH]; simpl; auto. unfold v at 1.
  destruct (kf p =? INVALID_COORD)%N eqn:A; simpl.
  - destruct (kf p =? k)%N eqn:B; [lia|]. exact IH.
  - destruct (kf p =? k)%N; rewrite IH; reflexivity.
Qed.

(** Refuted when nothing is in range: instead of an empty cloud, one of the
    out-of-range points is returned. *)
Theorem C10_all_out_of_range_refuted sort m inv (points : list (vec4 Fnum)) :
  sort_contract sort -> (forall p, In p points -> safe m inv p) ->
  points <> [] -> (forall p, In p points -> ~ in_grid inv p) ->
  exists p s, In p points /\ (s = p \/ s = vadd vzero p) /\
    voxelgrid_sampling (voxel_key m inv) sort points = Ok [emit s].
Proof.
  intros SC HS Hne Hout.
  apply (serial_all_out sort SC Fnum (voxel_key m inv) points (fkeys inv points)).
  - intros i p Hp. unfold fkeys. rewrite Hp. split; [|apply fkey_bound].
    apply voxel_key_fkey. apply HS. eapply nth_error_In; eauto.
  - exact Hne.
  - intros i Hi. unfold in_range, fkeys.
    destruct (nth_error points i) as [p|] eqn:Ep; [|apply nth_error_None in Ep; lia].
    destruct (N.eq_dec (fkey inv p) INVALID_COORD) as [->|V]; [reflexivity|].
    apply fkey_valid in V. exfalso. apply (Hout p); auto. eapply nth_error_In; eauto.
Qed.

(** Refuted for leaf sizes of 2^-20 and below: the range check includes the homogeneous
    coordinate, so every point counts as out of range and one point survives. *)
Theorem C10_tiny_leaf_refuted sort (inv : f64) (points : list (vec4 Fnum)) :
  sort_contract sort -> points <> [] -> (forall p, In p points -> vw p = one64) ->
  is_finite inv = true -> (bpow radix2 20 <= B2R inv)%R ->
  exists o, voxelgrid_sampling (voxel_key X86 inv) sort points = Ok [o].
Proof.
  intros SC Hne Hw Fi Hi.
  destruct (C10_all_out_of_range_refuted sort X86 inv points) as (p & s & _ & _ & E); eauto.
  - intros; left; reflexivity.
  - intros p Hp (_ & _ & _ & (F & B)). rewrite (Hw p Hp) in *. unfold axis_cell in B.
    destruct (f64_of_int 1) as (F1 & E1); [lia|]. fold one64 in F1, E1.
    assert (M : B2R (f64_mul one64 inv) = B2R inv).
    { unfold f64_mul. pose proof (Bmult_correct 53 1024 _ _ mode_NE one64 inv) as C.
      rewrite E1, Rmult_1_l in C. cbn [round_mode] in C. fold (rnd (B2R inv)) in C.
      assert (Rn : rnd (B2R inv) = B2R inv).
      { rewrite <- (finite_val inv Fi). apply val_format. apply finite_notnan. exact Fi. }
      rewrite Rn in C.
      rewrite Rlt_bool_true in C by (apply finite_lt; exact Fi). apply C. }
    rewrite M in B. assert (2 ^ 20 <= Zfloor (B2R inv))%Z; [|lia].
    apply Zfloor_lub. change (IZR (2 ^ 20)) with (bpow radix2 20). exact Hi.
Qed.

Example C10_tiny_leaf_case :   (* two points a kilometre apart merge *)
  exists o, voxelgrid_sampling (voxel_key X86 (f64_of 1 21)) isort [fpt 0 0 0; fpt 1000 0 0] = Ok [o].
Proof.
  apply C10_tiny_leaf_refuted.
  - apply isort_contract.
  - discriminate.
  - intros p [<-|[<-|[]]]; reflexivity.
  - reflexivity.
  - assert (E : f64_of 1 21 = f64_of (2 ^ 21) 0).
    { apply B2SF_inj. vm_compute. reflexivity. }
    rewrite E. destruct (f64_of_int (2 ^ 21)) as [_ E1]; [lia|]. rewrite E1.
    change (IZR (2 ^ 21)) with (bpow radix2 21). apply bpow_le. lia.
Qed.

(** * C13: concurrent collection of the blocks' results *)
(** From any state reachable by any interleaving: no step is out of bounds, each step
    reduces the remaining work, and when no worker can move the collected cloud is the
    concatenation of the blocks' results in some order. *)
Theorem C13_collection (T : Type) (d : T) (n : nat) (subs : list (list T)) st :
  list_sum (map (@length T) subs) <= n -> creach (cinit T d n subs) st ->
  (forall w r, wstep st w = Some r -> exists st', r = Ok st' /\ cleft T st = S (cleft T st')) /\
  (finished st -> exists subs', Permutation subs subs' /\ collected d st = concat subs').
Proof.
  intros HL HR. split.
  - intros w r E.
    destruct (cinv_step T n subs st w r) as (st' & -> & _); auto.
    + eapply creach_inv; eauto. apply cinv_init. exact HL.
    + exists st'. split; auto. eapply wstep_left; eauto.
  - intros HF. eapply collect_final; eauto.
Qed.

(** Two workers racing: either order of the reservations can happen. *)
Example C13_two_orders :
  let st0 := cinit nat 0 3 [[1; 2]; [3]] in
  let run ws := fold_left (fun o w => match o with
     | Some st => match wstep st w with Some (Ok st') => Some st' | _ => None end | None => None end) ws (Some st0) in
  option_map (collected 0) (run [0; 1; 0; 1; 0]) = Some [1; 2; 3] /\
  option_map (collected 0) (run [1; 0; 0; 1; 0]) = Some [3; 1; 2].
Proof. split; reflexivity. Qed.

(** * C12: parallel downsampling *)
Lemma Forall2_flip {A B} (R : A -> B -> Prop) a b : Forall2 R a b -> Forall2 (fun y x => R x y) b a.
Proof. induction 1; constructor; auto. Qed.

(** Whatever the splitting into blocks and the interleaving of the workers, the final
    cloud consists of centroids of groups of points of one voxel each, every in-range
    point counts in exactly one group, and at most one voxel per block boundary is
    represented twice -- plus one stray point per block that starts beyond the in-range
    points (none when there is no such block). *)
Theorem C12_parallel_voxelgrid sort m inv (points : list (vec4 Fnum)) sizes :
  sort_contract sort ->
  (forall p, In p points -> safe m inv p) ->
  (forall p, In p points -> in_grid inv p -> usable p) ->
  (Z.of_nat (length points) <= 2 ^ 53)%Z ->
  list_sum sizes = length points -> Forall (fun s => 0 < s) sizes ->
  (forall s, In s (starts 0 sizes) -> s < length (grid_positions inv points)) ->
  exists subs, parallel_blocks (voxel_key m inv) sort points sizes = Ok subs /\
    list_sum (map (@length _) subs) <= length points /\
    forall st, creach (cinit _ vzero (length points) subs) st -> finished st ->
      exists groups,
        (forall g, In g groups -> g <> [] /\ exists c, forall i, In i g ->
           exists p, nth_error points i = Some p /\ in_grid inv p /\ cell inv p = c) /\
        Permutation (concat groups) (grid_positions inv points) /\
        length groups <= num_voxels inv points + (length sizes - 1) /\
        Forall2 (fun g o => approx_mean (pick points g) o) groups (collected vzero st).
Proof.
  intros SC HS HU Hn Hs HF Hst.
  destruct (parallel_f64 sort SC m inv points HS HU Hn sizes Hs HF)
    as (outs & groups & bad & E & G1 & G2 & G3 & G4 & G5 & G6 & outs1 & outs2 & Eo & F1 & F2).
  assert (Lc : forall l : list (list (vec4 Fnum)), list_sum (map (@length _) l) = length (concat l)).
  { induction l; simpl; auto. rewrite app_length. auto. }
  exists outs. split; auto. split; [rewrite Lc; exact G6|].
  intros st HR HFin. destruct (collect_final _ vzero (length points) outs st) as (subs' & HP & Ec); auto.
  { rewrite Lc. exact G6. }
  assert (bad = []) as ->.
  { destruct bad; auto. exfalso. simpl in G4.
    assert (FN : filter (fun s => length (grid_positions inv points) <=? s) (starts 0 sizes) = []).
    { clear -Hst. induction (starts 0 sizes) as [|s l IH]; simpl; auto.
      specialize (Hst s (or_introl eq_refl)) as Hs.
      destruct (length (grid_positions inv points) <=? s) eqn:Q; [lia|].
      apply IH. intros; apply Hst; right; auto. }
    rewrite FN in G4. discriminate. }
  inversion F2; subst. rewrite app_nil_r in Eo. subst outs1.
  assert (PC : Permutation (concat outs) (collected vzero st)).
  { rewrite Ec. clear -HP. induction HP; simpl; auto.
    - apply Permutation_app_head. auto.
    - rewrite !app_assoc. apply Permutation_app_tail. apply Permutation_app_comm.
    - eapply perm_trans; eauto. }
  destruct (Permutation_Forall2 PC (Forall2_flip _ _ _ F1)) as (groups' & PG & F').
  exists groups'. split; [|split; [|split]].
  - intros g Hg. apply G1. apply (Permutation_in _ (Permutation_sym PG)). exact Hg.
  - eapply perm_trans; [|exact G2]. clear -PG. apply Permutation_sym in PG. induction PG; simpl; auto.
    + apply Permutation_app_head. auto.
    + rewrite !app_assoc. apply Permutation_app_tail. apply Permutation_app_comm.
    + eapply perm_trans; eauto.
  - rewrite <- (Permutation_length PG). exact G3.
  - apply Forall2_flip in F'. exact F'.
Qed.

(** Refuted without that condition: when a block starts among the out-of-range points
    (they come last in the sorted order), an out-of-range point is emitted, which the
    serial version never does for the same cloud. *)
Theorem C12_stray_point_refuted sort m inv (points : list (vec4 Fnum)) sizes s :
  sort_contract sort ->
  (forall p, In p points -> safe m inv p) ->
  (forall p, In p points -> in_grid inv p -> usable p) ->
  (Z.of_nat (length points) <= 2 ^ 53)%Z ->
  list_sum sizes = length points -> Forall (fun s => 0 < s) sizes ->
  In s (starts 0 sizes) -> length (grid_positions inv points) <= s ->
  exists subs p o, parallel_blocks (voxel_key m inv) sort points sizes = Ok subs /\
    In o (concat subs) /\ In p points /\ ~ in_grid inv p /\ (o = emit p \/ o = emit (vadd vzero p)).
Proof.
  intros SC HS HU Hn Hs HF Hin Hle.
  destruct (parallel_f64 sort SC m inv points HS HU Hn sizes Hs HF)
    as (outs & groups & bad & E & G1 & G2 & G3 & G4 & G5 & G6 & outs1 & outs2 & Eo & F1 & F2).
  destruct bad as [|j bad].
  - exfalso. simpl in G4.
    assert (Hf : In s (filter (fun s => length (grid_positions inv points) <=? s) (starts 0 sizes))).
    { apply filter_In. split; auto. lia. }
    destruct (filter _ _); [destruct Hf|discriminate].
  - inversion F2 as [|? o ? outs2' (p & Hp & Ho) F2']; subst.
    destruct (G5 j (or_introl eq_refl)) as (p' & Hp' & Hng).
    rewrite Hp in Hp'. inversion Hp'; subst p'.
    exists outs, p, o. split; auto. split; [rewrite Eo; apply in_app_iff; right; left; reflexivity|].
    split; [eapply nth_error_In; eauto|]. auto.
Qed.

(** A cloud of 1024 points in range and one outside, with OpenMP's blocks of 1024. *)
Definition big_cloud : list (vec4 Fnum) := repeat (fpt 1 2 3) 1024 ++ [fpt 2000000 0 0].
Example C12_stray_point_case :
  exists subs p o, parallel_blocks (voxel_key X86 one64) isort big_cloud (omp_sizes 1025 1025 1024) = Ok subs /\
    In o (concat subs) /\ In p big_cloud /\ ~ in_grid one64 p /\ (o = emit p \/ o = emit (vadd vzero p)).
Proof.
  assert (HIn : forall p, In p big_cloud -> p = fpt 1 2 3 \/ p = fpt 2000000 0 0).
  { intros p Hp. unfold big_cloud in Hp. apply in_app_iff in Hp.
    destruct Hp as [Hp|[<-|[]]]; auto. left. apply repeat_spec in Hp. exact Hp. }
  assert (Lc : length big_cloud = 1025) by (unfold big_cloud; rewrite app_length, repeat_length; reflexivity).
  apply (C12_stray_point_refuted isort X86 one64 big_cloud (omp_sizes 1025 1025 1024) 1024).
  - apply isort_contract.
  - intros; left; reflexivity.
  - intros p Hp _. destruct (HIn p Hp) as [->| ->]; apply usable_int; lia.
  - rewrite Lc. vm_compute. discriminate.
  - rewrite Lc. vm_compute. reflexivity.
  - change (omp_sizes 1025 1025 1024) with [1024; 1]. repeat constructor; lia.
  - change (omp_sizes 1025 1025 1024) with [1024; 1]. right; left; reflexivity.
  - unfold grid_positions. rewrite Lc. change 1025 with (1024 + 1) at 1. rewrite seq_app, filter_app, app_length.
    assert (H1 : length (filter (fun i => match nth_error big_cloud i with
        Some p => in_gridb one64 p | None => false end) (seq (0 + 1024) 1)) = 0).
    { cbn [seq filter]. change (0 + 1024) with 1024. 
      replace (nth_error big_cloud 1024) with (Some (fpt 2000000 0 0)).
      - destruct (in_gridb one64 (fpt 2000000 0 0)) eqn:Q; [|reflexivity].
        apply in_gridb_iff in Q. exfalso. revert Q. apply not_in_grid_compute. vm_compute. reflexivity.
      - unfold big_cloud. rewrite nth_error_app2 by (rewrite repeat_length; lia).
        rewrite repeat_length. reflexivity. }
    rewrite H1. rewrite Nat.add_0_r. 
    assert (FL : forall (f : nat -> bool) l, length (filter f l) <= length l).
    { clear. intros f l. induction l; simpl; [lia|]. destruct (f a); simpl; lia. }
    etransitivity; [apply FL|]. rewrite seq_length. lia.
Qed.

(** Hypotheses of the positive theorem: two blocks over four points in range. *)
Example C12_hypotheses :
  let points := [fpt 1 0 0; fpt (-4) 2 9; fpt 0 1 1; fpt 50 0 0] in
  list_sum [2; 2] = length points /\
  (forall s, In s (starts 0 [2; 2]) -> s < length (grid_positions half64 points)).
Proof.
  cbv zeta. split; [reflexivity|].
  assert (G : forall p, In p [fpt 1 0 0; fpt (-4) 2 9; fpt 0 1 1; fpt 50 0 0] -> in_gridb half64 p = true).
  { intros p Hp. apply in_gridb_iff. cbn [In] in Hp.
    destruct Hp as [<-|[<-|[<-|[<-|[]]]]]; apply in_grid_compute; vm_compute; reflexivity. }
  assert (L : length (grid_positions half64 [fpt 1 0 0; fpt (-4) 2 9; fpt 0 1 1; fpt 50 0 0]) = 4).
  { unfold grid_positions. cbn [length seq filter nth_error].
    rewrite !G by (cbn [In]; tauto). reflexivity. }
  rewrite L. intros s [<-|[<-|[]]]; lia.
Qed.

Print Assumptions C08_fast_floor_is_floor.
Print Assumptions C08_fast_floor_out_of_range.
Print Assumptions C09_voxelgrid_centroids.
Print Assumptions C09_voxelgrid_exact_means.
Print Assumptions C09_voxelgrid_order_irrelevant.
Print Assumptions C09_voxelgrid_idempotent.
Print Assumptions C10_out_of_range_ignored.
Print Assumptions C10_all_out_of_range_refuted.
Print Assumptions C10_tiny_leaf_refuted.
Print Assumptions C11_voxel_keys.
Print Assumptions C11_voxel_keys_strict_ub.
Print Assumptions C12_parallel_voxelgrid.
Print Assumptions C12_stray_point_refuted.
Print Assumptions C13_collection.
