(** The stages of the end-to-end interface do not fail. *)
From Coq Require Import ZArith Reals Lra ZifyBool ZifyNat ZifyN.
From Flocq Require Import Core IEEE754.BinarySingleNaN.
From Verif Require Import Base BaseProofs Num Vec F64 F64Proofs KnnModel KnnSpec KdModel KdSpec KdF64 KdThms KdTop KdSafe SortSpec FloorModel
  VoxModel VoxSpec VoxPar VoxF64 VmapModel VmapProofs VmapSearch Lin FactorModel EstModel EstProofs Prop_Est Prop_Vox
  PipeSpec PipeSample PipeModel.
Open Scope nat_scope.

(** ** Blocks *)
Lemma omp_sizes_ok b : 0 < b -> forall fuel n, n <= fuel ->
  list_sum (omp_sizes fuel n b) = n /\ Forall (fun s => 0 < s) (omp_sizes fuel n b).
Proof.
  intros B. induction fuel as [|fuel IH]; intros n L; cbn [omp_sizes].
  - split; [cbn; lia|constructor].
  - destruct (Nat.eqb_spec n 0); [subst; split; [reflexivity|constructor]|].
    destruct (IH (n - b) ltac:(lia)) as [E F]. split; [cbn [list_sum fold_right]; fold (list_sum (omp_sizes fuel (n - b) b)); lia|].
    constructor; [lia|exact F].
Qed.
Lemma starts_lt sizes : Forall (fun s => 0 < s) sizes -> forall off s, In s (starts off sizes) -> s < off + list_sum sizes.
Proof.
  induction 1 as [|x l Hx F IH]; intros off s Hs; [destruct Hs|]. cbn [starts] in Hs.
  change (list_sum (x :: l)) with (x + list_sum l). destruct Hs as [<-|Hs]; [lia|]. apply IH in Hs. lia.
Qed.

Lemma pick_perm (points : list (vec4 Fnum)) g h : Permutation g h -> Permutation (pick points g) (pick points h).
Proof.
  unfold pick. induction 1 as [|x g h P IH|x y g|a b c P1 IH1 P2 IH2]; cbn [flat_map]; auto.
  - apply Permutation_app_head. exact IH.
  - rewrite !app_assoc. apply Permutation_app_tail. apply Permutation_app_comm.
  - eapply perm_trans; eauto.
Qed.
Lemma pick_concat (points : list (vec4 Fnum)) gs : concat (map (pick points) gs) = pick points (concat gs).
Proof.
  induction gs as [|g gs IH]; cbn [map concat]; [reflexivity|]. rewrite IH. unfold pick. rewrite flat_map_app. reflexivity.
Qed.

Section Sample.
Context (m : int_mode) (sort_omp : forall A : Type, (A -> A -> bool) -> list A -> list A) (SC : sort_contract sort_omp).
Context (jn : vec4 Ffld) (jc : m4 Ffld).

Lemma omp_summarised resolution (c : cloud Ffld) o : let points : list (vec4 Fnum) := cl_points c in let inv := inv_leaf resolution in
  moderate inv -> (forall p, In p points -> safe m inv p) -> (forall p, In p points -> homogeneous p) ->
  (Z.of_nat (length points) <= 2 ^ 53)%Z -> (forall p, In p points -> in_grid inv p) ->
  sampled_omp m sort_omp jn jc resolution c o -> exists out, o = Ok (bare jn jc out) /\ summarised inv points out.
Proof.
  intros points inv M HS HH Hn HG H. unfold sampled_omp in H. fold points inv in H.
  set (sizes := omp_sizes (length points) (length points) 1024) in *.
  destruct (omp_sizes_ok 1024 ltac:(lia) (length points) (length points) (le_n _)) as [Es Fs]. fold sizes in Es, Fs.
  assert (GL : length (grid_positions inv points) = length points).
  { unfold grid_positions.
    assert (X : forall l, (forall i, In i l -> i < length points) ->
      filter (fun i => match nth_error points i with Some p => in_gridb inv p | None => false end) l = l).
    { induction l as [|i l IH]; intros Hl; [reflexivity|]. cbn [filter].
      destruct (nth_error points i) as [p|] eqn:Ep; [|apply nth_error_None in Ep; specialize (Hl i (or_introl eq_refl)); lia].
      rewrite (proj2 (in_gridb_iff inv p)) by (apply HG; eapply nth_error_In; eauto).
      f_equal. apply IH. intros j Hj. apply Hl. right. exact Hj. }
    rewrite X; [apply seq_length|]. intros i Hi. apply in_seq in Hi. destruct Hi as [_ Hi]. exact Hi. }
  destruct (C12_parallel_voxelgrid sort_omp m inv points sizes SC HS) as (subs & EB & LS & FIN); auto.
  { intros p Hp Hg. apply (in_grid_usable inv); auto. }
  { intros s Hs. rewrite GL. apply (starts_lt sizes Fs) in Hs. lia. }
  destruct H as [(subs' & st & EB' & CR & H)|[H _]]; [|destruct (H subs EB)].
  pose proof (eq_trans (eq_sym EB) EB') as X. injection X as <-.
  destruct H as [[Fi ->]|(w & e & W & NE & _)].
  - destruct (FIN st CR Fi) as (gs & G1 & G2 & _ & G4). exists (collected vzero st). split; [reflexivity|].
    exists (map (pick points) gs). split; [|split].
    + intros g Hg. apply in_map_iff in Hg. destruct Hg as (ig & <- & Hig). destruct (G1 ig Hig) as [N (c0 & Hc)]. split.
      * destruct ig as [|i ig]; [congruence|]. destruct (Hc i (or_introl eq_refl)) as (p & Ep & _).
        unfold pick. cbn [flat_map]. rewrite Ep. discriminate.
      * exists c0. intros p Hp. unfold pick in Hp. apply in_flat_map in Hp. destruct Hp as (i & Hi & Hp).
        destruct (Hc i Hi) as (p' & Ep & A & B). rewrite Ep in Hp. destruct Hp as [<-|[]]. auto.
    + rewrite pick_concat. eapply perm_trans; [apply pick_perm; exact G2|]. rewrite pick_grid. apply Permutation_refl.
    + clear -G4. induction G4; cbn [map]; constructor; auto.
  - exfalso. destruct (C13_collection _ _ _ _ _ LS CR) as [P _]. destruct (P w e W) as (st' & -> & _). apply (NE st'). reflexivity.
Qed.
End Sample.

(** ** The tree *)
Section Tree.
Context (ne : (nat -> nat -> bool) -> nat -> list nat -> list nat) (NE : nth_element_contract ne).
Context (order : sumtree).

(** Points a tree can be built on. *)
Definition tree_ready (points : list (vec4 Fnum)) : Prop :=
  points <> [] /\ (forall p, In p points -> vfinite p) /\ (N.of_nat (length points) <= INVALID_NODE)%N.

Lemma build_ok c : tree_ready (cl_points (D := Ffld) c) ->
  exists tree, build ne c = Ok tree /\ kd_wf_f64 (cl_points c) 20 tree.
Proof.
  intros (N0 & Fi & L). unfold build.
  destruct (kd_build_f64 order ne NE (cl_points c) 20 128 Fi ltac:(lia) N0 ltac:(vm_compute; discriminate) L) as (tree & E & W & _).
  eauto.
Qed.

Lemma first_entry_ok ok (r : knn_result Fnum) : sane ok r -> exists found, first_entry r = Ok found /\
  match found with None => True | Some (i, _) => ok i end.
Proof.
  intros (K & LI & LD & NF & Fi). unfold first_entry. destruct (Nat.eqb_spec (num_found_neighbors r) 0) as [E|E].
  - exists None. auto.
  - destruct (get_lt (indices r) 0) as [i Ei]; [lia|]. destruct (get_lt (distances r) 0) as [d Ed]; [lia|].
    rewrite Ei, Ed. cbn [bind]. exists (Some (i, d)). split; [reflexivity|].
    apply (Fi 0); [lia|]. apply get_Ok. exact Ei.
Qed.

Lemma tree_nn_ok (c c' : cloud Ffld) tree q : kd_wf_f64 (cl_points c) 20 tree -> cl_points (D := Ffld) c' = cl_points c ->
  exists found, tree_nn order c' tree q = Ok found /\
    match found with None => True | Some (i, _) => (i < N.of_nat (length (cl_points c)))%N end.
Proof.
  intros W E. unfold tree_nn. rewrite E. unfold KdModel.nearest_neighbor_search.
  destruct (knn_init Fnum (Some 1) (-1)) as [r0| | |] eqn:E0; try discriminate.
  assert (K : 0 < buffer_size r0) by (injection E0 as <-; cbn; lia).
  destruct (knn_search_safe Fnum (vec4 Fnum) (fsqd order) nat (axis_apply (D := Fnum)) (cl_points c) q (nzero (n := Fnum)) _ _ tree (Some 1) (-1) r0 W E0 K)
    as (r & -> & S & _). cbn [bind].
  apply first_entry_ok in S. exact S.
Qed.

(** For finite queries the search is exact. *)
Lemma tree_nn_exact (c c' : cloud Ffld) tree q : full_sum order -> (forall p, In p (cl_points c) -> vfinite p) ->
  kd_wf_f64 (cl_points c) 20 tree -> cl_points (D := Ffld) c' = cl_points c -> vfinite q ->
  exists res, is_knn (dist_to (fsqd order) (cl_points c) q) (length (cl_points c)) 1 res /\
    tree_nn order c' tree q = Ok (match res with [] => None | e :: _ => Some e end).
Proof.
  intros FS Fi W E Hq. unfold tree_nn. rewrite E. unfold KdModel.nearest_neighbor_search.
  destruct (kd_exact_f64 order FS (cl_points c) 20 128 Fi ltac:(lia) tree q W Hq) as (rk & R1 & R2).
  destruct (knn_init Fnum (Some 1) (-1)) as [r0| | |] eqn:E0; try discriminate.
  assert (K : buffer_size r0 = 1) by (injection E0 as <-; reflexivity).
  destruct (R2 (Some 1) (-1)%Z r0 E0 ltac:(lia)) as (r & -> & B). rewrite K in B. cbn [bind].
  exists (firstn 1 rk). split; [apply R1|].
  destruct B as (B1 & B2 & B3). unfold first_entry. rewrite B1. destruct rk as [|[i d] rk]; cbn [firstn length map app repeat Nat.sub] in *.
  - reflexivity.
  - change (1 =? 0) with false. cbv iota. rewrite B2, B3. reflexivity.
Qed.

Lemma tree_knn_ok (c : cloud Ffld) tree q k : kd_wf_f64 (cl_points (D := Ffld) c) 20 tree -> (0 < Z.of_nat k < 2 ^ 31)%Z ->
  exists found, tree_knn order c tree q k = Ok found /\ Forall (fun j => j < length (cl_points c)) found.
Proof.
  intros W Hk. unfold tree_knn, knn_search_api.
  assert (EI : int_of_size_t (N.of_nat k) = Z.of_nat k).
  { unfold int_of_size_t. rewrite nat_N_Z. rewrite Z.mod_small by lia. destruct (Z.ltb_spec (Z.of_nat k) (2 ^ 31)); lia. }
  rewrite EI.
  destruct (knn_init Fnum None (Z.of_nat k)) as [r0| | |] eqn:E0;
    [|unfold knn_init in E0; destruct (Z.leb_spec (Z.of_nat k) 0); [lia|discriminate]..].
  assert (K : 0 < buffer_size r0).
  { unfold knn_init in E0; destruct (Z.leb_spec (Z.of_nat k) 0); [lia|]. injection E0 as <-. unfold buffer_size. cbn. lia. }
  destruct (knn_search_safe Fnum (vec4 Fnum) (fsqd order) nat (axis_apply (D := Fnum)) (cl_points c) q (nzero (n := Fnum)) _ _ tree None (Z.of_nat k) r0 W E0 K)
    as (r & -> & (S1 & S2 & S3 & S4 & S5) & _). cbn [bind].
  eexists. split; [reflexivity|]. apply Forall_forall. intros j Hj. apply in_map_iff in Hj. destruct Hj as (x & <- & Hx).
  apply In_nth_error in Hx. destruct Hx as [i Hi].
  assert (Li : i < num_found_neighbors r).
  { assert (i < length (firstn (num_found_neighbors r) (indices r))) by (apply nth_error_Some; congruence). rewrite firstn_length in H. lia. }
  assert (Hx : nth_error (indices r) i = Some x).
  { rewrite <- (firstn_skipn (num_found_neighbors r) (indices r)). rewrite nth_error_app1; [exact Hi|]. apply nth_error_Some. congruence. }
  specialize (S5 i x Li Hx). set (n := length (cl_points c)). change (x < N.of_nat n)%N in S5. clearbody n. lia.
Qed.

(** ** Estimation *)
Context (eig : m3 Ffld -> m3 Ffld) (of_nat : nat -> f64) (milli : f64) (jp jn : vec4 Ffld) (jc : m4 Ffld).

Lemma estimate_ok (c : cloud Ffld) tree : kd_wf_f64 (cl_points (D := Ffld) c) 20 tree ->
  exists c', estimate_all order eig of_nat milli jp jn jc c tree 10 = Ok c' /\ cl_points c' = cl_points c /\
    length (cl_normals c') = length (cl_points c) /\ length (cl_covs c') = length (cl_points c) /\
    forall o, estimated_omp order eig of_nat milli jp jn jc c tree 10 o -> o = Ok c'.
Proof.
  intros W. unfold estimate_all. change (Z.to_nat 10) with 10.
  destruct (C33_total Ffld (tree_knn order c tree) eig of_nat milli Both jp jn jc 10 c) as (c' & E).
  { intros p _. apply tree_knn_ok; [exact W|]. lia. }
  exists c'. split; [exact E|].
  destruct (estimate_writes (tree_knn order c tree) eig of_nat milli Both jp jn jc 10 c c' E) as (P & LN & LC & _).
  repeat (split; [assumption|]). intros o (e & R & F & ->). change (Z.to_nat 10) with 10 in R.
  destruct (C34_parallel_estimation Ffld (tree_knn order c tree) eig of_nat milli Both jp jn jc 10 c c' E e R) as (s & -> & Fi & _).
  cbn [bind]. rewrite Fi by (apply F; reflexivity). reflexivity.
Qed.
End Tree.

(** ** The voxel map, on a machine whose conversions never trap *)
Section Map.
Context (order : sumtree) (of_nat : nat -> f64).
Notation gauss := (gauss of_nat).

Lemma int_result_x86 z : exists y, int_result X86 z = Ok y.
Proof. unfold int_result. destruct (in_int z); eauto. Qed.
Lemma fast_floor_x86 x : exists z, fast_floor X86 x = Ok z.
Proof.
  unfold fast_floor, cast_int.
  destruct (is_finite x && in_int (Btrunc x)); cbn [bind]; apply int_result_x86.
Qed.
Lemma voxel_of_x86 inv p : exists c, voxel_of X86 inv p = Ok c.
Proof.
  unfold voxel_of.
  destruct (fast_floor_x86 (f64_mul (vx p) inv)) as [x ->]. cbn [bind].
  destruct (fast_floor_x86 (f64_mul (vy p) inv)) as [y ->]. cbn [bind].
  destruct (fast_floor_x86 (f64_mul (vz p) inv)) as [z ->]. cbn [bind].
  destruct (fast_floor_x86 (f64_mul (vw p) inv)) as [w ->]. cbn [bind]. eauto.
Qed.
Lemma shift_x86 c off : exists c', shift X86 c off = Ok c'.
Proof.
  destruct c as [[x y] z], off as [[dx dy] dz]. unfold shift.
  destruct (int_result_x86 (x + dx)) as [a ->]. cbn [bind].
  destruct (int_result_x86 (y + dy)) as [b ->]. cbn [bind].
  destruct (int_result_x86 (z + dz)) as [d ->]. cbn [bind]. eauto.
Qed.

Lemma insert_points_length {D C} coord_of now qs : forall flat idx flat' idx',
  foldM (insert_point (D := D) (C := C) coord_of now) qs (flat, idx) = Ok (flat', idx') ->
  length flat' <= length flat + length qs.
Proof.
  induction qs as [|q qs IH]; intros flat idx flat' idx' H; cbn [foldM] in H.
  - injection H as <- <-. cbn. lia.
  - apply bind_Ok in H. destruct H as ([f1 i1] & E & H). apply IH in H. cbn [length].
    assert (length f1 <= length flat + 1); [|lia].
    unfold insert_point in E. apply bind_Ok in E. destruct E as (c & _ & E).
    destruct (lookup idx c).
    + apply bind_Ok in E. destruct E as (v & _ & E). apply bind_Ok in E. destruct E as (f2 & E2 & E). injection E as <- <-.
      apply set_Ok_inv in E2. destruct E2 as [_ ->]. rewrite upd_length. lia.
    + apply bind_Ok in E. destruct E as (v & _ & E). apply bind_Ok in E. destruct E as (f2 & E2 & E). injection E as <- <-.
      apply set_Ok_inv in E2. destruct E2 as [_ ->]. rewrite upd_length, app_length. cbn. lia.
Qed.

Lemma items_ok (c : cloud Ffld) : length (cl_points c) <= length (cl_covs c) ->
  exists qs, items c = Ok qs /\ length qs = length (cl_points c).
Proof.
  intros L. unfold items.
  assert (X : forall l, (forall i, In i l -> i < length (cl_points c)) -> exists qs,
    mapM (fun i => let* p := get (cl_points c) i in let* cv := get (cl_covs c) i in Ok (mkItem (D := Fnum) p vzero (to_rows cv))) l = Ok qs /\
    length qs = length l).
  { induction l as [|i l IH]; intros H; cbn [mapM].
    - exists []. auto.
    - specialize (H i (or_introl eq_refl)) as Hi.
      destruct (get_lt (cl_points c) i Hi) as [p ->]. cbn [bind].
      destruct (get_lt (cl_covs c) i) as [cv ->]; [lia|]. cbn [bind].
      destruct IH as (qs & -> & Lq); [intros; apply H; right; auto|]. cbn [bind]. eexists. split; [reflexivity|]. cbn. lia. }
  destruct (X (seq 0 (length (cl_points c)))) as (qs & E & Lq); [intros i Hi; apply in_seq in Hi; lia|].
  rewrite seq_length in Lq. eauto.
Qed.

(** What registration needs of the map. *)
Definition map_ready (st : vmap Fnum gauss) : Prop :=
  idx_ok (flat_voxels st) (voxels st) /\ (N.of_nat (length (flat_voxels st)) <= 4294967296)%N.

Lemma gaussian_map_ok (c : cloud Ffld) resolution : length (cl_points c) <= length (cl_covs c) ->
  (N.of_nat (length (cl_points c)) <= 4294967296)%N ->
  exists st, gaussian_map X86 of_nat c resolution = Ok st /\ map_ready st.
Proof.
  intros L LN. unfold gaussian_map. destruct (items_ok c L) as (qs & -> & Lq). cbn [bind].
  destruct (insert_spec Fnum gauss (voxel_of X86 (inv_leaf resolution)) (pose Ffld) moved (new_map Fnum gauss 100 10) (pose_id, qs)
    (fun _ => None)) as (st & E & IX & _).
  - intros k i. cbn. split; [discriminate|]. intros (v & Ev & _). destruct i; discriminate.
  - intros k t b. cbn. split; [intros []|discriminate].
  - cbn. lia.
  - intros q _. apply voxel_of_x86.
  - exists st. split; [exact E|]. split; [exact IX|].
    unfold VmapModel.insert in E. apply bind_Ok in E. destruct E as ([f1 i1] & E1 & E).
    cbn [new_map lru_counter lru_clear_cycle lru_horizon] in *.
    change (wrap64 (0 + 1)) with 1%N in E. change (10 =? 0)%N with false in E. change (1 mod 10 =? 0)%N with false in E.
    cbn [bind] in E. injection E as <-. cbn [flat_voxels]. rewrite map_length.
    apply insert_points_length in E1. rewrite map_length in E1. cbn in E1. lia.
Qed.

Lemma map_nn_ok st resolution q : map_ready st ->
  exists found, map_nn X86 order of_nat resolution st q = Ok found /\
    match found with
    | None => True
    | Some (i, _) => (exists p, at_point (map_view of_nat st) i = Ok p) /\ exists cv, at_cov (map_view of_nat st) i = Ok cv
    end.
Proof.
  intros [IX LV]. unfold map_nn, VmapModel.nearest_neighbor_search.
  destruct (knn_init Fnum (Some 1) (-1)) as [r0| | |] eqn:E0; try discriminate.
  assert (K : 0 < buffer_size r0) by (injection E0 as <-; cbn; lia).
  set (ok := fun i => (exists p, at_point (map_view of_nat st) i = Ok p) /\ exists cv, at_cov (map_view of_nat st) i = Ok cv).
  pose proof (init_sane Fnum ok (Some 1) (-1) r0 E0 K) as S0. cbn [bind]. clear E0 K.
  unfold search_loop. destruct (voxel_of_x86 (inv_leaf resolution) q) as [ctr ->]. cbn [bind].
  assert (X : forall offs r, sane ok r -> exists r', foldM (fun r off =>
           let* c := shift X86 ctr off in
           match lookup (voxels st) c with
           | None => Ok r
           | Some vi => let* v := get (flat_voxels st) vi in search_voxel (C := gauss) (fsqd order) q vi v r
           end) offs r = Ok r' /\ sane ok r').
  { induction offs as [|off offs IH]; intros r Hr; cbn [foldM]; [eauto|].
    destruct (shift_x86 ctr off) as [c ->]. cbn [bind].
    destruct (lookup (voxels st) c) as [vi|] eqn:El; cbn [bind]; [|apply IH; exact Hr].
    apply IX in El. destruct El as (v & Ev & _). rewrite (proj2 (get_Ok _ _ _) Ev). cbn [bind].
    unfold search_voxel. cbn [stored gauss gauss_contents length seq combine foldM fst snd].
    destruct (push_safe Fnum ok r (calc_index vi 0) (fsqd order (g_mean (v_body v)) q) Hr) as (r' & -> & Hr' & _).
    { assert (vi < length (flat_voxels st)) by (apply nth_error_Some; congruence).
      destruct (calc_index_split vi 0 ltac:(lia) ltac:(lia)) as [A B].
      unfold ok, map_view, map_point. cbn [at_point at_cov]. rewrite A, B. rewrite (proj2 (get_Ok _ _ _) Ev). cbn [bind].
      split; eexists; reflexivity. }
    cbn [bind]. apply IH. exact Hr'. }
  destruct (X (search_offsets st) r0 S0) as (r & -> & Hr). cbn [bind].
  apply first_entry_ok in Hr. exact Hr.
Qed.
End Map.
