(** Searches on the voxel map. *)
From Coq Require Import ZArith.
From Coq Require Import ZifyBool ZifyNat ZifyN.
From Verif Require Import Base BaseProofs Num Vec F64 FloorModel FloorProofs KnnModel KnnSpec
  KnnProofs VmapModel VmapSpec VmapProofs VmapHist.
Open Scope nat_scope.

Lemma calc_index_val i j : (N.of_nat i < 4294967296)%N -> (N.of_nat j < 4294967296)%N ->
  calc_index i j = (N.of_nat i * 4294967296 + N.of_nat j)%N.
Proof.
  intros Hi Hj. unfold calc_index. rewrite wrap64_small.
  - rewrite N.lor_comm. replace (N.shiftl (N.of_nat i) 32) with (N.of_nat i * 4294967296)%N
      by (rewrite N.shiftl_mul_pow2; reflexivity).
    set (a := N.of_nat i) in *. set (b := N.of_nat j) in *. clearbody a b.
    rewrite (N.add_comm (a * 4294967296) b).
    replace (a * 4294967296)%N with (N.shiftl a 32) by (rewrite N.shiftl_mul_pow2; reflexivity).
    symmetry. rewrite <- N.lxor_lor.
    + apply N.add_nocarry_lxor. apply N.bits_inj. intros k. rewrite N.land_spec, N.bits_0.
      destruct (N.lt_ge_cases k 32).
      * rewrite N.shiftl_spec_low by auto. apply andb_false_r.
      * replace (N.testbit b k) with false; auto. symmetry.
        destruct (N.eq_dec b 0) as [->|]; [apply N.bits_0|]. apply N.bits_above_log2.
        apply N.log2_lt_pow2; [lia|]. eapply N.lt_le_trans; [exact Hj|].
        change 4294967296%N with (2 ^ 32)%N. apply N.pow_le_mono_r; lia.
    + apply N.bits_inj. intros k. rewrite N.land_spec, N.bits_0.
      destruct (N.lt_ge_cases k 32).
      * rewrite N.shiftl_spec_low by auto. apply andb_false_r.
      * replace (N.testbit b k) with false; auto. symmetry.
        destruct (N.eq_dec b 0) as [->|]; [apply N.bits_0|]. apply N.bits_above_log2.
        apply N.log2_lt_pow2; [lia|]. eapply N.lt_le_trans; [exact Hj|].
        change 4294967296%N with (2 ^ 32)%N. apply N.pow_le_mono_r; lia.
  - rewrite N.shiftl_mul_pow2. change (2 ^ 32)%N with 4294967296%N. unfold U64. lia.
Qed.

Lemma calc_index_lor i j : (N.of_nat i < 4294967296)%N ->
  calc_index i j = N.lor (N.shiftl (N.of_nat i) 32) (N.of_nat j).
Proof.
  intros Hi. unfold calc_index. rewrite wrap64_small; auto.
  rewrite N.shiftl_mul_pow2. change (2 ^ 32)%N with 4294967296%N. unfold U64. lia.
Qed.

Lemma calc_index_split i j : (N.of_nat i < 4294967296)%N -> (N.of_nat j < 4294967296)%N ->
  voxel_id (calc_index i j) = i /\ point_id (calc_index i j) = j.
Proof.
  intros Hi Hj. rewrite calc_index_val by auto. unfold voxel_id, point_id.
  rewrite N.shiftr_div_pow2. change 4294967295%N with (N.ones 32). rewrite N.land_ones.
  change (2 ^ 32)%N with 4294967296%N. split.
  - rewrite N.div_add_l by lia. rewrite N.div_small by auto. lia.
  - rewrite N.add_comm, N.mod_add by lia. rewrite N.mod_small by auto. lia.
Qed.

Lemma calc_index_inj i j i' j' :
  (N.of_nat i < 4294967296)%N -> (N.of_nat j < 4294967296)%N ->
  (N.of_nat i' < 4294967296)%N -> (N.of_nat j' < 4294967296)%N ->
  calc_index i j = calc_index i' j' -> i = i' /\ j = j'.
Proof. intros. rewrite !calc_index_val in * by auto. lia. Qed.

Lemma mapM_cons {A B} (f : A -> outcome B) a l :
  mapM f (a :: l) = let* b := f a in let* bs := mapM f l in Ok (b :: bs).
Proof. reflexivity. Qed.

Lemma foldM_map {A B X} (f : A -> X -> outcome A) (g : B -> X) l : forall a,
  foldM f (map g l) a = foldM (fun a b => f a (g b)) l a.
Proof.
  induction l as [|b l IH]; intros a; cbn [map foldM]; auto.
  destruct (f a (g b)); cbn [bind]; auto.
Qed.

Lemma NoDup_map_inj_in {A B} (g : A -> B) l :
  (forall a b, In a l -> In b l -> g a = g b -> a = b) -> NoDup l -> NoDup (map g l).
Proof.
  induction l as [|x l IH]; simpl; intros H ND; [constructor|]. inversion ND; subst.
  constructor; [|apply IH; auto]. intros I. apply in_map_iff in I. destruct I as (y & E & I).
  assert (y = x) by (apply H; auto). subst. auto.
Qed.

Lemma NoDup_map_filter {A B} (g : A -> B) (f : A -> bool) l :
  NoDup (map g l) -> NoDup (map g (filter f l)).
Proof.
  induction l as [|x l IH]; simpl; intros H; auto. inversion H; subst.
  destruct (f x); simpl; auto. constructor; auto.
  intros I. apply H2. apply in_map_iff in I. destruct I as [y [E I]].
  apply filter_In in I. rewrite <- E. apply in_map. tauto.
Qed.

(** shift with small offsets is injective, also when int addition wraps around. *)
Lemma int_result_inj m x d d' y : (Z.abs d <= 1)%Z -> (Z.abs d' <= 1)%Z ->
  int_result m (x + d) = Ok y -> int_result m (x + d') = Ok y -> d = d'.
Proof.
  intros L L' E E'.
  assert (W : forall z, in_int z = true -> wrap32 z = z).
  { intros z H. unfold in_int in H. unfold wrap32. rewrite Z.mod_small; unfold INT_MIN, INT_MAX in H; lia. }
  assert (K0 : forall z, int_result m z = Ok y -> wrap32 z = y).
  { intros z. unfold int_result. destruct (in_int z) eqn:I.
    - intros Q. inversion Q. subst. auto.
    - destruct m; intros Q; inversion Q. auto. }
  assert (K : wrap32 (x + d) = y /\ wrap32 (x + d') = y) by auto.
  destruct K as [K1 K2]. unfold wrap32 in *.
  assert (Q : ((x + d + 2147483648) mod 4294967296 = (x + d' + 2147483648) mod 4294967296)%Z) by lia.
  clear -Q L L'.
  pose proof (Z.div_mod (x + d + 2147483648) 4294967296 ltac:(lia)).
  pose proof (Z.div_mod (x + d' + 2147483648) 4294967296 ltac:(lia)).
  set (q1 := ((x + d + 2147483648) / 4294967296)%Z) in *.
  set (q2 := ((x + d' + 2147483648) / 4294967296)%Z) in *.
  assert (4294967296 * (q1 - q2) = d - d')%Z by lia. lia.
Qed.

Definition small_offset (o : coord) : Prop :=
  let '(x, y, z) := o in (Z.abs x <= 1 /\ Z.abs y <= 1 /\ Z.abs z <= 1)%Z.

Lemma shift_inj m center o o' c : small_offset o -> small_offset o' ->
  shift m center o = Ok c -> shift m center o' = Ok c -> o = o'.
Proof.
  destruct center as [[x y] z], o as [[dx dy] dz], o' as [[dx' dy'] dz'].
  intros (A1 & A2 & A3) (B1 & B2 & B3). unfold shift. intros E E'.
  apply bind_Ok in E. destruct E as (x1 & X1 & E). apply bind_Ok in E. destruct E as (y1 & Y1 & E).
  apply bind_Ok in E. destruct E as (z1 & Z1 & E). inversion E; subst c.
  apply bind_Ok in E'. destruct E' as (x2 & X2 & E'). apply bind_Ok in E'. destruct E' as (y2 & Y2 & E').
  apply bind_Ok in E'. destruct E' as (z2 & Z2 & E'). inversion E'; subst x2 y2 z2.
  f_equal; [f_equal|]; eapply int_result_inj; eauto.
Qed.

Lemma mapM_In {A B} (f : A -> outcome B) l : forall l' b, mapM f l = Ok l' ->
  (In b l' <-> exists a, In a l /\ f a = Ok b).
Proof.
  induction l as [|a l IH]; intros l' b E.
  - inversion E. simpl. split; [tauto|]. intros (a & [] & _).
  - rewrite mapM_cons in E. apply bind_Ok in E. destruct E as (b1 & E1 & E).
    apply bind_Ok in E. destruct E as (bs & E2 & E). inversion E; subst l'.
    simpl. rewrite (IH bs b E2). split.
    + intros [<-|(a' & I & F)]; eauto.
    + intros (a' & [<-|I] & F); [left; congruence|eauto].
Qed.

Lemma mapM_shift_NoDup m center offs cs : NoDup offs -> Forall small_offset offs ->
  mapM (shift m center) offs = Ok cs -> NoDup cs.
Proof.
  revert cs. induction offs as [|o offs IH]; intros cs ND SM E.
  - inversion E. constructor.
  - rewrite mapM_cons in E. apply bind_Ok in E. destruct E as (c & E1 & E).
    apply bind_Ok in E. destruct E as (cs' & E2 & E). inversion E; subst cs.
    inversion ND; inversion SM; subst. constructor; [|apply IH; auto].
    intros I. apply (mapM_In _ _ _ _ E2) in I. destruct I as (o' & I & F).
    rewrite (shift_inj m center o o' c) in H1; auto. rewrite Forall_forall in H6. auto.
Qed.

Section Search.
Context (D : num) (C : contents D) (ok : car D -> Prop) (OL : order_laws D ok).
Context (coord_of : vec4 D -> outcome coord) (dist : vec4 D -> vec4 D -> car D) (m : int_mode).
Notation vmap := (vmap D C).

(** The candidates of voxel number [i]. *)
Definition vcands (pt : vec4 D) (i : nat) (v : voxel D C) : list (N * car D) :=
  map (fun jp => (calc_index i (fst jp), dist (snd jp) pt))
      (combine (seq 0 (length (stored C (v_body v)))) (stored C (v_body v))).

Definition ccands (st : vmap) (pt : vec4 D) (c : coord) : list (N * car D) :=
  match lookup (voxels st) c with
  | Some i => match nth_error (flat_voxels st) i with Some v => vcands pt i v | None => [] end
  | None => []
  end.

Lemma search_voxel_push pt i v r : search_voxel dist pt i v r = push_all r (vcands pt i v).
Proof. unfold search_voxel, push_all, vcands. rewrite foldM_map. reflexivity. Qed.

Lemma push_all_app (r : knn_result D) a b :
  push_all r (a ++ b) = let* r' := push_all r a in push_all r' b.
Proof. unfold push_all. apply foldM_app. Qed.

(** The whole search, when it finishes, is a sequence of pushes. *)
Lemma search_loop_Ok (st : vmap) pt r r' : idx_ok (flat_voxels st) (voxels st) ->
  search_loop coord_of dist m st pt r = Ok r' ->
  exists center cs, coord_of pt = Ok center /\ mapM (shift m center) (search_offsets st) = Ok cs /\
    push_all r (flat_map (ccands st pt) cs) = Ok r'.
Proof.
  intros IX E. unfold search_loop in E. apply bind_Ok in E. destruct E as (center & Ec & E).
  exists center. revert r E. induction (search_offsets st) as [|o offs IH]; intros r E.
  - inversion E; subst. exists []. auto.
  - cbn [foldM] in E. apply bind_Ok in E. destruct E as (r1 & E1 & E2).
    apply bind_Ok in E1. destruct E1 as (c & Es & E1).
    destruct (IH r1 E2) as (cs & _ & Em & Ep).
    exists (c :: cs). split; auto. rewrite mapM_cons, Es. cbn [bind]. rewrite Em. split; auto.
    cbn [flat_map]. rewrite push_all_app.
    replace (push_all r (ccands st pt c)) with (Ok r1); [exact Ep|].
    unfold ccands. destruct (lookup (voxels st) c) as [i|] eqn:El.
    + apply bind_Ok in E1. destruct E1 as (v & Eg & E1).
      apply get_Ok in Eg. rewrite Eg. rewrite <- search_voxel_push. auto.
    + inversion E1; subst. reflexivity.
Qed.

Lemma search_loop_complete (st : vmap) pt r center cs r' : idx_ok (flat_voxels st) (voxels st) ->
  coord_of pt = Ok center -> mapM (shift m center) (search_offsets st) = Ok cs ->
  push_all r (flat_map (ccands st pt) cs) = Ok r' ->
  search_loop coord_of dist m st pt r = Ok r'.
Proof.
  intros IX Ec. unfold search_loop. rewrite Ec. cbn [bind]. revert cs r.
  induction (search_offsets st) as [|o offs IH]; intros cs r Em Ep.
  - inversion Em; subst. exact Ep.
  - rewrite mapM_cons in Em. apply bind_Ok in Em. destruct Em as (c & Es & Em).
    apply bind_Ok in Em. destruct Em as (cs' & Em & E). inversion E; subst cs.
    cbn [flat_map] in Ep. rewrite push_all_app in Ep. apply bind_Ok in Ep. destruct Ep as (r1 & E1 & E2).
    cbn [foldM]. rewrite Es. cbn [bind].
    replace (match lookup (voxels st) c with
             | Some vi => let* v := get (flat_voxels st) vi in search_voxel dist pt vi v r
             | None => Ok r
             end) with (Ok r1).
    + cbn [bind]. eapply IH; eauto.
    + unfold ccands in E1. destruct (lookup (voxels st) c) as [i|] eqn:El.
      * destruct (proj1 (IX c i) El) as (v & Ev & _). rewrite Ev in E1.
        rewrite (proj2 (get_Ok _ _ _) Ev). cbn [bind]. rewrite search_voxel_push. auto.
      * inversion E1. reflexivity.
Qed.

Lemma ccands_In (st : vmap) pt cs e : idx_ok (flat_voxels st) (voxels st) -> sizes_ok st ->
  (In e (flat_map (ccands st pt) cs) <-> entry_of dist st cs pt e).
Proof.
  intros IX [SZ _]. rewrite in_flat_map. unfold entry_of, ccands. split.
  - intros (c & Ic & I). destruct (lookup (voxels st) c) as [i|] eqn:El; [|destruct I].
    destruct (proj1 (IX c i) El) as (v & Ev & Evc). rewrite Ev in I.
    unfold vcands in I. apply in_map_iff in I. destruct I as ([j p] & <- & I).
    apply combine_seq_In in I. destruct I as [_ I]. rewrite Nat.sub_0_r in I.
    exists i, v, j, p. subst c. cbn [fst snd].
    assert (i < length (flat_voxels st)) by (apply nth_error_Some; congruence).
    rewrite calc_index_lor by lia. auto.
  - intros (i & v & j & p & Ev & Ic & Ep & ->). exists (v_coord v). split; auto.
    assert (El : lookup (voxels st) (v_coord v) = Some i) by (apply IX; eauto).
    rewrite El, Ev. unfold vcands. apply in_map_iff. exists (j, p). cbn [fst snd].
    assert (i < length (flat_voxels st)) by (apply nth_error_Some; congruence).
    rewrite calc_index_lor by lia. split; auto. apply combine_seq_In. rewrite Nat.sub_0_r.
    split; [lia|auto].
Qed.

Lemma vcands_fst pt i v : map fst (vcands pt i v) = map (calc_index i) (seq 0 (length (stored C (v_body v)))).
Proof.
  unfold vcands. rewrite map_map. cbn [fst]. generalize 0.
  induction (stored C (v_body v)) as [|p l IH]; intros a; simpl; auto. f_equal. auto.
Qed.

Lemma cands_NoDup (st : vmap) pt cs : idx_ok (flat_voxels st) (voxels st) -> sizes_ok st ->
  NoDup cs -> NoDup (map fst (flat_map (ccands st pt) cs)).
Proof.
  intros IX [SZ1 SZ2] ND. rewrite Forall_forall in SZ2.
  induction ND as [|c cs NI ND IH]; [constructor|]. cbn [flat_map]. rewrite map_app.
  apply NoDup_app_intro; auto.
  - unfold ccands. destruct (lookup (voxels st) c) as [i|] eqn:El; [|constructor].
    destruct (proj1 (IX c i) El) as (v & Ev & Evc). rewrite Ev, vcands_fst.
    assert (i < length (flat_voxels st)) by (apply nth_error_Some; congruence).
    pose proof (SZ2 v (nth_error_In _ _ Ev)) as SV.
    apply NoDup_map_inj_in; [|apply seq_NoDup].
    intros a b Ia Ib E. apply in_seq in Ia, Ib. apply calc_index_inj in E; lia.
  - intros x I1 I2. apply in_map_iff in I1, I2. destruct I1 as (e1 & F1 & I1), I2 as (e2 & F2 & I2).
    assert (Q : forall c e, In e (ccands st pt c) -> exists i v j, nth_error (flat_voxels st) i = Some v /\
       v_coord v = c /\ j < length (stored C (v_body v)) /\ fst e = calc_index i j).
    { clear -IX. intros c e I. unfold ccands in I. destruct (lookup (voxels st) c) as [i|] eqn:El; [|destruct I].
      destruct (proj1 (IX c i) El) as (v & Ev & Evc). rewrite Ev in I.
      apply (in_map fst) in I. rewrite vcands_fst in I. apply in_map_iff in I.
      destruct I as (j & Ej & I). apply in_seq in I. exists i, v, j. split; [auto|]. split; [auto|].
      split; [lia|congruence]. }
    apply Q in I1. apply in_flat_map in I2. destruct I2 as (c2 & Ic2 & I2). apply Q in I2.
    destruct I1 as (i1 & v1 & j1 & A1 & A2 & A3 & A4), I2 as (i2 & v2 & j2 & B1 & B2 & B3 & B4).
    assert (i1 < length (flat_voxels st)) by (apply nth_error_Some; congruence).
    assert (i2 < length (flat_voxels st)) by (apply nth_error_Some; congruence).
    pose proof (SZ2 v1 (nth_error_In _ _ A1)). pose proof (SZ2 v2 (nth_error_In _ _ B1)).
    assert (E : calc_index i1 j1 = calc_index i2 j2) by congruence.
    apply calc_index_inj in E; [|lia..]. destruct E as [-> ->].
    apply NI. rewrite A1 in B1. inversion B1; subst v2. congruence.
Qed.

(** All stored points have an [ok] distance to the query. *)
Definition dist_ok (st : vmap) (pt : vec4 D) : Prop :=
  Forall (fun v => Forall (fun p => ok (dist p pt)) (stored C (v_body v))) (flat_voxels st).

Lemma cands_ok (st : vmap) pt cs : idx_ok (flat_voxels st) (voxels st) -> sizes_ok st -> dist_ok st pt ->
  Forall (fun e : N * car D => ok (snd e)) (flat_map (ccands st pt) cs).
Proof.
  intros IX SZ DO. apply Forall_forall. intros e I. apply ccands_In in I; auto.
  destruct I as (i & v & j & p & Ev & _ & Ep & ->). unfold dist_ok in DO. rewrite Forall_forall in DO.
  apply nth_error_In in Ev, Ep. apply DO in Ev. rewrite Forall_forall in Ev. apply Ev. auto.
Qed.

(** Everything a search result says, as a function of the searched coordinates. *)
Lemma search_topk (st : vmap) pt sn kn r0 r : idx_ok (flat_voxels st) (voxels st) -> sizes_ok st ->
  dist_ok st pt -> knn_init D sn kn = Ok r0 -> 0 < buffer_size r0 ->
  search_loop coord_of dist m st pt r0 = Ok r ->
  exists center cs L S, coord_of pt = Ok center /\ mapM (shift m center) (search_offsets st) = Ok cs /\
    L = flat_map (ccands st pt) cs /\
    stable_sort_of (filter reachable_dist L) S /\
    let k := buffer_size r0 in
    let kept := firstn k S in
    buffer_size r = k /\
    num_found_neighbors r = length kept /\
    indices r = map fst kept ++ repeat INVALID (k - length kept) /\
    distances r = map snd kept ++ repeat nmaxv (k - length kept).
Proof.
  intros IX SZ DO Hi Hk E. destruct (search_loop_Ok st pt r0 r IX E) as (center & cs & Ec & Em & Ep).
  destruct (push_all_topk D ok OL sn kn r0 (flat_map (ccands st pt) cs) Hi Hk) as (r' & S & Ep' & ST & R).
  { apply cands_ok; auto. }
  rewrite Ep in Ep'. inversion Ep'; subst r'. exists center, cs, (flat_map (ccands st pt) cs), S. auto.
Qed.

End Search.
