(** C40: projective search. *)
From Coq Require Import Reals Lra ZArith ZifyBool ZifyNat ZifyN.
From Flocq Require Import Core IEEE754.BinarySingleNaN.
From Verif Require Import Base BaseProofs Num Vec F64 F64Proofs F64Err FloorModel FloorProofs
  KnnModel KnnSpec KnnProofs KdF64 ProjModel ProjSpec ProjProofs ProjF64.
Open Scope nat_scope.

(** C40, any number system, projection, border modes, image size and window: building and
    searching complete without touching anything outside the image or the cloud.  The
    candidates considered are exactly the owners of the pixels in the window, each with its
    true distance; the result is the k best of a prefix of them, and the rest is only skipped
    once the worst kept distance is below epsilon. *)
Theorem C40_projective_search_best_in_window :
  forall (D : num) (ok : car D -> Prop) (OL : order_laws D ok)
         (P : Type) (dist : P -> P -> car D) (pixel : Z -> Z -> P -> outcome (Z * Z))
         (bh bv : border) (mode : int_mode) (cols rows wh wv : Z) (pts : list P) (query : P)
         (sn : option nat) (k : Z) (r0 : knn_result D) (epsilon : car D) (u v : Z),
  (0 <= cols)%Z -> (0 <= rows)%Z -> (0 <= wh)%Z -> (0 <= wv)%Z ->
  (N.of_nat (length pts) <= 4294967295)%N ->
  (forall p, In p pts -> exists uv, pixel cols rows p = Ok uv) ->
  (forall p, In p pts -> ok (dist p query)) ->
  pixel cols rows query = Ok (u, v) ->
  (INT_MIN <= u - wh)%Z -> (u + wh <= INT_MAX)%Z ->
  (INT_MIN <= v - wv)%Z -> (v + wv <= INT_MAX)%Z ->
  knn_init D sn k = Ok r0 -> 0 < buffer_size r0 ->
  exists s r S seen skipped,
    proj_build P pixel cols rows pts = Ok s /\
    proj_knn D P dist pixel bh bv mode (with_windows s wh wv) query sn k epsilon = Ok r /\
    (forall i, In i (map fst seen ++ skipped) <->
       exists u' v', visible bh bv cols rows wh wv u v u' v' /\
                     owner (pixel cols rows) pts u' v' (N.to_nat i)) /\
    Forall (genuine dist pts query) seen /\
    (fits bh wh cols -> fits bv wv rows -> NoDup (map fst seen ++ skipped)) /\
    (skipped = [] \/ exists w, worst_distance r = Ok w /\ nlt w epsilon = true) /\
    stable_sort_of (filter reachable_dist seen) S /\
    let kept := firstn (buffer_size r0) S in
    num_found_neighbors r = length kept /\
    indices r = map fst kept ++ repeat INVALID (buffer_size r0 - length kept) /\
    distances r = map snd kept ++ repeat nmaxv (buffer_size r0 - length kept).
Proof.
  intros D ok OL P dist pixel bh bv mode cols rows wh wv pts query sn k r0 eps u v
    Hc Hr Hwh Hwv HL HP HD HQ I1 I2 I3 I4 HK HB.
  destruct (fill_inv D P dist pixel cols rows pts
              (repeat invalid_index (Z.to_nat (cols * rows)))) as (m & Em & INV); auto.
  set (s := mkProj pts cols rows m 10 5). set (s' := with_windows s wh wv).
  assert (HI : forall i, In i (cands P bh bv s' u v) <->
       exists u' v', visible bh bv cols rows wh wv u v u' v' /\ owner (pixel cols rows) pts u' v' i).
  { intros i. apply (cands_In D P dist pixel bh bv s'); auto. }
  destruct (scan_prefix D P dist pixel ok OL pts query eps HD (cands P bh bv s' u v) r0 []
              (knn_init_Ok D ok sn k r0 HK HB)) as (r & f & L1 & L2 & C1 & E & EL & F & PA & FO & T).
  { intros i Hi. apply HI in Hi. destruct Hi as (u' & v' & _ & p & Ep & _).
    apply nth_error_Some. congruence. }
  assert (MF : map fst C1 = map N.of_nat L1).
  { clear -F. induction F as [|i c L C (p & _ & ->) _ IH]; simpl; [auto|]. rewrite IH. reflexivity. }
  assert (AP : map fst C1 ++ map N.of_nat L2 = map N.of_nat (cands P bh bv s' u v)).
  { rewrite MF, EL, map_app. reflexivity. }
  destruct (push_all_topk D ok OL sn k r0 C1 HK HB FO) as (r2 & S & E2 & SS & K).
  rewrite PA in E2. inversion E2; subst r2.
  exists s, r, S, C1, (map N.of_nat L2).
  split; [unfold proj_build; replace ((cols <? 0) || (rows <? 0))%Z with false by lia;
          rewrite Em; reflexivity|].
  split.
  { unfold proj_knn. rewrite HK. cbn [bind].
    rewrite (search_cand D P dist pixel bh bv mode s' INV u v); auto.
    change (pr_points s') with pts. rewrite E. reflexivity. }
  rewrite AP. split.
  { intros i. rewrite in_map_iff. split.
    - intros (j & <- & Hj). rewrite Nat2N.id. apply HI. exact Hj.
    - intros H. exists (N.to_nat i). rewrite N2Nat.id. split; auto. apply HI. exact H. }
  split.
  { clear -F. induction F as [|i c L C (p & Ep & ->) _ IH]; constructor; auto.
    exists p. cbn [fst snd]. rewrite Nat2N.id. auto. }
  split.
  { intros F1 F2. apply FinFun.Injective_map_NoDup; [intros a b; lia|].
    apply (cands_NoDup D P dist pixel bh bv s'); auto. }
  split.
  { destruct T as [->|T]; auto. }
  split; [exact SS|]. destruct K as (_ & K). exact K.
Qed.

(** The indices returned are distinct when the image is not smaller than the window. *)
Theorem C40_distinct_neighbours :
  forall (D : num) (ok : car D -> Prop) (OL : order_laws D ok)
         (P : Type) (dist : P -> P -> car D) (pixel : Z -> Z -> P -> outcome (Z * Z))
         (bh bv : border) (mode : int_mode) (cols rows wh wv : Z) (pts : list P) (query : P)
         (sn : option nat) (k : Z) (r0 : knn_result D) (epsilon : car D) (u v : Z) s r,
  (0 <= cols)%Z -> (0 <= rows)%Z -> (0 <= wh)%Z -> (0 <= wv)%Z ->
  (N.of_nat (length pts) <= 4294967295)%N ->
  (forall p, In p pts -> exists uv, pixel cols rows p = Ok uv) ->
  (forall p, In p pts -> ok (dist p query)) ->
  pixel cols rows query = Ok (u, v) ->
  (INT_MIN <= u - wh)%Z -> (u + wh <= INT_MAX)%Z ->
  (INT_MIN <= v - wv)%Z -> (v + wv <= INT_MAX)%Z ->
  knn_init D sn k = Ok r0 -> 0 < buffer_size r0 ->
  fits bh wh cols -> fits bv wv rows ->
  proj_build P pixel cols rows pts = Ok s ->
  proj_knn D P dist pixel bh bv mode (with_windows s wh wv) query sn k epsilon = Ok r ->
  NoDup (firstn (num_found_neighbors r) (indices r)) /\
  Forall (fun i => (N.to_nat i < length pts)) (firstn (num_found_neighbors r) (indices r)).
Proof.
  intros D ok OL P dist pixel bh bv mode cols rows wh wv pts query sn k r0 eps u v s r
    Hc Hr Hwh Hwv HL HP HD HQ I1 I2 I3 I4 HK HB Fh Fv Es Er.
  destruct (C40_projective_search_best_in_window D ok OL P dist pixel bh bv mode cols rows wh wv
    pts query sn k r0 eps u v) as (s1 & r1 & S & seen & skipped & E1 & E2 & H1 & H2 & H3 & _ & H4 & H5 & H6 & _);
    auto.
  rewrite Es in E1. inversion E1; subst s1. rewrite Er in E2. inversion E2; subst r1.
  assert (E : firstn (num_found_neighbors r) (indices r) = map fst (firstn (buffer_size r0) S)).
  { rewrite H5, H6, firstn_app, map_length, Nat.sub_diag. cbn [firstn]. rewrite app_nil_r.
    rewrite firstn_all2; [reflexivity|]. rewrite map_length. lia. }
  rewrite E. destruct H4 as (PM & _ & _).
  assert (N1 : NoDup (map fst S)).
  { apply Permutation_NoDup with (map fst (filter reachable_dist seen)).
    - apply Permutation_map. exact PM.
    - specialize (H3 Fh Fv). clear -H3. induction seen as [|c l IH]; simpl; [constructor|].
      simpl in H3. inversion H3; subst. destruct (reachable_dist c); auto. simpl.
      constructor; auto. intros K. apply H1. apply in_or_app. left.
      apply in_map_iff in K. destruct K as (x & <- & Hx). apply in_map. apply filter_In in Hx. tauto. }
  split.
  - rewrite <- firstn_map. clear -N1. revert N1. generalize (map fst S) (buffer_size r0).
    intros l n. revert n. induction l as [|a l IH]; intros [|n] H; simpl; try constructor;
      inversion H; subst; auto.
    intros K. apply H2. revert K. clear. revert n. induction l; intros [|n]; simpl; try tauto.
    intros [->|K]; auto. right. eauto.
  - rewrite Forall_forall. intros i Hi. apply in_map_iff in Hi. destruct Hi as (c & <- & Hc').
    assert (In c seen).
    { assert (IS : In c S). { clear -Hc'. revert Hc'. generalize (buffer_size r0). intros n.
        rewrite <- (firstn_skipn n S) at 2. intros. apply in_or_app. auto. }
      apply Permutation_sym in PM. apply (Permutation_in _ PM) in IS. apply filter_In in IS. tauto. }
    rewrite Forall_forall in H2. destruct (H2 c H) as (p & Ep & _).
    apply nth_error_Some. congruence.
Qed.

(** IEEE doubles with the equirectangular projection of the library: for every finite cloud
    and query, every image up to INT_MAX - window pixels, the search completes (no conversion
    overflows) and with the default epsilon returns exactly the k nearest of the owners of
    the pixels in the 21 x 11 window, wrapping horizontally. *)
Theorem C40_equirectangular_search_total :
  forall (asin : f64 -> f64) (atan2 : f64 -> f64 -> f64) (order3 order4 : sumtree)
         (mode : int_mode) (cols rows : Z) (pts : list (vec4 F64.Fnum)) (query : vec4 F64.Fnum)
         (sn : option nat) (k : Z) (r0 : knn_result F64.Fnum),
  asin_contract asin -> atan2_contract atan2 -> head_sum order3 -> full_sum order4 ->
  (0 <= cols <= INT_MAX - 10)%Z -> (0 <= rows <= INT_MAX - 5)%Z ->
  (N.of_nat (length pts) <= 4294967295)%N ->
  Forall vfinite pts -> vfinite query ->
  knn_init F64.Fnum sn k = Ok r0 -> 0 < buffer_size r0 ->
  let pixel := pixel_f64 mode (equirect asin atan2 order3) in
  exists s r S seen u v,
    proj_build _ pixel cols rows pts = Ok s /\
    proj_knn F64.Fnum _ (fsqd order4) pixel BorderRepeat BorderClamp mode s query sn k
      (B754_zero false) = Ok r /\
    pixel cols rows query = Ok (u, v) /\ (0 <= u <= cols)%Z /\ (0 <= v <= rows)%Z /\
    (forall i, In i (map fst seen) <->
       exists u' v', visible BorderRepeat BorderClamp cols rows 10 5 u v u' v' /\
                     owner (pixel cols rows) pts u' v' (N.to_nat i)) /\
    Forall (genuine (fsqd order4) pts query) seen /\
    stable_sort_of (D := F64.Fnum) (filter (reachable_dist (D := F64.Fnum)) seen) S /\
    let kept := firstn (buffer_size r0) S in
    num_found_neighbors r = length kept /\
    indices r = map fst kept ++ repeat INVALID (buffer_size r0 - length kept) /\
    distances r = map snd kept ++ repeat f64_max (buffer_size r0 - length kept).
Proof.
  intros asin atan2 order3 order4 mode cols rows pts query sn k r0 HA HT H3 H4 Hc Hr HL FP FQ HK HB pixel.
  unfold INT_MAX in *. rewrite Forall_forall in FP.
  destruct (pixel_in_image mode asin atan2 order3 cols rows query HA HT H3 FQ) as (u & v & EQ & Bu & Bv);
    try (unfold INT_MAX; lia).
  destruct (C40_projective_search_best_in_window F64.Fnum notnan f64_order _ (fsqd order4) pixel
     BorderRepeat BorderClamp mode cols rows 10 5 pts query sn k r0 (B754_zero false) u v)
    as (s & r & S & seen & skipped & E1 & E2 & C1 & C2 & _ & C4 & C5 & C6 & C7 & C8); auto;
    try (unfold INT_MIN, INT_MAX; lia).
  - intros p Hp. destruct (pixel_in_image mode asin atan2 order3 cols rows p HA HT H3 (FP p Hp))
      as (u' & v' & E & _); try (unfold INT_MAX; lia). eauto.
  - intros p Hp. apply fsqd_ok; auto.
  - exists s, r, S, seen, u, v. split; [exact E1|]. split.
    { replace (with_windows s 10 5) with s in E2; [exact E2|].
      unfold proj_build in E1. destruct ((cols <? 0) || (rows <? 0))%Z; [discriminate|].
      destruct (foldM _ _ _) in E1; inversion E1. reflexivity. }
    assert (SK : skipped = []).
    { destruct C4 as [->|(w & Ew & Lw)]; auto. exfalso.
      assert (W : In w (distances r)).
      { unfold worst_distance in Ew. apply get_Ok in Ew. eapply nth_error_In; eauto. }
      rewrite C8 in W. apply in_app_or in W. cbn [nlt F64.Fnum] in Lw.
      assert (NW : f64_lt w (B754_zero false) = false).
      { destruct W as [W|W].
        - apply in_map_iff in W. destruct W as (c & <- & Hc').
          assert (IS : In c S). { clear -Hc'. revert Hc'. generalize (buffer_size r0). intros n.
            rewrite <- (firstn_skipn n S) at 2. intros. apply in_or_app. auto. }
          destruct C5 as (PM & _). apply Permutation_sym in PM. apply (Permutation_in _ PM) in IS.
          apply filter_In in IS. destruct IS as [IS _].
          rewrite Forall_forall in C2. destruct (C2 c IS) as (p & Ep & ->).
          apply fsqd_nonneg; auto. apply FP. eapply nth_error_In; eauto.
        - apply repeat_spec in W. subst w. reflexivity. }
      congruence. }
    rewrite SK, app_nil_r in C1.
    repeat (split; [solve [auto]|]). exact C8.
Qed.

(** "Neighbours are distinct" is refuted for an image narrower than the window: 20 columns,
    the 21-column window reaches column 0 from both sides. *)
Definition zpix (cols rows : Z) (p : Z * Z) : outcome (Z * Z) := Ok p.
Definition zdist (p q : Z * Z) : Z :=
  ((fst p - fst q) * (fst p - fst q) + (snd p - snd q) * (snd p - snd q))%Z.

Theorem C40_distinct_neighbours_refuted :
  exists (pts : list (Z * Z)) (query : Z * Z) s r,
    proj_build _ zpix 20 1 pts = Ok s /\
    proj_knn Znum _ zdist zpix BorderRepeat BorderClamp Strict s query None 2 0%Z = Ok r /\
    num_found_neighbors r = 2 /\ indices r = [0%N; 0%N].
Proof.
  exists [(0, 0)%Z], (10, 0)%Z.
  destruct (proj_build _ zpix 20 1 [(0, 0)%Z]) as [s| | |] eqn:Es;
    try (vm_compute in Es; discriminate).
  exists s. vm_compute in Es. inversion Es; subst s.
  destruct (proj_knn Znum _ zdist zpix BorderRepeat BorderClamp Strict
     (mkProj [(0, 0)%Z] 20 1 (0%N :: repeat invalid_index 19) 10 5) (10, 0)%Z None 2 0%Z)
    as [r| | |] eqn:Er; try (vm_compute in Er; discriminate).
  exists r. vm_compute in Er. split; [reflexivity|]. split; [exact Er|].
  inversion Er. split; reflexivity.
Qed.

(** "Finds the nearest neighbour of the cloud" is refuted: a pixel keeps only its last point,
    so a nearer one falling on the same pixel is never found. *)
Definition opix (cols rows : Z) (p : Z * Z) : outcome (Z * Z) := Ok (fst p, 0%Z).

Theorem C40_nearest_of_cloud_refuted :
  exists (pts : list (Z * Z)) (query : Z * Z) s r,
    proj_build _ opix 30 20 pts = Ok s /\
    proj_nn Znum _ zdist opix BorderRepeat BorderClamp Strict s query 0%Z = Ok r /\
    indices r = [1%N] /\
    exists p q, nth_error pts 0 = Some p /\ nth_error pts 1 = Some q /\
                (zdist p query < zdist q query)%Z.
Proof.
  exists [(3, 1)%Z; (3, 50)%Z], (3, 0)%Z.
  destruct (proj_build _ opix 30 20 [(3, 1)%Z; (3, 50)%Z]) as [s| | |] eqn:Es;
    try (vm_compute in Es; discriminate).
  destruct (proj_nn Znum _ zdist opix BorderRepeat BorderClamp Strict s (3, 0)%Z 0%Z)
    as [r| | |] eqn:Er;
    try (vm_compute in Es; inversion Es; subst s; vm_compute in Er; discriminate).
  exists s, r. split; [reflexivity|]. split; [exact Er|].
  split; [vm_compute in Es; inversion Es; subst s; vm_compute in Er; inversion Er; reflexivity|].
  exists (3, 1)%Z, (3, 50)%Z. split; [reflexivity|]. split; [reflexivity|]. vm_compute. reflexivity.
Qed.

(** "Every point of the cloud can be found" is refuted at the seam: a point straight behind
    the origin has longitude +pi, projects to column [cols] and is dropped, so no query with
    any image size ever finds it, not even the point itself. *)
Definition behind : vec4 F64.Fnum :=
  V4 (D := F64.Fnum) (B754_zero false) (B754_zero false) (f64_of (-1) 0) (f64_of 1 0).
Definition xyz_order : sumtree := SAdd (SAdd (SSq 0) (SSq 1)) (SSq 2).

Lemma behind_pixel mode asin atan2 cols rows u v :
  atan2 (B754_zero false) (f64_of (-1) 0) = f64_pi -> (0 <= cols <= INT_MAX)%Z ->
  pixel_f64 mode (equirect asin atan2 xyz_order) cols rows behind = Ok (u, v) -> u = cols.
Proof.
  intros HT Hc. unfold INT_MAX in Hc.
  assert (E1 : fst (equirect asin atan2 xyz_order behind) = f64_of 1 0).
  { unfold equirect.
    replace (f64_lt (sum_eval (D := F64.Fnum) f64_fma xyz_order behind) f64_1e_3) with false
      by (vm_compute; reflexivity).
    replace (f64_lt (B754_zero false) (sum_eval (D := F64.Fnum) f64_fma xyz_order behind)) with true
      by (vm_compute; reflexivity).
    cbn [fst].
    replace (f64_div (vx behind) (Bsqrt mode_NE (sum_eval (D := F64.Fnum) f64_fma xyz_order behind)))
      with (B754_zero false : f64) by (apply B2SF_inj; vm_compute; reflexivity).
    replace (f64_div (vz behind) (Bsqrt mode_NE (sum_eval (D := F64.Fnum) f64_fma xyz_order behind)))
      with (f64_of (-1) 0) by (apply B2SF_inj; vm_compute; reflexivity).
    rewrite HT. apply B2SF_inj. vm_compute. reflexivity. }
  unfold pixel_f64. rewrite E1.
  destruct (f64_of_int cols) as [Fn En]; [lia|].
  destruct (f64_of_int 1) as [F1 R1]; [lia|].
  destruct (mul_finite (f64_of 1 0) (f64_of cols 0) 31 F1 Fn) as (F & E); [lia| |].
  { rewrite En, R1, Rmult_1_l, Rabs_pos_eq by (apply IZR_le; lia).
    change (bpow radix2 31) with (IZR (2 ^ 31)). apply IZR_le. lia. }
  rewrite En, R1, Rmult_1_l, rnd_int in E by lia.
  assert (T : Btrunc (f64_mul (f64_of 1 0) (f64_of cols 0)) = cols)
    by (rewrite Btrunc_Ztrunc, E; apply Ztrunc_IZR).
  unfold cast_int at 1. unfold finite in F. rewrite F, T.
  replace (in_int cols) with true by (symmetry; apply in_int_iff; unfold INT_MIN, INT_MAX; lia).
  cbn [andb bind]. destruct (cast_int mode _); cbn [bind]; congruence.
Qed.

Theorem C40_seam_point_found_refuted :
  forall (asin : f64 -> f64) (atan2 : f64 -> f64 -> f64) (order4 : sumtree) (mode : int_mode)
         (cols rows : Z) (query : vec4 F64.Fnum) (sn : option nat) (k : Z)
         (r0 : knn_result F64.Fnum),
  asin_contract asin -> atan2_contract atan2 -> full_sum order4 ->
  atan2 (B754_zero false) (f64_of (-1) 0) = f64_pi ->
  (0 <= cols <= INT_MAX - 10)%Z -> (0 <= rows <= INT_MAX - 5)%Z -> vfinite query ->
  knn_init F64.Fnum sn k = Ok r0 -> 0 < buffer_size r0 ->
  let pixel := pixel_f64 mode (equirect asin atan2 xyz_order) in
  exists s r,
    proj_build _ pixel cols rows [behind] = Ok s /\
    proj_knn F64.Fnum _ (fsqd order4) pixel BorderRepeat BorderClamp mode s query sn k
      (B754_zero false) = Ok r /\
    num_found_neighbors r = 0.
Proof.
  intros asin atan2 order4 mode cols rows query sn k r0 HA HT H4 HP Hc Hr FQ HK HB pixel.
  destruct (C40_equirectangular_search_total asin atan2 xyz_order order4 mode cols rows [behind]
              query sn k r0) as (s & r & S & seen & u & v & E1 & E2 & _ & _ & _ & C1 & _ & (PM & _) & C2 & _);
    auto.
  - apply Permutation_refl.
  - simpl. lia.
  - repeat constructor.
  - exists s, r. split; [exact E1|]. split; [exact E2|].
    assert (SE : seen = []).
    { destruct seen as [|c seen]; auto. exfalso.
      destruct (proj1 (C1 (fst c)) (or_introl eq_refl)) as (u' & v' & (du & dv & _ & _ & (Ru & _) & _) & p & Ep & Q & _).
      destruct (N.to_nat (fst c)) as [|[|?]]; try discriminate. inversion Ep; subst p.
      pose proof (behind_pixel mode asin atan2 cols rows u' v' HP ltac:(lia) Q). lia. }
    subst seen. simpl in PM. apply Permutation_nil in PM. subst S. rewrite C2.
    destruct (buffer_size r0); reflexivity.
Qed.

(** ** Non-vacuity *)

(** The contracts of asin and atan2 have instances, also with the value at the seam. *)
Definition toy_atan2 (a b : f64) : f64 :=
  if f64_lt b (B754_zero false) then f64_pi else B754_zero false.
Example C40_contracts_satisfiable :
  asin_contract (fun t => t) /\ atan2_contract toy_atan2 /\
  toy_atan2 (B754_zero false) (f64_of (-1) 0) = f64_pi /\ head_sum xyz_order /\
  full_sum eigen_order.
Proof.
  destruct pi_val as (P1 & _ & _ & P4).
  assert (P2 : (2 <= B2R f64_pi)%R).
  { rewrite (B2R_SF f64_pi (SpecFloat.S754_finite false 7074237752028440 (-51))) by (vm_compute; reflexivity).
    unfold SF2R, F2R. cbn [Defs.Fnum Defs.Fexp cond_Zopp].
    replace 2%R with (IZR (2 ^ 52) * bpow radix2 (-51))%R.
    - apply Rmult_le_compat_r; [apply bpow_ge_0|]. apply IZR_le; lia.
    - change 2%Z with (radix_val radix2). rewrite IZR_Zpower by lia. rewrite <- bpow_plus. reflexivity. }
  split; [intros t F B; split; [exact F|lra]|]. split.
  - intros a b Fa Fb _ _. unfold toy_atan2. destruct (f64_lt b _).
    + split; [exact P1|]. rewrite Rabs_pos_eq; lra.
    + split; [reflexivity|]. change (B2R (B754_zero false : f64)) with 0%R. rewrite Rabs_R0. lra.
  - split.
    { unfold toy_atan2. replace (f64_lt (f64_of (-1) 0) (B754_zero false)) with true
        by (vm_compute; reflexivity). reflexivity. }
    split; [apply Permutation_refl|].
    unfold full_sum, eigen_order. simpl. apply perm_skip. apply perm_swap.
Qed.

(** Three points, two on one pixel, found through the wrap-around. *)
Example C40_example :
  (let* s := proj_build _ zpix 30 20 [(1, 3)%Z; (1, 3)%Z; (28, 4)%Z] in
   let* r := proj_knn Znum _ zdist zpix BorderRepeat BorderClamp Strict s (29, 4)%Z None 3 0%Z in
   Ok (num_found_neighbors r, indices r)) = Ok (2, [2%N; 1%N; INVALID]).
Proof. vm_compute. reflexivity. Qed.

(** The library's projection in doubles, executed: the point in front lands in the middle. *)
Example C40_example_f64 :
  pixel_f64 Strict (equirect (fun t => t) toy_atan2 xyz_order) 64 32
    (V4 (D := F64.Fnum) (B754_zero false) (B754_zero false) (f64_of 5 0) (f64_of 1 0)) = Ok (32, 16)%Z.
Proof. vm_compute. reflexivity. Qed.

Print Assumptions C40_projective_search_best_in_window.
Print Assumptions C40_distinct_neighbours.
Print Assumptions C40_equirectangular_search_total.
Print Assumptions C40_distinct_neighbours_refuted.
Print Assumptions C40_nearest_of_cloud_refuted.
Print Assumptions C40_seam_point_found_refuted.
