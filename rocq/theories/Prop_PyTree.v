(** C53, C54: trees and searches of the Python interface, and what an array means to it. *)
From Coq Require Import Reals ZArith String ZifyBool ZifyNat ZifyN.
From Flocq Require Import IEEE754.BinarySingleNaN.
From Verif Require Import Base BaseProofs NthElement Num Vec F64 F64Proofs KnnModel KdModel KdParModel KdSpec KdProofs KdSearchProofs KdTop KdSafe KdF64 KdThms KdParProofs
  Lin FactorModel EstModel FloorModel VoxModel VoxPar SortSpec PipeModel PyModel PySpec PyLoop PyProofs Prop_KdTree.
Open Scope nat_scope.
Open Scope list_scope.

(** The coordinates a search is called with for a row. *)
Definition single_nearest order kd (r : list f64) := py_nearest order kd (vx (denoted r)) (vy (denoted r)) (vz (denoted r)).
Definition single_knn order kd (r : list f64) k := py_knn order kd (vx (denoted r)) (vy (denoted r)) (vz (denoted r)) k.

Section Trees.
Context (order : sumtree) (FS : full_sum order).
Context (ne : (nat -> nat -> bool) -> nat -> list nat -> list nat) (NE : nth_element_contract ne).

Lemma denoted_eta r : V4 (D := Fnum) (vx (denoted r)) (vy (denoted r)) (vz (denoted r)) one64 = denoted r.
Proof using. destruct r as [|x [|y [|z r]]]; reflexivity. Qed.

Lemma array_tree a : indexable a ->
  (exists o, py_kdtree_array ne a o) /\
  forall o, py_kdtree_array ne a o -> exists kd, o = Ok (Returned kd) /\ k_points kd = map denoted (m_rows a) /\
    kd_wf_f64 (k_points kd) 20 (k_tree kd) /\ (forall p, In p (k_points kd) -> vfinite p).
Proof using NE.
  intros (Wa & N0 & L & Fi). set (ps := map denoted (m_rows a)).
  assert (P0 : ps <> []) by (unfold ps; destruct (m_rows a); [now destruct N0|discriminate]).
  assert (Fp : forall p, In p ps -> vfinite p).
  { intros p Hp. apply in_map_iff in Hp. destruct Hp as (r & <- & Hr). auto. }
  assert (Lp : (N.of_nat (length ps) <= 4294967295)%N) by (unfold ps; rewrite map_length; exact L).
  destruct (built_ok eigen_order ne NE ps P0 Fp Lp) as (seqtree & _ & (t0 & B0) & HB).
  unfold py_kdtree_array. rewrite (shape_wf a Wa), (xyz1_ok a Wa). fold ps. split.
  - eexists _, t0. split; [|reflexivity]. intros ps' Q. injection Q as <-. exact B0.
  - intros o (t & Ht & ->). destruct (HB t (Ht ps eq_refl)) as (tree & -> & W & _). cbn [bind].
    exists (mkPyTree ps tree). split; [reflexivity|]. cbn [k_points k_tree]. auto.
Qed.

(** Batch nearest-neighbour search on a tree of an array: on every schedule each row of the result
    is what the single search gives for that row (NaN rows included), which for finite rows is the
    nearest point; and some schedule ends. *)
Theorem C53_batch_nearest : forall a b, indexable a -> well_shaped b -> (Z.of_nat (length (m_rows b)) <= 2 ^ 31)%Z ->
  (exists o, py_kdtree_array ne a o) /\
  forall o, py_kdtree_array ne a o -> exists kd, o = Ok (Returned kd) /\
    (exists res, py_batch_nearest order kd b res) /\
    forall res, py_batch_nearest order kd b res ->
      exists idx dst, res = Ok (Returned (idx, dst)) /\
        length idx = length (m_rows b) /\ length dst = length (m_rows b) /\
        forall i r, nth_error (m_rows b) i = Some r -> exists found x d,
          nth_error idx i = Some x /\ nth_error dst i = Some d /\ single_nearest order kd r = Ok (found, x, d) /\
          (vfinite (denoted r) -> nearest_answer (fsqd order) (map denoted (m_rows a)) (denoted r) (found, x, d)).
Proof using NE FS.
  intros a b Ia Wb Lb. destruct (array_tree a Ia) as [Ex Al]. split; [exact Ex|]. intros o Ho.
  destruct (Al o Ho) as (kd & -> & Ep & W & Fi). exists kd. split; [reflexivity|].
  split; [apply (batch_nearest_ends order kd b W Wb Lb)|]. intros res Hr.
  destruct (batch_nearest_rows order kd b W Wb res Lb Hr) as (idx & dst & -> & L1 & L2 & H).
  exists idx, dst. split; [reflexivity|]. split; [exact L1|]. split; [exact L2|].
  intros i r Er. destruct (H i r Er) as (found & x & d & E1 & E2 & E3). exists found, x, d.
  split; [exact E1|]. split; [exact E2|]. unfold nn_of in E3. rewrite (nth_error_nth _ _ _ Er) in E3.
  destruct (nearest_total order kd W (denoted r)) as (rr & x' & d' & E & EI & ED & _ & _).
  rewrite E, EI, ED in E3. cbn [nth] in E3. injection E3 as <- -> ->.
  split.
  - unfold single_nearest, py_nearest. rewrite denoted_eta, E. cbn [bind]. rewrite EI, ED. reflexivity.
  - intros Hq. destruct (nearest_exact order FS kd W Fi (denoted r) Hq) as (r2 & x2 & d2 & F & FI & FD & A).
    rewrite E in F. injection F as <-. rewrite EI in FI. injection FI as <-. rewrite ED in FD. injection FD as <-.
    rewrite <- Ep. exact A.
Qed.

(** The same for k neighbours, as long as the offset of the last row fits an int. *)
Theorem C53_batch_knn : forall a b k, indexable a -> well_shaped b -> (0 < k < 2 ^ 31)%Z ->
  ((Z.of_nat (length (m_rows b)) - 1) * k < 2 ^ 31)%Z ->
  (exists o, py_kdtree_array ne a o) /\
  forall o, py_kdtree_array ne a o -> exists kd, o = Ok (Returned kd) /\
    (exists res, py_batch_knn order kd b k res) /\
    forall res, py_batch_knn order kd b k res ->
      exists idx dst, res = Ok (Returned (idx, dst)) /\
        length idx = length (m_rows b) /\ length dst = length (m_rows b) /\
        forall i r, nth_error (m_rows b) i = Some r -> exists xs ds,
          nth_error idx i = Some xs /\ nth_error dst i = Some ds /\
          length xs = Z.to_nat k /\ length ds = Z.to_nat k /\
          single_knn order kd r k = Ok (Returned (xs, ds)) /\
          (vfinite (denoted r) -> knn_answer (fsqd order) (map denoted (m_rows a)) (denoted r) (Z.to_nat k) (xs, ds)).
Proof using NE FS.
  intros a b k Ia Wb Hk Hn. destruct (array_tree a Ia) as [Ex Al]. split; [exact Ex|]. intros o Ho.
  destruct (Al o Ho) as (kd & -> & Ep & W & Fi). exists kd. split; [reflexivity|].
  split; [apply (batch_knn_ends order kd b W Wb k Hk Hn)|]. intros res Hr.
  destruct (batch_knn_rows order kd b W Wb k Hk Hn res Hr) as (idx & dst & -> & L1 & L2 & H).
  exists idx, dst. split; [reflexivity|]. split; [exact L1|]. split; [exact L2|].
  intros i r Er. destruct (H i r Er) as (E1 & E2). eexists _, _. split; [exact E1|]. split; [exact E2|].
  destruct (knn_of_ok order kd b W k Hk i) as (E & LI & LD & _). rewrite (nth_error_nth _ _ _ Er) in E.
  split; [exact LI|]. split; [exact LD|]. split.
  - unfold single_knn, py_knn. destruct (Z.ltb_spec k 0); [lia|]. rewrite denoted_eta, E. reflexivity.
  - intros Hq. destruct (knearest_exact order FS kd W Fi (denoted r) k Hk Hq) as (r2 & F & A).
    rewrite E in F. injection F as <-. rewrite <- Ep. exact A.
Qed.

(** Beyond that the offset i * k is computed in int and overflows: no schedule ends properly, on
    any tree, and undefined behaviour is possible. *)
Theorem C53_batch_overflow_refuted : forall kd b k, well_shaped b -> (0 < k)%Z ->
  (2 ^ 31 <= (Z.of_nat (length (m_rows b)) - 1) * k)%Z ->
  py_batch_knn order kd b k UB /\ forall res x, py_batch_knn order kd b k res -> res <> Ok x.
Proof using.
  clear FS NE ne. intros kd b k Wb Hk Hn. unfold py_batch_knn. rewrite (shape_wf b Wb). destruct (Z.ltb_spec k 0); [lia|].
  set (n := length (m_rows b)) in *.
  assert (Hi : n - 1 < n) by nia.
  assert (B : knn_body order kd b k (n - 1) = UB).
  { unfold knn_body, int_mul, as_int. destruct (Z.leb_spec (- 2 ^ 31) (Z.of_nat (n - 1))); [|lia].
    destruct (Z.ltb_spec (Z.of_nat (n - 1)) (2 ^ 31)); [|reflexivity]. cbn [andb bind].
    destruct (Z.ltb_spec (Z.of_nat (n - 1) * k) (2 ^ 31)); [|rewrite Bool.andb_false_r; reflexivity]. exfalso. nia. }
  split.
  - exists UB. split; [|reflexivity]. apply (loop_can_fail _ _ _ _ (n - 1)); auto.
  - intros res x (e & L & ->) Q. apply bind_Ok in Q. destruct Q as (y & -> & _).
    eapply (loop_never_ends do_cell _ _ n (n - 1)); [exact Hi| |exact L|reflexivity]. intros ws. rewrite B. discriminate.
Qed.

(** Asking for zero neighbours does not raise an exception but ends the process. *)
Theorem C53_zero_neighbours_refuted : forall kd x y z, py_knn order kd x y z 0 = Abort.
Proof using. reflexivity. Qed.

(** ** C54 *)
Section Arrays.
Context (m : int_mode) (sort sort_omp : forall A : Type, (A -> A -> bool) -> list A -> list A).
Context (eig : m3 Ffld -> m3 Ffld) (of_nat : nat -> f64) (milli : f64) (jp jn : vec4 Ffld) (jc : m4 Ffld).

Lemma sampled_points resolution (c c' : cloud Ffld) o : cl_points c = cl_points c' ->
  sampled_omp m sort_omp jn jc resolution c o -> sampled_omp m sort_omp jn jc resolution c' o.
Proof using.
  intros Q. unfold sampled_omp. rewrite Q. intros [(subs & st & Eb & R & [F|(w & e & W & N & ->)])|[N ->]].
  - left. exists subs, st. auto.
  - left. exists subs, st. split; [exact Eb|]. split; [exact R|]. right. exists w, e. split; [exact W|]. split; [exact N|].
    destruct e as [x| | |]; [destruct (N x eq_refl)|reflexivity..].
  - right. split; [exact N|]. match goal with |- (let* _ := ?b in _) = _ => destruct b as [x| | |]; [destruct (N x eq_refl)|reflexivity..] end.
Qed.

(** An array of points with unit weights means the same points wherever it is passed: a cloud made
    from it gives the rows back, and trees, down-sampled clouds and preprocessed clouds are those
    of that cloud (whatever the values are, NaN included). *)
Theorem C54_array_is_cloud : forall a, well_shaped a -> unit_weights a ->
  exists c, py_cloud jn jc a = Ok c /\ cl_points c = map denoted (m_rows a) /\
    (m_rows a <> [] -> py_points c = Ok (mkMatrix 4 (map (fun r => row4 (denoted r)) (m_rows a)))) /\
    (forall o, py_kdtree_array ne a o <-> exists o', py_kdtree_cloud ne c o' /\ o = (let* t := o' in Ok (Returned t))) /\
    (forall resolution threads o, py_sampling_array m sort sort_omp jn jc a resolution threads o <->
       exists o', py_sampling m sort sort_omp jn jc c resolution threads o' /\ o = (let* s := o' in Ok (Some s))) /\
    (m_rows a <> [] -> forall resolution k o,
       py_preprocess_array m sort_omp ne order eig of_nat milli jp jn jc a resolution k o <->
       py_preprocess_cloud m sort_omp ne order eig of_nat milli jp jn jc c resolution k o).
Proof using.
  clear FS NE. intros a Wa Ua. unfold py_cloud. rewrite (shape_wf a Wa), (rows_ok a Wa Ua). cbn [bind].
  set (ps := map denoted (m_rows a)). exists (bare jn jc ps). split; [reflexivity|]. split; [reflexivity|].
  assert (P0 : m_rows a <> [] -> ps <> []) by (unfold ps; destruct (m_rows a); [intros H; now destruct H|discriminate]).
  split; [|split; [|split]].
  - intros N0. rewrite points_total by (cbn [bare cl_points]; auto). cbn [bare cl_points]. unfold ps. rewrite map_map. reflexivity.
  - intros o. unfold py_kdtree_array, py_kdtree_cloud. rewrite (shape_wf a Wa), (xyz1_ok a Wa). fold ps. cbn [bare cl_points bind]. split.
    + intros (t & Ht & ->). eexists. split; [exists t; split; [apply Ht; reflexivity|reflexivity]|]. destruct t; reflexivity.
    + intros (o' & (t & Ht & ->) & ->). exists t. split; [intros q Q; injection Q as <-; exact Ht|]. destruct t; reflexivity.
  - intros resolution threads o. unfold py_sampling_array. rewrite (shape_wf a Wa), (xyz1_ok a Wa). fold ps. cbn [bind].
    assert (X : forall e, py_sampling m sort sort_omp jn jc (mkCloud (D := Ffld) ps [] []) resolution threads e <->
                          py_sampling m sort sort_omp jn jc (bare jn jc ps) resolution threads e).
    { intros e. unfold py_sampling. destruct (threads =? 1)%Z; [reflexivity|]. split; apply sampled_points; reflexivity. }
    split.
    + intros (e & He & ->). exists e. split; [apply X, He; reflexivity|reflexivity].
    + intros (e & He & ->). exists e. split; [intros q Q; injection Q as <-; apply X, He|reflexivity].
  - intros N0 resolution k o. unfold py_preprocess_array, py_preprocess_cloud. rewrite (shape_wf a Wa), (rows_ok a Wa Ua). fold ps.
    specialize (P0 N0). cbn [bare cl_points bind]. destruct ps as [|p ps']; [now destruct P0|]. set (qs := p :: ps'). split.
    + intros (e & He & ->). exists e. split; [apply He; reflexivity|reflexivity].
    + intros (e & He & ->). exists e. split; [intros q Q; injection Q as <-; exact He|reflexivity].
Qed.

(** All trees built from the array or from the cloud, on any schedule, answer alike. *)
Theorem C54_same_answers : forall a c kd kd', indexable a -> unit_weights a -> py_cloud jn jc a = Ok c ->
  py_kdtree_array ne a (Ok (Returned kd)) -> py_kdtree_cloud ne c (Ok kd') ->
  forall q, tree_nearest order kd q = tree_nearest order kd' q /\ forall k, tree_knearest order kd q k = tree_knearest order kd' q k.
Proof using NE.
  clear FS. intros a c kd kd' (Wa & N0 & L & Fi) Ua Ec Ha Hc. unfold py_cloud in Ec. rewrite (shape_wf a Wa), (rows_ok a Wa Ua) in Ec.
  cbn [bind] in Ec. injection Ec as <-. set (ps := map denoted (m_rows a)) in *.
  assert (P0 : ps <> []) by (unfold ps; destruct (m_rows a); [now destruct N0|discriminate]).
  assert (Fp : forall p, In p ps -> vfinite p).
  { intros p Hp. apply in_map_iff in Hp. destruct Hp as (r & <- & Hr). auto. }
  assert (Lp : (N.of_nat (length ps) <= 4294967295)%N) by (unfold ps; rewrite map_length; exact L).
  destruct (built_ok order ne NE ps P0 Fp Lp) as (seqtree & _ & _ & HB).
  unfold py_kdtree_array in Ha. rewrite (shape_wf a Wa), (xyz1_ok a Wa) in Ha. fold ps in Ha. destruct Ha as (t & Ht & E1).
  destruct (HB t (Ht ps eq_refl)) as (tree & -> & _ & S1). cbn [bind] in E1. injection E1 as ->.
  destruct Hc as (t' & Ht' & E2). cbn [bare cl_points] in Ht', E2.
  destruct (HB t' Ht') as (tree' & -> & _ & S2). cbn [bind] in E2. injection E2 as ->.
  intros q. unfold tree_nearest, tree_knearest, KdModel.nearest_neighbor_search, knn_search_api. cbn [k_points k_tree].
  split; [|intros k]; rewrite S1, S2; reflexivity.
Qed.
End Arrays.
End Trees.

(** Other weights are dropped by KdTree(array) but kept by PointCloud(array), where they take part
    in distances: the same array and query have different nearest points.  Here (0, 0, 0) with
    weight 5 is the nearest to the origin for the one and (3, 0, 0) with weight 1 for the other. *)
Definition weighted : matrix :=
  mkMatrix 4 [[f64_of 0 0; f64_of 0 0; f64_of 0 0; f64_of 5 0]; [f64_of 3 0; f64_of 0 0; f64_of 0 0; f64_of 1 0]].
Lemma two_nearest sqd (p0 p1 q : vec4 Fnum) found i d : nearest_answer sqd [p0; p1] q (found, i, d) ->
  (nlt (n := Fnum) (sqd p0 q) (sqd p1 q) = true -> nlt (n := Fnum) (sqd p0 q) none_dist = true -> found = 1 /\ i = 0%N /\ d = sqd p0 q) /\
  (nlt (n := Fnum) (sqd p1 q) (sqd p0 q) = true -> nlt (n := Fnum) (sqd p1 q) none_dist = true -> found = 1 /\ i = 1%N /\ d = sqd p1 q).
Proof.
  intros [(-> & (p & Ep & ->) & H)|(-> & -> & -> & H)].
  - pose proof (H p0 (or_introl eq_refl)) as H0. pose proof (H p1 (or_intror (or_introl eq_refl))) as H1.
    destruct (N.to_nat i) as [|[|j]] eqn:Ei; cbn in Ep.
    + injection Ep as <-. split; [intros _ _; repeat split; lia|]. intros X. congruence.
    + injection Ep as <-. split; [intros X; congruence|]. intros _ _. repeat split; lia.
    + destruct j; discriminate.
  - split; intros _ X; [rewrite H in X by (left; reflexivity)|rewrite H in X by (right; left; reflexivity)]; discriminate.
Qed.
Theorem C54_weights_refuted : forall ne (jn : vec4 Ffld) jc, nth_element_contract ne ->
  exists c, py_cloud jn jc weighted = Ok c /\
    (exists kd, py_kdtree_array ne weighted (Ok (Returned kd))) /\ (exists kd, py_kdtree_cloud ne c (Ok kd)) /\
    (forall kd, py_kdtree_array ne weighted (Ok (Returned kd)) ->
       exists d, py_nearest eigen_order kd (f64_of 0 0) (f64_of 0 0) (f64_of 0 0) = Ok (1, 0%N, d)) /\
    (forall kd, py_kdtree_cloud ne c (Ok kd) ->
       exists d, py_nearest eigen_order kd (f64_of 0 0) (f64_of 0 0) (f64_of 0 0) = Ok (1, 1%N, d)).
Proof.
  intros ne jn jc NE.
  assert (Ww : well_shaped weighted) by (split; [right; reflexivity|repeat constructor]).
  assert (Ps : row_points weighted = Ok [V4 (D := Fnum) (f64_of 0 0) (f64_of 0 0) (f64_of 0 0) (f64_of 5 0); V4 (D := Fnum) (f64_of 3 0) (f64_of 0 0) (f64_of 0 0) (f64_of 1 0)])
    by reflexivity.
  set (qs := [V4 (D := Fnum) _ _ _ _; _]) in Ps.
  assert (Fq : forall p, In p qs -> vfinite p) by (intros p [<-|[<-|[]]]; repeat split).
  assert (Ia : indexable weighted).
  { split; [exact Ww|]. split; [discriminate|]. split; [vm_compute; discriminate|]. intros r [<-|[<-|[]]]; repeat split. }
  destruct (array_tree ne NE weighted Ia) as [(oa & Ha) HA].
  destruct (built_ok eigen_order ne NE qs ltac:(discriminate) Fq ltac:(vm_compute; discriminate)) as (seqtree & _ & (t0 & B0) & HB).
  exists (bare jn jc qs). split; [unfold py_cloud; rewrite Ps; reflexivity|].
  assert (F0 : vfinite (V4 (D := Fnum) (f64_of 0 0) (f64_of 0 0) (f64_of 0 0) one64)) by (repeat split).
  split; [|split; [|split]].
  - destruct (HA oa Ha) as (kd & -> & _). eauto.
  - destruct (HB t0 B0) as (tree & -> & _). eexists. exists (Ok tree). split; [exact B0|]. reflexivity.
  - intros kd Hk. destruct (HA _ Hk) as (kd' & Q & Ep & W & Fi). injection Q as <-.
    destruct (nearest_exact eigen_order eigen_order_full kd W Fi _ F0) as (r & x & d & E & EI & ED & A).
    unfold py_nearest. rewrite E. cbn [bind]. rewrite EI, ED. cbn [get nth_error bind]. rewrite Ep in A.
    destruct (two_nearest _ _ _ _ _ _ _ A) as [T _]. destruct T as (-> & -> & ->); [vm_compute; reflexivity..|]. eauto.
  - intros kd (t & Bt & Q). cbn [bare cl_points] in Bt, Q. destruct (HB t Bt) as (tree & -> & W & _). cbn [bind] in Q. injection Q as ->.
    destruct (nearest_exact eigen_order eigen_order_full (mkPyTree qs tree) W Fq _ F0) as (r & x & d & E & EI & ED & A).
    unfold py_nearest. rewrite E. cbn [bind]. rewrite EI, ED. cbn [get nth_error bind]. cbn [k_points] in A.
    destruct (two_nearest _ _ _ _ _ _ _ A) as [_ T]. destruct T as (-> & -> & ->); [vm_compute; reflexivity..|]. eauto.
Qed.

(** * The hypotheses are met. *)
Definition rows7 : matrix := mkMatrix 3 (map (fun p : vec4 Fnum => [vx p; vy p; vz p]) cloud7).
Definition queries : matrix :=
  mkMatrix 4 [[f64_of 3 0; f64_of 3 0; f64_of 3 0; f64_of 9 0]; [B754_nan; f64_of 0 0; f64_of 0 0; f64_of 1 0]].
Example C53_inputs : indexable rows7 /\ unit_weights rows7 /\ well_shaped queries /\ map denoted (m_rows rows7) = cloud7 /\
  ((Z.of_nat (length (m_rows queries)) - 1) * 3 < 2 ^ 31)%Z.
Proof.
  split; [|split; [discriminate|split; [split; [right; reflexivity|repeat constructor]|split; [reflexivity|vm_compute; reflexivity]]]].
  split; [split; [left; reflexivity|repeat constructor]|]. split; [discriminate|]. split; [vm_compute; discriminate|].
  intros r Hr. repeat destruct Hr as [<-|Hr]; try destruct Hr; repeat split.
Qed.
Example C53_single_runs :
  (let* t := build_tree (axis_apply (D := Fnum)) (axis_find 128) sort_nth_element cloud7 20 in
   let kd := mkPyTree cloud7 t in
   let* a := single_nearest eigen_order kd [f64_of 3 0; f64_of 3 0; f64_of 3 0] in
   let* b := single_nearest eigen_order kd [B754_nan; f64_of 0 0; f64_of 0 0] in
   let* c := single_knn eigen_order kd [f64_of 3 0; f64_of 3 0; f64_of 3 0] 9 in
   Ok (fst a, fst b, match c with Returned (l, _) => l | Raised => [] end)) =
  Ok ((1, 2%N), (1, 6%N), [2; 4; 1; 0; 6; 5; 3; none_index; none_index]%N).
Proof. vm_compute. reflexivity. Qed.
(** Enough rows for an overflow: two, if 2^31 - 1 neighbours are asked for, and one more. *)
Example C53_overflow_inputs : let b := mkMatrix 3 (repeat [f64_of 0 0; f64_of 0 0; f64_of 0 0] 3) in
  well_shaped b /\ (2 ^ 31 <= (Z.of_nat (length (m_rows b)) - 1) * (2 ^ 31 - 1))%Z.
Proof. split; [split; [left; reflexivity|repeat constructor]|vm_compute; discriminate]. Qed.

Print Assumptions C53_batch_nearest.
Print Assumptions C53_batch_knn.
Print Assumptions C53_batch_overflow_refuted.
Print Assumptions C53_zero_neighbours_refuted.
Print Assumptions C54_array_is_cloud.
Print Assumptions C54_same_answers.
Print Assumptions C54_weights_refuted.
