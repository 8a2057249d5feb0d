(** Arrays, trees and batch searches of the Python interface. *)
From Coq Require Import Reals ZArith ZifyBool ZifyNat ZifyN.
From Flocq Require Import IEEE754.BinarySingleNaN.
From Verif Require Import Base BaseProofs Num Vec F64 F64Proofs KnnModel KdModel KdParModel KdSpec KdProofs KdSearchProofs KdTop KdSafe KdF64 KdThms KdParProofs
  Lin FactorModel EstModel PipeModel PyModel PySpec PyLoop.
Open Scope nat_scope.
Open Scope list_scope.

(** ** Arrays *)
Lemma mapM_map {A B} (f : A -> outcome B) (g : A -> B) l : (forall x, In x l -> f x = Ok (g x)) -> mapM f l = Ok (map g l).
Proof.
  induction l as [|x l IH]; intros H; cbn [mapM map]; [reflexivity|].
  rewrite (H x (or_introl eq_refl)). cbn [bind]. rewrite IH by (intros; apply H; right; auto). reflexivity.
Qed.
Lemma map_seq_nth {A B} (g : A -> B) d l : map (fun i => g (nth i l d)) (seq 0 (length l)) = map g l.
Proof.
  induction l as [|x l IH]; [reflexivity|]. cbn [length seq map nth]. f_equal.
  rewrite <- seq_shift, map_map. exact IH.
Qed.

Lemma shape_wf a : well_shaped a -> shape_ok a = true.
Proof. intros ([E|E] & _); unfold shape_ok; rewrite E; reflexivity. Qed.
Lemma row_wf a i : well_shaped a -> i < length (m_rows a) ->
  exists r, nth_error (m_rows a) i = Some r /\ nth i (m_rows a) [] = r /\ In r (m_rows a) /\ length r = m_cols a.
Proof.
  intros (_ & F) Hi. destruct (nth_error (m_rows a) i) as [r|] eqn:E; [|apply nth_error_None in E; lia].
  exists r. split; [reflexivity|]. split; [apply nth_error_nth; exact E|].
  pose proof (nth_error_In _ _ E) as I. split; [exact I|]. rewrite Forall_forall in F. apply F. exact I.
Qed.
Lemma row_xyz1_ok a i : well_shaped a -> i < length (m_rows a) -> row_xyz1 a i = Ok (denoted (nth i (m_rows a) [])).
Proof.
  intros W Hi. destruct (row_wf a i W Hi) as (r & E & -> & _ & L). destruct W as (C & _).
  unfold row_xyz1, elem, get. rewrite E. cbn [bind].
  destruct r as [|x [|y [|z r]]]; cbn [length] in L; try (destruct C; lia). reflexivity.
Qed.
Lemma row_point_ok a i : well_shaped a -> unit_weights a -> i < length (m_rows a) -> row_point a i = Ok (denoted (nth i (m_rows a) [])).
Proof.
  intros W U Hi. destruct (row_wf a i W Hi) as (r & E & -> & I & L). destruct W as (C & _).
  unfold row_point, elem, get. rewrite E. cbn [bind].
  destruct r as [|x [|y [|z r]]]; cbn [length] in L; try (destruct C; lia). cbn [nth_error bind].
  destruct (Nat.eqb_spec (m_cols a) 3) as [C3|C3]; [reflexivity|].
  assert (C4 : m_cols a = 4) by (destruct C; lia). specialize (U C4 _ I). cbn [nth_error] in U. rewrite U. reflexivity.
Qed.
Lemma xyz1_ok a : well_shaped a -> xyz1_points a = Ok (map denoted (m_rows a)).
Proof.
  intros W. unfold xyz1_points. rewrite (mapM_map _ (fun i => denoted (nth i (m_rows a) []))).
  - f_equal. apply (map_seq_nth denoted).
  - intros i Hi. apply in_seq in Hi. apply row_xyz1_ok; auto. lia.
Qed.
Lemma rows_ok a : well_shaped a -> unit_weights a -> row_points a = Ok (map denoted (m_rows a)).
Proof.
  intros W U. unfold row_points. rewrite (mapM_map _ (fun i => denoted (nth i (m_rows a) []))).
  - f_equal. apply (map_seq_nth denoted).
  - intros i Hi. apply in_seq in Hi. apply row_point_ok; auto. lia.
Qed.

(** ** Trees *)
Section Tree.
Context (order : sumtree) (ne : (nat -> nat -> bool) -> nat -> list nat -> list nat) (NE : nth_element_contract ne).

Lemma par_build64 points : points <> [] -> (forall p, In p points -> vfinite p) -> (N.of_nat (length points) <= 4294967295)%N ->
  exists seqtree, build_tree (axis_apply (D := Fnum)) (axis_find 128) ne points 20 = Ok seqtree /\ kd_wf_f64 points 20 seqtree /\
  forall k st p, prun (axis_apply (D := Fnum)) (axis_find 128) ne points 20 (KdParModel.par_init points) (par_start points) k st p ->
      k <= 9 * length points /\
      (forall o, In o (psteps (axis_apply (D := Fnum)) (axis_find 128) ne points 20 st p) -> exists st' p', o = Ok (st', p')) /\
      ((exists root, p = PRet root) \/ psteps (axis_apply (D := Fnum)) (axis_find 128) ne points 20 st p <> []) /\
      forall root, p = PRet root -> kd_wf_f64 points 20 (par_tree st root) /\
        forall query epsilon sn q,
          knn_search (fsqd order) (axis_apply (D := Fnum)) points (par_tree st root) query epsilon sn q =
          knn_search (fsqd order) (axis_apply (D := Fnum)) points seqtree query epsilon sn q.
Proof using NE.
  intros N0 Fi L.
  destruct (par_build Fnum notnan f64_order (vec4 Fnum) (fsqd order) nat (axis_apply (D := Fnum))
    (axis_find 128) ne vfinite (fun a => a < 3) NE (fsqd_ok order) papply_ok_f64
    points 20 Fi (axis_total_f64 points 128 ltac:(lia)) N0 ltac:(vm_compute; discriminate) L) as (t & Et & H).
  exists t. split; [exact Et|]. split.
  { destruct (kd_build_f64 order ne NE points 20 128 Fi ltac:(lia) N0 ltac:(vm_compute; discriminate) L) as (t' & Et' & W & _).
    rewrite Et in Et'. injection Et' as ->. exact W. }
  intros k st p R. destruct (H k st p R) as (A1 & A2 & A3 & _ & _ & A6).
  split; [exact A1|]. split; [exact A2|]. split; [exact A3|]. intros root Hp. destruct (A6 root Hp) as (B1 & _ & _ & B4).
  split; [exact B1|exact B4].
Qed.

Lemma built_ok points : points <> [] -> (forall p, In p points -> vfinite p) -> (N.of_nat (length points) <= 4294967295)%N ->
  exists seqtree, build_tree (axis_apply (D := Fnum)) (axis_find 128) ne points 20 = Ok seqtree /\
  (exists o, built_omp ne points o) /\
  forall o, built_omp ne points o -> exists tree, o = Ok tree /\ kd_wf_f64 points 20 tree /\
    forall query epsilon sn q,
      knn_search (fsqd order) (axis_apply (D := Fnum)) points tree query epsilon sn q =
      knn_search (fsqd order) (axis_apply (D := Fnum)) points seqtree query epsilon sn q.
Proof using NE.
  intros N0 Fi L. destruct (par_build64 points N0 Fi L) as (t & Et & _ & H). exists t. split; [exact Et|]. split.
  - assert (X : forall d k st p, 9 * length points - k <= d ->
      prun (axis_apply (D := Fnum)) (axis_find 128) ne points 20 (KdParModel.par_init points) (par_start points) k st p ->
      exists o, built_omp ne points o).
    { induction d as [|d IH]; intros k st p Hd R; destruct (H k st p R) as (A1 & A2 & [(root & ->)|A3] & _);
        try (exists (Ok (par_tree st root)); right; split; [exact N0|]; exists k, st, (PRet root); split; [exact R|]; left; eauto; fail).
      all: destruct (psteps (axis_apply (D := Fnum)) (axis_find 128) ne points 20 st p) as [|o os] eqn:Eo; [congruence|].
      all: destruct (A2 o) as (st1 & p1 & ->); [left; auto|].
      all: assert (R1 : prun (axis_apply (D := Fnum)) (axis_find 128) ne points 20 (KdParModel.par_init points) (par_start points) (S k) st1 p1)
             by (econstructor; [exact R|]; rewrite Eo; left; auto).
      - pose proof (proj1 (H _ _ _ R1)). lia.
      - apply (IH (S k) st1 p1); [lia|exact R1]. }
    apply (X (9 * length points) 0 (KdParModel.par_init points) (par_start points)); [lia|constructor].
  - intros o [(E & _)|(_ & k & st & p & R & K)]; [congruence|]. destruct (H k st p R) as (A1 & A2 & A3 & A4).
    destruct K as [(root & -> & ->)|(e & He & Hn & _)].
    + destruct (A4 root eq_refl) as (W & S). eauto.
    + destruct (A2 e He) as (st' & p' & ->). exfalso. eapply Hn. reflexivity.
Qed.
End Tree.

(** ** Searches: unused slots stay blank. *)
Section Blank.
Context {D : num}.
Definition tail_blank (r : knn_result D) : Prop :=
  forall j, num_found_neighbors r <= j ->
    (forall x, nth_error (indices r) j = Some x -> x = INVALID) /\ (forall d, nth_error (distances r) j = Some d -> d = nmaxv).

Lemma shift_loop_beyond d : forall loc idx dst loc' idx' dst',
  shift_loop (D := D) loc d idx dst = Ok (loc', idx', dst') ->
  loc' <= loc /\ forall j, loc < j -> nth_error idx' j = nth_error idx j /\ nth_error dst' j = nth_error dst j.
Proof.
  induction loc as [|l IH]; intros idx dst loc' idx' dst' H; cbn [shift_loop] in H.
  - injection H as <- <- <-. auto.
  - apply bind_Ok in H. destruct H as (x & Ex & H). destruct (nlt d x).
    + apply bind_Ok in H. destruct H as (i & Ei & H). apply bind_Ok in H. destruct H as (idx1 & E1 & H).
      apply bind_Ok in H. destruct H as (dst1 & E2 & H). apply set_Ok_inv in E1, E2. destruct E1 as [_ ->], E2 as [_ ->].
      destruct (IH _ _ _ _ _ H) as (A & B). split; [lia|]. intros j Hj. destruct (B j ltac:(lia)) as [B1 B2].
      rewrite B1, B2, !upd_nth_error_other by lia. auto.
    + injection H as <- <- <-. auto.
Qed.
Lemma push_blank r i d r' : 0 < buffer_size r -> length (indices r) = buffer_size r -> length (distances r) = buffer_size r ->
  tail_blank r -> push r i d = Ok r' -> tail_blank r'.
Proof.
  intros K0 LI LD T H. unfold push in H. apply bind_Ok in H. destruct H as (w & _ & H).
  destruct (nle w d); [injection H as <-; exact T|]. apply bind_Ok in H. destruct H as ([idx dst] & E & H).
  injection H as <-. intros j Hj. cbn [num_found_neighbors indices distances] in *.
  assert (Lj : Nat.min (num_found_neighbors r) (buffer_size r - 1) < j) by lia.
  assert (X : forall loc idx1 dst1, loc <= Nat.min (num_found_neighbors r) (buffer_size r - 1) ->
     (forall j', Nat.min (num_found_neighbors r) (buffer_size r - 1) < j' ->
        nth_error idx1 j' = nth_error (indices r) j' /\ nth_error dst1 j' = nth_error (distances r) j') ->
     (forall x, nth_error (upd idx1 loc i) j = Some x -> x = INVALID) /\ (forall d', nth_error (upd dst1 loc d) j = Some d' -> d' = nmaxv)).
  { intros loc idx1 dst1 L1 L2. destruct (L2 j Lj) as [Q1 Q2]. rewrite !upd_nth_error_other by lia. rewrite Q1, Q2.
    destruct (Nat.le_gt_cases (buffer_size r) j) as [K|K]; [|apply T; lia].
    rewrite (proj2 (nth_error_None (indices r) j)) by lia. rewrite (proj2 (nth_error_None (distances r) j)) by lia.
    split; discriminate. }
  destruct (static_n r) as [[|[|n]]|] eqn:ES.
  - apply bind_Ok in E. destruct E as ([[loc idx1] dst1] & E1 & E). apply bind_Ok in E. destruct E as (idx2 & E2 & E).
    apply bind_Ok in E. destruct E as (dst2 & E3 & E). injection E as <- <-.
    apply set_Ok_inv in E2, E3. destruct E2 as [? ->], E3 as [? ->]. destruct (shift_loop_beyond _ _ _ _ _ _ _ E1). apply X; auto.
  - apply bind_Ok in E. destruct E as (idx2 & E2 & E).
    apply bind_Ok in E. destruct E as (dst2 & E3 & E). injection E as <- <-.
    apply set_Ok_inv in E2, E3. destruct E2 as [? ->], E3 as [? ->]. apply X; auto; lia.
  - apply bind_Ok in E. destruct E as ([[loc idx1] dst1] & E1 & E). apply bind_Ok in E. destruct E as (idx2 & E2 & E).
    apply bind_Ok in E. destruct E as (dst2 & E3 & E). injection E as <- <-.
    apply set_Ok_inv in E2, E3. destruct E2 as [? ->], E3 as [? ->]. destruct (shift_loop_beyond _ _ _ _ _ _ _ E1). apply X; auto.
  - apply bind_Ok in E. destruct E as ([[loc idx1] dst1] & E1 & E). apply bind_Ok in E. destruct E as (idx2 & E2 & E).
    apply bind_Ok in E. destruct E as (dst2 & E3 & E). injection E as <- <-.
    apply set_Ok_inv in E2, E3. destruct E2 as [? ->], E3 as [? ->]. destruct (shift_loop_beyond _ _ _ _ _ _ _ E1). apply X; auto.
Qed.
End Blank.

Section Preserve.
Context {D : num} {pt P : Type} (sqd : pt -> pt -> car D) (papply : P -> pt -> car D).
Context (points : list pt) (tree : kdtree D P) (query : pt) (epsilon : car D).
Context (Q : knn_result D -> Prop) (HQ : forall r i d r', Q r -> push r i d = Ok r' -> Q r').

Lemma scan_preserves f l r r' : Q r -> scan_leaf sqd points tree query f l r = Ok r' -> Q r'.
Proof using HQ.
  unfold scan_leaf. generalize (seq f (l - f)). intros sl. revert r. induction sl as [|i sl IH]; intros r H E; cbn [foldM] in E.
  - injection E as <-. exact H.
  - apply bind_Ok in E. destruct E as (r1 & E1 & E). apply bind_Ok in E1. destruct E1 as (j & _ & E1).
    apply bind_Ok in E1. destruct E1 as (p & _ & E1). eapply IH; [|exact E]. eapply HQ; eauto.
Qed.
Lemma search_preserves fuel : forall nd r r' go, Q r -> search sqd papply points tree query epsilon fuel nd r = Ok (r', go) -> Q r'.
Proof using HQ.
  induction fuel as [|fuel IH]; intros nd r r' go H E; cbn [search] in E; [discriminate|].
  apply bind_Ok in E. destruct E as (x & _ & E). destruct (left x =? INVALID_NODE)%N.
  - destruct (ntype x) as [|f l|]; try discriminate. apply bind_Ok in E. destruct E as (r1 & E1 & E).
    apply bind_Ok in E. destruct E as (ful & _ & E). injection E as <- <-. eapply scan_preserves; eauto.
  - destruct (ntype x) as [|f l|pr th]; try discriminate. apply bind_Ok in E. destruct E as ([r1 g1] & E1 & E).
    pose proof (IH _ _ _ _ H E1) as H1. destruct (negb g1); [injection E as <- <-; exact H1|].
    apply bind_Ok in E. destruct E as (w & _ & E). destruct (nlt _ w); [eapply IH; eauto|injection E as <- <-; exact H1].
Qed.
Lemma knn_preserves sn k r0 r : knn_init D sn k = Ok r0 -> Q r0 -> knn_search sqd papply points tree query epsilon sn k = Ok r -> Q r.
Proof using HQ.
  intros E0 H0 E. unfold knn_search in E. rewrite E0 in E. cbn [bind] in E. destruct (t_root tree); [|discriminate].
  apply bind_Ok in E. destruct E as ([r1 g] & E1 & E). injection E as <-. eapply search_preserves; eauto.
Qed.
End Preserve.

Lemma knn_blank {D : num} {pt P : Type} sqd papply (points : list pt) (tree : kdtree D P) query epsilon sn k r0 r :
  knn_init D sn k = Ok r0 -> 0 < buffer_size r0 -> knn_search sqd papply points tree query epsilon sn k = Ok r -> tail_blank r.
Proof.
  intros E0 K E.
  assert (H : sane (fun _ => True) r /\ tail_blank r); [|exact (proj2 H)].
  eapply (knn_preserves sqd papply points tree query epsilon (fun r => sane (fun _ => True) r /\ tail_blank r)); [|exact E0| |exact E].
  - intros r1 i d r2 [S T] P1. destruct (push_safe D (fun _ => True) r1 i d S I) as (r3 & E3 & S3 & _).
    rewrite E3 in P1. injection P1 as <-. split; [exact S3|]. destruct S as (S1 & S2 & S3' & _). eapply push_blank; eauto.
  - split; [eapply init_sane; eauto|]. unfold knn_init in E0.
    destruct sn as [n|]; [destruct (0 <=? k)%Z|destruct (k <=? 0)%Z]; try discriminate; injection E0 as <-;
      intros j _; cbn [indices distances]; split; intros x Hx; apply nth_error_In in Hx; apply repeat_spec in Hx; exact Hx.
Qed.

(** ** Single searches *)
Section Search.
Context (order : sumtree) (FS : full_sum order) (kd : py_tree).
Context (W : kd_wf_f64 (k_points kd) 20 (k_tree kd)) (Fi : forall p, In p (k_points kd) -> vfinite p).

Lemma nearest_total q : exists r i d, tree_nearest order kd q = Ok r /\ indices r = [i] /\ distances r = [d] /\
  num_found_neighbors r <= 1 /\ (num_found_neighbors r = 0 -> i = minus_one /\ d = dbl_max).
Proof using W.
  clear Fi FS. unfold tree_nearest, KdModel.nearest_neighbor_search.
  destruct (knn_init Fnum (Some 1) (-1)) as [r0| | |] eqn:E0; try discriminate.
  assert (K : buffer_size r0 = 1) by (injection E0 as <-; reflexivity).
  destruct (knn_search_safe Fnum (vec4 Fnum) (fsqd order) nat (axis_apply (D := Fnum)) (k_points kd) q (nzero (n := Fnum)) _ _ _ (Some 1) (-1)%Z r0 W E0 ltac:(lia))
    as (r & E & (S1 & S2 & S3 & S4 & _) & SN & SC).
  assert (B : buffer_size r = 1) by (unfold buffer_size in *; rewrite SN, SC; exact K).
  rewrite B in *.
  pose proof (knn_blank _ _ _ _ _ _ _ _ _ _ E0 ltac:(lia) E) as T.
  destruct (indices r) as [|i [|? ?]] eqn:EI; try discriminate S2. destruct (distances r) as [|d [|? ?]] eqn:ED; try discriminate S3.
  exists r, i, d. split; [exact E|]. split; [exact EI|]. split; [exact ED|]. split; [exact S4|].
  intros F0. destruct (T 0 ltac:(lia)) as [T1 T2]. rewrite EI in T1. rewrite ED in T2.
  split; [apply T1; reflexivity|apply T2; reflexivity].
Qed.

Lemma int_of_k k : (0 <= k < 2 ^ 31)%Z -> int_of_size_t (size_t_of_int k) = k.
Proof using. clear. intros H. unfold size_t_of_int, int_of_size_t. rewrite Z.mod_small by lia. rewrite Z2N.id by lia. rewrite Z.mod_small by lia.
  destruct (Z.ltb_spec k (2 ^ 31)); lia. Qed.
Lemma init_k k : (0 < k)%Z -> exists r0, knn_init Fnum None k = Ok r0 /\ buffer_size r0 = Z.to_nat k.
Proof using. clear. intros H. unfold knn_init. destruct (Z.leb_spec k 0); [lia|]. eexists. split; reflexivity. Qed.

Lemma knearest_total q k : (0 < k < 2 ^ 31)%Z -> exists r, tree_knearest order kd q k = Ok r /\
  length (indices r) = Z.to_nat k /\ length (distances r) = Z.to_nat k /\ num_found_neighbors r <= Z.to_nat k /\ tail_blank r.
Proof using W.
  clear Fi FS. intros Hk. unfold tree_knearest, knn_search_api. rewrite int_of_k by lia. destruct (init_k k ltac:(lia)) as (r0 & E0 & K).
  destruct (knn_search_safe Fnum (vec4 Fnum) (fsqd order) nat (axis_apply (D := Fnum)) (k_points kd) q (nzero (n := Fnum)) _ _ _ None k r0 W E0 ltac:(lia))
    as (r & E & (S1 & S2 & S3 & S4 & _) & SN & SC).
  assert (B : buffer_size r = Z.to_nat k) by (unfold buffer_size in *; rewrite SN, SC; exact K).
  rewrite B in *. exists r. split; [exact E|]. split; [exact S2|]. split; [exact S3|]. split; [exact S4|].
  eapply knn_blank; [exact E0|lia|exact E].
Qed.

Lemma nearest_exact q : vfinite q -> exists r i d, tree_nearest order kd q = Ok r /\ indices r = [i] /\ distances r = [d] /\
  nearest_answer (fsqd order) (k_points kd) q (num_found_neighbors r, i, d).
Proof using W Fi FS.
  intros Hq. destruct (nearest_total q) as (r & i & d & E & EI & ED & NF & ZF).
  exists r, i, d. split; [exact E|]. split; [exact EI|]. split; [exact ED|].
  destruct (kd_exact_f64 order FS (k_points kd) 20 128 Fi ltac:(lia) (k_tree kd) q W Hq) as (rk & R1 & R2).
  destruct (R2 (Some 1) (-1)%Z _ eq_refl ltac:(vm_compute; lia)) as (r' & E' & (B1 & B2 & B3)).
  unfold tree_nearest, KdModel.nearest_neighbor_search in E. rewrite E' in E. injection E as ->.
  cbn [buffer_size static_n] in B1, B2, B3. destruct (R1 1) as (_ & G & _ & L & Bt).
  set (res := firstn 1 rk) in *. rewrite EI in B2. rewrite ED in B3.
  destruct res as [|[i' d'] res'] eqn:Er.
  - cbn in B1, B2, B3. right. injection B2 as ->. injection B3 as ->. split; [exact B1|]. split; [reflexivity|]. split; [reflexivity|].
    intros p Hp. apply In_nth_error in Hp. destruct Hp as [j Ej]. cbn [length] in L.
    destruct (nlt (n := Fnum) (fsqd order p q) none_dist) eqn:Kn; auto. exfalso.
    pose proof (proj1 (nth_error_Some (k_points kd) j)) as Lj. rewrite Ej in Lj. specialize (Lj ltac:(discriminate)).
    assert (X : In j (filter (fun j => nlt (n := Fnum) (dist_to (fsqd order) (k_points kd) q j) nmaxv) (seq 0 (length (k_points kd))))).
    { apply filter_In. split; [apply in_seq; lia|]. unfold dist_to. rewrite Ej. exact Kn. }
    destruct (filter _ _) in L, X; [destruct X|discriminate L].
  - assert (res' = []) as -> by (unfold res in Er; destruct rk as [|? ?]; [discriminate|]; cbn in Er; injection Er as _ <-; reflexivity).
    cbn in B1, B2, B3. left. injection B2 as ->. injection B3 as ->. split; [exact B1|].
    destruct (G i' d' (or_introl eq_refl)) as (j & Lj & -> & Ed). unfold dist_to in Ed.
    destruct (nth_error (k_points kd) j) as [p|] eqn:Ej; [|apply nth_error_None in Ej; lia].
    split. { exists p. rewrite Nat2N.id. auto. }
    intros p' Hp'. apply In_nth_error in Hp'. destruct Hp' as [j' Ej'].
    destruct (Nat.eq_dec j' j) as [->|Nj].
    + rewrite Ej in Ej'. injection Ej' as <-. rewrite Ed. 
      cbn [nlt Fnum]. assert (Fn : notnan (fsqd order p q)) by (apply fsqd_ok; auto; apply Fi; eapply nth_error_In; eauto).
      apply f64_lt_val_false; auto. apply Rle_refl.
    + pose proof (Bt j') as Bj. unfold dist_to in Bj. rewrite Ej' in Bj.
      apply (Bj (proj1 (nth_error_Some (k_points kd) j') ltac:(rewrite Ej'; discriminate))) with (c := (N.of_nat j, d')); [|left; reflexivity].
      intros [X|[]]. apply Nat2N.inj in X. congruence.
Qed.

Lemma knearest_exact q k : (0 < k < 2 ^ 31)%Z -> vfinite q -> exists r, tree_knearest order kd q k = Ok r /\
  knn_answer (fsqd order) (k_points kd) q (Z.to_nat k) (indices r, distances r).
Proof using W Fi FS.
  intros Hk Hq. unfold tree_knearest, knn_search_api. rewrite int_of_k by lia.
  destruct (kd_exact_f64 order FS (k_points kd) 20 128 Fi ltac:(lia) (k_tree kd) q W Hq) as (rk & R1 & R2).
  destruct (init_k k ltac:(lia)) as (r0 & E0 & K).
  destruct (R2 None k r0 E0 ltac:(lia)) as (r & E & (B1 & B2 & B3)). rewrite K in *.
  exists r. split; [exact E|]. exists (firstn (Z.to_nat k) rk). split; [apply R1|]. cbn [fst snd]. auto.
Qed.
End Search.

(** ** Batch searches *)
Definition cell_holds (b : batch) (w : cell) : Prop :=
  match w with
  | WIndex s v => nth_error (k_indices b) s = Some v
  | WDist s v => nth_error (k_sq_dists b) s = Some v
  end.
Definition sized (n : nat) (b : batch) : Prop := length (k_indices b) = n /\ length (k_sq_dists b) = n.
Definition slot (w : cell) : nat := match w with WIndex s _ | WDist s _ => s end.
(** Two writes to the same cell write the same value. *)
Definition consistent (w w' : cell) : Prop :=
  match w, w' with
  | WIndex s v, WIndex s' v' => s = s' -> v = v'
  | WDist s v, WDist s' v' => s = s' -> v = v'
  | _, _ => True
  end.
Lemma do_cell_ok n b w : sized n b -> slot w < n -> exists b', do_cell b w = Ok b' /\ sized n b' /\ cell_holds b' w.
Proof.
  intros [L1 L2] H. destruct w as [s v|s v]; cbn [slot do_cell] in *; rewrite set_Ok by lia; cbn [bind]; eexists;
    (split; [reflexivity|]); unfold sized; cbn [k_indices k_sq_dists cell_holds]; rewrite ?upd_length;
    (split; [auto|]); apply upd_nth_error_same; lia.
Qed.
Lemma do_cell_keeps b b' w w' : consistent w w' -> do_cell b w' = Ok b' -> cell_holds b w -> cell_holds b' w.
Proof.
  intros C E H. destruct w' as [s' v'|s' v']; cbn [do_cell] in E; apply bind_Ok in E; destruct E as (l & E & Q); injection Q as <-;
    apply set_Ok_inv in E; destruct E as [Hs ->]; destruct w as [s v|s v]; cbn [cell_holds k_indices k_sq_dists consistent] in *; auto;
    destruct (Nat.eq_dec s' s) as [->|Ns]; [rewrite <- (C eq_refl) in *; apply upd_nth_error_same; auto|rewrite upd_nth_error_other by auto; exact H
      |rewrite <- (C eq_refl) in *; apply upd_nth_error_same; auto|rewrite upd_nth_error_other by auto; exact H].
Qed.

Lemma batch_ends n total body writes o : (forall i, i < n -> body i = Ok (writes i)) ->
  (forall i w, i < n -> In w (writes i) -> slot w < total) ->
  (forall i j w w', i < n -> j < n -> In w (writes i) -> In w' (writes j) -> consistent w w') ->
  loop_ends do_cell body (blank total) n o ->
  exists b, o = Ok b /\ sized total b /\ forall i w, i < n -> In w (writes i) -> cell_holds b w.
Proof.
  intros B S C E.
  apply (loop_ends_holds do_cell body n (sized total) cell_holds writes B) with (mem := blank total).
  - intros mem i w G Hi Hw. apply do_cell_ok; eauto.
  - intros mem mem' i j w w' Hi Hj Hw Hw' _ Ew Hh. eapply do_cell_keeps; [|exact Ew|exact Hh]. apply (C i j); auto.
  - split; cbn; apply repeat_length.
  - exact E.
Qed.
Lemma batch_can_end n total body writes : (forall i, i < n -> body i = Ok (writes i)) ->
  (forall i w, i < n -> In w (writes i) -> slot w < total) ->
  (forall i j w w', i < n -> j < n -> In w (writes i) -> In w' (writes j) -> consistent w w') ->
  exists o, loop_ends do_cell body (blank total) n o.
Proof.
  intros B S C.
  apply (loop_can_end do_cell body n (sized total) cell_holds writes B).
  - intros mem i w G Hi Hw. apply do_cell_ok; eauto.
  - intros mem mem' i j w w' Hi Hj Hw Hw' _ Ew Hh. eapply do_cell_keeps; [|exact Ew|exact Hh]. apply (C i j); auto.
  - split; cbn; apply repeat_length.
Qed.

Lemma as_int_ok c : (0 <= c < 2 ^ 31)%Z -> as_int c = Ok c.
Proof.
  intros H. unfold as_int. destruct (Z.leb_spec (- 2 ^ 31) c); [|lia]. destruct (Z.ltb_spec c (2 ^ 31)); [reflexivity|lia].
Qed.

Section Batch.
Context (order : sumtree) (kd : py_tree) (a : matrix).
Context (W : kd_wf_f64 (k_points kd) 20 (k_tree kd)) (Wa : well_shaped a).
Notation n := (length (m_rows a)).

(** What the single search says about row i. *)
Definition nn_of (i : nat) : nat * N * f64 :=
  match tree_nearest order kd (denoted (nth i (m_rows a) [])) with
  | Ok r => (num_found_neighbors r, nth 0 (indices r) minus_one, nth 0 (distances r) dbl_max)
  | _ => (0, minus_one, dbl_max)
  end.
Definition nn_writes (i : nat) : list cell :=
  let '(found, x, d) := nn_of i in
  [WIndex i x; WDist i d] ++ if found =? 0 then [WIndex i minus_one; WDist i dbl_max] else [].

Lemma nn_writes_ok : (Z.of_nat n <= 2 ^ 31)%Z -> forall i, i < n -> nearest_body order kd a i = Ok (nn_writes i).
Proof using W Wa.
  intros Hr i Hi. unfold nearest_body, nn_writes, nn_of. rewrite as_int_ok by lia. cbn [bind]. rewrite row_xyz1_ok by auto. cbn [bind].
  destruct (nearest_total order kd W (denoted (nth i (m_rows a) []))) as (r & x & d & E & EI & ED & _ & _).
  rewrite E. cbn [bind]. rewrite EI, ED. reflexivity.
Qed.
Lemma nn_writes_in i w : i < n -> In w (nn_writes i) -> exists f x d, nn_of i = (f, x, d) /\ (w = WIndex i x \/ w = WDist i d).
Proof using W Wa.
  intros Hi H. unfold nn_writes in H. unfold nn_of in *.
  destruct (nearest_total order kd W (denoted (nth i (m_rows a) []))) as (r & x & d & E & EI & ED & _ & Z).
  rewrite E, EI, ED in *. cbn [nth] in *. eexists _, _, _. split; [reflexivity|].
  cbn [app] in H. destruct H as [<-|[<-|H]]; auto. destruct (Nat.eqb_spec (num_found_neighbors r) 0) as [E0|E0]; [|destruct H].
  destruct (Z E0) as [-> ->]. destruct H as [<-|[<-|[]]]; auto.
Qed.

Lemma nn_side : (forall i w, i < n -> In w (nn_writes i) -> slot w < n) /\
  (forall i j w w', i < n -> j < n -> In w (nn_writes i) -> In w' (nn_writes j) -> consistent w w').
Proof using W Wa.
  split.
  - intros i w Hi H. destruct (nn_writes_in i w Hi H) as (f & x & d & _ & [->| ->]); exact Hi.
  - intros i j w w' Hi Hj H H'. destruct (nn_writes_in i w Hi H) as (f & x & d & Q & K).
    destruct (nn_writes_in j w' Hj H') as (f' & x' & d' & Q' & K').
    destruct K as [->| ->], K' as [->| ->]; cbn [consistent]; auto; intros ->; congruence.
Qed.

Lemma batch_nearest_rows o : (Z.of_nat n <= 2 ^ 31)%Z -> py_batch_nearest order kd a o ->
  exists idx dst, o = Ok (Returned (idx, dst)) /\ length idx = n /\ length dst = n /\
    forall i r, nth_error (m_rows a) i = Some r -> exists found x d,
      nth_error idx i = Some x /\ nth_error dst i = Some d /\ nn_of i = (found, x, d).
Proof using W Wa.
  unfold py_batch_nearest. rewrite (shape_wf a Wa). intros Hr (e & L & ->). destruct nn_side as [S1 S2].
  destruct (batch_ends n n _ nn_writes e (nn_writes_ok Hr) S1 S2 L) as (b & -> & [Z1 Z2] & H). cbn [bind].
  exists (k_indices b), (k_sq_dists b). split; [reflexivity|]. split; [exact Z1|]. split; [exact Z2|].
  intros i r Er. assert (Hi : i < n) by (apply nth_error_Some; congruence).
  destruct (nn_of i) as [[f x] d] eqn:Q. exists f, x, d.
  assert (K : forall w, In w [WIndex i x; WDist i d] -> cell_holds b w).
  { intros w Hw. apply (H i); auto. unfold nn_writes. rewrite Q. apply in_or_app. left. exact Hw. }
  split; [apply (K (WIndex i x)); cbn; auto|]. split; [apply (K (WDist i d)); cbn; auto|]. reflexivity.
Qed.
Lemma batch_nearest_ends : (Z.of_nat n <= 2 ^ 31)%Z -> exists o, py_batch_nearest order kd a o.
Proof using W Wa.
  intros Hr. unfold py_batch_nearest. rewrite (shape_wf a Wa). destruct nn_side as [S1 S2].
  destruct (batch_can_end n n _ nn_writes (nn_writes_ok Hr) S1 S2) as (e & He). eauto.
Qed.

(** k neighbours. *)
Context (k : Z) (Hk : (0 < k < 2 ^ 31)%Z) (Hn : ((Z.of_nat n - 1) * k < 2 ^ 31)%Z).
Notation kn := (Z.to_nat k).

Definition knn_of (i : nat) : knn_result Fnum :=
  match tree_knearest order kd (denoted (nth i (m_rows a) [])) k with
  | Ok r => r
  | _ => mkKnn Fnum None k 0 (repeat minus_one kn) (repeat dbl_max kn)
  end.
Definition knn_writes (i : nat) : list cell :=
  let r := knn_of i in
  flat_map (fun c => [WIndex (i * kn + fst c) (fst (snd c)); WDist (i * kn + fst c) (snd (snd c))])
        (combine (seq 0 kn) (combine (indices r) (distances r))) ++
  flat_map (fun j => [WIndex (i * kn + j) minus_one; WDist (i * kn + j) dbl_max]) (seq (num_found_neighbors r) (kn - num_found_neighbors r)).

Lemma knn_of_ok i : tree_knearest order kd (denoted (nth i (m_rows a) [])) k = Ok (knn_of i) /\
  length (indices (knn_of i)) = kn /\ length (distances (knn_of i)) = kn /\ num_found_neighbors (knn_of i) <= kn /\ tail_blank (knn_of i).
Proof using W Hk. try clear Hn.
  unfold knn_of. destruct (knearest_total order kd W (denoted (nth i (m_rows a) [])) k Hk) as (r & E & H). rewrite E. auto.
Qed.
Lemma knn_writes_ok i : i < n -> knn_body order kd a k i = Ok (knn_writes i).
Proof using W Wa Hk Hn.
  intros Hi. unfold knn_body, knn_writes. 
  assert (EI : as_int (Z.of_nat i) = Ok (Z.of_nat i)) by (apply as_int_ok; nia).
  assert (EM : int_mul (Z.of_nat i) k = Ok (Z.of_nat i * k)%Z) by (apply as_int_ok; nia).
  rewrite EI. cbn [bind]. rewrite EM. cbn [bind]. rewrite row_xyz1_ok by auto. cbn [bind]. destruct (knn_of_ok i) as (E & _). rewrite E. cbn [bind].
  replace (Z.to_nat (Z.of_nat i * k)) with (i * kn) by (rewrite Z2Nat.inj_mul, Nat2Z.id by lia; reflexivity). reflexivity.
Qed.
Lemma combine_nth_error {A B} (l : list A) (l' : list B) j x y :
  nth_error (combine l l') j = Some (x, y) <-> nth_error l j = Some x /\ nth_error l' j = Some y.
Proof using.
  clear. revert l' j; induction l as [|b l IH]; intros [|b' l'] [|j]; cbn; try (split; [intros H; discriminate H|intros [H1 H2]; congruence]).
  - split; [intros H; injection H as <- <-; auto|intros [H1 H2]; congruence].
  - apply IH.
Qed.
Lemma knn_writes_in i w : i < n -> In w (knn_writes i) -> exists j, j < kn /\
  ((exists x, nth_error (indices (knn_of i)) j = Some x /\ w = WIndex (i * kn + j) x) \/
   (exists d, nth_error (distances (knn_of i)) j = Some d /\ w = WDist (i * kn + j) d)).
Proof using W Hk. try clear Hn.
  intros Hi H. destruct (knn_of_ok i) as (_ & LI & LD & NF & T). unfold knn_writes in H. apply in_app_or in H. destruct H as [H|H]; apply in_flat_map in H.
  - destruct H as ([j [x d]] & Hc & H). apply In_nth_error in Hc. destruct Hc as [j' Ej].
    apply combine_nth_error in Ej. destruct Ej as [E1 E2]. apply combine_nth_error in E2. destruct E2 as [E2 E3].
    assert (Lj : j' < kn) by (rewrite <- (seq_length kn 0); apply nth_error_Some; congruence).
    assert (j = j').
    { pose proof (nth_error_nth _ _ 0 E1) as Q. rewrite seq_nth in Q by exact Lj. lia. }
    subst j'. exists j. split; [exact Lj|]. cbn [fst snd] in H. destruct H as [<-|[<-|[]]]; [left|right]; eauto.
  - destruct H as (j & Hj & H). apply in_seq in Hj. exists j. split; [lia|]. destruct (T j ltac:(lia)) as [T1 T2].
    destruct H as [<-|[<-|[]]]; [left|right].
    + destruct (nth_error (indices (knn_of i)) j) as [x|] eqn:E; [|apply nth_error_None in E; lia].
      rewrite (T1 x eq_refl). eexists. split; [reflexivity|]. reflexivity.
    + destruct (nth_error (distances (knn_of i)) j) as [x|] eqn:E; [|apply nth_error_None in E; lia].
      rewrite (T2 x eq_refl). eexists. split; [reflexivity|]. reflexivity.
Qed.
Lemma knn_side : (forall i w, i < n -> In w (knn_writes i) -> slot w < n * kn) /\
  (forall i j w w', i < n -> j < n -> In w (knn_writes i) -> In w' (knn_writes j) -> consistent w w').
Proof using W Hk. try clear Hn.
  split.
  - intros i w Hi H. destruct (knn_writes_in i w Hi H) as (j & Lj & [(x & _ & ->)|(d & _ & ->)]); cbn [slot]; nia.
  - intros i j w w' Hi Hj H H'. destruct (knn_writes_in i w Hi H) as (c & Lc & K).
    destruct (knn_writes_in j w' Hj H') as (c' & Lc' & K').
    assert (U : i * kn + c = j * kn + c' -> i = j /\ c = c').
    { intros Q. apply (Nat.div_mod_unique kn i j c c' Lc Lc'). lia. }
    destruct K as [(x & Q & ->)|(x & Q & ->)], K' as [(x' & Q' & ->)|(x' & Q' & ->)]; cbn [consistent]; auto; intros X;
      destruct (U X) as [-> ->]; congruence.
Qed.
Lemma knn_cells b i : i < n -> sized (n * kn) b -> (forall w, In w (knn_writes i) -> cell_holds b w) ->
  slice (k_indices b) (i * kn) (i * kn + kn) = indices (knn_of i) /\ slice (k_sq_dists b) (i * kn) (i * kn + kn) = distances (knn_of i).
Proof using W Hk. try clear Hn.
  intros Hi [Z1 Z2] H. destruct (knn_of_ok i) as (_ & LI & LD & _ & _).
  assert (K : forall j x d, nth_error (indices (knn_of i)) j = Some x -> nth_error (distances (knn_of i)) j = Some d ->
    nth_error (k_indices b) (i * kn + j) = Some x /\ nth_error (k_sq_dists b) (i * kn + j) = Some d).
  { intros j x d Ex Ed. assert (Lj : j < kn) by (rewrite <- LI; apply nth_error_Some; congruence).
    assert (C : In (j, (x, d)) (combine (seq 0 kn) (combine (indices (knn_of i)) (distances (knn_of i))))).
    { apply (nth_error_In _ j). apply combine_nth_error. split; [|apply combine_nth_error; auto].
      rewrite (nth_error_nth' _ 0) by (rewrite seq_length; exact Lj). rewrite seq_nth by exact Lj. reflexivity. }
    assert (X : forall w, In w [WIndex (i * kn + j) x; WDist (i * kn + j) d] -> cell_holds b w).
    { intros w Hw. apply H. unfold knn_writes. apply in_or_app. left. apply in_flat_map. eexists. split; [exact C|exact Hw]. }
    split; [apply (X (WIndex (i * kn + j) x)); cbn; auto|apply (X (WDist (i * kn + j) d)); cbn; auto]. }
  assert (QK : i * kn + kn - i * kn = kn) by (rewrite Nat.add_comm; apply Nat.add_sub).
  split; apply nth_error_ext; intros j; rewrite nth_error_slice, QK; destruct (Nat.ltb_spec j kn) as [Lj|Lj].
  2: symmetry; apply nth_error_None; exact (Nat.le_trans _ _ _ (Nat.eq_le_incl _ _ LI) Lj).
  3: symmetry; apply nth_error_None; exact (Nat.le_trans _ _ _ (Nat.eq_le_incl _ _ LD) Lj).
  all: destruct (nth_error (indices (knn_of i)) j) as [x|] eqn:Ex; [|apply nth_error_None in Ex; exact (False_ind _ (Nat.lt_irrefl _ (Nat.lt_le_trans _ _ _ Lj (Nat.le_trans _ _ _ (Nat.eq_le_incl _ _ (eq_sym LI)) Ex)))) ].
  all: destruct (nth_error (distances (knn_of i)) j) as [d|] eqn:Ed; [|apply nth_error_None in Ed; exact (False_ind _ (Nat.lt_irrefl _ (Nat.lt_le_trans _ _ _ Lj (Nat.le_trans _ _ _ (Nat.eq_le_incl _ _ (eq_sym LD)) Ed)))) ].
  - apply (K j x d Ex Ed).
  - exact (eq_trans (proj2 (K j x d Ex Ed)) (eq_sym Ed)).
Qed.
Lemma rows_of_nth {A} (l : list A) i c : i < c -> nth_error (rows_of c kn l) i = Some (slice l (i * kn) (i * kn + kn)).
Proof using.
  clear. intros H. unfold rows_of. rewrite nth_error_map. rewrite (nth_error_nth' _ 0) by (rewrite seq_length; exact H).
  rewrite seq_nth by exact H. reflexivity.
Qed.
Lemma batch_knn_rows o : py_batch_knn order kd a k o ->
  exists idx dst, o = Ok (Returned (idx, dst)) /\ length idx = n /\ length dst = n /\
    forall i r, nth_error (m_rows a) i = Some r ->
      nth_error idx i = Some (indices (knn_of i)) /\ nth_error dst i = Some (distances (knn_of i)).
Proof using W Wa Hk Hn.
  unfold py_batch_knn. rewrite (shape_wf a Wa). destruct (Z.ltb_spec k 0); [lia|]. intros (e & L & ->). destruct knn_side as [S1 S2].
  destruct (batch_ends n (n * kn) _ knn_writes e knn_writes_ok S1 S2 L) as (b & -> & Z & H1). cbn [bind].
  eexists _, _. split; [reflexivity|]. unfold rows_of at 1 2. rewrite !map_length, !seq_length. split; [reflexivity|]. split; [reflexivity|].
  intros i r Er. assert (Hi : i < n) by (apply nth_error_Some; congruence).
  destruct (knn_cells b i Hi Z (fun w Hw => H1 i w Hi Hw)) as [A1 A2]. rewrite !rows_of_nth by exact Hi. rewrite A1, A2. auto.
Qed.
Lemma batch_knn_ends : exists o, py_batch_knn order kd a k o.
Proof using W Wa Hk Hn.
  unfold py_batch_knn. rewrite (shape_wf a Wa). destruct (Z.ltb_spec k 0); [lia|]. destruct knn_side as [S1 S2].
  destruct (batch_can_end n (n * kn) _ knn_writes knn_writes_ok S1 S2) as (e & He). eauto.
Qed.
End Batch.

(** ** Views *)
Lemma rows_total (ps : list (vec4 Fnum)) : mapM (fun i => let* p := get ps i in Ok (row4 p)) (seq 0 (length ps)) = Ok (map row4 ps).
Proof.
  rewrite (mapM_map _ (fun i => row4 (nth i ps vzero))).
  - rewrite map_seq_nth. reflexivity.
  - intros i Hi. apply in_seq in Hi. unfold get. rewrite (nth_error_nth' ps vzero) by lia. reflexivity.
Qed.
Lemma points_total (c : cloud Ffld) : cl_points c <> [] -> py_points c = Ok (mkMatrix 4 (map row4 (cl_points c))).
Proof.
  destruct c as [ps ns cs]. cbn [cl_points]. intros N0. unfold py_points. cbn [cl_points].
  destruct ps as [|p ps]; [now destruct N0|]. cbn [get nth_error bind].
  pose proof (rows_total (p :: ps)) as R. etransitivity; [|exact (f_equal (fun o => let* rows := o in Ok (mkMatrix 4 rows)) R)]. reflexivity.
Qed.
