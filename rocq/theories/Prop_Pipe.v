(** C52: registering two vectors of raw points, end to end in double precision. *)
From Coq Require Import Reals.
From Flocq Require Import Core IEEE754.BinarySingleNaN.
From Verif Require Import Base BaseProofs NthElement Num Vec F64 F64Proofs FloorModel Lin FactorModel FactorProofs ReduceModel KnnModel KdModel KdSpec KdF64 KdThms SortSpec VoxModel VoxSpec VoxPar
  VmapModel EstModel OptModel OptSpec OptProofs HelperModel HelperSpec HelperProofs RegSafe Prop_Vox Prop_Helper Prop_KdTree
  PipeModel PipeSpec PipeSample PipeProofs PipeRun EstF64Spec PipeEst.
Open Scope nat_scope.

Lemma f64_lt_irrefl x : nlt (n := Fnum) x x = false.
Proof.
  cbn [nlt Fnum]. destruct (is_finite x) eqn:F.
  - unfold f64_lt. rewrite Bltb_correct by exact F. apply Rlt_bool_false. apply Rle_refl.
  - destruct x as [| [|] | |]; try reflexivity; discriminate.
Qed.

Section Env.
Context (m : int_mode) (sort sort_omp : forall A : Type, (A -> A -> bool) -> list A -> list A).
Context (ne : (nat -> nat -> bool) -> nat -> list nat -> list nat) (order : sumtree).
Context (eig : m3 Ffld -> m3 Ffld) (of_nat : nat -> f64) (milli : f64) (jp jn : vec4 Ffld) (jc : m4 Ffld).
Context (default_criteria : criteria Ffld) (init_lambda lambda_factor : f64).
Context (solve : m6 Ffld -> v6 Ffld -> v6 Ffld) (exp6 : v6 Ffld -> pose Ffld).
Context (omp_lin : nat -> (nat -> factor Ffld -> outcome (factor Ffld * option (sys Ffld))) ->
                   list (factor Ffld) -> outcome (list (factor Ffld) * sys Ffld)).
Context (omp_err : nat -> (factor Ffld -> outcome f64) -> list (factor Ffld) -> outcome f64).
Context (sample_omp : Z -> f64 -> cloud Ffld -> outcome (cloud Ffld)).
Context (estimate_omp : cloud Ffld -> kdtree Fnum nat -> Z -> Z -> outcome (cloud Ffld)).

(** The library functions meet their contracts and the parallel loops run under some schedule. *)
Record environment : Prop := mkEnvironment {
  e_sort : sort_contract sort; e_sort_omp : sort_contract sort_omp;
  e_nth_element : nth_element_contract ne; e_sum : full_sum order;
  e_runtime : omp_runtime Ffld omp_lin omp_err;
  e_sample : forall threads resolution c, sampled_omp m sort_omp jn jc resolution c (sample_omp threads resolution c);
  e_estimate : forall c tree k threads, (1 <= threads)%Z ->
    estimated_omp order eig of_nat milli jp jn jc c tree k (estimate_omp c tree k threads)
}.

(** align(target, source, init_T, setting) on vectors of points. *)
Definition register (s : setting Ffld) (target source : list (vec4 Fnum)) (init_T : pose Ffld) :=
  align_points (D := Ffld) default_criteria init_lambda lambda_factor solve exp6 omp_lin omp_err
    (sample m sort jn jc) sample_omp (build ne) (tree_nn order)
    (estimate_all order eig of_nat milli jp jn jc) estimate_omp (voxelmap m order of_nat)
    s (mkCloud (D := Ffld) target [] []) (mkCloud (D := Ffld) source [] []) init_T.

(** Raw points the library can take: homogeneous, few enough for 32-bit node indices, some of
    them inside the voxel grid, all of them if more than one thread is asked for. *)
Record raw_ok (s : setting Ffld) (points : list (vec4 Fnum)) : Prop := mkRaw {
  r_resolution : moderate (per_unit (s_downsampling_resolution s));
  r_safe : forall p, In p points -> safe m (per_unit (s_downsampling_resolution s)) p;
  r_homogeneous : forall p, In p points -> homogeneous p;
  r_length : (N.of_nat (length points) <= 4294967295)%N;
  r_some : exists p, In p points /\ in_grid (per_unit (s_downsampling_resolution s)) p;
  r_all : s_num_threads s <> 1%Z -> forall p, In p points -> in_grid (per_unit (s_downsampling_resolution s)) p
}.

(** A registered cloud: the raw points summarised (one point per voxel when there is one thread)
    with a normal and a covariance for each, estimated from its ten nearest. *)
Record prepared (s : setting Ffld) (points : list (vec4 Fnum)) (c : cloud Ffld) : Prop := mkPrepared {
  p_points : summarised (per_unit (s_downsampling_resolution s)) points (cl_points c);
  p_once : s_num_threads s = 1%Z -> summarised_once (per_unit (s_downsampling_resolution s)) points (cl_points c);
  p_nonempty : cl_points c <> [];
  p_normals : length (cl_normals c) = length (cl_points c);
  p_covs : length (cl_covs c) = length (cl_points c);
  p_estimated : estimated (fsqd order) eig of_nat milli Both 10 c
}.

Context (E : environment).

Lemma preprocess_ok s points : raw_ok s points -> (1 <= s_num_threads s)%Z ->
  exists t tree,
    preprocess_points (D := Ffld) (sample m sort jn jc) sample_omp (build ne) (estimate_all order eig of_nat milli jp jn jc) estimate_omp
      (mkCloud (D := Ffld) points [] []) (s_downsampling_resolution s) 10 (s_num_threads s) = Ok (t, tree) /\
    prepared s points t /\ kd_wf_f64 (cl_points t) 20 tree /\ (forall p, In p (cl_points t) -> vfinite p) /\
    length (cl_points t) <= length points.
Proof.
  intros R Th. destruct R as [M HS HH HL HE HA]. set (inv := per_unit (s_downsampling_resolution s)) in *.
  assert (HZ : (Z.of_nat (length points) <= 2 ^ 53)%Z) by lia.
  assert (Rest : forall out, summarised inv points out -> exists tree t', build ne (bare jn jc out) = Ok tree /\ kd_wf_f64 out 20 tree /\
    estimate_all order eig of_nat milli jp jn jc (bare jn jc out) tree 10 = Ok t' /\ cl_points t' = out /\ out <> [] /\
    (forall p, In p out -> vfinite p) /\ length out <= length points /\
    length (cl_normals t') = length out /\ length (cl_covs t') = length out /\ estimated (fsqd order) eig of_nat milli Both 10 t' /\
    forall o, estimated_omp order eig of_nat milli jp jn jc (bare jn jc out) tree 10 o -> o = Ok t').
  { intros out Su. destruct (summarised_length _ _ _ Su) as [SL SN]. specialize (SN HE).
    pose proof (summarised_finite _ _ _ Su) as SF.
    destruct (build_ok ne (e_nth_element E) order (bare jn jc out)) as (tree & Eb & W).
    { split; [exact SN|]. split; [exact SF|]. unfold INVALID_NODE. cbn [bare cl_points].
      change (length (A := vec4 (fbase Ffld)) out) with (length (A := vec4 Fnum) out). lia. }
    destruct (estimate_ok order eig of_nat milli jp jn jc (bare jn jc out) tree W) as (t' & Ee & Ep & En & Ec & Eo).
    exists tree, t'. repeat (split; [assumption|]). split; [|assumption].
    apply (estimate_exact order (e_sum E) eig of_nat milli jp jn jc Both 10 (bare jn jc out) t' tree SF W); [lia|exact Ee]. }
  unfold preprocess_points. destruct (Z.eqb_spec (s_num_threads s) 1) as [T1|T1].
  - destruct (serial_summarised sort m inv points (e_sort E) M HS HH HZ HE) as (out & Es & So).
    destruct (Rest out (summarised_once_summarised _ _ _ So)) as (tree & t' & Eb & W & Ee & Ep & EN & EF & EL & En & Ec & Ex & Eo).
    exists t', tree. unfold sample. cbn [cl_points].
    change (inv_leaf (s_downsampling_resolution s)) with inv. rewrite Es. cbn [bind]. rewrite Eb. cbn [bind]. rewrite Ee. cbn [bind].
    split; [reflexivity|]. rewrite Ep. split; [|auto].
    split; rewrite ?Ep; auto. apply summarised_once_summarised. exact So.
  - destruct (omp_summarised m sort_omp (e_sort_omp E) jn jc (s_downsampling_resolution s) (mkCloud (D := Ffld) points [] [])
      (sample_omp 4%Z (s_downsampling_resolution s) (mkCloud (D := Ffld) points [] []))) as (out & -> & So); auto.
    { apply (e_sample E). }
    cbn [bind].
    destruct (Rest out So) as (tree & t' & Eb & W & Ee & Ep & EN & EF & EL & En & Ec & Ex & Eo).
    rewrite Eb. cbn [bind]. rewrite (Eo _ (e_estimate E _ tree 10%Z _ Th)). cbn [bind].
    exists t', tree. split; [reflexivity|]. rewrite Ep. split; [|auto].
    split; rewrite ?Ep; auto. intros; contradiction.
Qed.

Lemma nearest_tree (c : cloud Ffld) tree q : (forall p, In p (cl_points c) -> vfinite p) -> kd_wf_f64 (cl_points c) 20 tree -> vfinite q ->
  exists found, tree_nn order c tree q = Ok found /\ nearest_in (fsqd order) (cl_points c) q found.
Proof.
  intros Fi W Hq. destruct (tree_nn_exact order c c tree q (e_sum E) Fi W eq_refl Hq) as (res & (_ & G & S & L & B) & ->).
  eexists. split; [reflexivity|]. destruct res as [|[i d] [|e res]]; cbn [nearest_in].
  - intros p Hp. apply In_nth_error in Hp. destruct Hp as [j Ej].
    cbn [length] in L. destruct (nlt (n := Fnum) (fsqd order p q) nmaxv) eqn:K; auto. exfalso.
    pose proof (proj1 (nth_error_Some (A := vec4 Fnum) (cl_points c) j)) as Lj. rewrite Ej in Lj. specialize (Lj ltac:(discriminate)).
    assert (X : In j (filter (fun j => nlt (n := Fnum) (dist_to (fsqd order) (cl_points c) q j) nmaxv) (seq 0 (length (cl_points c))))).
    { apply filter_In. split; [apply in_seq; split; [apply Nat.le_0_l|exact Lj]|]. unfold dist_to.
      change (nth_error (A := vec4 (fbase Ffld)) (cl_points c) j) with (nth_error (A := vec4 Fnum) (cl_points c) j) in Ej. rewrite Ej. exact K. }
    destruct (filter _ _) in L, X; [destruct X|discriminate L].
  - destruct (G i d (or_introl eq_refl)) as (j & Lj & -> & Ed).
    destruct (nth_error (cl_points c) j) as [p|] eqn:Ej; [|apply nth_error_None in Ej; exfalso; apply (Nat.lt_irrefl j); eapply Nat.lt_le_trans; [exact Lj|exact Ej]].
    unfold dist_to in Ed. change (nth_error (A := vec4 (fbase Ffld)) (cl_points c) j) with (nth_error (A := vec4 Fnum) (cl_points c) j) in Ej. rewrite Ej in Ed.
    exists p. rewrite Nat2N.id. split; [exact Ej|]. split; [exact Ed|].
    intros p' Hp'. apply In_nth_error in Hp'. destruct Hp' as [j' Ej'].
    change (nth_error (A := vec4 (fbase Ffld)) (cl_points c) j') with (nth_error (A := vec4 Fnum) (cl_points c) j') in Ej'.
    destruct (Nat.eq_dec j' j) as [->|Nj].
    + pose proof (eq_trans (eq_sym Ej') Ej) as Q. injection Q as ->. rewrite Ed. apply f64_lt_irrefl.
    + pose proof (B j') as Bj. unfold dist_to in Bj.
      rewrite Ej' in Bj. apply (Bj) with (c := (N.of_nat j, d)); [| |left; reflexivity].
      * pose proof (proj1 (nth_error_Some (A := vec4 Fnum) (cl_points c) j')) as Lj'. rewrite Ej' in Lj'. apply Lj'. discriminate.
      * intros [X|[]]. apply Nat2N.inj in X. congruence.
  - exfalso. cbn [length] in L. lia.
Qed.

(** Whatever the solver, the exponential map, the eigenvectors, uninitialised memory and the
    schedules are: registration of raw points returns.  The clouds registered summarise the raw
    ones, the correspondence search finds nearest points, and the settings are honoured (the
    distance setting is not for VGICP, C43). *)
Theorem C52_register_total : forall s target source init_T,
  s_type s <> InvalidType -> (s_type s = TypeVGICP -> m = X86) -> (1 <= s_num_threads s)%Z ->
  raw_ok s target -> raw_ok s source ->
  exists r log t sc, register s target source init_T = Ok (r, log) /\
    prepared s target t /\ prepared s source sc /\
    match s_type s with
    | TypeVGICP => exists map nn, voxelmap m order of_nat t (s_voxel_resolution s) = Ok (map, nn) /\
        honoured GICP (s_num_threads s) map nn sc (f64_of 1 0)
          (s_rotation_eps s) (s_translation_eps s) (s_max_iterations s) init_T r log
    | ty => exists k nn, kind_of ty = Some k /\
        (forall q, vfinite q -> exists found, nn q = Ok found /\ nearest_in (fsqd order) (cl_points t) q found) /\
        honoured k (s_num_threads s) (cloud_viewN t) nn sc
          (f64_mul (s_max_correspondence_distance s) (s_max_correspondence_distance s))
          (s_rotation_eps s) (s_translation_eps s) (s_max_iterations s) init_T r log
    end.
Proof.
  intros s target source init_T Ty Vg Th RT RS.
  destruct (preprocess_ok s target RT Th) as (t & tree & Et & Pt & Wt & Ft & Lt).
  destruct (preprocess_ok s source RS Th) as (sc & tree' & Es & Ps & Ws & Fs & Ls).
  destruct (e_runtime E) as [OL OE].
  assert (X : exists r log, register s target source init_T = Ok (r, log)).
  { unfold register, align_points. rewrite Et. cbn [bind]. rewrite Es. cbn [bind].
    assert (U : forall k, HelperSpec.usable k (tree_nn order t tree) (cloud_viewN t) sc).
    { intros k. split; [intros _; rewrite (p_covs _ _ _ Ps); apply le_n|]. intros q.
      destruct (tree_nn_ok order t t tree q Wt eq_refl) as (found & Ef & B). exists found. split; [exact Ef|].
      destruct found as [[i d]|]; [|exact I]. cbn [cloud_viewN at_point at_normal at_cov].
      assert (Li : N.to_nat i < length (cl_points t)) by lia.
      split; [|split; intros _]; apply get_lt; rewrite ?(p_normals _ _ _ Pt), ?(p_covs _ _ _ Pt); exact Li. }
    destruct (s_type s) eqn:Ek; [| | | |congruence].
    1-3: unfold align_tree; rewrite Ek; apply (align_total solve exp6 omp_lin omp_err OL OE); [exact Th|apply U].
    specialize (Vg eq_refl). unfold voxelmap. rewrite Vg.
    destruct (gaussian_map_ok of_nat t (s_voxel_resolution s)) as (st & -> & MR).
    { rewrite (p_covs _ _ _ Pt). apply le_n. }
    { pose proof (r_length _ _ RT) as RL. set (n := length (cl_points t)) in *. set (n' := length target) in *.
      clearbody n n'. lia. }
    cbn [bind]. unfold align_voxelmap.
    apply (align_total solve exp6 omp_lin omp_err OL OE); [exact Th|].
    split; [intros _; rewrite (p_covs _ _ _ Ps); apply le_n|]. intros q.
    destruct (map_nn_ok order of_nat st (s_voxel_resolution s) q MR) as (found & Ef & B). exists found. split; [exact Ef|].
    destruct found as [[i d]|]; [|exact I]. destruct B as [B1 B2]. split; [exact B1|]. split; [discriminate|auto]. }
  destruct X as (r & log & X). exists r, log, t, sc. split; [exact X|]. split; [exact Pt|]. split; [exact Ps|].
  destruct (C43_vectors_honoured _ _ _ _ _ _ _ _ _ _ _ _ _ _ _ _ _ _ _ _ _ _ (conj OL OE) Th X) as (t1 & tr1 & sc1 & a1 & E1 & E2 & H).
  pose proof (eq_trans (eq_sym E1) Et) as Q1. pose proof (eq_trans (eq_sym E2) Es) as Q2.
  injection Q1 as -> ->. injection Q2 as -> ->.
  assert (NN : forall q, vfinite q -> exists found, tree_nn order t tree q = Ok found /\ nearest_in (fsqd order) (cl_points t) q found)
    by (intros q Hq; apply nearest_tree; auto).
  destruct (s_type s) eqn:Ek.
  1-3: destruct H as (k & Kk & H); exists k, (tree_nn order t tree); split; [exact Kk|]; split; [exact NN|exact H].
  - exact H.
  - contradiction.
Qed.

(** A registration all of whose first searches are undefined. *)
Lemma align_undefined k r target source nn init_T : (1 <= reg_num_threads r)%Z -> (1 <= lm_max_iterations (reg_optimizer r))%Z ->
  cl_points source <> [] -> (forall p, In p (cl_points source) -> nn (pose_pt init_T p) = UB) ->
  registration_align solve exp6 omp_lin omp_err k r target source nn init_T = UB.
Proof.
  intros Th It NE H. destruct (e_runtime E) as [OL _]. unfold registration_align, levenberg_marquardt.
  destruct (Z.to_nat (lm_max_iterations (reg_optimizer r))) as [|n] eqn:En; [lia|].
  cbn [lm_loop result_init r_converged r_T].
  set (lin := linearize nn (distance_rejector (reg_max_dist_sq r)) target (cloud_view source) k init_T).
  set (fs := initial_factors (length (cl_points source))).
  assert (L : length fs = length (cl_points source)) by apply repeat_length.
  assert (U : forall i f, i < length fs -> lin i f = UB).
  { intros i f Hi. unfold lin, linearize. cbn [cloud_view at_point].
    destruct (get_lt (cl_points source) i) as [p Ep]; [lia|]. rewrite Ep. cbn [bind].
    apply get_Ok in Ep. apply nth_error_In in Ep. rewrite (H p Ep). reflexivity. }
  assert (Tp : 0 < Z.to_nat (reg_num_threads r)) by lia.
  destruct (OL (Z.to_nat (reg_num_threads r)) lin fs Tp) as (e & R & C & Eo). rewrite Eo.
  assert (e = UB) as ->; [|reflexivity].
  assert (S : forall o, omp_step sys_add lin (Z.to_nat (reg_num_threads r)) (omp_init sys_zero (Z.to_nat (reg_num_threads r)) fs) o -> o = UB).
  { intros o St. remember (omp_init _ _ _) as st0 eqn:Q. destruct St as [fs1 accs l1 i l2 t Ht]. unfold omp_init in Q. injection Q as -> -> Q.
    destruct (get_lt (repeat (sys_zero (D := Ffld)) (Z.to_nat (reg_num_threads r))) t) as [a ->]; [rewrite repeat_length; exact Ht|]. cbn [bind].
    assert (Hi : i < length fs).
    { assert (In i (seq 0 (length fs))) as X by (rewrite <- Q; apply in_or_app; right; left; reflexivity). apply in_seq in X. lia. }
    unfold visit. destruct (get_lt fs i Hi) as [f ->]. cbn [bind]. rewrite (U i f Hi). reflexivity. }
  inversion R as [st0 E0 E1|st0 st1 o St R' E0 E1|st0 o St N E0 E1].
  - subst e. specialize (C _ eq_refl). unfold omp_init in C. cbn [o_todo] in C.
    destruct (cl_points source) as [|p ps]; [now destruct NE|]. rewrite L in C. discriminate.
  - apply S in St. discriminate.
  - apply S in St. exact St.
Qed.

Lemma empty_preprocessed s : (1 <= s_num_threads s)%Z -> exists t tree,
  preprocess_points (D := Ffld) (sample m sort jn jc) sample_omp (build ne) (estimate_all order eig of_nat milli jp jn jc) estimate_omp
    (mkCloud (D := Ffld) (@nil (vec4 Fnum)) [] []) (s_downsampling_resolution s) 10 (s_num_threads s) = Ok (t, tree) /\ t_root tree = None.
Proof.
  intros Th. unfold preprocess_points. destruct (s_num_threads s =? 1)%Z.
  - eexists _, _. split; [reflexivity|]. reflexivity.
  - assert (Q : sample_omp 4%Z (s_downsampling_resolution s) (mkCloud (D := Ffld) (@nil (vec4 Fnum)) [] []) = Ok (bare jn jc [])).
    { assert (X : forall st, creach (cinit (vec4 Fnum) vzero 0 []) st -> st = cinit (vec4 Fnum) vzero 0 []).
      { intros st R. remember (cinit (vec4 Fnum) vzero 0 []) as st0 eqn:Q. revert Q.
        induction R as [st|st st1 st2 w R IH W]; intros Q; auto. rewrite (IH Q), ?Q in W.
        unfold wstep in W. destruct w; discriminate W. }
      destruct (e_sample E 4%Z (s_downsampling_resolution s) (mkCloud (D := Ffld) (@nil (vec4 Fnum)) [] [])) as [(subs & st & Eb & R & [[Fi Eo]|(w & e & W & N & Eo)])|[N Eo]].
      - cbn in Eb. injection Eb as <-. apply X in R. subst st. exact Eo.
      - cbn in Eb. injection Eb as <-. apply X in R. subst st. unfold wstep in W. destruct w; discriminate W.
      - exfalso. apply (N []). reflexivity. }
    rewrite Q. cbn [bind]. change (build ne (bare jn jc [])) with (Ok (mkTree (D := Fnum) (P := nat) [] None [])). cbn [bind].
    match goal with |- context [estimate_omp ?a ?b ?c ?d] => destruct (e_estimate E a b c d Th) as (e & R & Fi & ->) end.
    assert (S : forall o, ~ par_step (D := Ffld) (tree_knn order (bare jn jc []) (mkTree (D := Fnum) (P := nat) [] None [])) eig of_nat milli Both (Z.to_nat 10) (par_init jp jn jc (bare jn jc [])) o).
    { intros o St. inversion St as [x1 l1 x2 l2 x3 E1|x1 x2 l1 x3 x4 l2 E1].
      - destruct l1; discriminate.
      - destruct l1; discriminate. }
    inversion R as [st0 E0 E1|st0 st1 o St R' E0 E1|st0 o St N E0 E1]; [|destruct (S _ St)..].
    cbn [bind]. eexists _, _. split; [reflexivity|]. reflexivity.
Qed.

(** An empty target is not reported: with an iteration allowed the search reads the nodes of a
    tree that has none, so every run is undefined. *)
Theorem C52_empty_target_refuted : forall s source init_T,
  kind_of (s_type s) <> None -> (1 <= s_num_threads s)%Z -> (1 <= s_max_iterations s)%Z -> raw_ok s source ->
  register s [] source init_T = UB.
Proof.
  intros s source init_T Ty Th It RS. unfold register, align_points.
  destruct (empty_preprocessed s Th) as (t & tree & -> & Et). cbn [bind].
  destruct (preprocess_ok s source RS Th) as (sc & tree' & -> & Ps & _). cbn [bind].
  assert (NN : forall q, tree_nn order t tree q = UB).
  { intros q. unfold tree_nn, KdModel.nearest_neighbor_search, KdModel.knn_search. cbn [bind knn_init]. rewrite Et. reflexivity. }
  unfold align_tree. destruct (s_type s) eqn:Ek; try (now destruct Ty).
  all: apply align_undefined; [exact Th|exact It|apply Ps|intros; apply NN].
Qed.

Lemma nan_add x y : is_nan y = true -> is_nan (f64_add x y) = true.
Proof. destruct y; try discriminate. destruct x as [[|]|[|]| |[|]]; reflexivity. Qed.
Lemma nan_mul x y : is_nan y = true -> is_nan (f64_mul x y) = true.
Proof. destruct y; try discriminate. destruct x as [[|]|[|]| |[|]]; reflexivity. Qed.

Lemma nan_mul_l x y : is_nan x = true -> is_nan (f64_mul x y) = true.
Proof. destruct x; try discriminate. destruct y as [[|]|[|]| |[|]]; reflexivity. Qed.

(** Outcomes that are results or undefined behaviour, not an abort. *)
Definition clean {A} (o : outcome A) : Prop := match o with Ok _ | UB => True | _ => False end.
Lemma bind_clean {A B} (o : outcome A) (f : A -> outcome B) : clean o -> (forall a, o = Ok a -> clean (f a)) -> clean (let* a := o in f a).
Proof. destruct o; cbn; auto. Qed.
Lemma get_clean {A} (l : list A) i : clean (get l i).
Proof. unfold get. destruct (nth_error l i); exact I. Qed.
Lemma set_clean {A} (l : list A) i x : clean (set l i x).
Proof. unfold set. destruct (i <? length l); exact I. Qed.
Lemma foldM_clean {A B} (f : B -> A -> outcome B) l : (forall b a, clean (f b a)) -> forall b, clean (foldM f l b).
Proof. intros H. induction l as [|a l IH]; intros b; cbn [foldM]; [exact I|]. apply bind_clean; auto. Qed.
Lemma mapM_clean {A B} (f : A -> outcome B) l : (forall a, clean (f a)) -> clean (mapM f l).
Proof. intros H. induction l as [|a l IH]; cbn [mapM]; [exact I|]. apply bind_clean; auto. intros. apply bind_clean; auto. intros; exact I. Qed.
Lemma int_result_clean mode z : clean (int_result mode z).
Proof. unfold int_result. destruct (in_int z); [|destruct mode]; exact I. Qed.
Lemma fast_floor_clean mode x : clean (fast_floor mode x).
Proof.
  unfold fast_floor. apply bind_clean; [|intros; apply int_result_clean].
  unfold cast_int. destruct (_ && _); [|destruct mode]; exact I.
Qed.
Lemma voxel_of_clean mode inv p : clean (voxel_of mode inv p).
Proof. unfold voxel_of. repeat (apply bind_clean; [apply fast_floor_clean|intros]). exact I. Qed.
Lemma gaussian_map_clean (c : cloud Ffld) resolution : clean (gaussian_map m of_nat c resolution).
Proof.
  unfold gaussian_map. apply bind_clean.
  - apply mapM_clean. intros i. repeat (apply bind_clean; [apply get_clean|intros]). exact I.
  - intros qs _. unfold VmapModel.insert. apply bind_clean.
    + apply foldM_clean. intros [flat idx] q. unfold insert_point. apply bind_clean; [apply voxel_of_clean|].
      intros co _. destruct (lookup idx co); (apply bind_clean; [apply get_clean|intros]); (apply bind_clean; [apply set_clean|intros]); exact I.
    + intros [flat idx] _. apply bind_clean; [|intros [f i] _; exact I].
      cbn [lru_clear_cycle new_map]. destruct (_ mod _ =? 0)%N; exact I.
Qed.

(** VGICP converts the transformed coordinates to int.  By the C++ standard that is undefined
    for a NaN: registration from such a pose is undefined, unlike for the other types (and
    unlike on x86, both above). *)
Theorem C52_vgicp_nan_pose_refuted : forall s target source (init_T : pose Ffld),
  m = Strict -> s_type s = TypeVGICP -> (1 <= s_num_threads s)%Z -> (1 <= s_max_iterations s)%Z ->
  raw_ok s target -> raw_ok s source -> is_nan (p0 (tra init_T) : f64) = true ->
  register s target source init_T = UB.
Proof.
  intros s target source init_T Em Ty Th It RT RS Nn. unfold register, align_points.
  destruct (preprocess_ok s target RT Th) as (t & tree & -> & _). cbn [bind].
  destruct (preprocess_ok s source RS Th) as (sc & tree' & -> & Ps & _). cbn [bind].
  rewrite Ty. unfold voxelmap. pose proof (gaussian_map_clean t (s_voxel_resolution s)) as Cl.
  destruct (gaussian_map m of_nat t (s_voxel_resolution s)) as [st| | |]; [|reflexivity|destruct Cl..]. cbn [bind].
  unfold align_voxelmap. apply align_undefined; [exact Th|exact It|apply Ps|].
  intros p _. unfold map_nn, VmapModel.nearest_neighbor_search, search_loop. cbn [bind knn_init].
  assert (V : voxel_of m (inv_leaf (s_voxel_resolution s)) (pose_pt init_T p) = UB).
  { rewrite Em. unfold voxel_of.
    match goal with |- (let* _ := fast_floor _ ?y in _) = _ => assert (X : is_finite y = false);
      [assert (is_nan y = true) as K; [|destruct y; auto; discriminate]|] end.
    { apply nan_mul_l. apply nan_add. apply nan_mul. exact Nn. }
    unfold fast_floor at 1, cast_int. rewrite X. reflexivity. }
  match goal with |- (let* r := (let* r0 := ?a in _) in _) = _ => destruct a as [r0| | |] eqn:E0; try discriminate E0 end. cbn [bind].
  rewrite V. reflexivity.
Qed.
End Env.

(** * The hypotheses are met. *)
Example C52_environment : forall m eig of_nat milli jp jn jc,
  environment m isort isort sort_nth_element eigen_order eig of_nat milli jp jn jc (one_thread_lin Ffld) (one_thread_err Ffld)
    (drive_sample m isort jn jc) (fun c tree k _ => estimate_all eigen_order eig of_nat milli jp jn jc c tree k).
Proof.
  intros. split.
  - apply isort_contract.
  - apply isort_contract.
  - apply sort_nth_element_contract.
  - apply eigen_order_full.
  - apply C43_runtime_exists.
  - intros. apply drive_sample_ok.
  - intros. apply estimate_all_ok.
Qed.

Definition demo_setting (ty : reg_type) (threads : Z) : setting Ffld :=
  @mkSetting Ffld ty (f64_of 1 0) (f64_of 1 2) (f64_of 1 0) (f64_of 1 (-4)) (f64_of 1 (-4)) threads 20 false.
Lemma cloud7_in_grid : forall p, In p cloud7 -> in_grid (inv_leaf (f64_of 1 2)) p.
Proof. intros p Hp. repeat destruct Hp as [<-|Hp]; try destruct Hp; apply in_grid_compute; vm_compute; reflexivity. Qed.
Lemma in_grid_safe m inv p : in_grid inv p -> safe m inv p.
Proof.
  intros (X & Y & Z & W). right.
  assert (A : forall x, in_axis inv x -> safe_axis inv x) by (intros x [F B]; split; [exact F|lia]). auto.
Qed.
Lemma quarter_inv : inv_leaf (f64_of 1 2) = f64_of 1 (-2).
Proof. apply B2SF_inj. vm_compute. reflexivity. Qed.
Example C52_raw : forall m ty threads, raw_ok m (demo_setting ty threads) cloud7.
Proof.
  intros m ty threads. split; cbn [demo_setting s_downsampling_resolution s_num_threads].
  - change (per_unit (f64_of 1 2)) with (inv_leaf (f64_of 1 2)). rewrite quarter_inv. split; [reflexivity|].
    assert (B2R (f64_of 1 (-2)) = bpow radix2 (-2)) as ->; [|apply bpow_le; lia].
    assert (f64_of 1 (-2) = @B754_finite 53 1024 false 4503599627370496 (-54) eq_refl) as -> by (apply B2SF_inj; vm_compute; reflexivity).
    unfold B2R, F2R. cbn [Fnum Defs.Fnum Fexp cond_Zopp]. change (bpow radix2 (-2)) with (bpow radix2 (52 + -54)). rewrite bpow_plus. reflexivity.
  - intros p Hp. apply in_grid_safe. apply cloud7_in_grid. exact Hp.
  - intros p Hp. repeat destruct Hp as [<-|Hp]; try destruct Hp; exact eq_refl.
  - vm_compute. discriminate.
  - exists (fpt 0 0 0). split; [left; reflexivity|]. apply cloud7_in_grid. left. reflexivity.
  - intros _. exact cloud7_in_grid.
Qed.

(** A run of each kind, with a solver that always answers zero: registering the cloud against
    itself finds all six voxels' points and converges in one iteration. *)
Definition zero_step (_ : m6 Ffld) (_ : v6 Ffld) : v6 Ffld := zero6.
Definition demo (ty : reg_type) (threads : Z) :=
  let u := f64_of 0 0 in let one := f64_of 1 0 in let e := @M3 Ffld (@P3 Ffld one u u) (@P3 Ffld u one u) (@P3 Ffld u u one) in
  let jn := @V4 Ffld u u u u in let jc := pose_mat pose_id in
  register X86 isort sort_nth_element eigen_order (fun _ => e) (fun n => f64_of (Z.of_nat n) 0) (f64_of 1 (-10)) jn jn jc
    (@mkCriteria Ffld one one) one one zero_step (fun _ => pose_id) (one_thread_lin Ffld) (one_thread_err Ffld)
    (drive_sample X86 isort jn jc) (fun c tree k _ => estimate_all eigen_order (fun _ => e) (fun n => f64_of (Z.of_nat n) 0) (f64_of 1 (-10)) jn jn jc c tree k)
    (demo_setting ty threads) cloud7 cloud7 pose_id.
Definition summary (o : outcome (result Ffld * list (event Ffld (factor Ffld)))) : option (bool * nat * nat) :=
  match o with Ok (r, log) => Some (r_converged r, r_inliers r, length log) | _ => None end.
Example C52_runs : map (fun x => summary (demo (fst x) (snd x))) [(TypeICP, 1%Z); (TypePlaneICP, 2%Z); (TypeGICP, 2%Z); (TypeVGICP, 1%Z)] =
  repeat (Some (true, 6, 2)) 4.
Proof. vm_compute. reflexivity. Qed.

Print Assumptions C52_register_total.
Print Assumptions C52_empty_target_refuted.
Print Assumptions C52_vgicp_nan_pose_refuted.
