(** C60 in double precision: an exact alignment is kept whatever the rounding. *)
From Coq Require Import Reals ZArith Lra Lia.
From Flocq Require Import Core IEEE754.BinarySingleNaN.
From Verif Require Import Base BaseProofs NthElement Num Vec F64 F64Proofs F64Err Lin FactorModel ReduceModel KnnModel KdModel KdSpec KdF64 KdThms
  OptModel HelperModel HelperSpec HelperProofs RegSafe Prop_Helper Prop_KdTree FloorModel SortSpec VoxModel VoxSpec VoxPar VmapModel EstModel Prop_Vox PipeSample EstF64Spec PipeEst PipeModel PipeSpec PipeProofs PipeRun Prop_Pipe NanMap Prop_Nan
  KeepF64Spec KeepF64 KeepRun.
Open Scope nat_scope.

Lemma nearest_search (ne : (nat -> nat -> bool) -> nat -> list nat -> list nat) order (c : cloud Ffld) tree q : nth_element_contract ne -> full_sum order ->
  (forall p, In p (cl_points c) -> vfinite p) -> kd_wf_f64 (cl_points c) 20 tree -> vfinite q ->
  exists found, tree_nn order c tree q = Ok found /\ nearest_in (fsqd order) (cl_points c) q found.
Proof.
  intros NE FS. pose (z := f64_of 0 0). pose (v := @V4 Ffld z z z z).
  apply (nearest_tree X86 isort isort ne order (fun m => m) (fun _ => z) z v v (pose_mat pose_id) (one_thread_lin Ffld) (one_thread_err Ffld)
    (drive_sample X86 isort v (pose_mat pose_id)) (fun c tree k _ => estimate_all order (fun m => m) (fun _ => z) z v v (pose_mat pose_id) c tree k)).
  destruct (C52_environment X86 (fun m => m) (fun _ => z) z v v (pose_mat pose_id)) as [A B _ _ C D _].
  split; try assumption. intros. apply estimate_all_ok.
Qed.

Section Kept.
Context (ne : (nat -> nat -> bool) -> nat -> list nat -> list nat) (order : sumtree).
Context (default_criteria : criteria Ffld) (init_lambda lambda_factor : f64).
Context (solve : m6 Ffld -> v6 Ffld -> v6 Ffld) (exp6 : v6 Ffld -> pose Ffld).
Context (omp_lin : nat -> (nat -> factor Ffld -> outcome (factor Ffld * option (sys Ffld))) ->
                   list (factor Ffld) -> outcome (list (factor Ffld) * sys Ffld)).
Context (omp_err : nat -> (factor Ffld -> outcome f64) -> list (factor Ffld) -> outcome f64).
Context (NE : nth_element_contract ne) (FS : full_sum order) (RT : omp_runtime Ffld omp_lin omp_err).
Context (SZ : answers_zero solve) (EZ : zero_to_identity exp6) (LB : upto 124 init_lambda).

(** Settings with at least one thread and iteration and thresholds that are not negative. *)
Definition sensible (s : setting Ffld) : Prop :=
  (1 <= s_num_threads s)%Z /\ (1 <= s_max_iterations s)%Z /\
  f64_le (f64_of 0 0) (s_translation_eps s) = true /\ f64_le (f64_of 0 0) (s_rotation_eps s) = true.

(** If every source point, moved by the initial guess in double arithmetic, has the coordinates
    of a target point, then the guess comes back (up to the signs of zeros), converged in the
    first iteration, with every source point an inlier, gradient zero and error zero. *)
Theorem C60_kept_in_doubles : forall s k target source init_T,
  kind_of (s_type s) = Some k -> sensible s -> complete target source ->
  lands_exactly target source init_T -> told_apart target source init_T -> in_range k target source init_T ->
  exists r log,
    align_prepared ne order default_criteria init_lambda lambda_factor solve exp6 omp_lin omp_err s target source init_T = Ok (r, log) /\
    kept64 init_T (length (cl_points source)) r.
Proof using NE FS RT SZ EZ LB.
  intros s k target source init_T Ek (Th & It & Te & Re) (TR & LN & LC & LS) LE AP IR. destruct RT as [OL OE].
  unfold align_prepared. destruct (build_ok ne NE order target TR) as (tree & Eb & W). rewrite Eb. cbn [bind].
  assert (FT : forall q : vec4 Fnum, In q (cl_points target) -> vfinite q) by apply TR.
  assert (X : exists r log, registration_align solve exp6 omp_lin omp_err k (configured default_criteria init_lambda lambda_factor s)
      (cloud_viewN target) source (tree_nn order target tree) init_T = Ok (r, log) /\ kept64 init_T (length (cl_points source)) r).
  { apply (align_kept solve exp6 SZ EZ omp_lin omp_err OL OE k _ target source init_T (s_max_correspondence_distance s) order); auto.
    - intros _. rewrite LN. apply le_n.
    - intros _. rewrite LC. auto.
    - intros q Hq. apply (nearest_search ne order target tree q NE FS); assumption.
    - cbn. lia. }
  unfold align_tree. destruct (s_type s); try discriminate Ek; injection Ek as <-; exact X.
Qed.

(** A cloud registered onto itself from the identity: the identity comes back. *)
Definition spread (c : cloud Ffld) : Prop :=
  forall p q : vec4 Fnum, In p (cl_points c) -> In q (cl_points c) ->
    apart (vx q) (vx p) /\ apart (vy q) (vy p) /\ apart (vz q) (vz p) /\ apart (vw q) (vw p).
Theorem C60_itself_in_doubles : forall s k c,
  kind_of (s_type s) = Some k -> sensible s -> complete c c -> spread c -> in_range k c c pose_id ->
  exists r log,
    align_prepared ne order default_criteria init_lambda lambda_factor solve exp6 omp_lin omp_err s c c (pose_id (D := Ffld)) = Ok (r, log) /\
    kept64 pose_id (length (cl_points c)) r.
Proof using NE FS RT SZ EZ LB.
  intros s k c Ek Ss C Sp IR. pose proof C as ((_ & Fc & _) & _).
  assert (ID : forall p : vec4 Fnum, In p (cl_points c) -> same4 (pose_pt (D := Ffld) pose_id p) p).
  { intros p Hp. destruct (Fc p Hp) as (A & B & D & E). apply identity_same; assumption. }
  apply (C60_kept_in_doubles s k c c pose_id Ek Ss C); [| |exact IR].
  - intros p Hp. exists p. split; [exact Hp|]. destruct (ID p Hp) as (A & B & D & E). split; [|split; [|split]]; apply same_sym; assumption.
  - intros p q Hp Hq m. destruct (ID p Hp) as (A & B & D & E). destruct (Sp p q Hp Hq) as (A' & B' & D' & E').
    assert (X : forall x y z, same z y -> apart x y -> apart x z).
    { intros x y z (F1 & F2 & F3) [S|L]; [left; apply (same_trans x y z S); split; auto|right; rewrite F3; exact L]. }
    split; [|split; [|split]]; eapply X; eassumption.
Qed.
End Kept.

(** * The hypotheses are met. *)
Open Scope R_scope.
Lemma two_pow a : (-1000 <= a <= 1000)%Z -> is_finite (f64_of 1 a) = true /\ B2R (f64_of 1 a) = bpow radix2 a.
Proof.
  intros L. unfold f64_of. pose proof (binary_normalize_correct 53 1024 _ _ mode_NE 1 a false) as C.
  assert (EF : F2R (Float radix2 1 a) = bpow radix2 a) by (unfold F2R; cbn [Defs.Fnum Fexp]; lra). rewrite EF in C.
  assert (Rd : round radix2 (SpecFloat.fexp 53 1024) (round_mode mode_NE) (bpow radix2 a) = bpow radix2 a)
    by (apply round_generic; [typeclasses eauto|apply generic_format_bpow; unfold SpecFloat.fexp, SpecFloat.emin; lia]).
  cbv zeta in C. rewrite Rd in C.
  rewrite Rlt_bool_true in C; [destruct C as (C1 & C2 & _); auto|]. rewrite Rabs_pos_eq by apply bpow_ge_0. apply bpow_lt. lia.
Qed.
Definition sameb (x y : f64) : bool := is_finite x && is_finite y && Beqb x y.
Lemma sameb_ok x y : sameb x y = true -> same x y.
Proof.
  unfold sameb. intros H. apply andb_prop in H. destruct H as [H E]. apply andb_prop in H. destruct H as [Fx Fy].
  rewrite Beqb_correct in E by assumption. split; [exact Fx|]. split; [exact Fy|].
  destruct (Req_bool_spec (B2R x) (B2R y)); [assumption|discriminate].
Qed.
Definition uptob (a : Z) (x : f64) : bool := is_finite x && f64_le (Babs x) (f64_of 1 a).
Lemma uptob_ok a x : (-1000 <= a <= 1000)%Z -> uptob a x = true -> upto a x.
Proof.
  intros L H. unfold uptob in H. apply andb_prop in H. destruct H as [F H]. destruct (two_pow a L) as [F2 E2].
  unfold f64_le in H. rewrite Bleb_correct in H; [|rewrite is_finite_Babs; exact F|exact F2].
  rewrite B2R_Babs, E2 in H. split; [exact F|]. destruct (Rle_bool_spec (Rabs (B2R x)) (bpow radix2 a)); [assumption|discriminate].
Qed.
Definition apartb (x y : f64) : bool := sameb x y || (is_finite x && is_finite y && is_finite (f64_sub x y) && f64_le (f64_of 1 (-499)) (Babs (f64_sub x y))).
Lemma apartb_ok x y : apartb x y = true -> apart x y.
Proof.
  unfold apartb. intros H. apply orb_prop in H. destruct H as [H|H]; [left; apply sameb_ok, H|right].
  apply andb_prop in H. destruct H as [H G]. apply andb_prop in H. destruct H as [H Fd]. apply andb_prop in H. destruct H as [Fx Fy].
  destruct (two_pow (-499) ltac:(lia)) as [F2 E2].
  unfold f64_le in G. rewrite Bleb_correct in G; [|exact F2|rewrite is_finite_Babs; exact Fd].
  rewrite B2R_Babs, E2 in G. destruct (Rle_bool_spec (bpow radix2 (-499)) (Rabs (B2R (f64_sub x y)))) as [G'|]; [clear G|discriminate].
  apply Rnot_lt_le. intros Lt. apply Rlt_le in Lt.
  destruct (sub_finite x y (-500) Fx Fy ltac:(lia) Lt) as [_ E]. rewrite E in G'.
  pose proof (rnd_small _ (-500) ltac:(lia) Lt) as S. pose proof (bpow_lt radix2 (-500) (-499) ltac:(lia)). lra.
Qed.

(** Seven points on a target that is the same cloud turned by a quarter and shifted. *)
Definition turned : pose Ffld :=
  let o := f64_of 0 0 in let i := f64_of 1 0 in let j := f64_of (-1) 0 in
  mkPose (D := Ffld) (M3 (D := Ffld) (P3 (D := Ffld) o j o) (P3 (D := Ffld) i o o) (P3 (D := Ffld) o o i))
    (P3 (D := Ffld) (f64_of 1 (-1)) (f64_of 2 0) (f64_of 3 0)).
Definition moved7 : list (vec4 Fnum) := map (pose_pt (D := Ffld) turned) cloud7.
Definition lands_b (target source : list (vec4 Fnum)) (T : pose Ffld) : bool :=
  forallb (fun p : vec4 Fnum => let m : vec4 Fnum := pose_pt (D := Ffld) T p in
    existsb (fun q : vec4 Fnum => sameb (vx q) (vx m) && sameb (vy q) (vy m) && sameb (vz q) (vz m) && sameb (vw q) (vw m)) target) source.
Definition apart_b (target source : list (vec4 Fnum)) (T : pose Ffld) : bool :=
  forallb (fun p : vec4 Fnum => let m : vec4 Fnum := pose_pt (D := Ffld) T p in
    forallb (fun q : vec4 Fnum => apartb (vx q) (vx m) && apartb (vy q) (vy m) && apartb (vz q) (vz m) && apartb (vw q) (vw m)) target) source.
Definition all3b (f : f64 -> bool) (v : v3 Ffld) : bool := f (p0 v) && f (p1 v) && f (p2 v).
Definition allmb (f : f64 -> bool) (a : m3 Ffld) : bool := all3b f (r0 a) && all3b f (r1 a) && all3b f (r2 a).
Definition range_b (target source : cloud Ffld) (T : pose Ffld) : bool :=
  forallb (fun p => all3b (uptob 20) (head p) && is_finite (vw p : f64)) (cl_points source) &&
  allmb (uptob 2) (rot T) && all3b (fun x => is_finite x) (tra T) &&
  forallb (fun p => all3b (uptob 10) (head p) && is_finite (vw p : f64)) (cl_normals target) &&
  forallb (fun ct => forallb (fun cs => allmb (uptob 40) (maha_of T ct cs)) (cl_covs source)) (cl_covs target).
Lemma all3b_ok f (P : f64 -> Prop) v : (forall x, f x = true -> P x) -> all3b f v = true -> all3 P v.
Proof. intros H E. unfold all3b in E. apply andb_prop in E. destruct E as [E E2]. apply andb_prop in E. destruct E as [E0 E1]. split; [|split]; auto. Qed.
Lemma allmb_ok f (P : f64 -> Prop) v : (forall x, f x = true -> P x) -> allmb f v = true -> allm P v.
Proof.
  intros H E. unfold allmb in E. apply andb_prop in E. destruct E as [E E2]. apply andb_prop in E. destruct E as [E0 E1].
  split; [|split]; eapply all3b_ok; eauto.
Qed.
Lemma range_ok k target source T : (Z.of_nat (length (cl_points source)) < 2 ^ 32)%Z -> range_b target source T = true -> in_range k target source T.
Proof.
  intros L E. unfold range_b in E. apply andb_prop in E. destruct E as [E E4]. apply andb_prop in E. destruct E as [E E3].
  apply andb_prop in E. destruct E as [E E2]. apply andb_prop in E. destruct E as [E0 E1].
  rewrite forallb_forall in E0, E3, E4.
  assert (U : forall a x, (-1000 <= a <= 1000)%Z -> uptob a x = true -> upto a x) by (intros; apply uptob_ok; assumption).
  split; [|split; [|split; [|split]]].
  - intros p Hp. specialize (E0 p Hp). apply andb_prop in E0. destruct E0 as [A B]. split; [|exact B]. eapply all3b_ok; [|exact A]. intros. apply U; [lia|assumption].
  - eapply allmb_ok; [|exact E1]. intros. apply U; [lia|assumption].
  - eapply all3b_ok; [|exact E2]. auto.
  - destruct k; [exact I| |].
    + intros p Hp. specialize (E3 p Hp). apply andb_prop in E3. destruct E3 as [A B]. split; [|exact B]. eapply all3b_ok; [|exact A]. intros. apply U; [lia|assumption].
    + intros i j ct cs Ei Ej. specialize (E4 ct (nth_error_In _ _ Ei)). rewrite forallb_forall in E4. specialize (E4 cs (nth_error_In _ _ Ej)).
      eapply allmb_ok; [|exact E4]. intros. apply U; [lia|assumption].
  - exact L.
Qed.
Lemma lands_ok (target source : cloud Ffld) T : lands_b (cl_points target) (cl_points source) T = true -> lands_exactly target source T.
Proof.
  intros E p Hp. unfold lands_b in E. rewrite forallb_forall in E. specialize (E p Hp). cbv zeta in E. apply existsb_exists in E.
  destruct E as (q & Hq & E). exists q. split; [exact Hq|]. apply andb_prop in E. destruct E as [E E3]. apply andb_prop in E. destruct E as [E E2].
  apply andb_prop in E. destruct E as [E0 E1]. split; [|split; [|split]]; apply sameb_ok; assumption.
Qed.
Lemma apart_ok (target source : cloud Ffld) T : apart_b (cl_points target) (cl_points source) T = true -> told_apart target source T.
Proof.
  intros E p q Hp Hq m. unfold apart_b in E. rewrite forallb_forall in E. specialize (E p Hp). cbv zeta in E. rewrite forallb_forall in E. specialize (E q Hq).
  apply andb_prop in E. destruct E as [E E3]. apply andb_prop in E. destruct E as [E E2].
  apply andb_prop in E. destruct E as [E0 E1]. split; [|split; [|split]]; apply apartb_ok; assumption.
Qed.
Example C60_doubles_setup : forall k,
  complete (with_covs moved7) (with_covs cloud7) /\ lands_exactly (with_covs moved7) (with_covs cloud7) turned /\
  told_apart (with_covs moved7) (with_covs cloud7) turned /\ in_range k (with_covs moved7) (with_covs cloud7) turned.
Proof.
  intros k. split; [|split; [|split]].
  - split; [|split; [reflexivity|split; [reflexivity|apply le_n]]]. split; [discriminate|]. split; [|vm_compute; discriminate].
    assert (V : forallb (fun p : vec4 Fnum => is_finite (vx p) && is_finite (vy p) && is_finite (vz p) && is_finite (vw p)) moved7 = true) by (vm_compute; reflexivity).
    intros p Hp. rewrite forallb_forall in V. specialize (V p Hp). apply andb_prop in V. destruct V as [V V3].
    apply andb_prop in V. destruct V as [V V2]. apply andb_prop in V. destruct V as [V0 V1]. split; [|split; [|split]]; assumption.
  - apply lands_ok. vm_compute. reflexivity.
  - apply apart_ok. vm_compute. reflexivity.
  - apply range_ok; [vm_compute; reflexivity|]. vm_compute. reflexivity.
Qed.
Example C60_itself_setup : forall k, complete (with_covs cloud7) (with_covs cloud7) /\ spread (with_covs cloud7) /\ in_range k (with_covs cloud7) (with_covs cloud7) pose_id.
Proof.
  intros k. split; [|split].
  - split; [exact cloud7_ready|]. split; [reflexivity|]. split; [reflexivity|]. apply le_n.
  - intros p q Hp Hq.
    assert (V : forallb (fun p : vec4 Fnum => forallb (fun q : vec4 Fnum => apartb (vx q) (vx p) && apartb (vy q) (vy p) && apartb (vz q) (vz p) && apartb (vw q) (vw p)) cloud7) cloud7 = true) by (vm_compute; reflexivity).
    rewrite forallb_forall in V. specialize (V p Hp). rewrite forallb_forall in V. specialize (V q Hq).
    apply andb_prop in V. destruct V as [V V3]. apply andb_prop in V. destruct V as [V V2]. apply andb_prop in V. destruct V as [V0 V1].
    split; [|split; [|split]]; apply apartb_ok; assumption.
  - apply range_ok; [vm_compute; reflexivity|]. vm_compute. reflexivity.
Qed.
(** A solver and an exponential map that meet their contracts and do move elsewhere. *)
Example C60_doubles_solver : answers_zero (fun _ b => b) /\
  zero_to_identity (fun d => mkPose (D := Ffld) id3 (tv d)) /\ upto 124 (f64_of 1 (-10)) /\ sensible (demo_setting TypeGICP 2).
Proof.
  split; [|split; [|split]].
  - intros H b _ Z. exact Z.
  - intros d [_ ((A & A') & (B & B') & (C & C'))].
    assert (O : same (f64_of 1 0) (f64_of 1 0)) by (apply same_refl; reflexivity). assert (Z : same (B754_zero false) (B754_zero false)) by (apply same_refl; reflexivity).
    split; [|split; [|split]]; (split; [|split]); cbn [rot tra pose_id p0 p1 p2 r0 r1 r2 id3 diag3 zero3]; try exact O; try exact Z; (split; [assumption|]; split; [reflexivity|assumption]).
  - apply uptob_ok; [lia|]. vm_compute. reflexivity.
  - split; [cbn; lia|]. split; [cbn; lia|]. split; vm_compute; reflexivity.
Qed.
Example C60_doubles_runs : forall ty, kind_of ty <> None -> exists r log,
  align_prepared sort_nth_element eigen_order (@mkCriteria Ffld (f64_of 1 0) (f64_of 1 0)) (f64_of 1 (-10)) (f64_of 10 0)
    (fun _ b => b) (fun d => mkPose (D := Ffld) id3 (tv d)) (one_thread_lin Ffld) (one_thread_err Ffld) (demo_setting ty 2)
    (with_covs moved7) (with_covs cloud7) turned = Ok (r, log) /\ kept64 turned 7 r.
Proof.
  intros ty K. destruct (kind_of ty) as [k|] eqn:Ek; [|now destruct K]. destruct C60_doubles_solver as (A & B & C & D).
  destruct (C60_doubles_setup k) as (S1 & S2 & S3 & S4).
  apply (C60_kept_in_doubles sort_nth_element eigen_order _ _ _ _ _ _ _ sort_nth_element_contract eigen_order_full (C43_runtime_exists Ffld) A B C (demo_setting ty 2) k); auto.
Qed.

Print Assumptions C60_kept_in_doubles.
Print Assumptions C60_itself_in_doubles.
Print Assumptions C60_doubles_runs.
