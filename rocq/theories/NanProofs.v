(** Not-a-number values through the search, the factors, the reductions and the optimizer. *)
From Coq Require Import Reals ZArith ZifyBool ZifyNat ZifyN.
From Flocq Require Import IEEE754.BinarySingleNaN.
From Verif Require Import Base BaseProofs Num Vec Lin F64 F64Proofs KnnModel KdModel KdSpec KdProofs KdSearchProofs
  KdTop KdF64 KdThms FactorModel ReduceModel OptModel HelperModel PipeModel NanSpec.
Open Scope nat_scope.

(** * Arithmetic *)
Lemma nan_eq (x : f64) : isnan x -> x = B754_nan.
Proof. destruct x; try discriminate; reflexivity. Qed.
Lemma nan_add_l (x y : f64) : isnan x -> isnan (f64_add x y).
Proof. intros ->%nan_eq. destruct y; reflexivity. Qed.
Lemma nan_add_r (x y : f64) : isnan y -> isnan (f64_add x y).
Proof. intros ->%nan_eq. destruct x; reflexivity. Qed.
Lemma nan_sub_l (x y : f64) : isnan x -> isnan (f64_sub x y).
Proof. intros ->%nan_eq. destruct y; reflexivity. Qed.
Lemma nan_sub_r (x y : f64) : isnan y -> isnan (f64_sub x y).
Proof. intros ->%nan_eq. destruct x; reflexivity. Qed.
Lemma nan_mul_l (x y : f64) : isnan x -> isnan (f64_mul x y).
Proof. intros ->%nan_eq. destruct y; reflexivity. Qed.
Lemma nan_mul_r (x y : f64) : isnan y -> isnan (f64_mul x y).
Proof. intros ->%nan_eq. destruct x; reflexivity. Qed.
Lemma nan_fma (x y z : f64) : isnan x \/ isnan y \/ isnan z -> isnan (f64_fma x y z).
Proof.
  intros [->%nan_eq | [->%nan_eq | ->%nan_eq]].
  - destruct y, z; reflexivity.
  - destruct x, z; reflexivity.
  - destruct x as [s|s| |s m e B], y as [s'|s'| |s' m' e' B']; reflexivity.
Qed.
Lemma nan_le_r (x y : f64) : isnan y -> f64_le x y = false.
Proof. intros ->%nan_eq. destruct x; reflexivity. Qed.
Lemma nan_lt_r (x y : f64) : isnan y -> f64_lt x y = false.
Proof. intros ->%nan_eq. destruct x; reflexivity. Qed.

(** * Points *)
Lemma dot3_nan (a b : v3 Ffld) : isnan (p0 b) \/ isnan (p1 b) \/ isnan (p2 b) -> isnan (dot3 a b).
Proof.
  unfold dot3. intros [H|[H|H]].
  - apply nan_add_l, nan_add_l, nan_mul_r, H.
  - apply nan_add_l, nan_add_r, nan_mul_r, H.
  - apply nan_add_r, nan_mul_r, H.
Qed.
Lemma dot3_nan_l (a b : v3 Ffld) : isnan (p0 a) \/ isnan (p1 a) \/ isnan (p2 a) -> isnan (dot3 a b).
Proof.
  unfold dot3. intros [H|[H|H]].
  - apply nan_add_l, nan_add_l, nan_mul_l, H.
  - apply nan_add_l, nan_add_r, nan_mul_l, H.
  - apply nan_add_r, nan_mul_l, H.
Qed.

Lemma bad_moved (T : pose Ffld) (p : vec4 Ffld) : bad p -> bad (pose_pt T p).
Proof. intros H. left. apply nan_add_l. apply dot3_nan. exact H. Qed.

Lemma bad_pose_moved (T : pose Ffld) (p : vec4 Ffld) : bad_pose T -> bad (pose_pt T p).
Proof.
  intros [[H|[H|H]]|[H|[H|H]]].
  - left. apply nan_add_l, dot3_nan_l, H.
  - right. left. apply nan_add_l, dot3_nan_l, H.
  - right. right. apply nan_add_l, dot3_nan_l, H.
  - left. apply nan_add_r, nan_mul_r, H.
  - right. left. apply nan_add_r, nan_mul_r, H.
  - right. right. apply nan_add_r, nan_mul_r, H.
Qed.

Lemma bad_sub (a p : vec4 Ffld) : bad p -> bad (vsub a p).
Proof. intros [H|[H|H]]; [left|right; left|right; right]; apply nan_sub_r, H. Qed.
Lemma bad_mul (a p : vec4 Ffld) : bad p -> bad (vmul a p).
Proof. intros [H|[H|H]]; [left|right; left|right; right]; apply nan_mul_r, H. Qed.
Lemma bad_sqnorm (p : vec4 Ffld) : bad p -> isnan (sqnorm4 p).
Proof.
  intros [H|[H|H]].
  - apply nan_add_l, nan_add_l, nan_mul_l, H.
  - apply nan_add_l, nan_add_r, nan_mul_l, H.
  - apply nan_add_r, nan_add_l, nan_mul_l, H.
Qed.
Lemma bad_quad (M : m3 Ffld) (p : vec4 Ffld) : bad p -> isnan (quad M (head p)).
Proof. intros H. apply nan_mul_r, dot3_nan_l. exact H. Qed.

(** * Search *)
Lemma sum_nan (t : sumtree) (v : vec4 Fnum) : (exists i, In i (sum_leaves t) /\ isnan (vcomp v i)) ->
  isnan (sum_eval (D := Fnum) f64_fma t v).
Proof.
  intros (i & Hi & N). induction t as [j|l IHl r IHr|j t IH]; cbn [sum_eval sum_leaves] in *.
  - destruct Hi as [<-|[]]. apply nan_mul_l, N.
  - apply in_app_iff in Hi. destruct Hi; [apply nan_add_l|apply nan_add_r]; auto.
  - apply nan_fma. destruct Hi as [<-|Hi]; auto.
Qed.

Lemma fsqd_nan (order : sumtree) (p q : vec4 Fnum) : full_sum order -> bad (q : vec4 Ffld) -> isnan (fsqd order p q).
Proof.
  intros FS B. apply sum_nan. destruct B as [H|[H|H]].
  - exists 0. split; [apply (Permutation_in _ (Permutation_sym FS)); cbn; tauto|apply nan_sub_r, H].
  - exists 1. split; [apply (Permutation_in _ (Permutation_sym FS)); cbn; tauto|apply nan_sub_r, H].
  - exists 2. split; [apply (Permutation_in _ (Permutation_sym FS)); cbn; tauto|apply nan_sub_r, H].
Qed.

(** One result slot; [hit]: it holds a point of the cloud at a distance that is not a number. *)
Section Slot.
Context (n : nat).
Definition slot (r : knn_result Fnum) : Prop := static_n r = Some 1 /\ exists i d, indices r = [i] /\ distances r = [d].
Definition hit (r : knn_result Fnum) : Prop :=
  static_n r = Some 1 /\ num_found_neighbors r = 1 /\
  exists i d, indices r = [i] /\ distances r = [d] /\ (i < N.of_nat n)%N /\ isnan d.
Lemma hit_slot r : hit r -> slot r.
Proof. intros (A & _ & i & d & B & C & _). split; eauto. Qed.

Lemma push_nan r (i : N) (d : f64) : slot r -> (i < N.of_nat n)%N -> isnan d ->
  exists r', push (D := Fnum) r i d = Ok r' /\ hit r'.
Proof.
  intros (S1 & i0 & d0 & EI & ED) Hi Hd. unfold push, worst_distance, buffer_size. rewrite S1, ED, EI.
  cbn [get nth_error Nat.sub bind]. change (nle (n := Fnum) d0 d) with (f64_le d0 d).
  rewrite (nan_le_r d0 d Hd). cbn [set bind length Nat.ltb Nat.leb upd].
  eexists. split; [reflexivity|]. split; [reflexivity|]. split; [cbn [num_found_neighbors]; lia|].
  exists i, d. cbn. auto.
Qed.

Context (order : sumtree) (points : list (vec4 Fnum)) (query : vec4 Fnum) (FS : full_sum order).
Context (B : bad (query : vec4 Ffld)) (L : n = length points).

Lemma scan_nan sl : forall r, slot r -> 0 < length sl -> (forall j, In j sl -> j < length points) ->
  exists r', foldM (push_point Fnum (vec4 Fnum) (fsqd order) points query) sl r = Ok r' /\ hit r'.
Proof.
  induction sl as [|j sl IH]; intros r HS Hl Hj; [cbn in Hl; lia|]. cbn [foldM].
  unfold push_point at 1. destruct (get_lt points j (Hj j (or_introl eq_refl))) as [p ->]. cbn [bind].
  destruct (push_nan r (N.of_nat j) (fsqd order p query) HS) as (r1 & -> & H1).
  { specialize (Hj j (or_introl eq_refl)). lia. }
  { apply fsqd_nan; assumption. }
  cbn [bind]. destruct sl as [|j' sl].
  - exists r1. auto.
  - apply IH; [apply hit_slot, H1|cbn; lia|intros i Hi; apply Hj; right; exact Hi].
Qed.

Lemma asearch_nan (eps : f64) m t : forall r, slot r -> aleaves_le Fnum nat m t ->
  (forall j, In j (aelems Fnum nat t) -> j < length points) ->
  exists r' go, asearch Fnum (vec4 Fnum) (fsqd order) nat (axis_apply (D := Fnum)) points query eps t r = Ok (r', go) /\ hit r'.
Proof.
  induction t as [sl|proj th l IHl r0 IHr]; intros r HS HL Hj.
  - cbn [asearch]. destruct HL as [HL _]. destruct (scan_nan sl r HS HL Hj) as (r1 & -> & H1). cbn [bind].
    unfold fulfilled, worst_distance, buffer_size. pose proof H1 as (S1 & _ & i & d & _ & -> & _). rewrite S1.
    cbn. eexists _, _. split; [reflexivity|exact H1].
  - rewrite asearch_node. cbv zeta. destruct HL as [Ll Lr].
    assert (Hl : forall j, In j (aelems Fnum nat l) -> j < length points) by (intros; apply Hj; cbn; apply in_or_app; auto).
    assert (Hr : forall j, In j (aelems Fnum nat r0) -> j < length points) by (intros; apply Hj; cbn; apply in_or_app; auto).
    destruct (nlt (nsub (axis_apply (D := Fnum) proj query) th) nzero).
    + destruct (IHl r HS Ll Hl) as (r1 & go & -> & H1). cbn [bind].
      destruct go; cbn [negb]; [|exists r1, false; auto].
      unfold worst_distance, buffer_size. pose proof H1 as (S1 & _ & i & d & _ & ED & _). rewrite S1, ED.
      cbn [get nth_error Nat.sub bind]. destruct (nlt _ d); [|exists r1, true; auto].
      apply (IHr r1 (hit_slot r1 H1) Lr Hr).
    + destruct (IHr r HS Lr Hr) as (r1 & go & -> & H1). cbn [bind].
      destruct go; cbn [negb]; [|exists r1, false; auto].
      unfold worst_distance, buffer_size. pose proof H1 as (S1 & _ & i & d & _ & ED & _). rewrite S1, ED.
      cbn [get nth_error Nat.sub bind]. destruct (nlt _ d); [|exists r1, true; auto].
      apply (IHl r1 (hit_slot r1 H1) Ll Hl).
Qed.
End Slot.

Lemma tree_nn_nan (order : sumtree) (c : cloud Ffld) (leaf : Z) tree q : full_sum order ->
  kd_wf_f64 (cl_points c) leaf tree -> bad q ->
  exists i d, tree_nn order c tree q = Ok (Some (i, d)) /\ (i < N.of_nat (length (cl_points c)))%N /\ isnan d.
Proof.
  intros FS (t & root & ids & ER & RP & PM & _ & _ & _ & LV & DP & BN & BI) B.
  unfold tree_nn, KdModel.nearest_neighbor_search, knn_search.
  destruct (knn_init Fnum (Some 1) (-1)) as [r0| | |] eqn:E0; try discriminate.
  cbn [bind]. rewrite ER.
  rewrite (search_asearch Fnum (vec4 Fnum) (fsqd order) nat (axis_apply (D := Fnum)) (cl_points c) q (nzero (n := Fnum)) tree t _ _ _ _ _ _ RP BN BI) by lia.
  destruct (asearch_nan (length (cl_points c)) order (cl_points c) q FS B eq_refl (nzero (n := Fnum)) (size_t_of_int leaf) t r0) as (r & go & -> & H).
  - injection E0 as <-. split; [reflexivity|]. eexists _, _. split; reflexivity.
  - exact LV.
  - intros j Hj. destruct (rep_elems _ _ _ _ _ _ _ _ _ RP) as (_ & _ & SE). rewrite <- SE in Hj.
    assert (Hi : In j (t_indices tree)).
    { unfold slice in Hj. cbn [skipn] in Hj. rewrite <- (firstn_skipn (length (cl_points c) - 0)). apply in_or_app. left. exact Hj. }
    apply (Permutation_in _ (Permutation_sym PM)) in Hi. apply in_seq in Hi. lia.
  - cbn [bind]. destruct H as (_ & NF & i & d & EI & ED & Hi & Hd). exists i, d.
    unfold first_entry. rewrite NF, EI, ED. cbn. auto.
Qed.

(** * Factors *)
Lemma Ok_inj {A} (a b : A) : Ok a = Ok b -> a = b.
Proof. congruence. Qed.
Lemma linearize_nan nn (limit : f64) (target : view Ffld N) source k T si f f' r p q d :
  at_point source si = Ok p -> bad (pose_pt T p) -> nn (pose_pt T p) = Ok (Some (q, d)) -> isnan d ->
  linearize (D := Ffld) nn (distance_rejector (D := Ffld) limit) target source k T si f = Ok (f', r) ->
  exists s, r = Some s /\ isnan (se s).
Proof.
  intros Ep B En Nd H. unfold linearize in H. rewrite Ep in H. cbn [bind] in H. rewrite En in H. cbn [bind] in H.
  unfold distance_rejector in H. change (nlt (n := fbase Ffld) limit d) with (f64_lt limit d) in H.
  rewrite (nan_lt_r limit d Nd) in H. apply bind_Ok in H. destruct H as ([f1 s] & H & E).
  injection E as <- <-. exists s. split; [reflexivity|].
  unfold linearize_at, residual in H. rewrite Ep in H.
  destruct (at_point target q) as [a| | |]; try discriminate H. cbn [bind] in H.
  pose proof (bad_sub a _ B) as BR. destruct k.
  - apply Ok_inj, (f_equal snd) in H. cbn [snd] in H. subst s. cbn [se]. apply nan_mul_r, bad_sqnorm, BR.
  - destruct (at_normal target q) as [nv| | |]; try discriminate H. cbn [bind] in H.
    apply Ok_inj, (f_equal snd) in H. cbn [snd] in H. subst s. cbn [se]. apply nan_mul_r, bad_sqnorm, bad_mul, BR.
  - destruct (at_cov target q) as [ct| | |]; try discriminate H. cbn [bind] in H.
    destruct (at_cov source si) as [cs| | |]; try discriminate H. cbn [bind] in H.
    apply Ok_inj, (f_equal snd) in H. cbn [snd] in H. subst s. cbn [se]. apply bad_quad, BR.
Qed.

(** * Reductions *)
Section Poison.
Context (F S : Type) (zero : S) (plus : S -> S -> S) (nanS : S -> Prop).
Context (PL : forall a b, nanS a -> nanS (plus a b)) (PR : forall a b, nanS b -> nanS (plus a b)).
Context (lin : nat -> F -> outcome (F * option S)) (i0 : nat).
Context (LN : forall f f' r, lin i0 f = Ok (f', r) -> exists s, r = Some s /\ nanS s).

Lemma fold_nan l : forall a, nanS a \/ (exists b, In b l /\ nanS b) -> nanS (fold_left plus l a).
Proof using PL PR.
  induction l as [|x l IH]; intros a [H|(b & Hb & Nb)]; cbn [fold_left]; auto.
  - destruct Hb.
  - destruct Hb as [->|Hb]; apply IH; [left; auto|right; eauto].
Qed.

Definition poisoned (st : omp_state F S) : Prop :=
  In i0 (o_todo st) \/ exists t a, nth_error (o_accs st) t = Some a /\ nanS a.

Lemma omp_step_nan threads st st' : omp_step plus lin threads st (Ok st') -> poisoned st -> poisoned st'.
Proof using PL PR LN.
  intros H. remember (Ok st') as o eqn:Eo. destruct H as [fs accs l1 i l2 t Ht].
  apply bind_Ok in Eo. destruct Eo as (a & Ea & Eo). apply get_Ok in Ea.
  apply bind_Ok in Eo. destruct Eo as ([fs' a'] & Ev & Eo).
  apply bind_Ok in Eo. destruct Eo as (accs' & Es & Eo). injection Eo as <-.
  apply set_Ok_inv in Es. destruct Es as [Lt ->].
  unfold visit in Ev. apply bind_Ok in Ev. destruct Ev as (f & Ef & Ev).
  apply bind_Ok in Ev. destruct Ev as ([f' r] & El & Ev).
  apply bind_Ok in Ev. destruct Ev as (fs1 & Es & Ev). injection Ev as -> <-.
  intros [Hin|(t' & b & Eb & Nb)]; cbn [o_todo o_accs] in *.
  - apply in_app_iff in Hin. destruct Hin as [Hin|[->|Hin]].
    + left. apply in_app_iff. auto.
    + right. destruct (LN _ _ _ El) as (s & -> & Ns). exists t, (plus a s). cbn [o_accs].
      rewrite upd_nth_error_same by assumption. auto.
    + left. apply in_app_iff. auto.
  - right. destruct (Nat.eq_dec t' t) as [->|Nt].
    + rewrite Ea in Eb. injection Eb as ->. cbn [o_accs]. eexists t, _. rewrite upd_nth_error_same by assumption.
      split; [reflexivity|]. destruct r; auto.
    + exists t', b. cbn [o_accs]. rewrite upd_nth_error_other by congruence. auto.
Qed.

Lemma omp_runs_nan threads st o : omp_runs plus lin threads st o -> poisoned st -> forall st', o = Ok st' -> poisoned st'.
Proof using PL PR LN.
  induction 1 as [st|st st1 o H1 H2 IH|st o H1 H2]; intros P st' E.
  - injection E as <-. exact P.
  - apply IH; auto. eapply omp_step_nan; eauto.
  - subst. exfalso. eapply H2. reflexivity.
Qed.

Lemma omp_linearized_nan threads fs fs' s : i0 < length fs ->
  omp_linearized zero plus threads lin fs (Ok (fs', s)) -> nanS s.
Proof using PL PR LN.
  intros Hi (e & HR & HT & E). destruct e as [st| | |]; try discriminate E. cbn [bind] in E.
  assert (P : poisoned st).
  { eapply omp_runs_nan; [exact HR| |reflexivity]. left. cbn [omp_init o_todo]. apply in_seq. lia. }
  unfold omp_result in E. symmetry in E. apply bind_Ok in E. destruct E as (s' & E & E').
  apply bind_Ok in E. destruct E as (a0 & E0 & E). injection E as <-. injection E' as <- <-.
  destruct P as [P|(t & a & Ea & Na)]; [rewrite (HT st eq_refl) in P; destruct P|].
  apply get_Ok in E0. destruct (o_accs st) as [|x accs]; [discriminate E0|]. injection E0 as ->. cbn [tl].
  apply fold_nan. destruct t as [|t]; cbn in Ea; [injection Ea as ->; auto|].
  right. exists a. split; [eapply nth_error_In; exact Ea|exact Na].
Qed.

Lemma serial_nan fs fs' s : i0 < length fs -> serial zero plus lin fs = Ok (fs', s) -> nanS s.
Proof using PL PR LN.
  unfold serial. intros Hi.
  assert (G : forall l st st', foldM (fun st i => visit plus lin i st) l st = Ok st' -> nanS (snd st) \/ In i0 l -> nanS (snd st')).
  { induction l as [|i l IH]; intros [fs0 a] st' H C; cbn [foldM] in H.
    - injection H as <-. destruct C as [C|[]]; exact C.
    - apply bind_Ok in H. destruct H as ([fs1 a1] & Ev & H). apply (IH _ _ H).
      unfold visit in Ev. apply bind_Ok in Ev. destruct Ev as (f & Ef & Ev).
      apply bind_Ok in Ev. destruct Ev as ([f' r] & El & Ev).
      apply bind_Ok in Ev. destruct Ev as (fs2 & Es & Ev). injection Ev as -> <-. cbn [snd] in *.
      destruct C as [C|[->|C]]; auto.
      + left. destruct r; auto.
      + left. destruct (LN _ _ _ El) as (s' & -> & Ns). auto. }
  intros H. apply (G _ _ _ H). right. apply in_seq. lia.
Qed.
End Poison.

(** * The optimizer *)
Section Lm.
Context (F : Type) (lin : pose Ffld -> list F -> outcome (list F * sys Ffld)) (err : pose Ffld -> list F -> outcome f64).
Context (solve : m6 Ffld -> v6 Ffld -> v6 Ffld) (exp6 : v6 Ffld -> pose Ffld) (inl : F -> bool) (crit : criteria Ffld).

Lemma lm_inner_nan (factor : f64) n : forall T fs s (e lambda : f64) i log, isnan e ->
  lm_inner (D := Ffld) err null_factor solve exp6 crit factor n T fs s e lambda = Ok (i, log) ->
  i_step i = None /\ isnan (i_e i).
Proof.
  induction n as [|n IH]; intros T fs s e lambda i log He H; cbn [lm_inner] in H.
  - injection H as <- <-. auto.
  - apply bind_Ok in H. destruct H as (new_e & En & H). cbn [null_factor upd_err] in H.
    change (nle (n := fbase Ffld) new_e e) with (f64_le new_e e) in H. rewrite (nan_le_r new_e e He) in H.
    apply bind_Ok in H. destruct H as ([i1 log1] & H & E). injection E as <- _. eapply IH; eauto.
Qed.

Lemma lm_nan (c : lm_settings Ffld) T fs r log : (1 <= lm_max_iterations c)%Z ->
  (forall fs' s, lin T fs = Ok (fs', s) -> isnan (se s)) ->
  levenberg_marquardt (D := Ffld) lin err null_factor solve exp6 inl crit c T fs = Ok (r, log) ->
  r_T r = T /\ r_converged r = false /\ r_iterations r = 0 /\ isnan (r_error r).
Proof.
  intros HM HL H. unfold levenberg_marquardt in H. apply bind_Ok in H. destruct H as ([[r1 fs1] log1] & H & E).
  injection E as <- <-. cbn [fst snd set_inliers r_T r_converged r_iterations r_error].
  destruct (Z.to_nat (lm_max_iterations c)) as [|n] eqn:En; [lia|].
  cbn [lm_loop result_init r_converged r_T r_inliers] in H.
  apply bind_Ok in H. destruct H as ([fs' s] & El & H). cbn [null_factor upd_sys] in H.
  apply bind_Ok in H. destruct H as ([i1 log2] & Ei & H).
  apply lm_inner_nan in Ei; [|eapply HL; exact El]. destruct Ei as [Ei Ne]. rewrite Ei in H.
  injection H as <- <- _. cbn. auto.
Qed.
End Lm.
