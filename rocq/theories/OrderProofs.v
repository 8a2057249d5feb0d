(** Registration of rearranged clouds. *)
From Coq Require Import Reals Lra Permutation.
From Verif Require Import Base BaseProofs Num Vec RNum Lin LinSpec LinProofs FactorModel ReduceModel ReduceSpec ReduceProofs
  OptModel OptSpec FactorProofs MoveSpec MoveProofs MoveFactor OrderSpec.
Open Scope nat_scope.

(** * Lists read in another order *)
Lemma map_nth_seq {A : Type} (l : list A) d : map (fun i => nth i l d) (seq 0 (length l)) = l.
Proof.
  apply nth_error_ext. intros i. destruct (Nat.lt_ge_cases i (length l)) as [L|L].
  - rewrite nth_error_map, (nth_error_nth' (seq 0 (length l)) 0) by (rewrite seq_length; exact L). rewrite seq_nth by exact L. cbn. symmetry. apply nth_error_nth'. exact L.
  - rewrite (proj2 (nth_error_None l i)) by exact L. apply nth_error_None. rewrite map_length, seq_length. exact L.
Qed.
Lemma read_perm {A : Type} (order : list nat) (l l' : list A) : Permutation (seq 0 (length order)) order -> length l = length order -> length l' = length order ->
  (forall i, i < length order -> nth_error l' i = nth_error l (nth i order 0)) -> Permutation l l'.
Proof.
  intros P L L' H. destruct l as [|a l0]; [destruct l'; [constructor|cbn in *; lia]|]. set (l := a :: l0) in *.
  assert (E : l' = map (fun i => nth i l a) order).
  { apply nth_error_ext. intros i. destruct (Nat.lt_ge_cases i (length order)) as [B|B].
    - rewrite H, nth_error_map, (nth_error_nth' order 0) by exact B. cbn [option_map]. apply nth_error_nth'.
      rewrite L. assert (I : In (nth i order 0) (seq 0 (length order))) by (apply (Permutation_in _ (Permutation_sym P)); apply nth_In; exact B). apply in_seq in I. lia.
    - rewrite (proj2 (nth_error_None l' i)) by lia. symmetry. apply nth_error_None. rewrite map_length. exact B. }
  rewrite E. rewrite <- (map_nth_seq l a) at 1. apply Permutation_map. rewrite L. exact P.
Qed.

(** * Reductions *)
Section Reduce.
Context (F S : Type) (zero : S) (plus : S -> S -> S) (CM : comm_monoid zero plus) (alike : F -> F -> Prop).
Context (order : list nat) (P : Permutation (seq 0 (length order)) order).
Context (lin lin' : nat -> F -> outcome (F * option S)).
Context (LIN : forall i f f1 r f', i < length order -> lin (nth i order 0) f = Ok (f1, r) -> alike f f' -> exists f1', lin' i f' = Ok (f1', r) /\ alike f1 f1').
Definition matched (fs fs' : list F) : Prop :=
  length fs = length order /\ length fs' = length order /\
  forall i f', nth_error fs' i = Some f' -> exists f, nth_error fs (nth i order 0) = Some f /\ alike f f'.

Lemma serial_matched fs fs' fs1 acc : serial zero plus lin fs = Ok (fs1, acc) -> matched fs fs' ->
  exists fs1', serial zero plus lin' fs' = Ok (fs1', acc) /\ matched fs1 fs1'.
Proof using CM P LIN.
  intros H (L & L' & M). destruct (serial_fold _ _ _ _ _ _ _ _ H) as (rs & (L1 & LR & ONCE) & ->).
  assert (STEP : forall i f', nth_error fs' i = Some f' -> exists f1 r f1', nth_error fs1 (nth i order 0) = Some f1 /\ nth_error rs (nth i order 0) = Some r /\
    lin' i f' = Ok (f1', r) /\ alike f1 f1').
  { intros i f' Ei. destruct (M i f' Ei) as (f & Ef & AL). destruct (ONCE _ _ Ef) as (f1 & r & El & E1 & Er).
    assert (Li : i < length order) by (rewrite <- L'; apply nth_error_Some; congruence).
    destruct (LIN i f f1 r f' Li El AL) as (f1' & El' & AL'). exists f1, r, f1'. auto. }
  assert (DEF : all_defined lin' fs').
  { intros i f' Ei. destruct (STEP i f' Ei) as (f1 & r & f1' & _ & _ & E & _). eauto. }
  destruct (serial_spec F S zero plus lin' CM fs' DEF) as (fs1' & E1 & SH). exists fs1'.
  pose proof (shape_done F S lin' fs' DEF fs1' SH) as (A1 & A2 & A3).
  rewrite E1. split.
  - f_equal. f_equal. rewrite (total_eq _ _ _ _ _ CM). rewrite (fold_left_sum S zero plus CM), (cm_zero _ _ CM). apply (sum_perm S zero plus CM).
    apply Permutation_flat_map, Permutation_sym, (read_perm order); auto; try congruence.
    intros i Li. destruct (nth_error fs' i) as [f'|] eqn:Ei; [|apply nth_error_None in Ei; lia].
    destruct (STEP i f' Ei) as (f1 & r & f1' & _ & Er & El & _). destruct (A3 i f' Ei) as (g & r2 & El2 & _ & Er2). congruence.
  - split; [congruence|]. split; [congruence|]. intros i g Eg.
    assert (Li : i < length fs') by (rewrite <- A1; apply nth_error_Some; congruence).
    destruct (nth_error fs' i) as [f'|] eqn:Ei; [|apply nth_error_None in Ei; lia].
    destruct (STEP i f' Ei) as (f1 & r & f1' & E1' & _ & El & AL). destruct (A3 i f' Ei) as (g2 & r2 & El2 & Eg2 & _).
    exists f1. split; [exact E1'|]. assert (g = f1') as -> by congruence. exact AL.
Qed.

Lemma serial_error_values (ef : F -> outcome S) fs : forall z e,
  foldM (fun sum f => let* e := ef f in Ok (plus sum e)) fs z = Ok e <-> exists es, Forall2 (fun f x => ef f = Ok x) fs es /\ e = fold_left plus es z.
Proof using.
  clear. induction fs as [|f fs IH]; intros z e; cbn [foldM].
  - split; [intros [= ->]; exists []; split; [constructor|reflexivity]|]. intros (es & F2 & ->). inversion F2. reflexivity.
  - destruct (ef f) as [x| | |] eqn:E; cbn [bind].
    + rewrite IH. split.
      * intros (es & F2 & ->). exists (x :: es). split; [constructor; assumption|reflexivity].
      * intros (es & F2 & ->). inversion F2 as [|? y ? es0 Ey F3]; subst. assert (y = x) as -> by congruence. exists es0. split; [exact F3|reflexivity].
    + split; [discriminate|]. intros (es & F2 & _). inversion F2; congruence.
    + split; [discriminate|]. intros (es & F2 & _). inversion F2; congruence.
    + split; [discriminate|]. intros (es & F2 & _). inversion F2; congruence.
Qed.
Lemma Forall2_nth {A B : Type} (Q : A -> B -> Prop) l l' : Forall2 Q l l' -> length l' = length l /\ forall i a, nth_error l i = Some a -> exists b, nth_error l' i = Some b /\ Q a b.
Proof using.
  clear. induction 1 as [|x y l l' H _ (L & IH)].
  - split; [reflexivity|]. intros [|i] a E; discriminate E.
  - split; [cbn; congruence|]. intros [|i] a E; [injection E as <-; eexists; split; [reflexivity|exact H]|apply IH; exact E].
Qed.
Lemma nth_Forall2 {A B : Type} (Q : A -> B -> Prop) l : forall l', length l' = length l -> (forall i a b, nth_error l i = Some a -> nth_error l' i = Some b -> Q a b) -> Forall2 Q l l'.
Proof using. clear. induction l as [|x l IH]; intros [|y l'] L H; try discriminate L; constructor; [apply (H 0); reflexivity|]. apply IH; [cbn in L; lia|]. intros i. apply (H (Datatypes.S i)). Qed.
Lemma serial_error_matched (ef ef' : F -> outcome S) : (forall f f' e, ef f = Ok e -> alike f f' -> ef' f' = Ok e) ->
  forall fs fs' e, serial_error zero plus ef fs = Ok e -> matched fs fs' -> serial_error zero plus ef' fs' = Ok e.
Proof using CM P.
  clear LIN lin lin'. intros EF fs fs' e H (L & L' & M). unfold serial_error in *. apply serial_error_values in H. destruct H as (es & F2 & ->). apply serial_error_values.
  destruct (Forall2_nth _ _ _ F2) as (LE & NE). destruct es as [|e0 es0].
  { exists []. split; [|reflexivity]. cbn in LE. destruct fs' as [|? ?]; [constructor|cbn in L'; lia]. }
  set (es := e0 :: es0) in *. exists (map (fun i => nth i es e0) order). assert (LO : length (map (fun i => nth i es e0) order) = length fs') by (rewrite map_length; congruence).
  assert (NTH : forall i, i < length order -> nth_error (map (fun i => nth i es e0) order) i = nth_error es (nth i order 0)).
  { intros i Li. rewrite nth_error_map, (nth_error_nth' order 0) by exact Li. cbn [option_map]. symmetry. apply nth_error_nth'.
    destruct (nth_error fs' i) as [f'|] eqn:Ei; [|apply nth_error_None in Ei; lia]. destruct (M i f' Ei) as (f & Ef & _). rewrite LE. apply nth_error_Some. congruence. }
  split.
  - apply nth_Forall2; [congruence|]. intros i f' x Ei Ex. assert (Li : i < length order) by (rewrite <- L'; apply nth_error_Some; congruence).
    rewrite NTH in Ex by exact Li. destruct (M i f' Ei) as (f & Ef & AL). destruct (NE _ _ Ef) as (y & Ey & Q). assert (y = x) as -> by congruence. eapply EF; eassumption.
  - rewrite !(fold_left_sum S zero plus CM), !(cm_zero _ _ CM). apply (sum_perm S zero plus CM). apply (read_perm order); auto; congruence.
Qed.
Lemma count_matched (inl : F -> bool) : (forall f f', alike f f' -> inl f = inl f') ->
  forall fs fs', matched fs fs' -> count_inliers inl fs = count_inliers inl fs'.
Proof using P.
  clear LIN lin lin' CM plus zero S. intros IN fs fs' (L & L' & M). unfold count_inliers.
  assert (C : forall l : list F, length (filter inl l) = length (filter (fun b => b) (map inl l))).
  { clear. induction l as [|f l IH]; [reflexivity|]. cbn [filter map]. destruct (inl f); cbn [length]; congruence. }
  rewrite !C. assert (Q : Permutation (map inl fs) (map inl fs')).
  { apply (read_perm order); auto; rewrite ?map_length; auto. intros i Li. rewrite !nth_error_map.
    destruct (nth_error fs' i) as [f'|] eqn:Ei; [|apply nth_error_None in Ei; lia]. destruct (M i f' Ei) as (f & -> & AL). cbn. f_equal. symmetry. apply IN. exact AL. }
  clear - Q. induction Q; cbn [filter]; auto.
  - destruct x; cbn [length]; congruence.
  - destruct x, y; reflexivity.
  - congruence.
Qed.
End Reduce.

(** * Factors *)
Section Factors.
Context (target target' : view Rfld N) (source source' : view Rfld nat).
Definition alike (f f' : factor Rfld) : Prop :=
  f_maha f' = f_maha f /\
  match f_target f, f_target f' with
  | None, None => True
  | Some ti, Some ti' => same_data target' target ti' ti /\ same_data source' source (f_source f') (f_source f)
  | _, _ => False
  end.
(** Answers of two searches to the same question. *)
Definition same_answer (o o' : option (N * car Rfld)) : Prop :=
  match o, o' with
  | None, None => True
  | Some (ti, d), Some (ti', d') => same_data target' target ti' ti /\ d' = d
  | _, _ => False
  end.
Context (nn nn' : vec4 Rfld -> outcome (option (N * car Rfld))) (reject reject' : pose Rfld -> N -> nat -> car Rfld -> bool) (RJ : by_distance reject reject').
Definition agree_at (T : pose Rfld) : Prop :=
  forall i p, at_point source i = Ok p -> forall o, nn (pose_pt T p) = Ok o -> exists o', nn' (pose_pt T p) = Ok o' /\ same_answer o o'.

Lemma linearize_alike k T si si' f f' f1 r : agree_at T -> same_data source' source si' si -> alike f f' ->
  linearize nn reject target source k T si f = Ok (f1, r) ->
  exists f1', linearize nn' reject' target' source' k T si' f' = Ok (f1', r) /\ alike f1 f1'.
Proof using RJ.
  intros AG (S1 & S2 & S3) AL H. unfold linearize in *. rewrite S1.
  destruct (at_point source si) as [p| | |] eqn:Ep; cbn [bind] in *; try discriminate.
  destruct (nn (pose_pt T p)) as [o| | |] eqn:En; cbn [bind] in H; try discriminate.
  destruct (AG _ _ Ep _ En) as (o' & -> & SA). cbn [bind].
  assert (NONE : alike (mkFactor None si (f_maha f)) (mkFactor None si' (f_maha f'))) by (split; [apply AL|exact I]).
  destruct o as [[ti d]|], o' as [[ti' d']|]; try contradiction.
  - destruct SA as (SD & ->). rewrite <- (RJ T ti si ti' si' d). destruct (reject T ti si d); [injection H as <- <-; eauto|].
    destruct (linearize_at target source k T ti si f) as [[f2 s]| | |] eqn:E; cbn [bind] in H; try discriminate. injection H as <- <-.
    assert (G : exists f2', linearize_at target' source' k T ti' si' f' = Ok (f2', s) /\ alike f2 f2').
    { destruct SD as (D1 & D2 & D3). unfold linearize_at, residual in *. rewrite D1, S1.
      destruct (at_point target ti) as [q| | |] eqn:Eq; cbn [bind] in *; try discriminate. rewrite Ep in E. cbn [bind] in *. destruct k.
      - injection E as <- <-. eexists. split; [reflexivity|]. split; [apply AL|]. cbn [f_target f_source]. split; repeat split; congruence.
      - rewrite D2. destruct (at_normal target ti) as [n| | |] eqn:Enn; cbn [bind] in *; try discriminate. injection E as <- <-.
        eexists. split; [reflexivity|]. split; [apply AL|]. cbn [f_target f_source]. split; repeat split; congruence.
      - rewrite D3, S3. destruct (at_cov target ti) as [ct| | |] eqn:Ec; cbn [bind] in *; try discriminate.
        destruct (at_cov source si) as [cs| | |] eqn:Es; cbn [bind] in *; try discriminate. injection E as <- <-.
        eexists. split; [reflexivity|]. split; [reflexivity|]. cbn [f_target f_source]. split; repeat split; congruence. }
    destruct G as (f2' & -> & AL2). cbn [bind]. eauto.
  - injection H as <- <-. eauto.
Qed.
Lemma error_alike k T f f' e : error target source k T f = Ok e -> alike f f' -> error target' source' k T f' = Ok e.
Proof using.
  clear. unfold error. intros H (M & D). destruct (f_target f) as [ti|], (f_target f') as [ti'|]; try contradiction; auto.
  destruct D as ((D1 & D2 & _) & (S1 & _)). unfold residual in *. rewrite D1, S1.
  destruct (at_point target ti) as [q| | |]; cbn [bind] in *; try discriminate.
  destruct (at_point source (f_source f)) as [p| | |]; cbn [bind] in *; try discriminate. destruct k; [exact H|rewrite D2; exact H|rewrite M; exact H].
Qed.
Lemma linearize_robust_alike weight k T si si' f f' f1 r : agree_at T -> same_data source' source si' si -> alike f f' ->
  linearize_robust nn reject target source weight k T si f = Ok (f1, r) ->
  exists f1', linearize_robust nn' reject' target' source' weight k T si' f' = Ok (f1', r) /\ alike f1 f1'.
Proof using RJ.
  intros AG SD AL H. unfold linearize_robust in *. destruct (linearize nn reject target source k T si f) as [[f2 s]| | |] eqn:E; cbn [bind] in H; try discriminate.
  destruct (linearize_alike _ _ _ _ _ _ _ _ AG SD AL E) as (f1' & -> & AL'). cbn [bind]. destruct s; injection H as <- <-; eauto.
Qed.
Lemma error_robust_alike weight k T f f' e : error_robust target source weight k T f = Ok e -> alike f f' -> error_robust target' source' weight k T f' = Ok e.
Proof using.
  clear. unfold error_robust. intros H AL. destruct (error target source k T f) as [x| | |] eqn:E; cbn [bind] in H; try discriminate.
  rewrite (error_alike _ _ _ _ _ E AL). exact H.
Qed.
Lemma alike_inlier f f' : alike f f' -> inlier f = inlier f'.
Proof using. clear. intros (_ & D). unfold inlier. destruct (f_target f), (f_target f'); try contradiction; reflexivity. Qed.
Lemma initial_matched order : Permutation (seq 0 (length order)) order -> matched (factor Rfld) alike order (initial_factors (length order)) (initial_factors (length order)).
Proof using.
  clear. intros P. unfold initial_factors. split; [apply repeat_length|]. split; [apply repeat_length|]. intros i f' E.
  assert (f' = factor_init) as -> by (apply nth_error_In, repeat_spec in E; exact E).
  assert (Li : i < length order) by (rewrite <- (repeat_length (factor_init (D := Rfld)) (length order)); apply nth_error_Some; congruence).
  exists factor_init. split; [|split; [reflexivity|exact I]].
  assert (B : In (nth i order 0) (seq 0 (length order))) by (apply (Permutation_in _ (Permutation_sym P)); apply nth_In; exact Li). apply in_seq in B.
  rewrite (nth_error_nth' _ factor_init) by (rewrite repeat_length; lia). f_equal. apply nth_repeat.
Qed.

(** Exact searches agree where the nearest point is unique. *)
Lemma searches_agree T : renumbered target target' -> exact_search target nn -> exact_search target' nn' -> untied target source T -> agree_at T.
Proof using.
  clear. intros (RN1 & RN2) X X' U i p Ep o Eo. destruct (X (pose_pt T p)) as (o1 & E1 & S1). assert (o1 = o) as -> by congruence.
  destruct (X' (pose_pt T p)) as (o' & -> & S'). exists o'. split; [reflexivity|]. specialize (U i p Ep). set (q := pose_pt T p) in *.
  assert (NB : forall j i, same_data target' target j i -> nearest_at target' q j -> nearest_at target q i).
  { intros j i0 (D & _) (p' & Ej & M). exists p'. split; [congruence|]. intros i1 p1 E. destruct (RN2 i1 p1 E) as (j1 & (D1 & _)). apply (M j1). congruence. }
  destruct o as [[ti d]|], o' as [[tj e]|]; cbn [same_answer].
  - destruct S1 as (N1 & L1 & p1 & E & ->). destruct S' as (N2 & L2 & p2 & E2 & ->). destruct (RN1 tj p2 E2) as (i0 & D).
    assert (i0 = ti) as -> by (apply U; [eapply NB; eassumption|exact N1]). split; [exact D|]. destruct D as (D & _). congruence.
  - destruct S1 as (_ & L1 & p1 & E & ->). destruct (RN2 ti p1 E) as (j & (D & _)). specialize (S' j p1 ltac:(congruence)). change (car (fbase Rfld)) with R in *. lra.
  - destruct S' as (_ & L1 & p1 & E & ->). destruct (RN1 tj p1 E) as (i0 & (D & _)). specialize (S1 i0 p1 ltac:(congruence)). change (car (fbase Rfld)) with R in *. lra.
  - exact I.
Qed.
End Factors.

(** * Moving by the identity *)
Lemma pose_mul_id (T : pose Rfld) : pose_mul pose_id T = T.
Proof. destruct T as [A t]. unfold pose_mul, pose_id. cbn [rot tra]. f_equal; [apply mm3_id_l|]. rewrite mv3_id. generalize t. clear. lring. Qed.
Lemma moved_id (r : result Rfld) : moved_result pose_id r = r.
Proof. unfold moved_result. rewrite pose_mul_id. destruct r. reflexivity. Qed.

(** * Clouds *)
Lemma pick_length {A : Type} order (l : list A) : Permutation (seq 0 (length l)) order -> length (pick order l) = length l.
Proof.
  intros P. unfold pick. rewrite <- (seq_length (length l) 0), (Permutation_length P).
  assert (B : forall i, In i order -> i < length l) by (intros i I; apply (Permutation_in _ (Permutation_sym P)) in I; apply in_seq in I; lia).
  clear P. induction order as [|i order IH]; [reflexivity|]. cbn [flat_map]. rewrite app_length, IH by (intros j J; apply B; right; exact J).
  destruct (nth_error l i) as [a|] eqn:E; [reflexivity|]. apply nth_error_None in E. specialize (B i (or_introl eq_refl)). lia.
Qed.
Lemma pick_nil {A : Type} order : pick order (@nil A) = [].
Proof. unfold pick. induction order as [|i order IH]; [reflexivity|]. cbn [flat_map]. rewrite IH. destruct i; reflexivity. Qed.
Lemma pick_nth {A : Type} order (l : list A) : (forall i, In i order -> i < length l) -> forall i, i < length order -> nth_error (pick order l) i = nth_error l (nth i order 0).
Proof.
  unfold pick. induction order as [|x order IH]; intros B i Li; [cbn in Li; lia|]. cbn [flat_map].
  destruct (nth_error l x) as [a|] eqn:E; [|apply nth_error_None in E; specialize (B x (or_introl eq_refl)); lia].
  destruct i as [|i]; cbn [app nth_error nth]; [symmetry; exact E|]. apply IH; [intros j J; apply B; right; exact J|cbn in Li; lia].
Qed.
Lemma get_eq {A : Type} (l l' : list A) i j : nth_error l i = nth_error l' j -> get l i = get l' j.
Proof. unfold get. intros ->. reflexivity. Qed.
Section Clouds.
Context (order : list nat) (c c' : cloud Rfld) (SZ : sized c) (SH : shuffled order c c').
Lemma order_bound i : In i order -> i < length (cl_points c).
Proof using SH. intros I. destruct SH as (P & _). apply (Permutation_in _ (Permutation_sym P)) in I. apply in_seq in I. lia. Qed.
Lemma order_length : length order = length (cl_points c).
Proof using SH. destruct SH as (P & _). rewrite <- (Permutation_length P), seq_length. reflexivity. Qed.
Lemma attr_read {A : Type} (l : list A) i : length l = length (cl_points c) \/ l = [] -> i < length order -> get (pick order l) i = get l (nth i order 0).
Proof using SH.
  intros [L|E] Li; [|subst; rewrite pick_nil; unfold get; destruct i, (nth _ order 0); reflexivity]. apply get_eq, pick_nth; [|exact Li]. intros j J. rewrite L. apply order_bound. exact J.
Qed.
Lemma shuffled_data i : i < length order -> same_data (cloud_view c') (cloud_view c) i (nth i order 0).
Proof using SH SZ.
  intros Li. pose proof SH as (P & E1 & E2 & E3). destruct SZ as (Z1 & Z2). unfold same_data. cbn [cloud_view at_point at_normal at_cov]. rewrite E1, E2, E3.
  split; [apply attr_read; auto|]. split; apply attr_read; auto.
Qed.
Lemma shuffled_source : rearranged order (cloud_view c) (cloud_view c').
Proof using SH SZ. split; [rewrite order_length; apply SH|apply shuffled_data]. Qed.
Lemma shuffled_target : renumbered (cloud_viewN c) (cloud_viewN c').
Proof using SH SZ.
  split.
  - intros j p E. cbn [cloud_viewN at_point] in E. apply get_Ok in E. assert (Lj : N.to_nat j < length order).
    { rewrite order_length, <- (pick_length order (cl_points c)) by apply SH. destruct SH as (_ & <- & _). apply nth_error_Some. congruence. }
    exists (N.of_nat (nth (N.to_nat j) order 0)). destruct (shuffled_data _ Lj) as (D1 & D2 & D3). unfold same_data. cbn [cloud_viewN at_point at_normal at_cov]. rewrite Nnat.Nat2N.id. auto.
  - intros i p E. cbn [cloud_viewN at_point] in E. apply get_Ok in E. assert (Li : N.to_nat i < length (cl_points c)) by (apply nth_error_Some; congruence).
    assert (I : In (N.to_nat i) order) by (destruct SH as (P & _); apply (Permutation_in _ P), in_seq; lia).
    apply (In_nth _ _ 0) in I. destruct I as (j & Lj & Ej). exists (N.of_nat j). destruct (shuffled_data _ Lj) as (D1 & D2 & D3).
    unfold same_data. cbn [cloud_viewN at_point at_normal at_cov]. rewrite Nnat.Nat2N.id. rewrite Ej in D1, D2, D3. auto.
Qed.
End Clouds.
