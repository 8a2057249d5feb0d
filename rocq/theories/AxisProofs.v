From Coq Require Import ZifyBool ZifyNat ZifyN.
From Coq Require Import Reals Lra Psatz.
From Flocq Require Import Core.
From Verif Require Import Base BaseProofs Num Vec RNum Lin LinSpec LinProofs KdModel KdF64 EstModel EstSpec EstReal AxisModel AxisSpec.
Open Scope nat_scope.

Lemma foldM_get {A S : Type} (l : list A) (f : S -> A -> S) idx s :
  foldM (fun s i => let* x := get l i in Ok (f s x)) idx s = (let* xs := mapM (get l) idx in Ok (fold_left f xs s)).
Proof.
  revert s. induction idx as [|i idx IH]; intros s; cbn [foldM mapM]; [reflexivity|].
  destruct (get l i); cbn [bind]; try reflexivity. rewrite IH. destruct (mapM (get l) idx); reflexivity.
Qed.
Lemma mapM_get_same {A : Type} (l l' : list A) idx : (forall i, In i idx -> nth_error l' i = nth_error l i) -> mapM (get l') idx = mapM (get l) idx.
Proof.
  induction idx as [|i idx IH]; intros H; cbn [mapM]; [reflexivity|]. unfold get at 1 3. rewrite (H i (or_introl eq_refl)).
  rewrite IH; [reflexivity|]. intros j Hj. apply H. right. exact Hj.
Qed.
Lemma mapM_get_total {A : Type} (l : list A) idx : Forall (fun i => i < length l) idx ->
  exists xs, mapM (get l) idx = Ok xs /\ Forall2 (fun i x => nth_error l i = Some x) idx xs.
Proof.
  induction 1 as [|i idx Hi _ (xs & E & F)]; cbn [mapM]; [exists []; split; [reflexivity|constructor]|].
  destruct (nth_error l i) as [x|] eqn:Ei; [|apply nth_error_None in Ei; lia].
  rewrite (proj2 (get_Ok _ _ _) Ei), E. cbn [bind]. exists (x :: xs). split; [reflexivity|constructor; assumption].
Qed.

Lemma div_short nn mm : (0 < mm)%N -> (mm <= nn < 2 * mm)%N -> (nn / mm = 1)%N.
Proof. intros P H. symmetry. apply (N.div_unique _ _ _ (nn - mm)); lia. Qed.
Lemma positions_sampled n m step steps : (0 < m <= 2 ^ 30)%Z -> 0 < n -> scan_plan n m = Ok (step, steps) ->
  sampled n (Z.to_nat m) (scan_positions step steps).
Proof.
  intros Hm Hn E. destruct (scan_plan_ok n m Hm Hn) as (st & ss & E' & H1 & H2 & H3 & H4). rewrite E in E'. injection E' as <- <-.
  assert (LE : (step * steps <= N.of_nat n)%N) by (subst steps; apply N.mul_div_le; lia).
  unfold sampled, scan_positions. split; [|split; [|split]].
  - apply FinFun.Injective_map_NoDup; [|apply seq_NoDup]. intros a b Hab. nia.
  - apply Forall_forall. intros i Hi. apply in_map_iff in Hi. destruct Hi as (j & <- & Hj). apply in_seq in Hj. nia.
  - rewrite map_length, seq_length. lia.
  - intros Short.
    assert (S1 : step = 1%N).
    { unfold scan_plan, size_t_of_int in E. rewrite Z.mod_small in E by lia.
      destruct (N.of_nat n <? Z.to_N m)%N eqn:C; cbn [bind] in E.
      - change (1 =? 0)%N with false in E. cbv iota zeta in E. destruct (_ <? _)%N in E; congruence.
      - destruct (Z.to_N m =? 0)%N eqn:C0; [lia|]. cbn [bind] in E. rewrite div_short in E by lia.
        change (1 =? 0)%N with false in E. cbv iota zeta in E. destruct (_ <? _)%N in E; congruence. }
    subst step. rewrite N.div_1_r in H2. subst steps. rewrite Nat2N.id.
    transitivity (map (fun i : nat => i) (seq 0 n)); [apply map_ext; intros i; lia|apply map_id].
Qed.

(** Both searches read the sampled points and compute from them. *)
Definition axis_of {D : num} (pts : list (vec4 D)) : nat :=
  let s := fold_left (fun (s : vec4 D * vec4 D) pt => (vadd (fst s) pt, vadd (snd s) (vmul pt pt))) pts (vzero, vzero) in
  choose_axis (fst s) (snd s).
Lemma axis_find_sampled {D : num} m (range : list (vec4 D)) : axis_find m range =
  (let* (step, steps) := scan_plan (length range) m in
   let* pts := mapM (get range) (scan_positions step steps) in Ok (axis_of pts)).
Proof.
  unfold axis_find. destruct (scan_plan (length range) m) as [[step steps]| | |]; cbn [bind]; try reflexivity.
  rewrite (foldM_get range (fun s pt => (vadd (fst s) pt, vadd (snd s) (vmul pt pt)))).
  destruct (mapM (get range) (scan_positions step steps)); reflexivity.
Qed.
Definition normal_of_sample {D : fld} (eig : m3 D -> m3 D) (pts : list (vec4 D)) : v3 D :=
  let s := fold_left (fun (s : vec4 D * m3 D) pt => (vadd (fst s) pt, madd3 (snd s) (outer3 (head pt) (head pt)))) pts (vzero, mzero3) in
  let mean := div3 (head (fst s)) (vw (fst s)) in
  c2 (eig (mdiv3 (msub3 (snd s) (outer3 mean (head (fst s)))) (vw (fst s)))).
Lemma normal_find_sampled {D : fld} eig m (range : list (vec4 D)) : normal_find eig m range =
  (let* (step, steps) := scan_plan (length range) m in
   let* pts := mapM (get range) (scan_positions step steps) in Ok (normal_of_sample eig pts)).
Proof.
  unfold normal_find, normal_sums. destruct (scan_plan (length range) m) as [[step steps]| | |]; cbn [bind]; try reflexivity.
  rewrite (foldM_get range (fun s pt => (vadd (fst s) pt, madd3 (snd s) (outer3 (head pt) (head pt))))).
  destruct (mapM (get range) (scan_positions step steps)) as [pts| | |]; cbn [bind]; try reflexivity.
  unfold normal_of_sample. destruct (fold_left _ pts _); reflexivity.
Qed.

Section Find.
Context {D : num} {B : Type} (find : list (vec4 D) -> outcome B) (of_sample : list (vec4 D) -> B) (m : Z).
Context (FS : forall range, find range =
  (let* (step, steps) := scan_plan (length range) m in
   let* pts := mapM (get range) (scan_positions step steps) in Ok (of_sample pts))).
Context (Hm : (0 < m <= 2 ^ 30)%Z).
Lemma find_spec range : range <> [] -> exists idx pts, find range = Ok (of_sample pts) /\
  sampled (length range) (Z.to_nat m) idx /\ depends_only_on find range idx /\
  Forall2 (fun i x => nth_error range i = Some x) idx pts.
Proof using FS Hm.
  intros NE. assert (P : 0 < length range) by (destruct range; [congruence|cbn; lia]).
  destruct (scan_plan_ok (length range) m Hm P) as (step & steps & E & _).
  pose proof (positions_sampled _ _ _ _ Hm P E) as SA. pose proof SA as (_ & FA & _).
  destruct (mapM_get_total range _ FA) as (pts & EM & F2).
  exists (scan_positions step steps), pts. split; [|split; [exact SA|split; [|exact F2]]].
  - rewrite FS, E. cbn [bind]. rewrite EM. reflexivity.
  - intros range' L Same. rewrite !FS, L, E. cbn [bind]. rewrite (mapM_get_same range range' _ Same). reflexivity.
Qed.
End Find.

Open Scope R_scope.
Definition unit_axis (a : nat) : v3 Rfld :=
  match a with 0%nat => P3 (1 : car Rfld) 0 0 | 1%nat => P3 (0 : car Rfld) 1 0 | _ => P3 (0 : car Rfld) 0 1 end.

(** Sums over the sample, homogeneous coordinate one. *)
Lemma sum_w (pts : list (vec4 Rfld)) : Forall (fun p : vec4 Rfld => vw p = 1) pts -> forall a : vec4 Rfld,
  let s := fold_left vadd pts a in
  head s = add3 (head a) (sum_points pts) /\ vw s = vw a + INR (length pts).
Proof.
  induction 1 as [|p pts W _ IH]; intros a; cbn [fold_left length].
  - cbv zeta. split; [unfold sum_points; cbn [fold_left]; rewrite add3_zero_r; reflexivity|symmetry; apply Rplus_0_r].
  - cbv zeta. destruct (IH (vadd a p)) as [H1 H2]. cbv zeta in *. rewrite H1, H2. split.
    + unfold sum_points at 2. cbn [fold_left]. rewrite sum_points_fold, add3_zero_l, add3_assoc. reflexivity.
    + rewrite S_INR. change (vw (vadd a p)) with (vw a + vw p). rewrite W. rewrite (Rplus_comm (INR _) 1). apply Rplus_assoc.
Qed.
Lemma fold_pair {A B C : Type} (f : A -> C -> A) (g : B -> C -> B) l a b :
  fold_left (fun s x => (f (fst s) x, g (snd s) x)) l (a, b) = (fold_left f l a, fold_left g l b).
Proof. revert a b. induction l as [|x l IH]; intros a b; cbn [fold_left fst snd]; auto. Qed.

Lemma normal_scatter eig (pts : list (vec4 Rfld)) : Forall (fun p : vec4 Rfld => vw p = 1) pts ->
  normal_of_sample eig pts = c2 (eig (scatter (D := Rfld) INR pts)).
Proof.
  intros W. unfold normal_of_sample. rewrite (fold_pair vadd (fun m pt => madd3 m (outer3 (head pt) (head pt)))). cbn [fst snd].
  destruct (sum_w pts W vzero) as [H1 H2]. cbv zeta in *. rewrite H1, H2.
  assert (Z : head (vzero (D := Rfld)) = zero3) by reflexivity. rewrite Z, add3_zero_l.
  cbn [vw vzero nzero]. change (@nzero (fbase Rfld)) with 0. rewrite Rplus_0_l. reflexivity.
Qed.

Lemma orth_c2 (V : m3 Rfld) : mm3 (tr3 V) V = id3 -> dot3 (c2 V) (c2 V) = 1.
Proof. intros H. change (p2 (r2 (mm3 (tr3 V) V)) = 1). rewrite H. reflexivity. Qed.
Lemma c2_mv (V : m3 Rfld) : c2 V = mv3 V (P3 (0 : car Rfld) (0 : car Rfld) (1 : car Rfld)).
Proof. lring. Qed.
Lemma mv_diag_e2 (l : v3 Rfld) : mv3 (diag3 l) (P3 (0 : car Rfld) (0 : car Rfld) (1 : car Rfld)) = scale3 (p2 l) (P3 (0 : car Rfld) (0 : car Rfld) (1 : car Rfld)).
Proof. lring. Qed.
Lemma eig_c2 W V l : mm3 W V = mm3 V (diag3 l) -> mv3 W (c2 V) = scale3 (p2 l : car Rfld) (c2 V).
Proof. intros E. rewrite c2_mv, <- mv3_mm3, E, mv3_mm3, mv_diag_e2, mv3_scale. reflexivity. Qed.
Lemma eig_greatest W V (u : v3 Rfld) : eig_correct W V -> dot3 u u = 1 -> dot3 u (mv3 W u) <= dot3 (c2 V) (mv3 W (c2 V)).
Proof.
  intros (O & l & E & L1 & L2) U. rewrite (eig_c2 W V l E), dot3_scale_r, (orth_c2 V O).
  destruct (eig_quad W V l u O E) as [Q N]. cbv zeta in *. rewrite Q. rewrite U in N.
  destruct l as [l0 l1 l2]. destruct (mv3 (tr3 V) u) as [y0 y1 y2]. cbn in *. change (car (fbase Rfld)) with R in *.
  assert (l0 * (y0 * y0) + l1 * (y1 * y1) + l2 * (y2 * y2) <= l2 * (y0 * y0 + y1 * y1 + y2 * y2)) by nra.
  rewrite <- N in H. lra.
Qed.

(** The axis choice. *)
Definition coord (a : nat) (p : vec4 Rfld) : R := vcomp p a.
Lemma sum_coord a (pts : list (vec4 Rfld)) (z : vec4 Rfld) : (a < 3)%nat -> coord a (fold_left vadd pts z) = coord a z + sumR (coord a) pts.
Proof.
  intros A. revert z. induction pts as [|p pts IH]; intros z; cbn [fold_left sumR fold_right]; [ring|].
  rewrite IH. unfold sumR. destruct a as [|[|[|a]]]; [| | |lia]; cbn; req; ring.
Qed.
Lemma sum_coord_sq a (pts : list (vec4 Rfld)) (z : vec4 Rfld) : (a < 3)%nat ->
  coord a (fold_left (fun s pt => vadd s (vmul pt pt)) pts z) = coord a z + sumR (fun p => coord a p * coord a p) pts.
Proof.
  intros A. revert z. induction pts as [|p pts IH]; intros z; cbn [fold_left sumR fold_right]; [ring|].
  rewrite IH. unfold sumR. destruct a as [|[|[|a]]]; [| | |lia]; cbn; req; ring.
Qed.
Lemma along_unit a p : (a < 3)%nat -> along (unit_axis a) p = coord a p.
Proof. intros A. destruct a as [|[|[|a]]]; [| | |lia]; destruct p; cbn; req; ring. Qed.
Lemma var_coord a pts : (a < 3)%nat -> pts <> [] -> Forall (fun p : vec4 Rfld => vw p = 1) pts ->
  let sp := fold_left vadd pts vzero in let sq := fold_left (fun s pt => vadd s (vmul pt pt)) pts (vzero (D := Rfld)) in
  coord a (vsub sq (vmul (vdivs sp (vw sp)) sp)) = INR (length pts) * variance_along (unit_axis a) pts.
Proof.
  intros A NE W. cbv zeta. assert (N : 0 < INR (length pts)) by (apply lt_0_INR; destruct pts; [congruence|cbn; lia]).
  assert (C : forall x y s : vec4 Rfld, coord a (vsub x (vmul (vdivs y (vw s)) y)) = coord a x - coord a y / vw s * coord a y).
  { intros x y s. destruct a as [|[|[|a]]]; [| | |lia]; reflexivity. }
  rewrite C, (sum_coord a _ _ A), (sum_coord_sq a _ _ A). destruct (sum_w pts W vzero) as [_ H2]. cbv zeta in H2. rewrite H2.
  assert (Z : coord a (vzero (D := Rfld)) = 0) by (destruct a as [|[|[|a]]]; [| | |lia]; reflexivity). rewrite Z.
  cbn [vw vzero]. change (@nzero (fbase Rfld)) with 0. rewrite !Rplus_0_l.
  unfold variance_along, mean_along.
  rewrite (sumR_ext (along (unit_axis a)) (coord a)) by (intros; apply along_unit, A).
  set (M := sumR (coord a) pts / INR (length pts)).
  rewrite (sumR_ext (fun q => (along (unit_axis a) q - M) * (along (unit_axis a) q - M)) (fun q => 1 * (coord a q * coord a q) + (- 2 * M) * coord a q + M * M)).
  2:{ intros q. rewrite along_unit by exact A. ring. }
  assert (L : forall l, sumR (fun q => 1 * (coord a q * coord a q) + (- 2 * M) * coord a q + M * M) l =
    sumR (fun q => coord a q * coord a q) l - 2 * M * sumR (coord a) l + INR (length l) * (M * M)).
  { induction l as [|q l IH]; [cbn; ring|]. cbn [length sumR fold_right]. unfold sumR in IH. rewrite IH, S_INR. ring. }
  rewrite L. unfold M. field. lra.
Qed.
Lemma axis_of_spec (pts : list (vec4 Rfld)) : pts <> [] -> Forall (fun p : vec4 Rfld => vw p = 1) pts ->
  (axis_of (D := Rfld) pts < 3)%nat /\ forall b, (b < 3)%nat -> variance_along (unit_axis b) pts <= variance_along (unit_axis (axis_of (D := Rfld) pts)) pts.
Proof.
  intros NE W. split; [apply choose_axis_lt|]. assert (N : 0 < INR (length pts)) by (apply lt_0_INR; destruct pts; [congruence|cbn; lia]).
  unfold axis_of. rewrite (fold_pair vadd (fun m (pt : vec4 Rfld) => vadd m (vmul pt pt))). cbn [fst snd]. unfold choose_axis.
  pose proof (fun a A => var_coord a pts A NE W) as V. cbv zeta in V.
  set (var := vsub _ _) in *.
  pose proof (V 0%nat ltac:(lia)) as V0. pose proof (V 1%nat ltac:(lia)) as V1. pose proof (V 2%nat ltac:(lia)) as V2. clear V.
  unfold coord in V0, V1, V2. cbn [vcomp] in V0, V1, V2.
  change (nlt (n := fbase Rfld)) with Rlt_bool. rewrite V0, V1, V2.
  assert (CM : forall x y : R, Rlt_bool (INR (length pts) * x) (INR (length pts) * y) = Rlt_bool x y).
  { intros x y. destruct (Rlt_le_dec x y) as [L|L].
    - rewrite (proj2 (Rlt_bool_iff x y) L). apply Rlt_bool_iff. apply Rmult_lt_compat_l; assumption.
    - rewrite (proj2 (Rlt_bool_false_iff x y) L). apply Rlt_bool_false_iff. apply Rmult_le_compat_l; [lra|exact L]. }
  rewrite !CM. intros b Hb.
  destruct (Rlt_bool (variance_along (unit_axis 1) pts) (variance_along (unit_axis 0) pts)) eqn:L1;
    [apply Rlt_bool_iff in L1|apply Rlt_bool_false_iff in L1].
  - destruct (Rlt_bool (variance_along (unit_axis 2) pts) (variance_along (unit_axis 0) pts)) eqn:L2;
      [apply Rlt_bool_iff in L2|apply Rlt_bool_false_iff in L2]; destruct b as [|[|[|b]]]; try lia; lra.
  - destruct (Rlt_bool (variance_along (unit_axis 2) pts) (variance_along (unit_axis 1) pts)) eqn:L2;
      [apply Rlt_bool_iff in L2|apply Rlt_bool_false_iff in L2]; destruct b as [|[|[|b]]]; try lia; lra.
Qed.
