(** C77: the user-defined search, rejector and general factor of the template example. *)
From Coq Require Import Reals Lra.
From Flocq Require Import Core.
From Verif Require Import Base BaseProofs Num Vec RNum Lin LinSpec LinProofs LieModel FactorModel ReduceModel OptModel OptSpec FactorProofs
  EstModel EstProofs KdSpec F64 F64Proofs FactorSpec StepProofs Prop_Factor EnergySpec EnergyProofs TemplateModel TemplateSpec TemplateProofs.
Open Scope nat_scope.

(** Squared distance of point [i] to the query, written out in coordinates. *)
Definition distance {D : fld} (points : list (my_point D)) (pt : vec4 D) (i : nat) : car D :=
  match nth_error points i with
  | Some p =>
      let dx := nsub (p0 (my_pos p)) (vx pt) in let dy := nsub (p1 (my_pos p)) (vy pt) in let dz := nsub (p2 (my_pos p)) (vz pt) in
      nadd (nadd (nmul dx dx) (nmul dy dy)) (nmul dz dz)
  | None => nzero
  end.

Lemma size_small k : (0 <= k < 2 ^ 31)%Z -> size_of_int (int_of_size k) = Z.of_nat (Z.to_nat k).
Proof.
  intros H. unfold size_of_int, int_of_size. rewrite (Z.mod_small (k + 2 ^ 31)) by lia. rewrite Z.mod_small; lia.
Qed.

(** The brute-force search finds the k nearest points, nearest first, and touches nothing else
    of the buffers. *)
Theorem C77_search : forall (D : fld) ok push pop (points : list (my_point D)) pt (k : Z) indices dists,
  order_laws D ok -> queue_contract push pop -> (forall i, i < length points -> ok (distance points pt i)) ->
  (0 <= k < 2 ^ 31)%Z -> Z.to_nat k <= length indices -> Z.to_nat k <= length dists ->
  exists res, nearest_k (distance points pt) (length points) (Z.to_nat k) res /\
    my_traits_knn push pop points pt k indices dists =
      Ok (length res, map fst res ++ skipn (length res) indices, map snd res ++ skipn (length res) dists).
Proof.
  intros D ok push pop points pt k indices dists O (heap & A & B & C) Hok Hk LI LD. unfold my_traits_knn.
  apply (knn_search_nearest ok O push pop heap A B C points pt Hok _ _ (size_small k Hk)); lia.
Qed.

(** Hence the search can be used for registration (nearest neighbour) ... *)
Theorem C77_nearest : forall (D : fld) ok push pop (points : list (my_point D)) i0 d0 pt,
  order_laws D ok -> queue_contract push pop -> (forall i, i < length points -> ok (distance points pt i)) ->
  (points = [] /\ my_nearest push pop points i0 d0 pt = Ok None) \/
  exists i, i < length points /\ my_nearest push pop points i0 d0 pt = Ok (Some (N.of_nat i, distance points pt i)) /\
    forall j, j < length points -> nlt (distance points pt j) (distance points pt i) = false.
Proof.
  intros D ok push pop points i0 d0 pt O Q Hok.
  destruct (C77_search D ok push pop points pt 1 [i0] [d0] O Q Hok) as (res & (N & G & _ & L & F) & E); [lia|cbn; lia|cbn; lia|].
  unfold my_nearest. rewrite E. cbn [bind]. change (Z.to_nat 1) with 1 in L. destruct res as [|[i d] [|c l]].
  - left. split; [destruct points; [reflexivity|discriminate]|]. reflexivity.
  - right. destruct (G i d (or_introl eq_refl)) as [Li ->]. exists i. split; [exact Li|]. split; [reflexivity|].
    intros j Lj. destruct (Nat.eq_dec j i) as [->|Nj]; [apply (ol_irrefl D ok O), Hok, Li|].
    apply (F j Lj) with (c := (i, distance points pt i)); [|left; reflexivity]. cbn. intuition congruence.
  - cbn [length] in L. lia.
Qed.
(** ... and for normal estimation of the cloud it was built from. *)
Lemma my_neighbors_eq {D : fld} ok push pop (points : list (my_point D)) pt k :
  order_laws D ok -> queue_contract push pop -> (forall i, i < length points -> ok (distance points pt i)) -> (Z.of_nat k < 2 ^ 31)%Z ->
  exists res, nearest_k (distance points pt) (length points) k res /\ my_neighbors push pop points pt k = Ok (map fst res).
Proof.
  intros O Q Hok Hk.
  destruct (C77_search D ok push pop points pt (Z.of_nat k) (repeat 0 k) (repeat nzero k) O Q Hok) as (res & N & E);
    [lia|rewrite repeat_length; lia|rewrite repeat_length; lia|].
  rewrite Nat2Z.id in N. exists res. split; [exact N|]. unfold my_neighbors. rewrite E. cbn [bind]. f_equal.
  rewrite firstn_app, map_length, Nat.sub_diag, firstn_O, app_nil_r. rewrite <- (map_length fst res). apply firstn_all.
Qed.
Theorem C77_own_normals : forall (D : fld) ok push pop eig of_nat milli jp jn jc k (cloud : list (my_point D)),
  order_laws D ok -> queue_contract push pop ->
  (forall pt, In pt (map to_point cloud) -> forall i, i < length cloud -> ok (distance cloud pt i)) -> (Z.of_nat k < 2 ^ 31)%Z ->
  exists c', example2_target push pop eig of_nat milli jp jn jc k cloud = Ok c'.
Proof.
  intros D ok push pop eig of_nat milli jp jn jc k cloud O Q Hok Hk. unfold example2_target. apply estimate_total.
  intros p I. cbn [my_cloud cl_points] in *.
  destruct (my_neighbors_eq ok push pop cloud p k O Q (Hok p I) Hk) as (res & (_ & G & _) & E).
  exists (map fst res). split; [exact E|]. apply Forall_forall. intros j J. apply in_map_iff in J as ([i d] & <- & J).
  rewrite map_length. apply (G i d J).
Qed.

(** The example builds the search of the source from the target.  When the target is larger and
    all its points are neighbours, the source is read out of bounds: every serial run is
    undefined, and no parallel run completes. *)
Lemma first_undefined {D : fld} ok push pop eig of_nat milli k (target source : list (my_point D)) c :
  order_laws D ok -> queue_contract push pop ->
  (forall pt, In pt (map to_point source) -> forall i, i < length target -> ok (distance target pt i)) ->
  0 < length source < length target -> 5 <= length target <= k -> (Z.of_nat k < 2 ^ 31)%Z ->
  cl_points c = map to_point source ->
  local_writes (my_neighbors push pop target) eig of_nat milli Normals c k 0 = UB.
Proof.
  intros O Q Hok LS LT Hk E. unfold local_writes. rewrite E. destruct source as [|s0 source']; [cbn in LS; lia|]. cbn [map].
  set (p := to_point s0). change (get (p :: map to_point source') 0) with (Ok p). cbn [bind].
  destruct (my_neighbors_eq ok push pop target p k O Q (Hok p (or_introl eq_refl)) Hk) as (res & (N & G & _ & L & _) & En).
  rewrite En. cbn [bind]. rewrite map_length. replace (length res <? 5) with false by (symmetry; apply Nat.ltb_ge; lia).
  assert (X : exists j, In j (map fst res) /\ length (s0 :: source') <= j).
  { destruct (List.existsb (fun j => length (s0 :: source') <=? j) (map fst res)) eqn:Ex.
    - apply existsb_exists in Ex as (j & I & B). apply Nat.leb_le in B. eauto.
    - exfalso. assert (I : incl (map fst res) (seq 0 (length (s0 :: source')))).
      { intros j J. apply in_seq. split; [lia|]. cbn. apply Nat.nle_gt. intros C.
        assert (T : existsb (fun j => length (s0 :: source') <=? j) (map fst res) = true) by (apply existsb_exists; exists j; split; [exact J|apply Nat.leb_le; exact C]).
        rewrite T in Ex. discriminate. }
      pose proof (NoDup_incl_length N I) as B. rewrite map_length, seq_length in B. lia. }
  destruct X as (j & J & Lj).
  assert (M : forall l : list nat, In j l -> mapM (fun j => get (p :: map to_point source') j) l = UB).
  { clear -Lj. induction l as [|a l IH]; [intros []|]. intros [->|I]; cbn [mapM].
    - unfold get. rewrite (proj2 (nth_error_None _ _)); [reflexivity|]. cbn [length] in *. rewrite map_length. exact Lj.
    - unfold get at 1. destruct (nth_error _ a); cbn [bind]; [|reflexivity]. rewrite IH by exact I. reflexivity. }
  rewrite (M _ J). reflexivity.
Qed.
Theorem C77_source_normals_refuted : forall (D : fld) ok push pop eig of_nat milli jp jn jc k (target source : list (my_point D)),
  order_laws D ok -> queue_contract push pop ->
  (forall pt, In pt (map to_point source) -> forall i, i < length target -> ok (distance target pt i)) ->
  0 < length source < length target -> 5 <= length target <= k -> (Z.of_nat k < 2 ^ 31)%Z ->
  example2_source push pop eig of_nat milli jp jn jc k target source = UB /\
  forall s, par_runs (my_neighbors push pop target) eig of_nat milli Normals k (par_init jp jn jc (my_cloud source)) (Ok s) -> ~ par_finished s.
Proof.
  intros D ok push pop eig of_nat milli jp jn jc k target source O Q Hok LS LT Hk.
  assert (P0 : cl_points (cloud_resize jp jn jc (my_cloud source) (length (cl_points (my_cloud source)))) = map to_point source)
    by (cbn [cloud_resize cl_points my_cloud]; apply resize_same).
  split.
  - unfold example2_source, estimate. set (n := length (cl_points (my_cloud source))) in *.
    assert (En : n = length source) by (unfold n; cbn [my_cloud cl_points]; apply map_length). clearbody n.
    destruct n as [|n]; [lia|]. cbn [seq foldM]. unfold estimate_one at 1.
    rewrite (first_undefined ok push pop eig of_nat milli k target source _ O Q Hok LS LT Hk P0). reflexivity.
  - assert (G : forall s o, par_runs (my_neighbors push pop target) eig of_nat milli Normals k s o ->
       cl_points (s_cloud s) = map to_point source -> In 0 (s_todo s) -> forall s', o = Ok s' -> In 0 (s_todo s')).
    { intros s o R. induction R as [s|s s1 o S R IH|s o S N]; intros P I s' E.
      - injection E as <-. exact I.
      - assert (A : cl_points (s_cloud s1) = map to_point source /\ In 0 (s_todo s1)); [|destruct A; apply IH; auto].
        clear IH R E. inversion S as [c l1 i l2 act E1 E2|c todo a1 w ws a2 E1 E2]; subst s; cbn [s_cloud s_todo] in *.
        + destruct (local_writes _ _ _ _ _ c k i) as [ws| | |] eqn:W; cbn [bind] in E2; try discriminate.
          injection E2 as <-. cbn [s_cloud s_todo]. split; [exact P|].
          apply in_app_or in I as [I|[->|I]]; [apply in_or_app; auto| |apply in_or_app; auto].
          rewrite (first_undefined ok push pop eig of_nat milli k target source c O Q Hok LS LT Hk P) in W. discriminate.
        + destruct (do_write c w) as [c'| | |] eqn:W; cbn [bind] in E2; try discriminate. injection E2 as <-. cbn [s_cloud s_todo].
          split; [rewrite (proj1 (do_write_points D _ _ _ W)); exact P|exact I].
      - subst. exfalso. eapply N. reflexivity. }
    intros s R [F _]. specialize (G _ _ R P0). unfold par_init in G. cbn [s_todo] in G.
    assert (I : In 0 (seq 0 (length (cl_points (my_cloud source))))) by (apply in_seq; cbn; rewrite map_length; lia).
    specialize (G I s eq_refl). rewrite F in G. exact G.
Qed.

(** Writing a point or a normal through the traits changes just that. *)
Theorem C77_traits : forall (D : fld) (c : list (my_point D)) i (v : vec4 D), i < length c ->
  (exists c', my_set_point c i v = Ok c' /\ length c' = length c /\ my_at_point c' i = Ok (V4 (vx v) (vy v) (vz v) fone) /\
     my_at_normal c' i = my_at_normal c i /\ forall j, j <> i -> nth_error c' j = nth_error c j) /\
  (exists c', my_set_normal c i v = Ok c' /\ length c' = length c /\ my_at_normal c' i = Ok (V4 (vx v) (vy v) (vz v) nzero) /\
     my_at_point c' i = my_at_point c i /\ forall j, j <> i -> nth_error c' j = nth_error c j).
Proof.
  intros D c i v L. destruct (get_lt c i L) as (p & E).
  unfold my_set_point, my_set_normal, my_at_point, my_at_normal. rewrite E. cbn [bind]. rewrite !set_Ok by exact L.
  assert (G : forall a : my_point D, get (upd c i a) i = Ok a). { intros a. apply get_Ok, upd_nth_error_same, L. }
  split; eexists; (split; [reflexivity|]); rewrite G; cbn [bind]; rewrite upd_length;
    (split; [reflexivity|]); (split; [reflexivity|]); (split; [reflexivity|]); intros j N; apply upd_nth_error_other; congruence.
Qed.

(** The rejector takes the features of the target for those of the source as well: a pair whose
    features do not match is accepted as soon as the target's match themselves. *)
Theorem C77_rejector_refuted : forall t : my_point Rfld, (9 / 10 <= feature_dot (my_features t) (my_features t))%R ->
  forall (target source : list (my_point Rfld)) T ti si d s, get target ti = Ok t -> get source si = Ok s -> (d <= 1)%R ->
  (feature_dot (my_features t) (my_features s) < 9 / 10)%R ->
  my_reject (1%R : car Rfld) (9 / 10)%R target source T ti si d = Ok false.
Proof.
  intros t Ht target source T ti si d s Et Es Hd Hf. unfold my_reject. rewrite Et. cbn [bind].
  assert (A : nlt (1%R : car Rfld) d = false). { change (Rlt_bool (1%R) d = false). destruct (Rlt_bool_spec 1 d); [lra|reflexivity]. }
  rewrite A. f_equal. set (x := feature_dot _ _) in *. change (Rlt_bool x (9 / 10) = false). destruct (Rlt_bool_spec x (9 / 10)) as [C|C]; [|reflexivity].
  exfalso. apply (Rlt_not_le _ _ C). exact Ht.
Qed.

(** The general factor is the restriction of roll and pitch; their motion is bounded by the
    error at every step. *)
Definition yaw_and_position : v6 Rfld := P6 (P3 (0%R : car Rfld) 0%R 1%R) (P3 (1%R : car Rfld) 1%R 1%R).
Theorem C77_general_factor : forall (lambda : R) T s e,
  upd_sys (my_general (lambda : car Rfld)) T s = upd_sys (restrict_dof (lambda : car Rfld) yaw_and_position) T s /\ upd_err (my_general (lambda : car Rfld)) T e = e.
Proof.
  intros lambda T s e. split; [|reflexivity]. unfold my_general, restrict_dof. cbn [upd_sys]. f_equal. f_equal. f_equal. f_equal.
  unfold mask_penalty, yaw_and_position. cbn [rv tv p0 p1 p2].
  assert (A : fabs (nsub (0%R : car Rfld) fone) = fone). { cbn. req. rewrite Rabs_left; lra. }
  assert (B : fabs (nsub (1%R : car Rfld) fone) = nzero). { cbn. req. rewrite Rminus_eq_0. apply Rabs_R0. }
  rewrite A, B. reflexivity.
Qed.
Lemma yaw_mask : mask01 yaw_and_position.
Proof. unfold mask01; cbn [yaw_and_position rv tv p0 p1 p2]; repeat (apply Forall_cons; [lra|]); apply Forall_nil. Qed.
Lemma yaw_off delta : dot6 (off_axes yaw_and_position delta) (off_axes yaw_and_position delta) = (p0 (rv delta) * p0 (rv delta) + p1 (rv delta) * p1 (rv delta))%R.
Proof.
  unfold off_axes, yaw_and_position. cbn [rv tv p0 p1 p2]. repeat (destruct (Req_EM_T _ _) as [E|E]; try lra; try (exfalso; apply E; reflexivity); clear E).
  cbn. req. ring.
Qed.
Theorem C77_roll_pitch : forall lin err (lambda : R) solve crit (c : lm_settings Rfld) T fs r log,
  least_squares lin -> (0 <= lambda)%R -> solves6 solve -> (0 < lm_init_lambda c)%R -> (0 < lm_factor c)%R ->
  levenberg_marquardt lin err (my_general (lambda : car Rfld)) solve se3_exp inlier crit c T fs = Ok (r, log) ->
  steps_satisfy (0%R : car Rfld) (fun _ _ s _ delta =>
    (lambda * (p0 (rv delta) * p0 (rv delta) + p1 (rv delta) * p1 (rv delta)) <= (se s : R) / 2)%R) None log.
Proof.
  intros lin err lambda solve crit c T fs r log HL L So L0 Lf H. unfold levenberg_marquardt in H.
  destruct (lm_loop _ _ _ _ _ _ _ _ _ _ _ _) as [[rf log']| | |] eqn:E; cbn [bind] in H; try discriminate. injection H as <- <-.
  eapply (lm_loop_steps Rfld (factor Rfld) _ _ _ solve se3_exp crit _ _ (fun l : R => (0 < l)%R) (lm_factor c)); try exact E; auto.
  - intros l Hl. apply Rdiv_lt_0_compat; assumption.
  - intros l Hl. apply Rmult_lt_0_compat; assumption.
  - intros T1 fs1 fs1' s0 mu Hl EL. apply problem_solid in EL; [|exact HL]. cbv zeta.
    rewrite (proj1 (C77_general_factor lambda T1 s0 (0%R : car Rfld))).
    pose proof (solved_restricted lambda yaw_and_position solve T1 s0 mu L yaw_mask So EL Hl) as Q. cbv zeta in Q. rewrite yaw_off in Q. exact Q.
Qed.

(** Queues meeting the contract exist for every number type; doubles that are not NaN are ordered. *)
Example C77_queue : queue_contract (D := Ffld) push_list pop_list /\ order_laws Ffld notnan.
Proof. split; [apply list_contract|exact f64_order]. Qed.
Definition corner (x : R) : my_point Rfld := mkMy (P3 (x : car Rfld) 0%R 0%R) zero3 [x].
(** Five target points, one source point, ten neighbours: the example reads out of bounds. *)
Example C77_small : forall eig of_nat (milli : R) jp jn jc,
  example2_source push_list pop_list eig of_nat (milli : car Rfld) jp jn jc 10 (map corner [1; 2; 3; 4; 5]%R) [corner 0%R] = UB.
Proof.
  intros eig of_nat milli jp jn jc.
  apply (C77_source_normals_refuted Rfld (fun _ => True) push_list pop_list eig of_nat milli jp jn jc 10).
  - exact Rnum_order.
  - apply list_contract.
  - intros. exact I.
  - cbn. lia.
  - cbn. lia.
  - reflexivity.
Qed.
(** Opposite features are accepted. *)
Example C77_opposite : my_reject (1%R : car Rfld) (9 / 10)%R [corner 1%R] [corner (-1)%R] pose_id 0 0 (0%R : car Rfld) = Ok false /\
  feature_dot (my_features (corner 1%R)) (my_features (corner (-1)%R)) = (-1)%R.
Proof.
  assert (F : feature_dot (my_features (corner 1%R)) (my_features (corner (-1)%R)) = (-1)%R) by (cbn; req; ring).
  split; [|exact F]. apply (C77_rejector_refuted (corner 1%R)) with (s := corner (-1)%R); try reflexivity; [|lra|].
  - assert (G : feature_dot (my_features (corner 1%R)) (my_features (corner 1%R)) = 1%R) by (cbn; req; ring). rewrite G. lra.
  - rewrite F. lra.
Qed.

Print Assumptions C77_search.
Print Assumptions C77_nearest.
Print Assumptions C77_own_normals.
Print Assumptions C77_source_normals_refuted.
Print Assumptions C77_traits.
Print Assumptions C77_rejector_refuted.
Print Assumptions C77_general_factor.
Print Assumptions C77_roll_pitch.
