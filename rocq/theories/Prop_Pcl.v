(** C38, C39: RegistrationPCL, the PCL interface, over every history of public calls. *)
From Coq Require Import ZArith ZifyBool ZifyNat.
From Flocq Require Import IEEE754.BinarySingleNaN.
From Verif Require Import Base BaseProofs F64 PclModel PclSpec PclProofs.
Open Scope nat_scope.

Section Pcl.
Context (cloud : Type) (size : cloud -> nat).
Context (tree cov vmap result guess base : Type).
Context (build : cloud -> tree).
Context (estimate : cloud -> tree -> Z -> list cov).
Context (make_map : f64 -> cloud -> list cov -> vmap).
Context (run_gicp : base -> Z -> cloud -> list cov -> tree -> cloud -> list cov -> guess -> outcome result).
Context (run_vgicp : base -> Z -> vmap -> cloud -> list cov -> guess -> outcome result).
Context (accepts : side -> cloud -> bool).
Notation call := (call cloud cov guess base).
Notation state := (state cloud tree cov vmap base).
Notation run := (run size build estimate make_map run_gicp run_vgicp accepts).
Notation ref_run := (ref_run size build estimate make_map run_gicp run_vgicp accepts).
Notation step := (step size build estimate make_map run_gicp run_vgicp accepts).

Lemma disciplined_eq mem b ops :
  (forall c t k, length (estimate c t k) = size c) ->
  disciplined size build estimate make_map run_gicp run_vgicp accepts (first_inputs mem b) ops = true ->
  (let* (_, out) := run (init mem b) ops in Ok out)
    = (let* (_, out) := ref_run (first_inputs mem b) ops in Ok out).
Proof.
  intros EL DS. unfold PclModel.run, PclSpec.ref_run.
  pose proof (run_sim cloud size tree cov vmap result guess base build estimate make_map
                run_gicp run_vgicp accepts EL ops (init mem b) (first_inputs mem b) []) as H.
  match type of H with _ -> _ -> match ?a with _ => _ end =>
    destruct a as [[st l]| | |]; match type of H with _ -> _ -> match ?b with _ => _ end =>
      destruct b as [[x l']| | |] end end.
  all: specialize (H ltac:(repeat split; auto; discriminate) DS); try contradiction; auto.
  destruct H as [_ <-]. reflexivity.
Qed.

Lemma caches_owned mem b ops st out :
  (forall c t k, length (estimate c t k) = size c) ->
  (forall p c, ~ In (Mutate p c) ops) ->
  run (init mem b) ops = Ok (st, out) ->
  owns cloud size tree cov vmap base build estimate make_map (given_by cloud cov guess base ops) st.
Proof.
  intros EL NM E.
  eapply (run_owns cloud size tree cov vmap result guess base build estimate make_map run_gicp
            run_vgicp accepts EL (given_by cloud cov guess base ops) ops NM); [| |exact E].
  - intros s l I. unfold given_by. apply in_flat_map. exists (SetCovs s l). split; auto. left; auto.
  - split; [reflexivity|]. split; [reflexivity|]. cbn. lia.
Qed.

(** Trees exist for the clouds that are set. *)
Definition has_tree (c : cache tree cov vmap) : Prop :=
  match c_cloud c with Some _ => c_tree c <> None | None => True end.
Definition trees (st : state) : Prop := has_tree (st_src st) /\ has_tree (st_tgt st).

Lemma step_trees st o st' r : trees st -> step st o = Ok (st', r) -> trees st'.
Proof.
  intros [A B] E. destruct o as [s p|s l| |s|n|k|rr|t|bb|p c|g]; cbn [PclModel.step] in E.
  - apply bind_Ok in E. destruct E as (st1 & E1 & E). injection E as <- <-.
    unfold set_input in E1. destruct (ptr_eqb _ p); [injection E1 as <-; split; auto|].
    destruct p as [a|]; [|discriminate].
    destruct (if accepts s (st_mem st a) then Some a else c_cloud (cache_of st s)) as [q|]; [|discriminate].
    injection E1 as <-. destruct s; split; cbn; auto; unfold has_tree; cbn; discriminate.
  - injection E as <- <-. unfold set_covs. destruct (c_cloud (cache_of st s)) as [a|] eqn:Ea; [|split; auto].
    destruct (length l =? size (st_mem st a)); [|split; auto].
    destruct s; split; cbn in *; auto; unfold has_tree in *; cbn; rewrite Ea in *; auto.
  - injection E as <- <-. split; auto.
  - injection E as <- <-. destruct s; split; cbn; auto; exact I.
  - injection E as <- <-. split; auto.
  - injection E as <- <-. split; auto.
  - injection E as <- <-. split; auto.
  - injection E as <- <-. split; auto.
  - injection E as <- <-. split; auto.
  - injection E as <- <-. split; auto.
  - unfold align in E.
    destruct (c_cloud (st_src st)); [|injection E as <- <-; split; auto].
    destruct (c_cloud (st_tgt st)); [|injection E as <- <-; split; auto].
    destruct (c_tree (st_src st)); [|discriminate].
    destruct (c_tree (st_tgt st)); [|discriminate].
    destruct (p_kind (st_par st)); apply bind_Ok in E; destruct E as (r1 & _ & E);
      injection E as <- <-; split; unfold has_tree; cbn; discriminate.
Qed.

Lemma never_null ops :
  (forall s c, accepts s c = true) -> (forall s, ~ In (SetInput s None) ops) ->
  (forall b n c l t c' l' g, exists r, run_gicp b n c l t c' l' g = Ok r) ->
  (forall b n m c l g, exists r, run_vgicp b n m c l g = Ok r) ->
  forall st out, trees st -> exists st' out',
  foldM (fun '(st, out) o =>
                 let* (st, r) := step st o in
                 Ok (st, match r with Some r => out ++ [r] | None => out end)) ops (st, out)
    = Ok (st', out').
Proof.
  intros AC NN RG RV. induction ops as [|o ops IH]; intros st out T; cbn [foldM].
  - eauto.
  - assert (S : exists st1 r, step st o = Ok (st1, r)).
    { destruct o as [s p|s l| |s|n|k|rr|t|bb|p c|g]; cbn [PclModel.step]; eauto.
      - unfold set_input. destruct (ptr_eqb _ p); [cbn; eauto|].
        destruct p as [a|]; [|exfalso; apply (NN s); left; reflexivity].
        rewrite AC. cbn. eauto.
      - unfold align. destruct T as [A B]. unfold has_tree in A, B.
        destruct (c_cloud (st_src st)); [|eauto]. destruct (c_cloud (st_tgt st)); [|eauto].
        destruct (c_tree (st_src st)) as [ta|]; [|contradiction].
        destruct (c_tree (st_tgt st)) as [tb|]; [|contradiction].
        destruct (p_kind (st_par st)).
        + match goal with |- context [run_gicp ?a ?b ?c ?d ?e ?f ?g ?h] =>
            destruct (RG a b c d e f g h) as (r & ->) end. cbn. eauto.
        + match goal with |- context [run_vgicp ?a ?b ?c ?d ?e ?f] =>
            destruct (RV a b c d e f) as (r & ->) end. cbn. eauto. }
    destruct S as (st1 & r & S). rewrite S. cbn [bind].
    apply IH; [|eapply step_trees; eauto]. intros s I. apply (NN s). right; auto.
Qed.

Lemma params_kept (P : params base -> Prop) : forall ops,
  (forall p o, In o ops -> P p -> P (set_params (cov := cov) (cloud := cloud) (guess := guess) p o)) ->
  forall st out st' out', P (st_par st) ->
  foldM (fun '(st, out) o =>
                 let* (st, r) := step st o in
                 Ok (st, match r with Some r => out ++ [r] | None => out end)) ops (st, out)
    = Ok (st', out') -> P (st_par st').
Proof.
  induction ops as [|o ops IH]; intros K st out st' out' H E; cbn [foldM] in E.
  - injection E as <- <-. exact H.
  - apply bind_Ok in E. destruct E as ([st1 out1] & E1 & E).
    apply bind_Ok in E1. destruct E1 as ([st2 r] & E1 & E2). injection E2 as <- <-.
    eapply IH; [intros p' o' I'; apply K; right; exact I'| |exact E]. clear E IH.
    assert (K1 : forall p, P p -> P (set_params p o)) by (intros p'; apply K; left; reflexivity).
    destruct o as [s p|s l| |s|n|k|rr|t|bb|p c|g]; cbn [PclModel.step] in E1;
      try (injection E1 as <- <-).
    + apply bind_Ok in E1. destruct E1 as (st1 & E1 & E2). injection E2 as <- <-.
      unfold set_input in E1. destruct (ptr_eqb _ p); [injection E1 as <-; auto|].
      destruct p as [a|]; [|discriminate].
      destruct (if accepts s (st_mem st a) then Some a else c_cloud (cache_of st s)) as [q|]; [|discriminate].
      injection E1 as <-. destruct s; exact H.
    + unfold set_covs. destruct (c_cloud (cache_of st s)) as [a|]; auto.
      destruct (length l =? size (st_mem st a)); auto. destruct s; exact H.
    + exact H.
    + destruct s; exact H.
    + exact (K1 _ H).
    + exact (K1 _ H).
    + exact (K1 _ H).
    + exact (K1 _ H).
    + exact (K1 _ H).
    + exact H.
    + unfold align in E1.
      destruct (c_cloud (st_src st)); [|injection E1 as <- <-; auto].
      destruct (c_cloud (st_tgt st)); [|injection E1 as <- <-; auto].
      destruct (c_tree (st_src st)); [|discriminate].
      destruct (c_tree (st_tgt st)); [|discriminate].
      destruct (p_kind (st_par st)); apply bind_Ok in E1; destruct E1 as (r1 & _ & E1);
        injection E1 as <- <-; exact H.
Qed.

End Pcl.

(** ** C38 *)

(** The kept trees, covariances and voxel maps are invisible in every history that does not
    change the neighbour count, the voxel resolution or covariances after an align used them,
    nor a cloud in place: align always returns what an object without any of them returns. *)
Theorem C38_disciplined_histories :
  forall (cloud : Type) (size : cloud -> nat) (tree cov vmap result guess base : Type)
    (build : cloud -> tree) (estimate : cloud -> tree -> Z -> list cov)
    (make_map : f64 -> cloud -> list cov -> vmap)
    (run_gicp : base -> Z -> cloud -> list cov -> tree -> cloud -> list cov -> guess -> outcome result)
    (run_vgicp : base -> Z -> vmap -> cloud -> list cov -> guess -> outcome result)
    (accepts : side -> cloud -> bool) mem b ops,
  (forall c t k, length (estimate c t k) = size c) ->
  disciplined size build estimate make_map run_gicp run_vgicp accepts (first_inputs mem b) ops = true ->
  (let* (_, out) := run size build estimate make_map run_gicp run_vgicp accepts (init mem b) ops in
   Ok out)
    = (let* (_, out) := ref_run size build estimate make_map run_gicp run_vgicp accepts
                          (first_inputs mem b) ops in Ok out).
Proof. intros. apply disciplined_eq; auto. Qed.

(** Every history that leaves clouds unmodified: whatever is kept for a side was made from the
    cloud that side now holds - the tree; the covariances, unless the user set them since; the
    voxel map. *)
Theorem C38_kept_data_is_of_the_current_cloud :
  forall (cloud : Type) (size : cloud -> nat) (tree cov vmap result guess base : Type)
    (build : cloud -> tree) (estimate : cloud -> tree -> Z -> list cov)
    (make_map : f64 -> cloud -> list cov -> vmap)
    (run_gicp : base -> Z -> cloud -> list cov -> tree -> cloud -> list cov -> guess -> outcome result)
    (run_vgicp : base -> Z -> vmap -> cloud -> list cov -> guess -> outcome result)
    (accepts : side -> cloud -> bool) mem b ops st out s a,
  (forall c t k, length (estimate c t k) = size c) ->
  (forall p c, ~ In (Mutate p c) ops) ->
  run size build estimate make_map run_gicp run_vgicp accepts (init mem b) ops = Ok (st, out) ->
  c_cloud (cache_of st s) = Some a ->
  let c := st_mem st a in
  let made l := (exists s', In (SetCovs s' l) ops /\ length l = size c) \/
                (exists k, (5 <= k)%Z /\ l = estimate c (build c) k) in
  c_tree (cache_of st s) = Some (build c) /\
  (c_covs (cache_of st s) = [] \/ made (c_covs (cache_of st s))) /\
  (forall m, c_map (cache_of st s) = Some m -> exists r l, m = make_map r c l /\ made l).
Proof.
  intros cloud size tree cov vmap result guess base build estimate make_map run_gicp run_vgicp accepts
    mem b ops st out s a EL NM E Ea c made.
  destruct (caches_owned _ _ _ _ _ _ _ _ _ _ _ _ _ _ _ _ _ _ _ EL NM E) as (A & B & _).
  assert (O : owned cloud size tree cov vmap build estimate make_map
                (given_by cloud cov guess base ops) (st_mem st) (cache_of st s)) by (destruct s; auto).
  unfold owned in O. rewrite Ea in O. destruct O as (T & CV & M).
  assert (MK : forall l, from_cloud cloud size tree cov build estimate c
                           (given_by cloud cov guess base ops) l -> made l).
  { intros l [[I L]|K]; [left|right; auto]. apply in_flat_map in I. destruct I as (o & Io & Il).
    destruct o; try contradiction. destruct Il as [<-|[]]. eauto. }
  split; [exact T|]. split.
  - destruct CV as [|F]; auto.
  - intros m Em. rewrite Em in M. destruct M as (r & l & -> & F). eauto.
Qed.

(** No history of calls with non-null accepted clouds dereferences a missing tree. *)
Theorem C38_no_missing_tree :
  forall (cloud : Type) (size : cloud -> nat) (tree cov vmap result guess base : Type)
    (build : cloud -> tree) (estimate : cloud -> tree -> Z -> list cov)
    (make_map : f64 -> cloud -> list cov -> vmap)
    (run_gicp : base -> Z -> cloud -> list cov -> tree -> cloud -> list cov -> guess -> outcome result)
    (run_vgicp : base -> Z -> vmap -> cloud -> list cov -> guess -> outcome result)
    (accepts : side -> cloud -> bool) mem b ops,
  (forall s c, accepts s c = true) -> (forall s, ~ In (SetInput s None) ops) ->
  (forall b n c l t c' l' g, exists r, run_gicp b n c l t c' l' g = Ok r) ->
  (forall b n m c l g, exists r, run_vgicp b n m c l g = Ok r) ->
  exists st out,
  run size build estimate make_map run_gicp run_vgicp accepts (init mem b) ops = Ok (st, out).
Proof.
  intros. unfold run. eapply never_null; eauto. split; exact I.
Qed.

(** ...but a first cloud that the base class refuses (PCL refuses empty targets) is one. *)
Theorem C38_refused_first_cloud_refuted :
  forall (cloud : Type) (size : cloud -> nat) (tree cov vmap result guess base : Type)
    (build : cloud -> tree) (estimate : cloud -> tree -> Z -> list cov)
    (make_map : f64 -> cloud -> list cov -> vmap)
    (run_gicp : base -> Z -> cloud -> list cov -> tree -> cloud -> list cov -> guess -> outcome result)
    (run_vgicp : base -> Z -> vmap -> cloud -> list cov -> guess -> outcome result)
    (accepts : side -> cloud -> bool) mem b s a,
  accepts s (mem a) = false ->
  run size build estimate make_map run_gicp run_vgicp accepts (init mem b) [SetInput s (Some a)] = UB.
Proof.
  intros. unfold run. cbn. unfold set_input. destruct s; cbn in *; rewrite H; reflexivity.
Qed.

Section Stale.
Context (cloud : Type) (size : cloud -> nat) (tree cov vmap result guess base : Type).
Context (build : cloud -> tree) (estimate : cloud -> tree -> Z -> list cov).
Context (make_map : f64 -> cloud -> list cov -> vmap).
Context (rg : base -> Z -> cloud -> list cov -> tree -> cloud -> list cov -> guess -> result).
Context (rv : base -> Z -> vmap -> cloud -> list cov -> guess -> result).
Context (mem : ptr -> cloud) (b : base) (g : guess).
Let run_gicp b n c l t c' l' g := Ok (rg b n c l t c' l' g).
Let run_vgicp b n m c l g := Ok (rv b n m c l g).
Let accepts (s : side) (c : cloud) := true.
Notation call := (call cloud cov guess base).
Definition results (ops : list call) : outcome (list result) :=
  let* (_, out) := run size build estimate make_map run_gicp run_vgicp accepts (init mem b) ops in
  Ok out.
Definition ref_results (ops : list call) : outcome (list result) :=
  let* (_, out) := ref_run size build estimate make_map run_gicp run_vgicp accepts
                     (first_inputs mem b) ops in Ok out.
(** Covariances estimated with the default neighbour count. *)
Definition est (c : cloud) : list cov := estimate c (build c) 20.
End Stale.
Arguments results {cloud} size {tree cov vmap result guess base}.
Arguments ref_results {cloud} size {tree cov vmap result guess base}.
Arguments est {cloud tree cov}.

(** A new voxel resolution is ignored once a VGICP align built the maps: the second align
    returns what the first did. *)
Theorem C38_new_resolution_refuted :
  forall (cloud : Type) (size : cloud -> nat) (tree cov vmap result guess base : Type)
    (build : cloud -> tree) (estimate : cloud -> tree -> Z -> list cov)
    (make_map : f64 -> cloud -> list cov -> vmap) rg rv mem (b : base) (g : guess) r1 r2,
  (forall c t k, length (estimate c t k) = size c) -> f64_le r1 (f64_of 0 0) = false ->
  let ops := [SetInput Src (Some 0); SetInput Tgt (Some 1); SetType (Some VGICP);
              SetRes r1; Align g; SetRes r2; Align g] in
  let res r := rv b 4%Z (make_map r (mem 1) (est build estimate (mem 1))) (mem 0)
                  (est build estimate (mem 0)) g in
  results (result := result) size build estimate make_map rg rv mem b ops = Ok [res r1; res r1] /\
  ref_results (result := result) size build estimate make_map rg rv mem b ops = Ok [res r1; res r2].
Proof.
  intros cloud size tree cov vmap result guess base build estimate make_map rg rv mem b g r1 r2 EL P ops res.
  assert (D : f64_le (f64_of 1 0) (f64_of 0 0) = false) by (vm_compute; reflexivity).
  unfold results, ref_results, run, ref_run, ops, res, est.
  cbn -[f64_of f64_le Nat.eqb]. rewrite D.
  assert (G : forall a k, (if 0 =? size (mem a) then [] else estimate (mem a) (build (mem a)) k)
                        = estimate (mem a) (build (mem a)) k).
  { intros a j. destruct (0 =? size (mem a)) eqn:Z; auto. symmetry. apply length_zero_iff_nil.
    rewrite EL. lia. }
  unfold fill_covs. cbn -[f64_of f64_le Nat.eqb]. rewrite !G, !EL, !Nat.eqb_refl, P.
  split; reflexivity.
Qed.

(** Covariances set after a VGICP align built the maps do not reach the target's map: the
    second align still uses the target's estimated covariances, though GICP would use the
    new ones. *)
Theorem C38_new_covariances_refuted :
  forall (cloud : Type) (size : cloud -> nat) (tree cov vmap result guess base : Type)
    (build : cloud -> tree) (estimate : cloud -> tree -> Z -> list cov)
    (make_map : f64 -> cloud -> list cov -> vmap) rg rv mem (b : base) (g : guess) covs,
  (forall c t k, length (estimate c t k) = size c) -> length covs = size (mem 1) ->
  let ops := [SetInput Src (Some 0); SetInput Tgt (Some 1); SetType (Some VGICP);
              Align g; SetCovs Tgt covs; Align g] in
  let res l := rv b 4%Z (make_map (f64_of 1 0) (mem 1) l) (mem 0) (est build estimate (mem 0)) g in
  results (result := result) size build estimate make_map rg rv mem b ops
    = Ok [res (est build estimate (mem 1)); res (est build estimate (mem 1))] /\
  ref_results (result := result) size build estimate make_map rg rv mem b ops
    = Ok [res (est build estimate (mem 1)); res covs].
Proof.
  intros cloud size tree cov vmap result guess base build estimate make_map rg rv mem b g covs EL LC ops res.
  unfold results, ref_results, run, ref_run, ops, res, est.
  assert (G : forall a k, (if 0 =? size (mem a) then [] else estimate (mem a) (build (mem a)) k)
                        = estimate (mem a) (build (mem a)) k).
  { intros a j. destruct (0 =? size (mem a)) eqn:Z; auto. symmetry. apply length_zero_iff_nil.
    rewrite EL. lia. }
  cbn -[f64_of f64_le Nat.eqb]. unfold set_covs, fill_covs. cbn -[f64_of f64_le Nat.eqb].
  rewrite LC, !Nat.eqb_refl. cbn -[f64_of f64_le Nat.eqb].
  unfold fill_covs. cbn -[f64_of f64_le Nat.eqb].
  repeat first [rewrite G|rewrite EL|rewrite LC|rewrite Nat.eqb_refl]. split; reflexivity.
Qed.

(** A new neighbour count is ignored for clouds that an align already used. *)
Theorem C38_new_neighbour_count_refuted :
  forall (cloud : Type) (size : cloud -> nat) (tree cov vmap result guess base : Type)
    (build : cloud -> tree) (estimate : cloud -> tree -> Z -> list cov)
    (make_map : f64 -> cloud -> list cov -> vmap) rg rv mem (b : base) (g : guess) k,
  (forall c t k, length (estimate c t k) = size c) -> (5 <= k)%Z ->
  let ops := [SetInput Src (Some 0); SetInput Tgt (Some 1); Align g; SetK k; Align g] in
  let res k := rg b 4%Z (mem 1) (estimate (mem 1) (build (mem 1)) k) (build (mem 1))
                  (mem 0) (estimate (mem 0) (build (mem 0)) k) g in
  results (result := result) size build estimate make_map rg rv mem b ops = Ok [res 20%Z; res 20%Z] /\
  ref_results (result := result) size build estimate make_map rg rv mem b ops = Ok [res 20%Z; res k].
Proof.
  intros cloud size tree cov vmap result guess base build estimate make_map rg rv mem b g k EL K ops res.
  unfold results, ref_results, run, ref_run, ops, res.
  assert (G : forall a k, (if 0 =? size (mem a) then [] else estimate (mem a) (build (mem a)) k)
                        = estimate (mem a) (build (mem a)) k).
  { intros a j. destruct (0 =? size (mem a)) eqn:Z; auto. symmetry. apply length_zero_iff_nil.
    rewrite EL. lia. }
  assert (KK : (k <? 5)%Z = false) by lia.
  cbn -[f64_of f64_le Nat.eqb Z.ltb]. unfold fill_covs. cbn -[f64_of f64_le Nat.eqb Z.ltb].
  rewrite !G, !EL, !Nat.eqb_refl, KK. split; reflexivity.
Qed.

(** A cloud changed in place and set again keeps the tree and covariances of its old contents. *)
Theorem C38_changed_cloud_refuted :
  forall (cloud : Type) (size : cloud -> nat) (tree cov vmap result guess base : Type)
    (build : cloud -> tree) (estimate : cloud -> tree -> Z -> list cov)
    (make_map : f64 -> cloud -> list cov -> vmap) rg rv mem (b : base) (g : guess) c,
  (forall c t k, length (estimate c t k) = size c) -> size c = size (mem 1) ->
  let ops := [SetInput Src (Some 0); SetInput Tgt (Some 1); Align g;
              Mutate 1 c; SetInput Tgt (Some 1); Align g] in
  let res c l t := rg b 4%Z c l t (mem 0) (est build estimate (mem 0)) g in
  results (result := result) size build estimate make_map rg rv mem b ops
    = Ok [res (mem 1) (est build estimate (mem 1)) (build (mem 1));
          res c (est build estimate (mem 1)) (build (mem 1))] /\
  ref_results (result := result) size build estimate make_map rg rv mem b ops
    = Ok [res (mem 1) (est build estimate (mem 1)) (build (mem 1));
          res c (est build estimate c) (build c)].
Proof.
  intros cloud size tree cov vmap result guess base build estimate make_map rg rv mem b g c EL SZ ops res.
  unfold results, ref_results, run, ref_run, ops, res, est.
  assert (G : forall a k, (if 0 =? size (mem a) then [] else estimate (mem a) (build (mem a)) k)
                        = estimate (mem a) (build (mem a)) k).
  { intros a j. destruct (0 =? size (mem a)) eqn:Z; auto. symmetry. apply length_zero_iff_nil.
    rewrite EL. lia. }
  cbn -[f64_of f64_le Nat.eqb]. unfold fill_covs. cbn -[f64_of f64_le Nat.eqb].
  unfold set_input, ptr_eqb. cbn -[f64_of f64_le Nat.eqb].
  repeat (change (1 =? 1) with true || change (0 =? 1) with false; cbn -[f64_of f64_le Nat.eqb]).
  unfold fill_covs. cbn -[f64_of f64_le Nat.eqb].
  repeat first [rewrite G|rewrite EL|rewrite SZ|rewrite Nat.eqb_refl]. split; reflexivity.
Qed.

(** ** C39 *)

(** After any history the thread count is at least one and the neighbour count at least five. *)
Theorem C39_threads_and_neighbours :
  forall (cloud : Type) (size : cloud -> nat) (tree cov vmap result guess base : Type)
    (build : cloud -> tree) (estimate : cloud -> tree -> Z -> list cov)
    (make_map : f64 -> cloud -> list cov -> vmap)
    (run_gicp : base -> Z -> cloud -> list cov -> tree -> cloud -> list cov -> guess -> outcome result)
    (run_vgicp : base -> Z -> vmap -> cloud -> list cov -> guess -> outcome result)
    (accepts : side -> cloud -> bool) mem b ops st out,
  run size build estimate make_map run_gicp run_vgicp accepts (init mem b) ops = Ok (st, out) ->
  (1 <= p_threads (st_par st))%Z /\ (5 <= p_k (st_par st))%Z.
Proof.
  intros cloud size tree cov vmap result guess base build estimate make_map run_gicp run_vgicp accepts
    mem b ops st out E. unfold run in E.
  eapply (params_kept _ _ _ _ _ _ _ _ _ _ _ _ _ _
            (fun p => (1 <= p_threads p)%Z /\ (5 <= p_k p)%Z)); [| |exact E].
  - intros p o _ [P1 P2]. destruct o as [| | | | | | |[]| | |]; cbn; auto.
    + destruct (n <=? 0)%Z eqn:Z; split; auto; lia.
    + destruct (k <? 5)%Z eqn:Z; split; auto; lia.
  - cbn. lia.
Qed.

(** The voxel resolution stays positive if every one passed is... *)
Theorem C39_resolution_kept_positive :
  forall (cloud : Type) (size : cloud -> nat) (tree cov vmap result guess base : Type)
    (build : cloud -> tree) (estimate : cloud -> tree -> Z -> list cov)
    (make_map : f64 -> cloud -> list cov -> vmap)
    (run_gicp : base -> Z -> cloud -> list cov -> tree -> cloud -> list cov -> guess -> outcome result)
    (run_vgicp : base -> Z -> vmap -> cloud -> list cov -> guess -> outcome result)
    (accepts : side -> cloud -> bool) mem b ops st out,
  (forall r, In (SetRes r) ops -> f64_lt (f64_of 0 0) r = true) ->
  run size build estimate make_map run_gicp run_vgicp accepts (init mem b) ops = Ok (st, out) ->
  f64_lt (f64_of 0 0) (p_res (st_par st)) = true.
Proof.
  intros cloud size tree cov vmap result guess base build estimate make_map run_gicp run_vgicp accepts
    mem b ops st out PO E. unfold run in E.
  assert (ONE : f64_lt (f64_of 0 0) (f64_of 1 0) = true) by (vm_compute; reflexivity).
  eapply (params_kept _ _ _ _ _ _ _ _ _ _ _ _ _ _
            (fun p => f64_lt (f64_of 0 0) (p_res p) = true)); [| |exact E].
  - intros p o I P. destruct o as [| | | | | |r|[]| | |]; cbn -[f64_of f64_lt f64_le]; auto.
    destruct (f64_le (p_res p) (f64_of 0 0)); auto.
  - exact ONE.
Qed.

(** ...but an invalid one is stored, and the next valid one is then discarded: the setter tests
    the stored value instead of its argument. *)
Theorem C39_resolution_refuted :
  forall (cloud : Type) (size : cloud -> nat) (tree cov vmap result guess base : Type)
    (build : cloud -> tree) (estimate : cloud -> tree -> Z -> list cov)
    (make_map : f64 -> cloud -> list cov -> vmap)
    (run_gicp : base -> Z -> cloud -> list cov -> tree -> cloud -> list cov -> guess -> outcome result)
    (run_vgicp : base -> Z -> vmap -> cloud -> list cov -> guess -> outcome result)
    (accepts : side -> cloud -> bool) mem b,
  let res ops := let* (st, _) := run size build estimate make_map run_gicp run_vgicp accepts
                                   (init mem b) ops in Ok (p_res (st_par st)) in
  (forall r, res [SetRes r] = Ok r) /\
  (forall r r', f64_le r (f64_of 0 0) = true -> res [SetRes r; SetRes r'] = Ok (f64_of 1 0)).
Proof.
  intros. assert (D : f64_le (f64_of 1 0) (f64_of 0 0) = false) by (vm_compute; reflexivity).
  split.
  - intros r. unfold res, run. cbn -[f64_of f64_le]. rewrite D. reflexivity.
  - intros r r' N. unfold res, run. cbn -[f64_of f64_le]. rewrite D, N. reflexivity.
Qed.

(** ** Instances *)

(** Clouds are lists of numbers, everything else records its inputs. *)
Definition kd (c : list Z) : list Z := c.
Definition covs_k (c t : list Z) (k : Z) : list (Z * Z) := map (fun x => (x, k)) c.
Definition vm (r : f64) (c : list Z) (l : list (Z * Z)) : f64 * list Z * list (Z * Z) := (r, c, l).
Definition tg (b : unit) (n : Z) (c : list Z) (l : list (Z * Z)) (t c' : list Z) (l' : list (Z * Z)) (g : Z)
  : outcome (f64 * list (Z * Z)) := Ok (f64_of 0 0, l ++ l').
Definition tv (b : unit) (n : Z) (m : f64 * list Z * list (Z * Z)) (c' : list Z) (l' : list (Z * Z)) (g : Z)
  : outcome (f64 * list (Z * Z)) := Ok (fst (fst m), snd m ++ l').
Definition clouds (p : ptr) : list Z := [Z.of_nat p; 7%Z].

(** A disciplined history with swaps, user covariances, both kinds of registration and changes
    of parameters, returning three results. *)
Example C38_instance :
  let ops := [SetK 8; SetInput Src (Some 0); SetInput Tgt (Some 1); SetCovs Tgt [(1, 0); (2, 0)]%Z;
              Align 0%Z; SetRes (f64_of 1 (-1)); Swap; SetType (Some VGICP); Align 0%Z;
              Mutate 5 [3%Z]; SetInput Src (Some 5); SetInput Src (Some 0); SetThreads (-1); Align 0%Z] in
  disciplined (@length Z) kd covs_k vm tg tv (fun _ _ => true) (first_inputs clouds tt) ops = true /\
  match run (@length Z) kd covs_k vm tg tv (fun _ _ => true) (init clouds tt) ops with
  | Ok (_, out) => map snd out =
      [[(1, 0); (2, 0); (0, 8); (7, 8)]; [(0, 8); (7, 8); (1, 0); (2, 0)];
       [(0, 8); (7, 8); (0, 8); (7, 8)]]%Z
  | _ => False
  end /\ (forall c t k, length (covs_k c t k) = length c).
Proof.
  split; [vm_compute; reflexivity|]. split; [vm_compute; reflexivity|].
  intros. apply map_length.
Qed.

(** The out-of-date data of the refutations shows in these results. *)
Definition rg' b n c l t c' l' g := match tg b n c l t c' l' g with Ok r => r | _ => (f64_of 0 0, []) end.
Definition rv' b n m c' l' g := match tv b n m c' l' g with Ok r => r | _ => (f64_of 0 0, []) end.
Definition stale (ops : list (call (list Z) (Z * Z) Z unit)) :=
  (results (@length Z) kd covs_k vm rg' rv' clouds tt ops,
   ref_results (@length Z) kd covs_k vm rg' rv' clouds tt ops).
Example C38_stale_instance :
  let both := [SetInput Src (Some 0); SetInput Tgt (Some 1)] in
  let second x := match x with Ok l => nth 1 (map snd l) [] | _ => [] end in
  let diff ops := (second (fst (stale (both ++ ops))), second (snd (stale (both ++ ops)))) in
  diff [SetType (Some VGICP); Align 0; SetCovs Tgt [(5, 5); (6, 6)]; Align 0]%Z
    = ([(1, 20); (7, 20); (0, 20); (7, 20)], [(5, 5); (6, 6); (0, 20); (7, 20)])%Z /\
  diff [Align 0; SetK 9; Align 0]%Z
    = ([(1, 20); (7, 20); (0, 20); (7, 20)], [(1, 9); (7, 9); (0, 9); (7, 9)])%Z /\
  diff [Align 0%Z; Mutate 1 [2; 3]%Z; SetInput Tgt (Some 1); Align 0%Z]
    = ([(1, 20); (7, 20); (0, 20); (7, 20)], [(2, 20); (3, 20); (0, 20); (7, 20)])%Z /\
  f64_le (f64_of (-1) 0) (f64_of 0 0) = true.
Proof. repeat split; vm_compute; reflexivity. Qed.

Print Assumptions C38_disciplined_histories.
Print Assumptions C38_kept_data_is_of_the_current_cloud.
Print Assumptions C38_no_missing_tree.
Print Assumptions C38_refused_first_cloud_refuted.
Print Assumptions C38_new_resolution_refuted.
Print Assumptions C38_new_covariances_refuted.
Print Assumptions C38_new_neighbour_count_refuted.
Print Assumptions C38_changed_cloud_refuted.
Print Assumptions C39_threads_and_neighbours.
Print Assumptions C39_resolution_kept_positive.
Print Assumptions C39_resolution_refuted.
