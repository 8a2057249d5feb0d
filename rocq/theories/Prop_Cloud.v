(** C49: PointCloud (include/small_gicp/points/point_cloud.hpp). *)
From Coq Require Import ZifyBool ZifyNat.
From Verif Require Import Base BaseProofs CloudModel CloudSpec CloudProofs.

(** Every history of calls: undefined exactly if some write was outside the cloud of its time;
    otherwise the three attribute arrays have one length and hold the last values set. *)
Theorem C49_attributes_from_history : forall V M (ops : list (op V M)),
  (in_range (rev ops) -> exists c, run ops pc_empty = Ok c /\ represents (rev ops) c) /\
  (~ in_range (rev ops) -> run ops pc_empty = UB).
Proof.
  intros V M ops. destruct (run_spec ops [] pc_empty I) as [A B]; [repeat split|]. rewrite app_nil_r in A, B. auto.
Qed.
(** Reading point, normal or covariance i. *)
Theorem C49_reads : forall V M (h : list (op V M)) c, represents h c ->
  pc_size c = size_of h /\
  forall i, i < size_of h ->
  (read (pc_points c) i = match last_set sets_point h i with Some v => Ok v | None => UB end) /\
  (read (pc_normals c) i = match last_set sets_normal h i with Some v => Ok v | None => UB end) /\
  (read (pc_covs c) i = match last_set sets_cov h i with Some v => Ok v | None => UB end).
Proof.
  intros V M h c (E1 & E2 & E3). cbv zeta in *. split; [unfold pc_size; rewrite E1, map_length, seq_length; reflexivity|].
  intros i Hi. unfold read, get. rewrite E1, E2, E3, !nth_tab. destruct (i <? size_of h) eqn:L; [|lia]. cbn [bind]. auto.
Qed.
(** has_normals and has_covs say only that the cloud is not empty. *)
Theorem C49_has_means_nonempty : forall V M (h : list (op V M)) c, represents h c ->
  (has_points c = true <-> 0 < size_of h) /\ (has_normals c = true <-> 0 < size_of h) /\ (has_covs c = true <-> 0 < size_of h).
Proof.
  intros V M h c (E1 & E2 & E3). cbv zeta in *. unfold has_points, has_normals, has_covs. rewrite E1, E2, E3.
  destruct (size_of h); cbn; split; [|split| |split]; split; intros; try discriminate; try reflexivity; lia.
Qed.
(** The constructor sets every point and nothing else. *)
Theorem C49_constructor : forall V M P (hom : P -> V) (pts : list P), exists c,
  construct (M := M) hom pts = Ok c /\ pc_points c = map (fun p => Some (hom p)) pts /\
  pc_normals c = repeat None (length pts) /\ pc_covs c = repeat None (length pts).
Proof.
  intros V M P hom pts. unfold construct, run. cbn [foldM bind apply pc_empty pc_points pc_normals pc_covs].
  unfold vresize. rewrite !firstn_nil. cbn [app length]. rewrite Nat.sub_0_r.
  assert (G : forall todo pre (rest : list (option V)) N C, length rest = length todo ->
    foldM apply (map (fun ip => SetPoint (fst ip) (hom (snd ip))) (combine (seq (length pre) (length todo)) todo))
      (mkPC (pre ++ rest) N C) = Ok (mkPC (M := M) (pre ++ map (fun p => Some (hom p)) todo) N C)).
  { induction todo as [|p todo IH]; intros pre rest N C L; [destruct rest; [reflexivity|discriminate]|].
    destruct rest as [|r rest]; [discriminate|]. cbn [length seq combine map foldM fst snd apply pc_points pc_normals pc_covs].
    rewrite set_Ok by (rewrite app_length; cbn; lia). cbn [bind]. rewrite upd_app_r.
    change (Some (hom p) :: rest) with ([Some (hom p)] ++ rest). rewrite app_assoc.
    specialize (IH (pre ++ [Some (hom p)]) rest N C). rewrite app_length in IH. cbn [length] in IH. rewrite Nat.add_1_r in IH.
    rewrite IH by (cbn in L; lia). rewrite <- app_assoc. reflexivity. }
  specialize (G pts [] (repeat None (length pts)) (repeat None (length pts)) (repeat None (length pts)) (repeat_length _ _)).
  cbn [app length] in G. rewrite G. eexists. split; [reflexivity|]. auto.
Qed.
(** So they are no evidence that normals or covariances were computed. *)
Theorem C49_has_attributes_refuted : forall V M P (hom : P -> V) (pts : list P), pts <> [] -> exists c,
  construct (M := M) hom pts = Ok c /\ has_normals c = true /\ has_covs c = true /\
  forall i, read (pc_normals c) i = UB /\ read (pc_covs c) i = UB.
Proof.
  intros V M P hom pts NE. destruct (C49_constructor V M P hom pts) as (c & E & _ & N & C). exists c. split; [exact E|].
  unfold has_normals, has_covs. rewrite N, C. destruct pts as [|p pts]; [congruence|]. split; [reflexivity|]. split; [reflexivity|].
  intros i. unfold read, get. rewrite !nth_repeat. destruct (i <? length (p :: pts)); auto.
Qed.
(** Shrinking forgets, also for the same index after growing again. *)
Definition history : list (op nat nat) := [Resize 3; SetPoint 2 7; SetNormal 0 9; Resize 1; Resize 3; SetCov 1 4].
Example C49_instance : in_range (rev history) /\ exists c, run history pc_empty = Ok c /\
  read (pc_points c) 2 = UB /\ read (pc_normals c) 0 = Ok 9 /\ read (pc_covs c) 1 = Ok 4.
Proof. split; [cbn; repeat split; lia|]. eexists. split; [reflexivity|]. repeat split; reflexivity. Qed.

Print Assumptions C49_attributes_from_history.
Print Assumptions C49_reads.
Print Assumptions C49_has_means_nonempty.
Print Assumptions C49_constructor.
Print Assumptions C49_has_attributes_refuted.
