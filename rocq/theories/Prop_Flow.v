(** C45: the flow-graph odometry. *)
From Coq Require Import ZArith ZifyBool ZifyNat.
From Verif Require Import Base BaseProofs FlowModel FlowSpec FlowProofs.
Open Scope nat_scope.

(** Every schedule of the first run: no step is undefined, the graph takes exactly nine steps
    per frame and is finished then and only then, and a finished graph has produced the
    scan-to-scan trajectory, in frame order. *)
Theorem C45_schedule_independent :
  forall (Cloud Tree Pose : Type) (downsample : Cloud -> Cloud) (build : Cloud -> Tree)
         (estimate_covs : Cloud -> Tree -> Cloud) (register : Cloud -> Cloud -> Tree -> Pose)
         (mul : Pose -> Pose -> Pose) (identity : Pose) (cs : list Cloud),
  let runs := runs downsample build estimate_covs register mul identity cs in
  let finished := finished downsample build estimate_covs register mul identity cs in
  (forall k o, runs k (init None) o -> exists s, o = Ok s /\ k <= 9 * length cs) /\
  (forall k s, runs k (init None) (Ok s) -> (finished s <-> k = 9 * length cs)) /\
  (forall k s, runs k (init None) (Ok s) -> finished s ->
     traj s = trajectory downsample build estimate_covs register mul identity cs).
Proof.
  intros Cloud Tree Pose ds bd ec rg mul idp cs runs0 fin0.
  assert (KO : kept_ok Cloud Tree Pose None) by (left; reflexivity).
  pose proof (Inv_init Cloud Tree Pose ds bd ec rg mul idp cs None) as I0.
  assert (R : forall k o, runs0 k (init None) o -> exists s p, o = Ok s /\
              Inv Cloud Tree Pose ds bd ec rg mul idp cs None s p /\ 9 * length cs = k + left Cloud Tree Pose cs s).
  { intros k o H. destruct (runs_inv _ _ _ ds bd ec rg mul idp cs None KO k _ o 0 I0 H) as (s & p & E & I & L).
    exists s, p. rewrite left_init in L. split; [exact E|]. split; [exact I|exact L]. }
  assert (F : forall s p, Inv Cloud Tree Pose ds bd ec rg mul idp cs None s p ->
              (fin0 s <-> left Cloud Tree Pose cs s = 0)).
  { intros s p I. split.
    - intros Hf. destruct (left Cloud Tree Pose cs s) eqn:E; auto.
      destruct (progress _ _ _ ds bd ec rg mul idp cs None s p I) as (o & Ho); [lia|]. destruct (Hf o Ho).
    - intros L o Ho. destruct (step_inv _ _ _ ds bd ec rg mul idp cs None KO s p o I Ho) as (s' & p' & _ & _ & L'). lia. }
  split; [|split].
  - intros k o H. destruct (R k o H) as (s & p & E & I & L). exists s. split; auto. lia.
  - intros k s H. destruct (R k _ H) as (s' & p & E & I & L). inversion E; subst s'.
    rewrite (F s p I). lia.
  - intros k s H Hf. destruct (R k _ H) as (s' & p & E & I & L). inversion E; subst s'.
    apply (F s p I) in Hf. destruct (final _ _ _ ds bd ec rg mul idp cs None s p I Hf) as (-> & _).
    unfold expected, trajectory, trajectory_from. destruct cs; reflexivity.
Qed.

(** It is the trajectory of the sequential odometry on the same scans, whose later calls
    continue the trajectory of the earlier ones. *)
Theorem C45_same_as_sequential :
  forall (Cloud Tree Pose : Type) (downsample : Cloud -> Cloud) (build : Cloud -> Tree)
         (estimate_covs : Cloud -> Tree -> Cloud) (register : Cloud -> Cloud -> Tree -> Pose)
         (mul : Pose -> Pose -> Pose) (identity : Pose) (cs1 cs2 : list Cloud),
  let online := online_run downsample build estimate_covs register mul in
  let trajectory := trajectory downsample build estimate_covs register mul identity in
  let (o1, l1) := online (online_init identity) cs1 in
  let (o2, l2) := online o1 cs2 in
  l1 = trajectory cs1 /\ l1 ++ l2 = trajectory (cs1 ++ cs2).
Proof.
  intros Cloud Tree Pose ds bd ec rg mul idp cs1 cs2 onl trj.
  pose proof (online_run_app _ _ _ ds bd ec rg mul (online_init idp) cs1 cs2) as A.
  pose proof (online_trajectory _ _ _ ds bd ec rg mul idp cs1) as B.
  pose proof (online_trajectory _ _ _ ds bd ec rg mul idp (cs1 ++ cs2)) as C.
  unfold onl, trj. destruct (online_run _ _ _ _ _ _ cs1) as [o1 l1].
  destruct (online_run _ _ _ _ _ o1 cs2) as [o2 l2]. rewrite A in C. simpl in *. auto.
Qed.

(** No two pending bodies conflict: frames being preprocessed are distinct and are neither
    source nor target of a pending registration nor the frame kept for pairing; pending
    registrations have distinct sources, none of which is waiting for output. *)
Theorem C45_no_races :
  forall (Cloud Tree Pose : Type) (downsample : Cloud -> Cloud) (build : Cloud -> Tree)
         (estimate_covs : Cloud -> Tree -> Cloud) (register : Cloud -> Cloud -> Tree -> Pose)
         (mul : Pose -> Pose -> Pose) (identity : Pose) (cs : list Cloud) k s,
  runs downsample build estimate_covs register mul identity cs k (init None) (Ok s) ->
  NoDup (map fst (pre s)) /\ NoDup (map snd (reg s)) /\
  (forall i j t, In i (map fst (pre s)) -> In (t, j) (reg s) -> i <> j /\ t <> Some (New i)) /\
  (forall i, In i (map fst (pre s)) -> last s <> Some (New i)) /\
  (forall i, In i (map snd (reg s)) -> ~ In i (queue2 s)).
Proof.
  intros Cloud Tree Pose ds bd ec rg mul idp cs k s H.
  assert (KO : kept_ok Cloud Tree Pose None) by (left; reflexivity).
  pose proof (Inv_init Cloud Tree Pose ds bd ec rg mul idp cs None) as I0.
  destruct (runs_inv _ _ _ ds bd ec rg mul idp cs None KO k _ _ 0 I0 H) as (s' & p & E & I & _).
  inversion E; subst s'. destruct I.
  assert (ND : forall l : list nat, (forall x, cnt l x <= 1) -> NoDup l).
  { induction l as [|a l IH]; intros Hl; constructor.
    - intros Hin. apply cnt_In in Hin. specialize (Hl a). simpl in Hl. rewrite Nat.eqb_refl in Hl. lia.
    - apply IH. intros x. specialize (Hl x). simpl in Hl. lia. }
  assert (B1 : forall x, In x (map fst (pre s)) -> next1 s <= x).
  { intros x Hx. apply cnt_In in Hx. specialize (i_ids1 x). unfold b2 in i_ids1.
    destruct (x <? next1 s) eqn:E1; [|lia]. destruct (x <? length (frames s)); lia. }
  assert (B2 : forall x, In x (map snd (reg s)) -> next2 s <= x < p).
  { intros x Hx. apply cnt_In in Hx. specialize (i_ids2 x). unfold b2 in i_ids2.
    destruct (x <? next2 s) eqn:E1; destruct (x <? p) eqn:E2; lia. }
  split; [|split; [|split; [|split]]].
  - apply ND. intros x. specialize (i_ids1 x). unfold b2 in i_ids1. destruct (x <? length (frames s)); lia.
  - apply ND. intros x. specialize (i_ids2 x). unfold b2 in i_ids2. destruct (x <? p); lia.
  - intros i j t Hi Hj. pose proof (B1 i Hi). pose proof (i_reg t j Hj) as Et.
    apply (in_map snd) in Hj. pose proof (B2 j Hj). split; [lia|].
    intros ->. unfold target in Et. destruct j; [discriminate|]. inversion Et. lia.
  - intros i Hi El. pose proof (B1 i Hi). rewrite i_last in El. unfold target in El.
    destruct p; [discriminate|]. inversion El. lia.
  - intros i Hi Hq. pose proof (B2 i Hi). rewrite i_queue2 in Hq. apply in_seq in Hq. lia.
Qed.

(** Refuted for a later run in the same process, even on a new object: the first pose is the
    motion from the last scan of the earlier run, not the identity. *)
Theorem C45_second_run_refuted :
  forall (Cloud Tree Pose : Type) (downsample : Cloud -> Cloud) (build : Cloud -> Tree)
         (estimate_covs : Cloud -> Tree -> Cloud) (register : Cloud -> Cloud -> Tree -> Pose)
         (mul : Pose -> Pose -> Pose) (identity : Pose) (cs1 cs2 : list Cloud) (c1 c2 : Cloud) k1 k2 s1 s2,
  let runs := runs downsample build estimate_covs register mul identity in
  let finished := finished downsample build estimate_covs register mul identity in
  let scans1 := cs1 ++ [c1] in
  let scans2 := c2 :: cs2 in
  runs scans1 k1 (init None) (Ok s1) -> finished scans1 s1 ->
  runs scans2 k2 (init (kept_after s1)) (Ok s2) -> finished scans2 s2 ->
  let m := motion register (prepared downsample build estimate_covs c1) (prepared downsample build estimate_covs c2) in
  traj s2 = trajectory_from downsample build estimate_covs register mul m scans2 /\
  (m <> identity -> traj s2 <> trajectory downsample build estimate_covs register mul identity scans2).
Proof.
  intros Cloud Tree Pose ds bd ec rg mul idp cs1 cs2 c1 c2 k1 k2 s1 s2 runs0 fin0 sc1 sc2 H1 F1 H2 F2 m.
  assert (KO : kept_ok Cloud Tree Pose None) by (left; reflexivity).
  destruct (runs_inv _ _ _ ds bd ec rg mul idp sc1 None KO k1 _ _ 0 (Inv_init _ _ _ _ _ _ _ _ _ _ _) H1)
    as (s' & p & E & I & _). inversion E; subst s'.
  assert (L1 : left _ _ _ sc1 s1 = 0).
  { destruct (left Cloud Tree Pose sc1 s1) eqn:EL; auto.
    destruct (progress _ _ _ ds bd ec rg mul idp sc1 None s1 p I) as (o & Ho); [lia|]. destruct (F1 o Ho). }
  destruct (final _ _ _ ds bd ec rg mul idp sc1 None s1 p I L1) as (_ & EL & R).
  assert (LS : length sc1 = S (length cs1)) by (unfold sc1; rewrite app_length; simpl; lia).
  destruct (R (length cs1) ltac:(lia)) as (c & T & Ec & Ef).
  assert (c = c1) by (unfold sc1 in Ec; rewrite nth_error_app2, Nat.sub_diag in Ec by lia; simpl in Ec; congruence). subst c.
  assert (EK : kept_after s1 = Some (Old (ready _ _ _ ds bd ec c1 T))).
  { unfold kept_after. rewrite EL, LS. cbn [target]. rewrite Ef. reflexivity. }
  rewrite EK in H2.
  assert (KO2 : kept_ok Cloud Tree Pose (Some (Old (ready _ _ _ ds bd ec c1 T)))).
  { right. do 2 eexists. split; reflexivity. }
  destruct (runs_inv _ _ _ ds bd ec rg mul idp sc2 _ KO2 k2 _ _ 0 (Inv_init _ _ _ _ _ _ _ _ _ _ _) H2)
    as (s' & p2 & E2 & I2 & _). inversion E2; subst s'.
  assert (L2 : left _ _ _ sc2 s2 = 0).
  { destruct (left Cloud Tree Pose sc2 s2) eqn:EL2; auto.
    destruct (progress _ _ _ ds bd ec rg mul idp sc2 _ s2 p2 I2) as (o & Ho); [lia|]. destruct (F2 o Ho). }
  destruct (final _ _ _ ds bd ec rg mul idp sc2 _ s2 p2 I2 L2) as (ET & _).
  assert (ET' : traj s2 = trajectory_from ds bd ec rg mul m sc2) by exact ET.
  split; [exact ET'|]. intros Nm. rewrite ET'. unfold trajectory, trajectory_from, sc2. intros K. inversion K. auto.
Qed.

(** ** Non-vacuity: numbers as scans; two frames overtake each other. *)
Definition dstep := step (fun c => c) (fun c : Z => c) (fun c t => (c + t)%Z)
  (fun a b t => (b - a + t)%Z) Z.add 0%Z.
Definition druns := runs (fun c => c) (fun c : Z => c) (fun c t => (c + t)%Z)
  (fun a b t => (b - a + t)%Z) Z.add 0%Z.

Lemma drun cs k s s1 o o' : dstep cs s o -> o = Ok s1 -> druns cs k s1 o' -> druns cs (S k) s o'.
Proof. intros H -> R. eapply RunS; eauto. Qed.

Ltac dgo tac := eapply drun; [tac|vm_compute; reflexivity|].

Example C45_run : exists s, druns [3%Z; 10%Z] 18 (init None) (Ok s) /\ traj s = [0%Z; 17%Z].
Proof.
  eexists. split.
  - dgo ltac:(eapply Feed; reflexivity). dgo ltac:(eapply Feed; reflexivity).
    (* the second frame is preprocessed first *)
    dgo ltac:(apply (Pre _ _ _ _ _ _ _ _ _ _ _ _ [(0, 0)] 1 0 [])).
    dgo ltac:(apply (Pre _ _ _ _ _ _ _ _ _ _ _ _ [(0, 0)] 1 1 [])).
    dgo ltac:(apply (Pre _ _ _ _ _ _ _ _ _ _ _ _ [(0, 0)] 1 2 [])).
    dgo ltac:(apply (Pre _ _ _ _ _ _ _ _ _ _ _ _ [] 0 0 [])).
    dgo ltac:(apply (Pre _ _ _ _ _ _ _ _ _ _ _ _ [] 0 1 [])).
    dgo ltac:(apply (Pre _ _ _ _ _ _ _ _ _ _ _ _ [] 0 2 [])).
    dgo ltac:(apply (Seq1 _ _ _ _ _ _ _ _ _ _ _ _ _ [1] 0 [])).
    dgo ltac:(apply (Seq1 _ _ _ _ _ _ _ _ _ _ _ _ _ [] 1 [])).
    dgo ltac:(apply Pair). dgo ltac:(apply Pair).
    (* and registered first *)
    dgo ltac:(apply (Reg _ _ _ _ _ _ _ _ _ _ _ _ _ _ _ _ [(None, 0)] (Some (New 0)) 1 [])).
    dgo ltac:(apply (Reg _ _ _ _ _ _ _ _ _ _ _ _ _ _ _ _ [] None 0 [])).
    dgo ltac:(apply (Seq2 _ _ _ _ _ _ _ _ _ _ _ _ _ _ _ _ _ [1] 0 [])).
    dgo ltac:(apply (Seq2 _ _ _ _ _ _ _ _ _ _ _ _ _ _ _ _ _ [] 1 [])).
    dgo ltac:(apply Out). dgo ltac:(apply Out).
    apply Run0.
  - reflexivity.
Qed.
Example C45_run_expected :
  trajectory (fun c => c) (fun c : Z => c) (fun c t => (c + t)%Z) (fun a b t => (b - a + t)%Z) Z.add 0%Z [3%Z; 10%Z]
  = [0%Z; 17%Z].
Proof. reflexivity. Qed.
(** A second run, on the scan 7, starts at the motion from 10 to 7, which is not zero. *)
Example C45_second_run_motion :
  motion (fun a b t => (b - a + t)%Z) (prepared (fun c => c) (fun c : Z => c) (fun c t => (c + t)%Z) 10%Z)
    (prepared (fun c => c) (fun c : Z => c) (fun c t => (c + t)%Z) 7%Z) <> 0%Z.
Proof. vm_compute. discriminate. Qed.

Print Assumptions C45_schedule_independent.
Print Assumptions C45_same_as_sequential.
Print Assumptions C45_no_races.
Print Assumptions C45_second_run_refuted.
