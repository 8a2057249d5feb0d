(** Proofs about RegistrationPCL. *)
From Coq Require Import ZArith ZifyBool ZifyNat.
From Verif Require Import Base BaseProofs F64 PclModel PclSpec.

Lemma ptr_eqb_eq p q : ptr_eqb p q = true <-> p = q.
Proof.
  destruct p, q; cbn; split; intros H; try discriminate; auto.
  - apply Nat.eqb_eq in H. congruence.
  - injection H as ->. apply Nat.eqb_refl.
Qed.

Section Pcl.
Context (cloud : Type) (size : cloud -> nat).
Context (tree cov vmap result guess base : Type).
Context (build : cloud -> tree).
Context (estimate : cloud -> tree -> Z -> list cov).
Context (make_map : f64 -> cloud -> list cov -> vmap).
Context (run_gicp : base -> Z -> cloud -> list cov -> tree -> cloud -> list cov -> guess -> outcome result).
Context (run_vgicp : base -> Z -> vmap -> cloud -> list cov -> guess -> outcome result).
Context (accepts : side -> cloud -> bool).
Context (estimate_length : forall c t k, length (estimate c t k) = size c).
Notation call := (call cloud cov guess base).
Notation cache := (cache tree cov vmap).
Notation state := (state cloud tree cov vmap base).
Notation input := (input cov).
Notation inputs := (inputs cloud cov base).
Notation step := (step size build estimate make_map run_gicp run_vgicp accepts).
Notation ref_step := (ref_step size build estimate make_map run_gicp run_vgicp accepts).
Notation run := (run size build estimate make_map run_gicp run_vgicp accepts).
Notation ref_run := (ref_run size build estimate make_map run_gicp run_vgicp accepts).
Notation disciplined := (disciplined size build estimate make_map run_gicp run_vgicp accepts).

Definition refcovs (mem : ptr -> cloud) (k : Z) (i : input) (a : ptr) : list cov :=
  match i_covs i with
  | Some l => l
  | None => estimate (mem a) (build (mem a)) k
  end.

(** The kept data is what would be computed now. *)
Definition agree (mem : ptr -> cloud) (p : params base) (c : cache) (i : input) : Prop :=
  c_cloud c = i_cloud i /\ (i_mapped i = true -> i_used i = true) /\
  match c_cloud c with
  | None => i_covs i = None /\ i_used i = false /\ i_mapped i = false
  | Some a =>
      c_tree c = Some (build (mem a)) /\
      match i_covs i with
      | Some l => c_covs c = l /\ length l = size (mem a)
      | None => c_covs c = [] \/
                (i_used i = true /\ c_covs c = estimate (mem a) (build (mem a)) (p_k p))
      end /\
      match c_map c with
      | None => True
      | Some m => i_mapped i = true /\ m = make_map (p_res p) (mem a) (refcovs mem (p_k p) i a)
      end
  end.

Definition inv (st : state) (x : inputs) : Prop :=
  st_mem st = in_mem x /\ st_par st = in_par x /\
  agree (st_mem st) (st_par st) (st_src st) (in_src x) /\
  agree (st_mem st) (st_par st) (st_tgt st) (in_tgt x).

Lemma fill_agree st c i a : agree (st_mem st) (st_par st) c i -> c_cloud c = Some a ->
  forall t, c_tree c = Some t -> t = build (st_mem st a) /\
  fill_covs size estimate st c a t = refcovs (st_mem st) (p_k (st_par st)) i a.
Proof.
  intros (_ & _ & A) E t Et. rewrite E in A. destruct A as (T & CV & _).
  assert (t = build (st_mem st a)) by congruence. subst t. split; auto.
  unfold fill_covs, refcovs. destruct (i_covs i) as [l|].
  - destruct CV as [-> L]. rewrite (proj2 (Nat.eqb_eq _ _) L). reflexivity.
  - destruct CV as [EC|[_ EC]]; rewrite EC.
    + cbn [length]. destruct (0 =? size (st_mem st a)) eqn:Z; [|reflexivity].
      symmetry. apply length_zero_iff_nil. rewrite estimate_length. lia.
    + rewrite estimate_length, Nat.eqb_refl. reflexivity.
Qed.

Lemma agree_none mem p : agree mem p no_cache no_input.
Proof. repeat split; auto. Qed.

Lemma agree_params mem p p' c i : (i_used i = false \/ p_k p' = p_k p) ->
  (i_mapped i = false \/ p_res p' = p_res p) -> agree mem p c i -> agree mem p' c i.
Proof.
  intros K R (E & MU & A). split; auto. split; auto. destruct (c_cloud c) as [a|]; auto.
  destruct A as (T & CV & M). split; auto. split.
  - destruct (i_covs i); auto. destruct CV as [|[U CV]]; auto. right. split; auto.
    destruct K; congruence.
  - destruct (c_map c) as [m|]; auto. destruct M as [U M]. split; auto.
    destruct R as [|R]; [congruence|]. rewrite R. pose proof (MU U).
    destruct K as [|K]; [congruence|]. rewrite K. exact M.
Qed.

Lemma agree_mem mem mem' p c i : (forall a, i_cloud i = Some a -> mem' a = mem a) ->
  agree mem p c i -> agree mem' p c i.
Proof.
  intros S (E & MU & A). split; auto. split; auto. rewrite E in *.
  destruct (i_cloud i) as [a|]; auto. unfold refcovs in *. rewrite (S a eq_refl). exact A.
Qed.

Lemma set_params_k (p : params base) (o : call) :
  p_k (set_params p o) = p_k p \/ exists k, o = SetK k.
Proof. destruct o as [| | | | | | |[]| | |]; cbn; eauto. Qed.
Lemma set_params_res (p : params base) (o : call) :
  p_res (set_params p o) = p_res p \/ exists r, o = SetRes r.
Proof. destruct o as [| | | | | | |[]| | |]; cbn; eauto. Qed.

Definition sim {A B} (P : A -> B -> Prop) (x : outcome (A * option result))
    (y : outcome (B * option result)) : Prop :=
  match x, y with
  | Ok (a, r), Ok (b, r') => P a b /\ r = r'
  | UB, UB | Abort, Abort | OutOfFuel, OutOfFuel => True
  | _, _ => False
  end.

Lemma align_sim st x g : inv st x ->
  sim inv (align size estimate make_map run_gicp run_vgicp st g)
          (ref_align build estimate make_map run_gicp run_vgicp x g).
Proof.
  intros (EM & EP & AS & AT).
  pose proof AS as (CS & MUS & AS'). pose proof AT as (CT & MUT & AT').
  unfold align, ref_align. rewrite <- CS, <- CT.
  destruct (c_cloud (st_src st)) as [a|] eqn:Ea; [|split; auto; repeat split; auto; apply AS || apply AT].
  destruct (c_cloud (st_tgt st)) as [b|] eqn:Eb; [|split; auto; repeat split; auto; apply AS || apply AT].
  destruct AS' as (TS & CVS & MS). destruct AT' as (TT & CVT & MT).
  rewrite TS, TT.
  destruct (fill_agree st (st_src st) (in_src x) a AS Ea _ TS) as [_ FS].
  destruct (fill_agree st (st_tgt st) (in_tgt x) b AT Eb _ TT) as [_ FT].
  rewrite FS, FT.
  assert (RS : covs_of build estimate x (in_src x) a = refcovs (st_mem st) (p_k (st_par st)) (in_src x) a)
    by (unfold covs_of, refcovs; rewrite <- EM, <- EP; reflexivity).
  assert (RT : covs_of build estimate x (in_tgt x) b = refcovs (st_mem st) (p_k (st_par st)) (in_tgt x) b)
    by (unfold covs_of, refcovs; rewrite <- EM, <- EP; reflexivity).
  rewrite RS, RT, <- EM, <- EP.
  assert (CVI : forall i e, match i_covs i with
              | Some l => refcovs (st_mem st) (p_k (st_par st)) i e = l
              | None => refcovs (st_mem st) (p_k (st_par st)) i e
                        = estimate (st_mem st e) (build (st_mem st e)) (p_k (st_par st)) end).
  { intros i e. unfold refcovs. destruct (i_covs i); reflexivity. }
  assert (MK : forall k i e, refcovs (st_mem st) (p_k (st_par st)) (mark k i) e
                           = refcovs (st_mem st) (p_k (st_par st)) i e) by reflexivity.
  destruct (p_kind (st_par st)) eqn:EK.
  - destruct (run_gicp _ _ _ _ _ _ _ _) as [r| | |]; cbn; auto.
    split; [|reflexivity]. split; [reflexivity|]. split; [reflexivity|]. split; (split; [|split]); cbn.
    + exact CS.
    + rewrite orb_false_r. auto.
    + split; auto. split.
      * specialize (CVI (in_src x) a). destruct (i_covs (in_src x)); [|auto].
        split; auto. apply CVS.
      * rewrite orb_false_r. exact MS.
    + exact CT.
    + rewrite orb_false_r. auto.
    + split; auto. split.
      * specialize (CVI (in_tgt x) b). destruct (i_covs (in_tgt x)); [|auto].
        split; auto. apply CVT.
      * rewrite orb_false_r. exact MT.
  - assert (EMT : match c_map (st_tgt st) with
                  | Some m => m
                  | None => make_map (p_res (st_par st)) (st_mem st b)
                             (refcovs (st_mem st) (p_k (st_par st)) (in_tgt x) b) end
                  = make_map (p_res (st_par st)) (st_mem st b)
                      (refcovs (st_mem st) (p_k (st_par st)) (in_tgt x) b)).
    { destruct (c_map (st_tgt st)); auto. apply MT. }
    rewrite EMT.
    destruct (run_vgicp _ _ _ _ _ _) as [r| | |]; cbn; auto.
    split; [|reflexivity]. split; [reflexivity|]. split; [reflexivity|]. split; (split; [|split]); cbn.
    + exact CS.
    + auto.
    + split; auto. split.
      * specialize (CVI (in_src x) a). destruct (i_covs (in_src x)); [|auto].
        split; auto. apply CVS.
      * rewrite orb_true_r. split; auto. rewrite MK. destruct (c_map (st_src st)); auto. apply MS.
    + exact CT.
    + auto.
    + split; auto. split.
      * specialize (CVI (in_tgt x) b). destruct (i_covs (in_tgt x)); [|auto].
        split; auto. apply CVT.
      * rewrite orb_true_r. split; auto.
Qed.

Lemma inv_side st x s : inv st x -> agree (st_mem st) (st_par st) (cache_of st s) (input_of x s).
Proof. intros (_ & _ & A & B). destruct s; auto. Qed.

Lemma inv_with st x s c i : inv st x -> agree (st_mem st) (st_par st) c i ->
  inv (with_cache st s c) (with_input x s i).
Proof. intros (EM & EP & A & B) H. destruct s; repeat split; cbn; auto; try apply A; try apply B; apply H. Qed.

Lemma step_sim st x o : inv st x -> allowed x o = true -> sim inv (step st o) (ref_step x o).
Proof.
  intros I AL. pose proof I as (EM & EP & AS & AT).
  assert (PAR : forall o : call, allowed x o = true ->
            inv (with_params st (set_params (st_par st) o))
                (mkInputs (in_mem x) (in_src x) (in_tgt x) (set_params (in_par x) o))).
  { intros o' AL'. rewrite <- EM, <- EP. split; [reflexivity|]. split; [reflexivity|]. split.
    all: cbn [st_par with_params st_mem st_src st_tgt in_src in_tgt].
    all: apply agree_params with (p := st_par st); try assumption.
    all: try (destruct (set_params_k (st_par st) o') as [|[k ->]]; auto; cbn in AL'; left; lia).
    all: try (destruct (set_params_res (st_par st) o') as [|[k ->]]; auto; cbn in AL'; left; lia). }
  destruct o as [s p|s l| |s|n|k|r|t|b|p c|g]; cbn [PclModel.step PclSpec.ref_step].
  - unfold set_input. pose proof (inv_side st x s I) as (EC & MU & A).
    rewrite <- EM, <- EC.
    destruct (ptr_eqb (c_cloud (cache_of st s)) p); [split; auto|].
    destruct p as [a|]; [|exact Logic.I].
    destruct (accepts s (st_mem st a)).
    + cbn. split; auto. apply inv_with; auto. split; [reflexivity|]. split; [discriminate|]. cbn. auto.
    + destruct (c_cloud (cache_of st s)) as [b|]; [|exact Logic.I].
      cbn. split; auto. apply inv_with; auto. split; [reflexivity|]. split; [discriminate|]. cbn. auto.
  - cbn. unfold set_covs. pose proof (inv_side st x s I) as (EC & MU & A).
    rewrite <- EM, <- EC. destruct (c_cloud (cache_of st s)) as [a|] eqn:Ea; [|split; auto].
    destruct (length l =? size (st_mem st a)) eqn:L; [|split; auto].
    split; auto. apply inv_with; auto. destruct A as (T & CV & M). cbn in AL.
    apply negb_true_iff in AL. split; [reflexivity|]. split; [exact MU|]. cbn. split; auto. split; [split; auto; lia|].
    destruct (c_map (cache_of st s)); auto. destruct M as [M _]. congruence.
  - cbn. split; auto. split; [exact EM|]. split; [exact EP|]. split; assumption.
  - cbn. split; auto. apply inv_with; auto. apply agree_none.
  - cbn -[set_params]. split; [apply PAR; auto|reflexivity].
  - cbn -[set_params]. split; [apply PAR; auto|reflexivity].
  - cbn -[set_params]. split; [apply PAR; auto|reflexivity].
  - cbn -[set_params]. split; [apply PAR; auto|reflexivity].
  - cbn -[set_params]. split; [apply PAR; auto|reflexivity].
  - cbn. split; auto. rewrite <- EM. cbn in AL. apply andb_prop in AL. destruct AL as [A1 A2].
    split; [reflexivity|]. split; [exact EP|].
    split.
    + apply agree_mem with (mem := st_mem st); [|exact AS]. intros a Ea. cbn in Ea. rewrite Ea in A1. cbn in A1 |- *.
      destruct (a =? p); [discriminate|reflexivity].
    + apply agree_mem with (mem := st_mem st); [|exact AT]. intros a Ea. cbn in Ea. rewrite Ea in A2. cbn in A2 |- *.
      destruct (a =? p); [discriminate|reflexivity].
  - apply align_sim; auto.
Qed.

Lemma run_sim ops : forall st x out, inv st x -> disciplined x ops = true ->
  match foldM (fun '(st, out) o =>
                 let* (st, r) := step st o in
                 Ok (st, match r with Some r => out ++ [r] | None => out end)) ops (st, out),
        foldM (fun '(x, out) o =>
                 let* (x, r) := ref_step x o in
                 Ok (x, match r with Some r => out ++ [r] | None => out end)) ops (x, out) with
  | Ok (st', l), Ok (x', l') => inv st' x' /\ l = l'
  | UB, UB | Abort, Abort | OutOfFuel, OutOfFuel => True
  | _, _ => False
  end.
Proof.
  induction ops as [|o ops IH]; intros st x out I DS; cbn [foldM].
  - auto.
  - cbn [PclSpec.disciplined] in DS. apply andb_prop in DS. destruct DS as [AL DS].
    pose proof (step_sim st x o I AL) as S. cbn [bind].
    destruct (step st o) as [[st1 r1]| | |], (ref_step x o) as [[x1 r1']| | |];
      cbn in S; try contradiction; cbn [bind]; auto.
    destruct S as [I1 <-]. apply IH; auto.
Qed.

(** ** What is kept belongs to the current clouds, whatever the history *)

(** [covs] were set by the user for a cloud of this size, or estimated from this cloud with a
    neighbour count of at least five. *)
Definition from_cloud (c : cloud) (given : list (list cov)) (covs : list cov) : Prop :=
  (In covs given /\ length covs = size c) \/
  exists k, (5 <= k)%Z /\ covs = estimate c (build c) k.

Definition owned (given : list (list cov)) (mem : ptr -> cloud) (c : cache) : Prop :=
  match c_cloud c with
  | None => c = no_cache
  | Some a =>
      c_tree c = Some (build (mem a)) /\
      (c_covs c = [] \/ from_cloud (mem a) given (c_covs c)) /\
      match c_map c with
      | None => True
      | Some m => exists r covs, m = make_map r (mem a) covs /\ from_cloud (mem a) given covs
      end
  end.

Definition owns given (st : state) : Prop :=
  owned given (st_mem st) (st_src st) /\ owned given (st_mem st) (st_tgt st) /\
  (1 <= p_threads (st_par st))%Z /\ (5 <= p_k (st_par st))%Z.

Definition given_by (ops : list call) : list (list cov) :=
  flat_map (fun o => match o with SetCovs _ l => [l] | _ => [] end) ops.

Lemma owned_side given st s : owns given st -> owned given (st_mem st) (cache_of st s).
Proof. intros (A & B & _). destruct s; auto. Qed.

Lemma owns_with given st s c : owns given st -> owned given (st_mem st) c -> owns given (with_cache st s c).
Proof. intros (A & B & H) O. destruct s; split; cbn; auto. Qed.

Lemma from_cloud_more c g g' covs : (forall l, In l g -> In l g') -> from_cloud c g covs -> from_cloud c g' covs.
Proof. intros H [[I L]|K]; [left|right]; auto. Qed.

Lemma owned_more g g' mem c : (forall l, In l g -> In l g') -> owned g mem c -> owned g' mem c.
Proof.
  intros H. unfold owned. destruct (c_cloud c); auto. intros (T & CV & M). split; auto. split.
  - destruct CV; auto. right. eapply from_cloud_more; eauto.
  - destruct (c_map c); auto. destruct M as (r & covs & E & F). exists r, covs. split; auto.
    eapply from_cloud_more; eauto.
Qed.

Lemma fill_owned given (st : state) c a t : owned given (st_mem st) c -> c_cloud c = Some a ->
  (5 <= p_k (st_par st))%Z -> c_tree c = Some t ->
  t = build (st_mem st a) /\ from_cloud (st_mem st a) given (fill_covs size estimate st c a t).
Proof.
  unfold owned. intros O E K Et. rewrite E in O. destruct O as (T & CV & _).
  assert (t = build (st_mem st a)) by congruence. subst t. split; auto.
  unfold fill_covs. destruct (length (c_covs c) =? size (st_mem st a)) eqn:L.
  - destruct CV as [CV|]; auto. rewrite CV in *. cbn [length] in L. right. exists (p_k (st_par st)).
    split; auto. symmetry. apply length_zero_iff_nil. rewrite estimate_length. lia.
  - right. eauto.
Qed.

Lemma step_owns given st o st' r : owns given st ->
  (forall p c, o <> Mutate p c) -> (forall s l, o = SetCovs s l -> In l given) ->
  step st o = Ok (st', r) -> owns given st'.
Proof.
  intros O NM G E. pose proof O as (AS & AT & P1 & P2).
  assert (PAR : forall o : call, owns given (with_params st (set_params (st_par st) o))).
  { intros o'. split; [exact AS|]. split; [exact AT|].
    destruct o' as [| | | | | | |[]| | |]; cbn; try (split; assumption).
    - destruct (n <=? 0)%Z eqn:Z; split; auto; lia.
    - destruct (k <? 5)%Z eqn:Z; split; auto; lia. }
  destruct o as [s p|s l| |s|n|k|rr|t|b|p c|g]; cbn [PclModel.step] in E.
  - apply bind_Ok in E. destruct E as (st1 & E1 & E). injection E as <- <-.
    unfold set_input in E1. destruct (ptr_eqb _ p); [injection E1 as <-; auto|].
    destruct p as [a|]; [|discriminate].
    destruct (if accepts s (st_mem st a) then Some a else c_cloud (cache_of st s)) as [b|]; [|discriminate].
    injection E1 as <-. apply owns_with; auto. unfold owned; cbn. auto.
  - injection E as <- <-. unfold set_covs. destruct (c_cloud (cache_of st s)) as [a|] eqn:Ea; auto.
    destruct (length l =? size (st_mem st a)) eqn:L; auto. apply owns_with; auto.
    pose proof (owned_side given st s O) as OS. unfold owned in *. rewrite Ea in OS. cbn.
    destruct OS as (T & CV & M). split; auto. split; auto. right. left. split; [|lia]. eauto.
  - injection E as <- <-. split; [exact AT|]. split; [exact AS|]. auto.
  - injection E as <- <-. apply owns_with; auto. reflexivity.
  - injection E as <- <-. exact (PAR (SetThreads n)).
  - injection E as <- <-. exact (PAR (SetK k)).
  - injection E as <- <-. exact (PAR (SetRes rr)).
  - injection E as <- <-. exact (PAR (SetType t)).
  - injection E as <- <-. exact (PAR (SetBase b)).
  - exfalso. eapply NM. reflexivity.
  - unfold align in E.
    destruct (c_cloud (st_src st)) as [a|] eqn:Ea; [|injection E as <- <-; auto].
    destruct (c_cloud (st_tgt st)) as [b|] eqn:Eb; [|injection E as <- <-; auto].
    destruct (c_tree (st_src st)) as [ta|] eqn:Ta; [|discriminate].
    destruct (c_tree (st_tgt st)) as [tb|] eqn:Tb; [|discriminate].
    destruct (fill_owned given st _ a ta AS Ea P2 Ta) as [-> FS].
    destruct (fill_owned given st _ b tb AT Eb P2 Tb) as [-> FT].
    assert (MS : match c_map (st_src st) with None => True
      | Some m => exists r covs, m = make_map r (st_mem st a) covs /\ from_cloud (st_mem st a) given covs end).
    { unfold owned in AS. rewrite Ea in AS. apply AS. }
    assert (MT : match c_map (st_tgt st) with None => True
      | Some m => exists r covs, m = make_map r (st_mem st b) covs /\ from_cloud (st_mem st b) given covs end).
    { unfold owned in AT. rewrite Eb in AT. apply AT. }
    destruct (p_kind (st_par st)).
    + apply bind_Ok in E. destruct E as (r1 & _ & E). injection E as <- <-.
      split; [|split; [|auto]]; unfold owned; cbn; split; auto.
    + apply bind_Ok in E. destruct E as (r1 & _ & E). injection E as <- <-.
      split; [|split; [|auto]]; unfold owned; cbn; split; auto; split; auto.
      * destruct (c_map (st_src st)); auto. exists (p_res (st_par st)). eauto.
      * destruct (c_map (st_tgt st)); auto. exists (p_res (st_par st)). eauto.
Qed.

Lemma owns_more g g' st : (forall l, In l g -> In l g') -> owns g st -> owns g' st.
Proof. intros H (A & B & P). split; [|split; auto]; eapply owned_more; eauto. Qed.

Lemma run_owns given ops : (forall p c, ~ In (Mutate p c) ops) ->
  (forall s l, In (SetCovs s l) ops -> In l given) ->
  forall st out st' out', owns given st ->
  foldM (fun '(st, out) o =>
                 let* (st, r) := step st o in
                 Ok (st, match r with Some r => out ++ [r] | None => out end)) ops (st, out)
    = Ok (st', out') -> owns given st'.
Proof.
  induction ops as [|o ops IH]; intros NM G st out st' out' O E; cbn [foldM] in E.
  - injection E as <- <-. exact O.
  - apply bind_Ok in E. destruct E as ([st1 out1] & E1 & E).
    apply bind_Ok in E1. destruct E1 as ([st2 r] & E1 & E2). injection E2 as <- <-.
    eapply IH; [| | |exact E].
    + intros p c I. apply (NM p c). right; auto.
    + intros s l I. apply (G s l). right; auto.
    + eapply step_owns; [exact O| | |exact E1].
      * intros p c ->. apply (NM p c). left; auto.
      * intros s l ->. apply (G s l). left; auto.
Qed.

End Pcl.
