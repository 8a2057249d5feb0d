(** Proofs about programs with several maps. *)
From Coq Require Import ZArith ZifyBool ZifyNat ZifyN.
From Verif Require Import Base BaseProofs Num Vec KnnModel VmapModel VmapSpec VmapProofs VmapHist
  HeapModel HeapSpec HeapProofs.

Lemma Forall_upd {A} (P : A -> Prop) l i x : Forall P l -> P x -> Forall P (upd l i x).
Proof.
  intros F Px. revert i. induction F as [|y l Py F IH]; intros [|i]; cbn; constructor; auto.
Qed.

Lemma foldM_orel {S T A} (R : S -> T -> Prop) (f : S -> A -> outcome S) (g : T -> A -> outcome T)
  (Q : A -> Prop) :
  (forall s t x, R s t -> Q x -> orel R (f s x) (g t x)) ->
  forall l s t, R s t -> Forall Q l -> orel R (foldM f l s) (foldM g l t).
Proof.
  intros STEP. induction l as [|x l IH]; intros s t H F; cbn [foldM].
  - exact H.
  - inversion F; subst. eapply orel_bind; [apply STEP; eauto|]. intros a b H'. apply IH; auto.
Qed.

Lemma foldM_inv {S A} (R : S -> Prop) (f : S -> A -> outcome S) :
  (forall s x s', R s -> f s x = Ok s' -> R s') ->
  forall l s s', R s -> foldM f l s = Ok s' -> R s'.
Proof.
  intros STEP. induction l as [|x l IH]; intros s s' H E; cbn [foldM] in E.
  - injection E as <-. exact H.
  - apply bind_Ok in E. destruct E as (s1 & E1 & E2). eauto.
Qed.

Section World.
Context (D : num) (C : contents D) (coord_of : vec4 D -> outcome coord).
Context (pose : Type) (act : pose -> item D -> item D).
Notation wstep := (wstep (C := C) coord_of pose act).
Notation wrun := (wrun C coord_of pose act).
Notation vrun := (vrun C coord_of pose act).
Notation insert := (insert (C := C) coord_of pose act).
Notation hinsert := (hinsert (C := C) coord_of pose act).
Notation shown := (shown D C).
Notation frame := (frame D C).
Notation mwf := (mwf D C).
Notation st_of := (st_of D C).

Definition wwf (w : world D C) : Prop := Forall (mwf (fst w)) (snd w).

Lemma hinsert_Ok h m call h' m' vs : shown h (h_flat m) vs -> NoDup (h_flat m) ->
  hinsert h m call = Ok (h', m') ->
  exists vs', shown h' (h_flat m') vs' /\ insert (st_of m vs) call = Ok (st_of m' vs') /\
    NoDup (h_flat m') /\ frame h (h_flat m) h' (h_flat m').
Proof.
  intros S ND E. pose proof (hinsert_sim D C coord_of pose act h m call vs S ND) as H.
  rewrite E in H. fold (st_of m vs) in H. destruct (insert (st_of m vs) call) as [st'| | |] eqn:EI; try contradiction.
  destruct H as (V & ND' & F). apply view_shown in V. destruct V as (vs' & S' & ->).
  exists vs'. auto.
Qed.

Lemma insert_idx_ok st call st' : idx_ok (flat_voxels st) (voxels st) ->
  insert st call = Ok st' -> idx_ok (flat_voxels st') (voxels st').
Proof.
  intros IX E. 
  destruct (do_op_good D C coord_of pose act (fun _ _ => True) st (OpInsert D pose call) st') as [G _]; auto.
  - split; auto.
  - split; auto. apply Forall_forall. auto.
Qed.

Lemma hinsert_mwf h m call h' m' : mwf h m -> hinsert h m call = Ok (h', m') -> mwf h' m'.
Proof.
  intros (ND & vs & S & IX) E.
  destruct (hinsert_Ok _ _ _ _ _ _ S ND E) as (vs' & S' & EI & ND' & F).
  split; auto. exists vs'. split; auto. apply (insert_idx_ok (st_of m vs) call (st_of m' vs') IX EI).
Qed.

Lemma wstep_wf w o w' : wwf w -> wstep w o = Ok w' -> wwf w'.
Proof.
  destruct w as [h ms]. unfold wwf. cbn [fst snd]. intros W E.
  destruct o as [hz cy|i|i call|i n]; cbn [HeapModel.wstep] in E.
  - injection E as <-. apply Forall_app. split; auto. constructor; [|constructor].
    split; [constructor|]. exists []. split; [constructor|].
    intros c k. cbn. split; [discriminate|]. intros (v & Ev & _). destruct k; discriminate.
  - apply bind_Ok in E. destruct E as (m & Em & E). injection E as <-.
    apply Forall_app. split; auto. constructor; [|constructor].
    apply get_Ok, nth_error_In in Em. rewrite Forall_forall in W. auto.
  - apply bind_Ok in E. destruct E as (m & Em & E). apply bind_Ok in E.
    destruct E as ([h1 m1] & E1 & E). apply bind_Ok in E. destruct E as (ms1 & E2 & E).
    injection E as <-. apply set_Ok_inv in E2. destruct E2 as [_ ->]. cbn [fst snd].
    apply get_Ok, nth_error_In in Em. pose proof (proj1 (Forall_forall _ _) W m Em) as Wm.
    apply Forall_upd; [|eapply hinsert_mwf; eauto].
    destruct Wm as (ND & vs & S & IX).
    destruct (hinsert_Ok _ _ _ _ _ _ S ND E1) as (vs' & S' & EI & ND' & F).
    eapply Forall_impl; [|exact W]. intros n. apply (mwf_frame D C _ _ _ _ _ F).
  - apply bind_Ok in E. destruct E as (m & Em & E). apply bind_Ok in E.
    destruct E as (ms1 & E2 & E).
    injection E as <-. apply set_Ok_inv in E2. destruct E2 as [_ ->]. cbn [fst snd].
    apply get_Ok, nth_error_In in Em. apply Forall_upd; auto.
    apply (proj1 (Forall_forall _ _) W m Em).
Qed.

Lemma wrun_wf ops w : wrun ops = Ok w -> wwf w.
Proof.
  unfold HeapModel.wrun. intros E. apply (foldM_inv wwf wstep) with (3 := E); [|constructor].
  intros s x s'. apply wstep_wf.
Qed.

(** No two maps share a voxel. *)
Definition disjoint (ms : list hmap) : Prop :=
  forall i j m n a, i <> j -> nth_error ms i = Some m -> nth_error ms j = Some n ->
    In a (h_flat m) -> ~ In a (h_flat n).

Definition wsim (w : world D C) (vs : list (vmap D C)) : Prop :=
  Forall2 (fun m v => view (fst w) m = Ok v) (snd w) vs /\
  Forall (fun m => NoDup (h_flat m)) (snd w) /\ disjoint (snd w).

Lemma Forall2_upd {A B} (P : A -> B -> Prop) l1 l2 i x y :
  (forall j a b, j <> i -> nth_error l1 j = Some a -> nth_error l2 j = Some b -> P a b) -> P x y ->
  length l1 = length l2 -> Forall2 P (upd l1 i x) (upd l2 i y).
Proof.
  revert l2 i. induction l1 as [|a l1 IH]; intros [|b l2] i H Pxy L; try discriminate; cbn.
  - constructor.
  - injection L as L. destruct i as [|i]; constructor; auto.
    + clear IH. assert (K : forall j a b, nth_error l1 j = Some a -> nth_error l2 j = Some b -> P a b).
      { intros j a' b' E1 E2. apply (H (S j)); cbn; auto; lia. }
      clear H. revert l2 L K. induction l1 as [|a' l1 IH]; intros [|b' l2] L K; try discriminate; constructor.
      * apply (K 0); reflexivity.
      * apply IH; [injection L; auto|]. intros j. apply (K (S j)).
    + apply (H 0); cbn; auto; lia.
    + apply IH; auto. intros j a' b' NE. apply (H (S j)); lia.
Qed.

Lemma wstep_sim w vs o : wsim w vs -> no_copy o ->
  orel wsim (wstep w o) (vstep coord_of pose act vs o).
Proof.
  destruct w as [h ms]. intros (V & ND & DJ) NC. cbn [fst snd] in *.
  pose proof (Forall2_len _ _ _ V) as LN.
  destruct o as [hz cy|i|i call|i n]; cbn [HeapModel.wstep vstep]; [|contradiction| |].
  - cbn. split; [|split]; cbn [fst snd].
    + apply Forall2_app; auto.
    + apply Forall_app; split; auto. repeat constructor.
    + intros i j m n a NE Ei Ej Ia. rewrite nth_error_snoc in Ei, Ej.
      destruct (i =? length ms); [injection Ei as <-; contradiction|].
      destruct (j =? length ms); [injection Ej as <-; auto|]. eapply DJ; eauto.
  - pose proof (Forall2_nth _ _ _ V i) as Vi. unfold get.
    destruct (nth_error ms i) as [m|] eqn:Em, (nth_error vs i) as [v|] eqn:Ev; try contradiction; [|exact I].
    cbn [bind]. apply view_shown in Vi. destruct Vi as (xs & S & ->).
    assert (NDm : NoDup (h_flat m)).
    { apply (proj1 (Forall_forall _ _) ND). eapply nth_error_In; eauto. }
    eapply orel_bind; [apply (hinsert_sim D C coord_of pose act h m call xs S NDm)|].
    intros [h' m'] st' (V' & ND' & F).
    rewrite !set_Ok by (apply nth_error_Some; congruence). cbn.
    destruct F as (FL & FS & FN & FK).
    split; [|split]; cbn [fst snd].
    + apply Forall2_upd; auto. intros j n b NE Ej Eb.
      pose proof (Forall2_nth _ _ _ V j) as Vj. rewrite Ej, Eb in Vj.
      apply view_shown in Vj. destruct Vj as (ys & Sj & ->). apply view_shown. exists ys. split; auto.
      eapply shown_ext; [exact Sj|]. intros a Ia. apply FS.
      * eapply shown_lt; eauto.
      * eapply DJ; eauto.
    + apply Forall_upd; auto.
    + assert (OLD : forall j n a, j <> i -> nth_error ms j = Some n -> In a (h_flat n) ->
                     ~ In a (h_flat m')).
      { intros j n a NE Ej Ia Ia'. destruct (FN a Ia') as [Im|Lt].
        - exact (DJ i j m n a ltac:(auto) Em Ej Im Ia).
        - pose proof (Forall2_nth _ _ _ V j) as Vj. rewrite Ej in Vj.
          destruct (nth_error vs j); [|contradiction]. apply view_shown in Vj.
          destruct Vj as (ys & Sj & _). pose proof (shown_lt _ _ _ _ _ _ Sj Ia). lia. }
      intros j k n p a NE Ej Ek Ia. rewrite upd_nth_error in Ej, Ek.
      destruct (i =? j) eqn:Eij, (i =? k) eqn:Eik.
      * lia.
      * destruct (j <? length ms); [|discriminate]. injection Ej as <-.
        intros Ip. apply (OLD k p a ltac:(lia) Ek Ip Ia).
      * destruct (k <? length ms); [|discriminate]. injection Ek as <-.
        apply (OLD j n a ltac:(lia) Ej Ia).
      * eapply DJ; eauto.
  - pose proof (Forall2_nth _ _ _ V i) as Vi. unfold get.
    destruct (nth_error ms i) as [m|] eqn:Em, (nth_error vs i) as [v|] eqn:Ev; try contradiction; [|exact I].
    cbn [bind]. apply view_shown in Vi. destruct Vi as (xs & S & ->).
    rewrite !set_Ok by (apply nth_error_Some; congruence). cbn.
    split; [|split]; cbn [fst snd].
    + apply Forall2_upd; auto.
      * intros j p b NE Ej Eb. pose proof (Forall2_nth _ _ _ V j) as Vj. rewrite Ej, Eb in Vj. exact Vj.
      * apply view_shown. exists xs. split; auto.
    + apply Forall_upd; auto. cbn. apply (proj1 (Forall_forall _ _) ND). eapply nth_error_In; eauto.
    + intros j k p r a NE Ej Ek Ia. rewrite upd_nth_error in Ej, Ek.
      destruct (i =? j) eqn:Eij, (i =? k) eqn:Eik.
      * lia.
      * destruct (j <? length ms); [|discriminate]. injection Ej as <-. cbn in Ia.
        eapply (DJ i k); eauto; lia.
      * destruct (k <? length ms); [|discriminate]. injection Ek as <-. cbn.
        eapply (DJ j i); eauto; lia.
      * eapply DJ; eauto.
Qed.

Lemma wrun_sim ops : Forall no_copy ops -> orel wsim (wrun ops) (vrun ops).
Proof.
  intros NC. apply (foldM_orel wsim _ _ no_copy); auto.
  - intros s t x. apply wstep_sim.
  - split; [constructor|]. split; [constructor|]. intros i j m n a _ E. destruct i; discriminate.
Qed.

(** ** Copies *)

Lemma hinsert_point_grow now (h : heap D C) flat idx q h' flat' idx' :
  hinsert_point coord_of now (h, flat, idx) q = Ok (h', flat', idx') ->
  exists ext : list nat, flat' = flat ++ ext.
Proof.
  unfold hinsert_point. intros E. apply bind_Ok in E. destruct E as (c & _ & E).
  destruct (lookup idx c) as [i|].
  all: repeat (apply bind_Ok in E; destruct E as (? & _ & E)); injection E as <- <- <-.
  - exists []. symmetry. apply app_nil_r.
  - eexists. reflexivity.
Qed.

Lemma hinsert_points_grow now qs : forall (h : heap D C) flat idx h' flat' idx',
  foldM (hinsert_point coord_of now) qs (h, flat, idx) = Ok (h', flat', idx') ->
  exists ext : list nat, flat' = flat ++ ext.
Proof.
  induction qs as [|q qs IH]; intros h flat idx h' flat' idx' E; cbn [foldM] in E.
  - injection E as <- <- <-. exists []. symmetry. apply app_nil_r.
  - apply bind_Ok in E. destruct E as ([[h1 f1] i1] & E1 & E2).
    destruct (hinsert_point_grow _ _ _ _ _ _ _ _ E1) as (e1 & ->).
    destruct (IH _ _ _ _ _ _ E2) as (e2 & ->). exists (e1 ++ e2). symmetry. apply app_assoc.
Qed.

Lemma hinsert_grow h m call h' m' : hinsert h m call = Ok (h', m') ->
  (wrap64 (h_counter m + 1) mod h_cycle m <> 0)%N ->
  exists ext, h_flat m' = h_flat m ++ ext.
Proof.
  destruct call as [T pts]. unfold HeapModel.hinsert. intros E NC.
  apply bind_Ok in E. destruct E as ([[h1 f1] i1] & E1 & E).
  destruct (h_cycle m =? 0)%N; [discriminate|].
  rewrite (proj2 (N.eqb_neq _ _) NC) in E. cbn [bind] in E.
  apply bind_Ok in E. destruct E as (h2 & E2 & E). injection E as <- <-. cbn.
  eapply hinsert_points_grow; eauto.
Qed.

Lemma shown_app h f1 f2 vs : shown h (f1 ++ f2) vs -> shown h f1 (firstn (length f1) vs).
Proof.
  revert vs. induction f1 as [|a f1 IH]; intros vs S; cbn.
  - constructor.
  - inversion S as [|? v ? vs' E S']; subst. cbn. constructor; auto. apply IH; auto.
Qed.

End World.
