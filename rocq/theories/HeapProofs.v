(** Proofs about maps over a heap of shared voxels. *)
From Coq Require Import ZArith ZifyBool ZifyNat ZifyN.
From Verif Require Import Base BaseProofs Num Vec KnnModel VmapModel VmapSpec VmapProofs
  HeapModel HeapSpec.

(** Two calls that fail alike or succeed with related results. *)
Definition orel {A B} (P : A -> B -> Prop) (x : outcome A) (y : outcome B) : Prop :=
  match x, y with
  | Ok a, Ok b => P a b
  | UB, UB | Abort, Abort | OutOfFuel, OutOfFuel => True
  | _, _ => False
  end.

Lemma orel_bind {A B A' B'} (P : A -> B -> Prop) (Q : A' -> B' -> Prop) x y f g :
  orel P x y -> (forall a b, P a b -> orel Q (f a) (g b)) -> orel Q (bind x f) (bind y g).
Proof. destruct x, y; cbn; intros H K; auto; contradiction. Qed.

Lemma orel_impl {A B} (P Q : A -> B -> Prop) x y :
  (forall a b, P a b -> Q a b) -> orel P x y -> orel Q x y.
Proof. destruct x, y; cbn; auto. Qed.

Lemma orel_refl_bind {A A' B'} (Q : A' -> B' -> Prop) (x : outcome A) f g :
  (forall a, x = Ok a -> orel Q (f a) (g a)) -> orel Q (bind x f) (bind x g).
Proof. destruct x; cbn; intros K; auto. Qed.

Lemma Forall2_nth {A B} (R : A -> B -> Prop) l1 l2 : Forall2 R l1 l2 ->
  forall i, match nth_error l1 i, nth_error l2 i with
            | Some a, Some b => R a b | None, None => True | _, _ => False end.
Proof. induction 1; intros [|i]; cbn; auto. exact (IHForall2 i). Qed.

Lemma Forall2_len {A B} (R : A -> B -> Prop) l1 l2 : Forall2 R l1 l2 -> length l1 = length l2.
Proof. induction 1; cbn; auto. Qed.

Section Heap.
Context (D : num) (C : contents D) (coord_of : vec4 D -> outcome coord).
Context (pose : Type) (act : pose -> item D -> item D).
Notation heap := (HeapModel.heap D C).
Notation voxel := (VmapModel.voxel D C).

Definition shown (h : heap) (flat : list nat) (vs : list voxel) : Prop :=
  Forall2 (fun a v => nth_error h a = Some v) flat vs.

(** What changing a map with addresses [flat] into one with addresses [flat'] may do. *)
Definition frame (h : heap) (flat : list nat) (h' : heap) (flat' : list nat) : Prop :=
  length h <= length h' /\
  (forall a, a < length h -> ~ In a flat -> nth_error h' a = nth_error h a) /\
  (forall a, In a flat' -> In a flat \/ length h <= a) /\
  (forall a v, nth_error h a = Some v -> exists v', nth_error h' a = Some v' /\ v_coord v' = v_coord v).

Lemma frame_refl h flat : frame h flat h flat.
Proof. repeat split; auto. intros a v E. eauto. Qed.

Lemma frame_trans h1 f1 h2 f2 h3 f3 :
  frame h1 f1 h2 f2 -> frame h2 f2 h3 f3 -> frame h1 f1 h3 f3.
Proof.
  intros (L1 & S1 & N1 & K1) (L2 & S2 & N2 & K2). repeat split.
  - lia.
  - intros a La NI. rewrite S2; [apply S1; auto|lia|].
    intros I. destruct (N1 a I); [contradiction|lia].
  - intros a I. destruct (N2 a I) as [I'|]; [|right; lia]. apply N1; auto.
  - intros a v E. destruct (K1 a v E) as (v' & E' & V'). destruct (K2 a v' E') as (w & E2 & W).
    exists w. split; auto. congruence.
Qed.

Lemma shown_nth h flat vs i : shown h flat vs ->
  match nth_error flat i with
  | Some a => exists v, nth_error vs i = Some v /\ nth_error h a = Some v
  | None => nth_error vs i = None
  end.
Proof.
  intros S. pose proof (Forall2_nth _ _ _ S i) as H.
  destruct (nth_error flat i), (nth_error vs i); try contradiction; eauto.
Qed.

Lemma shown_In h flat vs a : shown h flat vs -> In a flat -> exists v, nth_error h a = Some v.
Proof.
  intros S I. apply In_nth_error in I. destruct I as (i & E).
  pose proof (shown_nth _ _ _ i S) as H. rewrite E in H. destruct H as (v & _ & Ev). eauto.
Qed.

Lemma shown_lt h flat vs a : shown h flat vs -> In a flat -> a < length h.
Proof.
  intros S I. destruct (shown_In _ _ _ _ S I) as (v & E). apply nth_error_Some. congruence.
Qed.

Lemma shown_ext h h' flat vs : shown h flat vs ->
  (forall a, In a flat -> nth_error h' a = nth_error h a) -> shown h' flat vs.
Proof.
  intros S K. induction S as [|a v flat vs E S IH]; constructor.
  - rewrite K; cbn; auto.
  - apply IH. intros b I. apply K. cbn; auto.
Qed.

Lemma shown_upd h flat vs i a w : shown h flat vs -> NoDup flat -> nth_error flat i = Some a ->
  shown (upd h a w) flat (upd vs i w).
Proof.
  intros S. revert i. induction S as [|b v flat vs E S IH]; intros i ND Ei.
  - destruct i; discriminate.
  - inversion ND as [|? ? NI ND']; subst. destruct i as [|i]; cbn in Ei |- *.
    + injection Ei as ->. constructor.
      * apply upd_nth_error_same. apply nth_error_Some. congruence.
      * eapply shown_ext; [exact S|]. intros c I. apply upd_nth_error_other. congruence.
    + constructor.
      * rewrite upd_nth_error_other; auto. intros ->. apply NI. eapply nth_error_In; eauto.
      * apply IH; auto.
Qed.

Lemma mapM_shown h flat vs : mapM (get h) flat = Ok vs <-> shown h flat vs.
Proof.
  revert vs. induction flat as [|a flat IH]; intros vs; cbn.
  - split; intros H; [injection H as <-; constructor|inversion H; reflexivity].
  - split; intros H.
    + destruct (bind_Ok _ _ _ H) as (v & E & H'). destruct (bind_Ok _ _ _ H') as (vs' & E' & H2).
      injection H2 as <-. constructor; [apply get_Ok; auto|apply IH; auto].
    + inversion H as [|? v ? vs' E S]; subst. rewrite (proj2 (get_Ok _ _ _) E). cbn.
      rewrite (proj2 (IH vs') S). reflexivity.
Qed.

Definition sim (h0 : heap) (f0 : list nat)
    (s : heap * list nat * index_map) (t : list voxel * index_map) : Prop :=
  let '(h, flat, idx) := s in let '(vs, idx') := t in
  shown h flat vs /\ NoDup flat /\ idx = idx' /\ frame h0 f0 h flat.

Lemma frame_upd h flat a v w : In a flat -> nth_error h a = Some v -> v_coord w = v_coord v ->
  frame h flat (upd h a w) flat.
Proof.
  intros I E W. repeat split; auto.
  - rewrite upd_length; auto.
  - intros b L NI. apply upd_nth_error_other. congruence.
  - intros b u Eb. destruct (Nat.eq_dec a b) as [<-|NE].
    + exists w. split; [|congruence]. apply upd_nth_error_same. apply nth_error_Some. congruence.
    + exists u. rewrite upd_nth_error_other; auto.
Qed.

Lemma hinsert_point_sim now h0 f0 h flat idx vs q :
  sim h0 f0 (h, flat, idx) (vs, idx) ->
  orel (sim h0 f0) (hinsert_point coord_of now (h, flat, idx) q)
                   (insert_point coord_of now (vs, idx) q).
Proof.
  intros (S & ND & _ & F). unfold hinsert_point, insert_point.
  apply orel_refl_bind. intros c _.
  pose proof (Forall2_len _ _ _ S) as LN.
  assert (ST : forall i h flat idx vs, sim h0 f0 (h, flat, idx) (vs, idx) ->
    orel (sim h0 f0)
     (let* a := get flat i in
      let* v := get h a in
      let* h2 := set h a (mkVoxel now (v_coord v) (add C (v_body v) q)) in Ok (h2, flat, idx))
     (let* v := get vs i in
      let* vs2 := set vs i (mkVoxel now (v_coord v) (add C (v_body v) q)) in Ok (vs2, idx))).
  { clear. intros i h flat idx vs (S & ND & _ & F).
    pose proof (shown_nth _ _ _ i S) as H. unfold get.
    destruct (nth_error flat i) as [a|] eqn:Ei; [|rewrite H; exact I].
    destruct H as (v & Ev & Eh). rewrite Ev. cbn [bind]. rewrite Eh. cbn [bind].
    rewrite !set_Ok by (apply nth_error_Some; congruence). cbn.
    split; [apply shown_upd; auto|]. split; auto. split; auto.
    eapply frame_trans; [exact F|]. eapply frame_upd; eauto. eapply nth_error_In; eauto. }
  destruct (lookup idx c) as [i|].
  - apply ST. repeat split; auto; apply F.
  - rewrite <- LN. apply ST. split; [|split; [|split]]; auto.
    + apply Forall2_app; [|repeat constructor].
      * eapply shown_ext; [exact S|]. intros a Ia. pose proof (shown_lt _ _ _ _ S Ia).
        rewrite nth_error_app1; auto.
      * rewrite nth_error_app2, Nat.sub_diag by lia. reflexivity.
    + apply NoDup_app_intro; auto; [repeat constructor; auto|].
      intros a Ia [<-|[]]. pose proof (shown_lt _ _ _ _ S Ia). lia.
    + eapply frame_trans; [exact F|]. repeat split.
      * rewrite app_length; lia.
      * intros a La _. apply nth_error_app1; auto.
      * intros a Ia. apply in_app_or in Ia. destruct Ia as [|[<-|[]]]; auto.
      * intros a v Ea. exists v. split; auto. rewrite nth_error_app1; auto.
        apply nth_error_Some. congruence.
Qed.

Lemma hinsert_points_sim now qs : forall h0 f0 h flat idx vs,
  sim h0 f0 (h, flat, idx) (vs, idx) ->
  orel (sim h0 f0) (foldM (hinsert_point coord_of now) qs (h, flat, idx))
                   (foldM (insert_point coord_of now) qs (vs, idx)).
Proof.
  induction qs as [|q qs IH]; intros h0 f0 h flat idx vs SM; cbn [foldM].
  - exact SM.
  - eapply orel_bind; [apply hinsert_point_sim; exact SM|].
    intros [[h1 f1] i1] [vs1 i1'] SM1. pose proof SM1 as (_ & _ & E & _). subst i1'.
    apply IH; auto.
Qed.

Definition fin (v : voxel) : voxel := mkVoxel (v_lru v) (v_coord v) (finalize C (v_body v)).

Lemma hfinalize_sim flat : forall h vs, shown h flat vs -> NoDup flat ->
  exists h', hfinalize h flat = Ok h' /\ shown h' flat (map fin vs) /\ frame h flat h' flat /\
    length h' = length h.
Proof.
  induction flat as [|a flat IH]; intros h vs S ND.
  - inversion S; subst. exists h. split; [reflexivity|]. split; [constructor|].
    split; [apply frame_refl|reflexivity].
  - inversion S as [|? v ? vs' E S']; subst. inversion ND as [|? ? NI ND']; subst.
    unfold hfinalize; cbn [foldM]. rewrite (proj2 (get_Ok _ _ _) E). cbn [bind].
    rewrite set_Ok by (apply nth_error_Some; congruence). cbn [bind].
    assert (S2 : shown (upd h a (fin v)) flat vs').
    { eapply shown_ext; [exact S'|]. intros c I. apply upd_nth_error_other. congruence. }
    destruct (IH _ _ S2 ND') as (h' & E' & SH & (L & SM & N & K) & LE).
    exists h'. fold (hfinalize (C := C) (upd h a (fin v)) flat).
    rewrite upd_length in *.
    assert (EA : nth_error h' a = Some (fin v)).
    { rewrite SM; auto; [|apply nth_error_Some; congruence].
      apply upd_nth_error_same. apply nth_error_Some. congruence. }
    split; [exact E'|]. split; [constructor; auto|]. split; [|exact LE].
    repeat split; auto.
    + intros b Lb NIb. rewrite SM; [apply upd_nth_error_other; cbn in NIb; tauto|lia|cbn in NIb; tauto].
    + intros b u Eb. destruct (Nat.eq_dec a b) as [<-|NE].
      * exists (fin v). split; auto. cbn. congruence.
      * apply K. rewrite upd_nth_error_other; auto.
Qed.

Lemma filter_shown (P : voxel -> bool) h flat vs : shown h flat vs ->
  shown h (map fst (filter (fun av => P (snd av)) (combine flat vs))) (filter P vs) /\
  map snd (filter (fun av => P (snd av)) (combine flat vs)) = filter P vs /\
  (forall a, In a (map fst (filter (fun av => P (snd av)) (combine flat vs))) -> In a flat) /\
  (NoDup flat -> NoDup (map fst (filter (fun av => P (snd av)) (combine flat vs)))).
Proof.
  induction 1 as [|a v flat vs E S (I1 & I2 & I3 & I4)]; cbn.
  - repeat split; auto. constructor.
  - destruct (P v); cbn.
    + split; [constructor; auto|]. split; [congruence|]. split.
      * intros b [<-|Ib]; auto.
      * intros ND. inversion ND; subst. constructor; auto.
    + repeat split; auto. intros ND. inversion ND; subst. auto.
Qed.

(** One insert over the heap shows what insert on the shown map gives, whatever other maps
    share; the rest of the heap is untouched, and no voxel ever changes its coordinate. *)
Theorem hinsert_sim h m call vs : shown h (h_flat m) vs -> NoDup (h_flat m) ->
  orel (fun '(h', m') st' =>
          view h' m' = Ok st' /\ NoDup (h_flat m') /\ frame h (h_flat m) h' (h_flat m'))
       (hinsert coord_of pose act h m call)
       (insert coord_of pose act
          (mkVmap D C (h_horizon m) (h_cycle m) (h_counter m) (h_offsets m) vs (h_index m)) call).
Proof.
  intros S ND. destruct call as [T points]. unfold hinsert, insert.
  cbn [lru_horizon lru_clear_cycle lru_counter search_offsets flat_voxels voxels].
  eapply orel_bind.
  { apply (hinsert_points_sim (h_counter m)) with (h0 := h) (f0 := h_flat m).
    repeat split; auto. intros a v E. eauto. }
  intros [[h1 f1] i1] [vs1 i1'] (S1 & ND1 & E & F1). subst i1'.
  set (now := wrap64 (h_counter m + 1)).
  eapply orel_bind with (P := fun '(f2, i2) '(vs2, i2') =>
     shown h1 f2 vs2 /\ NoDup f2 /\ i2 = i2' /\ (forall a, In a f2 -> In a f1)).
  { destruct (h_cycle m =? 0)%N; [exact I|].
    destruct (now mod h_cycle m =? 0)%N; [|cbn; auto].
    rewrite (proj2 (mapM_shown _ _ _) S1). cbn [bind].
    destruct (filter_shown (fun v => negb (expired (h_horizon m) now v)) _ _ _ S1)
      as (I1 & I2 & I3 & I4).
    cbn. rewrite I2. auto. }
  intros [f2 i2] [vs2 i2'] (S2 & ND2 & <- & SUB).
  destruct (hfinalize_sim f2 h1 vs2 S2 ND2) as (h3 & E3 & S3 & F3 & L3).
  rewrite E3. cbn. unfold view. cbn. rewrite (proj2 (mapM_shown _ _ _) S3). cbn.
  split; [reflexivity|]. split; [exact ND2|].
  eapply frame_trans; [exact F1|]. destruct F3 as (LL & SM & N & K). repeat split.
  - lia.
  - intros a La NI. apply SM; auto. 
  - auto.
  - auto.
Qed.

Definition st_of (m : hmap) (vs : list voxel) : vmap D C :=
  mkVmap D C (h_horizon m) (h_cycle m) (h_counter m) (h_offsets m) vs (h_index m).

Lemma view_shown h m st : view h m = Ok st <->
  exists vs, shown h (h_flat m) vs /\ st = st_of m vs.
Proof.
  unfold view, st_of. split.
  - intros E. apply bind_Ok in E. destruct E as (vs & E1 & E2). injection E2 as <-.
    exists vs. split; auto. apply mapM_shown; auto.
  - intros (vs & S & ->). rewrite (proj2 (mapM_shown _ _ _) S). reflexivity.
Qed.

Definition mwf (h : heap) (m : hmap) : Prop :=
  NoDup (h_flat m) /\ exists vs, shown h (h_flat m) vs /\ idx_ok vs (h_index m).

Lemma idx_ok_coords (vs vs' : list voxel) idx : map v_coord vs = map v_coord vs' ->
  idx_ok vs idx -> idx_ok vs' idx.
Proof.
  intros E IX c i. rewrite (IX c i).
  assert (N : forall l : list voxel, (exists v, nth_error l i = Some v /\ v_coord v = c) <->
                      nth_error (map v_coord l) i = Some c).
  { intros l. rewrite nth_error_map. destruct (nth_error l i) as [u|]; cbn; split.
    - intros (v & E1 & E2). congruence.
    - intros E1. injection E1 as <-. eauto.
    - intros (v & E1 & _). discriminate.
    - discriminate. }
  rewrite !N, E. tauto.
Qed.

Lemma shown_frame_coords h flat h' flat' fl vs : frame h flat h' flat' -> shown h fl vs ->
  exists vs', shown h' fl vs' /\ map v_coord vs' = map v_coord vs.
Proof.
  intros (_ & _ & _ & K). induction 1 as [|a v fl vs E S (vs' & S' & E')].
  - exists []. split; constructor.
  - destruct (K a v E) as (v' & Ev & Ec). exists (v' :: vs'). split; [constructor; auto|].
    cbn. congruence.
Qed.

Lemma mwf_frame h flat h' flat' m : frame h flat h' flat' -> mwf h m -> mwf h' m.
Proof.
  intros F (ND & vs & S & IX). split; auto.
  destruct (shown_frame_coords _ _ _ _ _ _ F S) as (vs' & S' & E).
  exists vs'. split; auto. eapply idx_ok_coords; [symmetry; exact E|exact IX].
Qed.

End Heap.
