(** C50: copies of an incremental voxel map share voxels with the original. *)
From Coq Require Import ZArith ZifyBool ZifyNat ZifyN.
From Verif Require Import Base BaseProofs Num Vec KnnModel VmapModel VmapSpec VmapProofs VmapHist
  HeapModel HeapSpec HeapProofs HeapWorld.
Open Scope nat_scope.

(** Programs that never copy a map: every map shows exactly what it would show if each map held
    its voxels by value.  This also justifies the by-value maps of [VmapModel]. *)
Theorem C50_without_copies :
  forall (D : num) (C : contents D) (coord_of : vec4 D -> outcome coord)
         (pose : Type) (act : pose -> item D -> item D) (ops : list (wop D pose)),
  Forall no_copy ops ->
  match wrun C coord_of pose act ops, vrun C coord_of pose act ops with
  | Ok (h, ms), Ok vs => Forall2 (fun m v => view h m = Ok v) ms vs
  | UB, UB | Abort, Abort | OutOfFuel, OutOfFuel => True
  | _, _ => False
  end.
Proof.
  intros D C coord_of pose act ops NC.
  pose proof (wrun_sim D C coord_of pose act ops NC) as H.
  destruct (wrun C coord_of pose act ops) as [[h ms]| | |], (vrun C coord_of pose act ops);
    cbn in H; try contradiction; auto. apply H.
Qed.

(** Any program, with any copies.  Inserting into map [i] makes it show exactly what inserting
    into the map it showed gives.  Every other map keeps its voxel coordinates and its index;
    a voxel it does not share with map [i] is unchanged. *)
Theorem C50_insert_in_any_program :
  forall (D : num) (C : contents D) (coord_of : vec4 D -> outcome coord)
         (pose : Type) (act : pose -> item D -> item D) (ops : list (wop D pose)) h ms i m call,
  wrun C coord_of pose act ops = Ok (h, ms) -> nth_error ms i = Some m ->
  exists st, view h m = Ok st /\
  match insert coord_of pose act st call with
  | Ok st' => exists h' m',
      wstep coord_of pose act (h, ms) (WInsert i call) = Ok (h', upd ms i m') /\
      view h' m' = Ok st' /\
      forall j n, j <> i -> nth_error ms j = Some n ->
      exists sn sn', view h n = Ok sn /\ view h' n = Ok sn' /\
        lru_counter sn' = lru_counter sn /\ search_offsets sn' = search_offsets sn /\
        voxels sn' = voxels sn /\
        map v_coord (flat_voxels sn') = map v_coord (flat_voxels sn) /\
        forall k a, nth_error (h_flat n) k = Some a -> ~ In a (h_flat m) ->
        nth_error (flat_voxels sn') k = nth_error (flat_voxels sn) k
  | UB => wstep coord_of pose act (h, ms) (WInsert i call) = UB
  | Abort => wstep coord_of pose act (h, ms) (WInsert i call) = Abort
  | OutOfFuel => wstep coord_of pose act (h, ms) (WInsert i call) = OutOfFuel
  end.
Proof.
  intros D C coord_of pose act ops h ms i m call R Em.
  pose proof (wrun_wf D C coord_of pose act _ _ R) as W. unfold wwf in W. cbn [fst snd] in W.
  rewrite Forall_forall in W.
  destruct (W m (nth_error_In _ _ Em)) as (ND & vs & S & IX).
  exists (st_of D C m vs). split; [apply view_shown; eauto|].
  pose proof (hinsert_sim D C coord_of pose act h m call vs S ND) as H. fold (st_of D C m vs) in H.
  cbn [wstep]. rewrite (proj2 (get_Ok _ _ _) Em). cbn [bind].
  destruct (hinsert coord_of pose act h m call) as [[h' m']| | |],
    (insert coord_of pose act (st_of D C m vs) call) as [st'| | |]; cbn in H; try contradiction; auto.
  destruct H as (V & ND' & F). exists h', m'. cbn [bind].
  rewrite set_Ok by (apply nth_error_Some; congruence).
  split; [reflexivity|]. split; [exact V|].
  intros j n NE En. destruct (W n (nth_error_In _ _ En)) as (_ & ws & Sn & _).
  destruct (shown_frame_coords D C _ _ _ _ _ _ F Sn) as (ws' & Sn' & Ec).
  exists (st_of D C n ws), (st_of D C n ws').
  split; [apply view_shown; eauto|]. split; [apply view_shown; eauto|].
  repeat (split; [reflexivity||exact Ec|]). cbn.
  intros k a Ea NI.
  pose proof (shown_nth D C _ _ _ k Sn) as H1. pose proof (shown_nth D C _ _ _ k Sn') as H2.
  rewrite Ea in H1, H2. destruct H1 as (v1 & -> & E1), H2 as (v2 & -> & E2).
  destruct F as (_ & FS & _ & _). rewrite FS in E2; auto; [congruence|].
  apply nth_error_Some. congruence.
Qed.

(** Any program, with any copies: every map stays usable.  Its pointers are valid, it holds no
    voxel twice, its coordinates are distinct, and lookup finds exactly the voxel. *)
Theorem C50_maps_stay_consistent :
  forall (D : num) (C : contents D) (coord_of : vec4 D -> outcome coord)
         (pose : Type) (act : pose -> item D -> item D) (ops : list (wop D pose)) h ms m,
  wrun C coord_of pose act ops = Ok (h, ms) -> In m ms ->
  NoDup (h_flat m) /\
  exists st, view h m = Ok st /\ NoDup (map v_coord (flat_voxels st)) /\
  forall c i, lookup (voxels st) c = Some i <->
              exists v, nth_error (flat_voxels st) i = Some v /\ v_coord v = c.
Proof.
  intros D C coord_of pose act ops h ms m R Im.
  pose proof (wrun_wf D C coord_of pose act _ _ R) as W. unfold wwf in W. cbn [fst snd] in W.
  rewrite Forall_forall in W. destruct (W m Im) as (ND & vs & S & IX).
  split; auto. exists (st_of D C m vs). split; [apply view_shown; eauto|].
  split; [eapply idx_ok_NoDup; exact IX|exact IX].
Qed.

(** Independence is refuted: copy map [i] and insert into the copy, with no clearing due.  The
    original then shows the copy's new voxels, cut off at its own size: added points appear in
    every voxel it had, voxels created by the insertion do not, and its counter is old. *)
Theorem C50_copy_independent_refuted :
  forall (D : num) (C : contents D) (coord_of : vec4 D -> outcome coord)
         (pose : Type) (act : pose -> item D -> item D) (ops : list (wop D pose)) h ms i m call h' ms',
  wrun C coord_of pose act ops = Ok (h, ms) -> nth_error ms i = Some m ->
  (wrap64 (h_counter m + 1) mod h_cycle m <> 0)%N ->
  wrun C coord_of pose act (ops ++ [WCopy i; WInsert (length ms) call]) = Ok (h', ms') ->
  exists st st' m',
    view h m = Ok st /\ insert coord_of pose act st call = Ok st' /\
    ms' = ms ++ [m'] /\ view h' m' = Ok st' /\
    view h' m = Ok (mkVmap D C (lru_horizon st) (lru_clear_cycle st) (lru_counter st)
                           (search_offsets st)
                           (firstn (map_size st) (flat_voxels st')) (voxels st)).
Proof.
  intros D C coord_of pose act ops h ms i m call h' ms' R Em NC R'.
  pose proof (wrun_wf D C coord_of pose act _ _ R) as W. unfold wwf in W. cbn [fst snd] in W.
  rewrite Forall_forall in W. destruct (W m (nth_error_In _ _ Em)) as (ND & vs & S & IX).
  unfold wrun in *. rewrite foldM_app in R'. rewrite R in R'. cbn [bind foldM wstep] in R'.
  rewrite (proj2 (get_Ok _ _ _) Em) in R'. cbn [bind foldM wstep] in R'.
  assert (G : get (ms ++ [m]) (length ms) = Ok m).
  { apply get_Ok. rewrite nth_error_app2, Nat.sub_diag by lia. reflexivity. }
  rewrite G in R'. cbn [bind] in R'.
  destruct (hinsert coord_of pose act h m call) as [[h1 m1]| | |] eqn:EH; try discriminate.
  cbn [bind] in R'. rewrite set_Ok in R' by (rewrite app_length; cbn; lia). cbn [bind] in R'.
  injection R' as -> <-.
  destruct (hinsert_Ok D C coord_of pose act _ _ _ _ _ _ S ND EH) as (vs' & S' & EI & ND' & F).
  destruct (hinsert_grow D C coord_of pose act _ _ _ _ _ EH NC) as (ext & EF).
  exists (st_of D C m vs), (st_of D C m1 vs'), m1.
  split; [apply view_shown; eauto|]. split; [exact EI|].
  split; [apply upd_app_r|]. split; [apply view_shown; eauto|].
  unfold map_size. cbn. rewrite <- (Forall2_len _ _ _ S).
  apply view_shown. exists (firstn (length (h_flat m)) vs'). split; [|reflexivity].
  rewrite EF in S'. eapply shown_app; eauto.
Qed.

(** ** A program that copies *)

Definition Zi (x : Z) : item Znum := mkItem (D := Znum) (V4 (D := Znum) x 0%Z 0%Z 1%Z) vzero mzero.
Definition Zvoxels : contents Znum := flat_contents (D := Znum)
  (fun p q => ((vx p - vx q) * (vx p - vx q))%Z) false false 1%Z 10.
Definition Zcell (p : vec4 Znum) : outcome coord :=
  Ok (Z.div (vx p) 10, Z.div (vy p) 10, Z.div (vz p) 10)%Z.

(** Create a map, insert 3 and 17, copy it, insert 5 and 42 into the copy. *)
Definition program : list (wop Znum unit) :=
  [WNew 100 10; WInsert 0 (tt, [Zi 3; Zi 17]); WCopy 0; WInsert 1 (tt, [Zi 5; Zi 42])].

Definition points_of (v : voxel Znum Zvoxels) : list Z := map vx (stored Zvoxels (v_body v)).
Definition shown_points (w : outcome (world Znum Zvoxels)) : outcome (list (list (list Z))) :=
  let* (h, ms) := w in
  mapM (fun m => let* st := view h m in
                 Ok (map points_of (flat_voxels st))) ms.

(** The original shows 5, which was inserted into the copy; with maps held by value it
    would not. *)
Example C50_instance :
  shown_points (wrun Zvoxels Zcell unit (fun _ q => q) program)
    = Ok [[[3; 5]; [17]]; [[3; 5]; [17]; [42]]]%Z /\
  (let* ms := vrun Zvoxels Zcell unit (fun _ q => q) program in
   Ok (map (fun st => map points_of (flat_voxels st)) ms))
    = Ok [[[3]; [17]]; [[3; 5]; [17]; [42]]]%Z.
Proof. split; vm_compute; reflexivity. Qed.

(** A program without copies that runs to the end. *)
Example C50_no_copy_instance :
  Forall no_copy [WNew 100 10; WNew 1 2; WInsert 0 (tt, [Zi 3; Zi 17]); WInsert 1 (tt, [Zi 5]);
                  WOffsets (D := Znum) (pose := unit) 1 7] /\
  shown_points (wrun Zvoxels Zcell unit (fun _ q => q)
     [WNew 100 10; WNew 1 2; WInsert 0 (tt, [Zi 3; Zi 17]); WInsert 1 (tt, [Zi 5]); WOffsets 1 7])
    = Ok [[[3]; [17]]; [[5]]]%Z.
Proof. split; [repeat constructor|vm_compute; reflexivity]. Qed.

Print Assumptions C50_without_copies.
Print Assumptions C50_insert_in_any_program.
Print Assumptions C50_maps_stay_consistent.
Print Assumptions C50_copy_independent_refuted.
