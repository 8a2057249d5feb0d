(** C75: voxel grid downsampling of fixed-point clouds in double precision. *)
From Coq Require Import Reals ZArith Lra ZifyBool ZifyNat.
From Flocq Require Import Core.
From Flocq Require Import IEEE754.BinarySingleNaN.
From Verif Require Import Base BaseProofs Num Vec F64 F64Proofs F64Err FloorModel FloorProofs KdModel KdSpec
  NthElement SortSpec VoxModel VoxSpec VoxPar VoxF64 FixedSpec FixedProofs Prop_KdTree Prop_Vox.
Open Scope nat_scope.

(** Coordinates that are multiples of 2^e, so few and so small that their sums stay below
    2^53 steps: every sample is the mean of the points of its voxel rounded once, and it lies
    in that voxel. *)
Theorem C75_centroids sort m inv e M (points : list (vec4 Fnum)) :
  sort_contract sort -> is_finite inv = true -> (0 < B2R inv)%R -> (-1074 <= e <= 800)%Z ->
  (forall p, In p points -> safe m inv p) ->
  (forall p, In p points -> in_grid inv p -> fixed_point e M p) ->
  (Z.of_nat (length points) * Z.max M 1 < 2 ^ 53)%Z ->
  (exists p, In p points /\ in_grid inv p) ->
  exists out cells, voxelgrid_sampling (voxel_key m inv) sort points = Ok out /\
    StronglySorted cell_lt cells /\
    (forall c, In c cells <-> exists p, In p points /\ in_grid inv p /\ cell inv p = c) /\
    Forall2 (fun c o => rounded_mean (filter (in_voxel inv c) points) o /\ in_grid inv o /\ cell inv o = c) cells out.
Proof.
  intros SC Fi Pi He HS HX Hn H0. destruct (centroids sort SC m inv e M He Fi Pi points HS HX Hn H0) as (out & cells & E & S & C & G).
  exists out, cells. split; auto. split; auto. split; auto.
  clear -G. induction G as [|c o cells out (A & B & D & _) G IH]; constructor; auto.
Qed.

(** Any cloud with at most one point per voxel, listed in the order of the voxels, comes back
    unchanged: this needs no fixed point. *)
Theorem C75_settled sort m inv (points : list (vec4 Fnum)) :
  sort_contract sort -> points <> [] -> (forall p, In p points -> in_grid inv p /\ usable p) ->
  StronglySorted cell_lt (map (cell inv) points) ->
  exists out, voxelgrid_sampling (voxel_key m inv) sort points = Ok out /\ Forall2 same_point points out.
Proof. intros. apply settled; auto. Qed.

(** Sampling a second time with the same leaf size changes nothing. *)
Theorem C75_twice sort sort' m m' inv e M (points out : list (vec4 Fnum)) :
  sort_contract sort -> sort_contract sort' -> is_finite inv = true -> (0 < B2R inv)%R -> (-1074 <= e <= 800)%Z ->
  (forall p, In p points -> safe m inv p) ->
  (forall p, In p points -> in_grid inv p -> fixed_point e M p) ->
  (Z.of_nat (length points) * Z.max M 1 < 2 ^ 53)%Z ->
  (exists p, In p points /\ in_grid inv p) ->
  voxelgrid_sampling (voxel_key m inv) sort points = Ok out ->
  exists out', voxelgrid_sampling (voxel_key m' inv) sort' out = Ok out' /\ Forall2 same_point out out'.
Proof.
  intros SC SC' Fi Pi He HS HX Hn H0 E.
  destruct (centroids sort SC m inv e M He Fi Pi points HS HX Hn H0) as (out1 & cells & E1 & S & C & G).
  rewrite E1 in E. injection E as ->.
  assert (Hc : map (cell inv) out = cells).
  { clear -G. induction G as [|c o cells out (_ & _ & H & _) G IH]; auto. cbn [map]. congruence. }
  apply settled; auto.
  - intros ->. destruct H0 as (p & Hp & Gp).
    assert (K : In (cell inv p) cells) by (apply C; eauto). rewrite <- Hc in K. destruct K.
  - intros p Hp. clear -G Hp. induction G as [|c o cells out (_ & H1 & _ & H2) G IH]; [destruct Hp|].
    destruct Hp as [<-|Hp]; auto.
  - rewrite Hc. exact S.
Qed.

(** The order of the points, and the way std::sort orders equal keys, do not matter. *)
Theorem C75_order sort sort' m m' inv e M (points points' out out' : list (vec4 Fnum)) :
  sort_contract sort -> sort_contract sort' -> is_finite inv = true -> (0 < B2R inv)%R -> (-1074 <= e <= 800)%Z ->
  (forall p, In p points -> safe m inv p /\ safe m' inv p) ->
  (forall p, In p points -> in_grid inv p -> fixed_point e M p) ->
  (Z.of_nat (length points) * Z.max M 1 < 2 ^ 53)%Z ->
  (exists p, In p points /\ in_grid inv p) -> Permutation points points' ->
  voxelgrid_sampling (voxel_key m inv) sort points = Ok out ->
  voxelgrid_sampling (voxel_key m' inv) sort' points' = Ok out' ->
  Forall2 same_point out out'.
Proof.
  intros SC SC' Fi Pi He HS HX Hn H0 HP E E'.
  assert (HI : forall p, In p points' -> In p points) by (intros p Hp; apply (Permutation_in _ (Permutation_sym HP) Hp)).
  destruct (centroids sort SC m inv e M He Fi Pi points) as (o1 & cells & E1 & S & C & G); auto.
  { intros p Hp. apply HS. auto. }
  destruct (centroids sort' SC' m' inv e M He Fi Pi points') as (o2 & cells' & E2 & S' & C' & G').
  { intros p Hp. apply HS. auto. }
  { intros p Hp. apply HX. auto. }
  { rewrite <- (Permutation_length HP). exact Hn. }
  { destruct H0 as (p & Hp & Gp). exists p. split; auto. apply (Permutation_in _ HP Hp). }
  rewrite E1 in E. injection E as ->. rewrite E2 in E'. injection E' as ->.
  assert (EC : cells = cells').
  { apply sorted_cells_unique; auto. intros c. rewrite C, C'. split; intros (p & Hp & A); exists p; split; auto.
    apply (Permutation_in _ HP Hp). }
  subst cells'. clear -G G' HP. revert out' G'.
  induction G as [|c o cells out (A & _) G IH]; intros out' G'; inversion G' as [|? o' ? r (B & _) G'']; subst; constructor; auto.
  apply (rounded_mean_same (filter (in_voxel inv c) points)); auto.
  apply (rounded_mean_perm (filter (in_voxel inv c) points')); auto. apply filter_perm, Permutation_sym, HP.
Qed.

(** Integer points meet the hypotheses; one of the four is out of range. *)
Lemma fixed_int M n : (Z.abs n <= M)%Z -> (M <= 2 ^ 53)%Z -> fixed 0 M (f64_of n 0).
Proof.
  intros H HM. destruct (f64_of_int n) as (F & E); [lia|]. split; auto. exists n. split; [|lia]. rewrite E. simpl. lra.
Qed.
Lemma fixed_fpt M x y z : (Z.abs x <= M)%Z -> (Z.abs y <= M)%Z -> (Z.abs z <= M)%Z -> (M <= 2 ^ 53)%Z ->
  fixed_point 0 M (fpt x y z).
Proof. intros. split; [|split; [|split]]; try reflexivity; apply fixed_int; auto. Qed.

Definition cloud6 : list (vec4 Fnum) := [fpt 1 0 0; fpt (-4) 2 9; fpt 0 1 1; fpt 100000000 0 0; fpt 1 1 1; fpt (-3) 2 8].
Example C75_hypotheses :
  is_finite half64 = true /\ (0 < B2R half64)%R /\
  (forall p, In p cloud6 -> safe X86 half64 p) /\
  (forall p, In p cloud6 -> in_grid half64 p -> fixed_point 0 100000000 p) /\
  (Z.of_nat (length cloud6) * Z.max 100000000 1 < 2 ^ 53)%Z /\
  exists p, In p cloud6 /\ in_grid half64 p.
Proof.
  split; [vm_compute; reflexivity|]. split; [unfold half64, F64.f64_of; vm_compute; lra|].
  split; [intros; left; reflexivity|]. split; [|split; [cbv; reflexivity|]].
  - intros p Hp _. cbn [cloud6 In] in Hp.
    destruct Hp as [<-|[<-|[<-|[<-|[<-|[<-|[]]]]]]]; apply fixed_fpt; lia.
  - exists (fpt 1 0 0). split; [left; reflexivity|]. apply in_grid_compute. vm_compute. reflexivity.
Qed.
(** Two samples, one of them the mean (2/3, 2/3, 2/3), which is no whole number of steps: the second pass
    returns the first one's result, bit for bit. *)
Definition coords (p : vec4 Fnum) := (B2SF (vx p), B2SF (vy p), B2SF (vz p), B2SF (vw p)).
Definition third : f64 := f64_div (f64_of 2 0) (f64_of 3 0).
Example C75_run :
  match voxelgrid_sampling (voxel_key X86 half64) isort cloud6 with
  | Ok out => length out = 2 /\ In (B2SF third) (map (fun p : vec4 Fnum => B2SF (vx p : f64)) out) /\
      match voxelgrid_sampling (voxel_key X86 half64) isort out with
      | Ok out' => map coords out' = map coords out
      | _ => False
      end
  | _ => False
  end.
Proof. vm_compute. split; [reflexivity|]. split; [left; reflexivity|reflexivity]. Qed.

Print Assumptions C75_centroids.
Print Assumptions C75_settled.
Print Assumptions C75_twice.
Print Assumptions C75_order.
