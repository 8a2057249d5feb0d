(** Voxel contents: point lists and Gaussian voxels; voxel geometry. *)
From Coq Require Import Reals Lra Psatz ZArith ZifyBool ZifyNat ZifyN.
From Flocq Require Import Core IEEE754.BinarySingleNaN.
From Verif Require Import Base BaseProofs Num Vec RNum F64 F64Proofs F64Err FloorModel FloorProofs
  KnnModel KdF64 KdReal VoxModel VoxSpec VoxReal VmapModel VmapSpec VmapProofs VmapHist VmapSearch.
Open Scope nat_scope.

(** * FlatContainer *)
Section Flat.
Context (D : num) (dist : vec4 D -> vec4 D -> car D).
Context (hn hc : bool) (min_sq_dist : car D) (max_points : nat).
Notation fadd := (flat_add dist hn hc min_sq_dist max_points).

Definition too_close (p q : vec4 D) : bool := nlt (dist p q) min_sq_dist.

(** Later points are not too close to earlier ones. *)
Definition spaced (l : list (vec4 D)) : Prop :=
  forall i j p q, i < j -> nth_error l i = Some p -> nth_error l j = Some q -> too_close p q = false.

Lemma spaced_snoc l q : spaced l -> (forall p, In p l -> too_close p q = false) -> spaced (l ++ [q]).
Proof.
  intros SP H i j p p' L Ei Ej. rewrite nth_error_snoc in Ei, Ej.
  destruct (Nat.eqb_spec j (length l)).
  - inversion Ej; subst p'. destruct (Nat.eqb_spec i (length l)); [lia|].
    apply H. eapply nth_error_In; eauto.
  - assert (j < length l) by (apply nth_error_Some; congruence).
    destruct (Nat.eqb_spec i (length l)); [lia|]. exact (SP i j p p' L Ei Ej).
Qed.

(** [b] holds exactly the items [kept], in this order, in its parallel arrays. *)
Definition holds_items (kept : list (item D)) (b : flat_container D) : Prop :=
  fc_points b = map it_pt kept /\
  fc_normals b = (if hn then map it_normal kept else []) /\
  fc_covs b = (if hc then map it_cov kept else []).

Lemma fadd_cases b q :
  (fadd b q = b /\ (max_points <= length (fc_points b) \/
                    exists p, In p (fc_points b) /\ too_close p (it_pt q) = true)) \/
  (length (fc_points b) < max_points /\
   (forall p, In p (fc_points b) -> too_close p (it_pt q) = false) /\
   fc_points (fadd b q) = fc_points b ++ [it_pt q] /\
   forall kept, holds_items kept b -> holds_items (kept ++ [q]) (fadd b q)).
Proof.
  unfold flat_add. destruct (Nat.leb_spec max_points (length (fc_points b))); simpl.
  - left. auto.
  - destruct (existsb _ (fc_points b)) eqn:E.
    + left. split; auto. right. apply existsb_exists in E. exact E.
    + right. split; auto. split; [|split; [reflexivity|]].
      * intros p I. destruct (too_close p (it_pt q)) eqn:T; auto.
        assert (X : existsb (fun p => nlt (dist p (it_pt q)) min_sq_dist) (fc_points b) = true)
          by (apply existsb_exists; exists p; auto). congruence.
      * intros kept (H1 & H2 & H3). unfold holds_items. cbn [fc_points fc_normals fc_covs].
        rewrite !map_app, H1, H2, H3. simpl. destruct hn, hc; auto.
Qed.

Record flat_inv (b : flat_container D) : Prop := mkFlatInv {
  fi_cap : length (fc_points b) <= max_points;
  fi_space : spaced (fc_points b)
}.

Lemma fadd_inv b q : flat_inv b -> flat_inv (fadd b q).
Proof.
  intros [H1 H2]. destruct (fadd_cases b q) as [[-> _]|(L & NC & E & _)]; [split; auto|].
  split; rewrite E; [rewrite app_length; simpl; lia|apply spaced_snoc; auto].
Qed.

(** After offering any sequence of points to a fresh container. *)
Lemma fold_fadd qs : forall b kept, flat_inv b -> holds_items kept b ->
  exists more, incl more qs /\ flat_inv (fold_left fadd qs b) /\
               holds_items (kept ++ more) (fold_left fadd qs b).
Proof.
  induction qs as [|q qs IH]; intros b kept I H; simpl.
  - exists []. rewrite app_nil_r. split; [intros x []|auto].
  - destruct (fadd_cases b q) as [[E _]|(_ & _ & _ & HK)].
    + rewrite E. destruct (IH b kept I H) as (more & A & B). exists more. split; auto.
      intros x Hx. right. auto.
    + destruct (IH (fadd b q) (kept ++ [q]) (fadd_inv b q I) (HK kept H)) as (more & A & B & C).
      exists (q :: more). split.
      * intros x [<-|Hx]; [left|right]; auto.
      * split; auto. rewrite <- app_assoc in C. exact C.
Qed.

Lemma flat_empty_inv : flat_inv (mkFlat [] [] []).
Proof. split; simpl; [lia|]. intros i j p q _ E. destruct i; discriminate. Qed.
Lemma flat_empty_items : holds_items [] (mkFlat [] [] []).
Proof. unfold holds_items. simpl. destruct hn, hc; auto. Qed.

Context (coord_of : vec4 D -> outcome coord).

(** Invariant of every FlatContainer voxel in a map. *)
Definition flat_voxel_ok (c : coord) (b : flat_container D) : Prop :=
  flat_inv b /\
  (exists kept, holds_items kept b) /\
  Forall (fun p => coord_of p = Ok c) (fc_points b).

Lemma flat_body_inv :
  body_inv D (flat_contents dist hn hc min_sq_dist max_points) coord_of flat_voxel_ok.
Proof.
  assert (A : forall c b q, flat_voxel_ok c b -> coord_of (it_pt q) = Ok c -> flat_voxel_ok c (fadd b q)).
  { intros c b q (I & (kept & K) & F) E. split; [apply fadd_inv; auto|].
    destruct (fadd_cases b q) as [[-> _]|(_ & _ & E2 & HK)]; [eauto|].
    split; [eauto|]. rewrite E2. apply Forall_app. auto. }
  split.
  - intros c q E. apply A; auto. split; [apply flat_empty_inv|]. split; [exists []; apply flat_empty_items|].
    constructor.
  - exact A.
  - auto.
Qed.
End Flat.
Arguments too_close {D}.
Arguments spaced {D}.
Arguments holds_items {D}.
Arguments flat_inv {D}.
Arguments flat_voxel_ok {D}.

(** ** Doubles: the distance is symmetric and points with a voxel are finite. *)
Lemma sum_eval_sym t (v w : vec4 Fnum) : vnotnan v -> vnotnan w ->
  (forall i, val (vcomp v i) * val (vcomp v i) = val (vcomp w i) * val (vcomp w i))%R ->
  val (sum_eval (D := Fnum) f64_fma t v) = val (sum_eval (D := Fnum) f64_fma t w).
Proof.
  intros Hv Hw H. induction t as [i|l IHl r IHr|i t IH]; cbn [sum_eval].
  - cbn [nmul Fnum].
    destruct (sq_val _ (vcomp_notnan v i Hv)) as [_ ->].
    destruct (sq_val _ (vcomp_notnan w i Hw)) as [_ ->]. rewrite H. reflexivity.
  - cbn [nadd Fnum].
    destruct (sum_eval_ge l v Hv) as (a1 & a2 & _), (sum_eval_ge r v Hv) as (b1 & b2 & _).
    destruct (sum_eval_ge l w Hw) as (c1 & c2 & _), (sum_eval_ge r w Hw) as (d1 & d2 & _).
    destruct (add_pos_val _ _ a1 b1 a2 b2) as [_ ->]. destruct (add_pos_val _ _ c1 d1 c2 d2) as [_ ->].
    rewrite IHl, IHr. reflexivity.
  - destruct (sum_eval_ge t v Hv) as (a1 & a2 & _). destruct (sum_eval_ge t w Hw) as (c1 & c2 & _).
    destruct (fma_pos_val _ _ (vcomp_notnan v i Hv) a1 a2) as [_ ->].
    destruct (fma_pos_val _ _ (vcomp_notnan w i Hw) c1 c2) as [_ ->]. rewrite H, IH. reflexivity.
Qed.

Lemma fsqd_sym order p q : vfinite p -> vfinite q -> val (fsqd order p q) = val (fsqd order q p).
Proof.
  intros Hp Hq. apply sum_eval_sym; [apply vsub_notnan; auto..|].
  intros i. rewrite !vcomp_vsub.
  destruct (sub_val _ _ (vcomp_finite p i Hp) (vcomp_finite q i Hq)) as [_ ->].
  destruct (sub_val _ _ (vcomp_finite q i Hq) (vcomp_finite p i Hp)) as [_ ->].
  replace (val (vcomp q i) - val (vcomp p i))%R with (- (val (vcomp p i) - val (vcomp q i)))%R by lra.
  rewrite rx_opp. lra.
Qed.

Lemma too_close_sym order min p q : vfinite p -> vfinite q ->
  too_close (D := Fnum) (fsqd order) min p q = too_close (D := Fnum) (fsqd order) min q p.
Proof.
  intros Hp Hq. unfold too_close. cbn [nlt Fnum]. change (car Fnum) with f64 in min.
  destruct (is_nan min) eqn:N.
  - destruct min; try discriminate. unfold f64_lt, Bltb, SpecFloat.SFltb.
    assert (X : forall s, SpecFloat.SFcompare s (B2SF (B754_nan : f64)) = None) by (destruct s; reflexivity).
    rewrite !X. reflexivity.
  - pose proof (fsqd_ok order p q Hp Hq) as A. pose proof (fsqd_ok order q p Hq Hp) as B.
    pose proof (fsqd_sym order p q Hp Hq) as S.
    destruct (f64_lt (fsqd order p q) min) eqn:E1, (f64_lt (fsqd order q p) min) eqn:E2; auto; exfalso.
    + apply f64_lt_val in E1; auto. apply f64_lt_val_false in E2; auto. lra.
    + apply f64_lt_val in E2; auto. apply f64_lt_val_false in E1; auto. lra.
Qed.

Lemma mul_finite_inv (x y : f64) : is_finite (f64_mul x y) = true -> is_finite x = true.
Proof. destruct x, y; simpl; auto. Qed.

Lemma voxel_of_finite inv p c : voxel_of Strict inv p = Ok c -> vfinite p.
Proof.
  assert (F : forall x n, fast_floor Strict (f64_mul x inv) = Ok n -> finite x).
  { intros x n E. destruct (is_finite (f64_mul x inv)) eqn:I.
    - eapply mul_finite_inv; eauto.
    - rewrite (fast_floor_ub_nonfinite _ I) in E. discriminate. }
  unfold voxel_of. intros E.
  apply bind_Ok in E. destruct E as (a & Ea & E). apply bind_Ok in E. destruct E as (b & Eb & E).
  apply bind_Ok in E. destruct E as (d & Ed & E). apply bind_Ok in E. destruct E as (e & Ee & E).
  repeat split; eapply F; eauto.
Qed.

(** The coordinate of a double point is the floor of the rounded product, per axis. *)
Lemma voxel_of_Strict inv p x y z : voxel_of Strict inv p = Ok (x, y, z) <->
  (is_finite (f64_mul (vx p) inv) = true /\ Zfloor (B2R (f64_mul (vx p) inv)) = x /\ in_int x = true) /\
  (is_finite (f64_mul (vy p) inv) = true /\ Zfloor (B2R (f64_mul (vy p) inv)) = y /\ in_int y = true) /\
  (is_finite (f64_mul (vz p) inv) = true /\ Zfloor (B2R (f64_mul (vz p) inv)) = z /\ in_int z = true) /\
  (is_finite (f64_mul (vw p) inv) = true /\ in_int (Zfloor (B2R (f64_mul (vw p) inv))) = true).
Proof.
  assert (F : forall t n, fast_floor Strict t = Ok n <->
     (is_finite t = true /\ Zfloor (B2R t) = n /\ in_int n = true)).
  { intros t n. split.
    - intros E. destruct (is_finite t) eqn:I; [|rewrite (fast_floor_ub_nonfinite _ I) in E; discriminate].
      destruct (in_int (Zfloor (B2R t))) eqn:J; [|rewrite (fast_floor_ub _ I J) in E; discriminate].
      rewrite (fast_floor_correct _ _ I J) in E. inversion E. subst. auto.
    - intros (I & <- & J). apply fast_floor_correct; auto. }
  unfold voxel_of. split.
  - intros E.
    apply bind_Ok in E. destruct E as (a & Ea & E). apply bind_Ok in E. destruct E as (b & Eb & E).
    apply bind_Ok in E. destruct E as (d & Ed & E). apply bind_Ok in E. destruct E as (e & Ee & E).
    inversion E; subst. apply F in Ea, Eb, Ed, Ee. split; [auto|]. split; [auto|]. split; [auto|].
    destruct Ee as (? & <- & ?). auto.
  - intros (A & B & C' & (W1 & W2)). apply F in A, B, C'. rewrite A, B, C'. cbn [bind].
    assert (W : fast_floor Strict (f64_mul (vw p) inv) = Ok (Zfloor (B2R (f64_mul (vw p) inv)))).
    { apply F. auto. }
    rewrite W. reflexivity.
Qed.

(** * Gaussian voxels over the reals *)
Definition mcomp (a : mat4 Rnum) (i j : nat) : R :=
  vcomp (D := Rnum) (match i with 0 => row0 a | 1 => row1 a | 2 => row2 a | _ => row3 a end) j.

Notation gaussR := (gaussian Rnum).
Notation gaddR := (gauss_add (D := Rnum) INR).
Notation gfinR := (gauss_finalize (D := Rnum) INR).

Record gauss_rep (g : gaussR) (qs : list (item Rnum)) : Prop := mkGR {
  gr_num : num_points g = length qs;
  gr_fin : finalized g = true -> qs <> [];
  gr_mean : forall i, vcomp (g_mean g) i =
     (if finalized g then mean (map (fun q => vcomp (it_pt q) i) qs)
      else Rsum (map (fun q => vcomp (it_pt q) i) qs));
  gr_cov : forall i j, mcomp (g_cov g) i j =
     (if finalized g then mean (map (fun q => mcomp (it_cov q) i j) qs)
      else Rsum (map (fun q => mcomp (it_cov q) i j) qs))
}.

Lemma vcomp_vscale f (v : vec4 Rnum) i : vcomp (vscale f v) i = f (vcomp v i).
Proof. destruct i as [|[|[|]]]; reflexivity. Qed.
Lemma vcomp_vadd (a b : vec4 Rnum) i : vcomp (vadd a b) i = (vcomp a i + vcomp b i)%R.
Proof. destruct i as [|[|[|]]]; reflexivity. Qed.
Lemma mcomp_mmap f (a : mat4 Rnum) i j : mcomp (mmap (vscale f) a) i j = f (mcomp a i j).
Proof. unfold mcomp. destruct i as [|[|[|]]]; simpl; apply vcomp_vscale. Qed.
Lemma mcomp_madd (a b : mat4 Rnum) i j : mcomp (madd a b) i j = (mcomp a i j + mcomp b i j)%R.
Proof. unfold mcomp. destruct i as [|[|[|]]]; simpl; apply vcomp_vadd. Qed.

Lemma Rsum_snoc {A} (f : A -> R) l x : Rsum (map f (l ++ [x])) = (Rsum (map f l) + f x)%R.
Proof. rewrite map_app, Rsum_app. simpl. lra. Qed.

Lemma mean_mul {A} (f : A -> R) l : l <> [] -> (mean (map f l) * INR (length l) = Rsum (map f l))%R.
Proof.
  intros NE. unfold mean. rewrite map_length. unfold Rdiv. rewrite Rmult_assoc, Rinv_l; [lra|].
  apply not_0_INR. destruct l; [congruence|simpl; lia].
Qed.

Lemma gauss_add_rep g qs q : gauss_rep g qs -> gauss_rep (gaddR g q) (qs ++ [q]).
Proof.
  intros [N F M C]. unfold gauss_add. destruct (finalized g) eqn:E.
  - specialize (F eq_refl). split; cbn [finalized num_points g_mean g_cov].
    + rewrite app_length, N. reflexivity.
    + discriminate.
    + intros i. rewrite vcomp_vadd, vcomp_vscale, M, N, Rsum_snoc. cbn [nmul Rnum].
      rewrite mean_mul by auto. reflexivity.
    + intros i j. rewrite mcomp_madd, mcomp_mmap, C, N, Rsum_snoc. cbn [nmul Rnum].
      rewrite mean_mul by auto. reflexivity.
  - split; cbn [finalized num_points g_mean g_cov]; try rewrite E.
    + rewrite app_length, N. reflexivity.
    + discriminate.
    + intros i. rewrite vcomp_vadd, M, Rsum_snoc. reflexivity.
    + intros i j. rewrite mcomp_madd, C, Rsum_snoc. reflexivity.
Qed.

Lemma gauss_fin_rep g qs : qs <> [] -> gauss_rep g qs -> gauss_rep (gfinR g) qs /\ finalized (gfinR g) = true.
Proof.
  intros NE [N F M C]. unfold gauss_finalize. destruct (finalized g) eqn:E.
  - split; auto. split; rewrite ?E; auto.
  - split; [|reflexivity]. split; cbn [finalized num_points g_mean g_cov]; auto.
    + intros i. rewrite vcomp_vscale, M, N. cbn [ndiv Rnum]. unfold mean. rewrite map_length. reflexivity.
    + intros i j. rewrite mcomp_mmap, C, N. cbn [ndiv Rnum]. unfold mean. rewrite map_length. reflexivity.
Qed.

Lemma gauss_new_rep : gauss_rep (mkGauss false 0 vzero mzero) [].
Proof.
  split; cbn [finalized num_points g_mean g_cov]; try reflexivity; try discriminate.
  - intros i. destruct i as [|[|[|]]]; reflexivity.
  - intros i j. unfold mcomp. destruct i as [|[|[|]]]; simpl; destruct j as [|[|[|]]]; reflexivity.
Qed.

Lemma gauss_fold_rep qs : forall g ps, gauss_rep g ps -> gauss_rep (fold_left gaddR qs g) (ps ++ qs).
Proof.
  induction qs as [|q qs IH]; intros g ps H; simpl.
  - rewrite app_nil_r. auto.
  - replace (ps ++ q :: qs) with ((ps ++ [q]) ++ qs) by (rewrite <- app_assoc; auto).
    apply IH. apply gauss_add_rep. auto.
Qed.

Section GaussHist.
Context (coord_of : vec4 Rnum -> outcome coord) (pose : Type) (act : pose -> item Rnum -> item Rnum).
Notation C := (gauss_contents (D := Rnum) INR).
Notation batch := (batch Rnum C coord_of pose act).
Notation here := (here coord_of act).

Lemma gauss_batches_rep c ks : forall g ps, ps <> [] -> gauss_rep g ps -> finalized g = true ->
  gauss_rep (fold_left (batch c) ks g) (ps ++ flat_map (here c) ks) /\
  finalized (fold_left (batch c) ks g) = true.
Proof.
  induction ks as [|k ks IH]; intros g ps NE H F; simpl.
  - rewrite app_nil_r. auto.
  - rewrite app_assoc. pose proof (gauss_fold_rep (here c k) g ps H) as H1.
    assert (NE1 : ps ++ here c k <> []) by (destruct ps; [congruence|discriminate]).
    destruct (gauss_fin_rep _ _ NE1 H1) as [H2 F2]. apply IH; auto.
Qed.

Lemma gauss_history c k ks : here c k <> [] ->
  gauss_rep (fold_left (batch c) (k :: ks) (empty C)) (flat_map (here c) (k :: ks)) /\
  finalized (fold_left (batch c) (k :: ks) (empty C)) = true.
Proof.
  intros NE. cbn [fold_left flat_map].
  pose proof (gauss_fold_rep (here c k) _ _ gauss_new_rep) as H1. simpl in H1.
  destruct (gauss_fin_rep _ _ NE H1) as [H2 F2]. apply gauss_batches_rep; auto.
Qed.
End GaussHist.

(** * Voxel geometry over the reals *)
Definition rcoord (inv : R) (p : vec4 Rnum) : outcome coord :=
  Ok (real_cell inv (vx p), real_cell inv (vy p), real_cell inv (vz p)).

(** A Gaussian voxel's mean lies in the voxel. *)
Definition gauss_voxel_ok (inv : R) (c : coord) (g : gaussR) : Prop :=
  exists qs, qs <> [] /\ gauss_rep g qs /\ Forall (fun q => rcoord inv (it_pt q) = Ok c) qs.

Lemma gauss_body_inv inv :
  body_inv Rnum (gauss_contents (D := Rnum) INR) (rcoord inv) (gauss_voxel_ok inv).
Proof.
  assert (A : forall c g qs q, gauss_rep g qs -> Forall (fun q => rcoord inv (it_pt q) = Ok c) qs ->
     rcoord inv (it_pt q) = Ok c -> gauss_voxel_ok inv c (gaddR g q)).
  { intros c g qs q H F E. exists (qs ++ [q]). split; [destruct qs; discriminate|].
    split; [apply gauss_add_rep; auto|]. apply Forall_app. auto. }
  split.
  - intros c q E. apply (A c _ []); auto. apply gauss_new_rep.
  - intros c g q (qs & _ & H & F) E. eapply A; eauto.
  - intros c g (qs & NE & H & F). exists qs. split; auto. split; auto. apply gauss_fin_rep; auto.
Qed.

Lemma gauss_mean_in_voxel inv c g : (0 < inv)%R -> gauss_voxel_ok inv c g -> finalized g = true ->
  rcoord inv (g_mean g) = Ok c.
Proof.
  intros Hi (qs & NE & H & F) Fin. destruct c as [[x y] z].
  assert (M : forall i c, (forall q, In q qs -> real_cell inv (vcomp (it_pt q) i) = c) ->
     real_cell inv (vcomp (g_mean g) i) = c).
  { intros i c Hq. rewrite (gr_mean _ _ H i), Fin. apply real_cell_mean; auto.
    - destruct qs; [congruence|discriminate].
    - intros r I. apply in_map_iff in I. destruct I as (q & <- & I). auto. }
  rewrite Forall_forall in F.
  assert (Q : forall q, In q qs -> real_cell inv (vx (it_pt q)) = x /\ real_cell inv (vy (it_pt q)) = y /\
     real_cell inv (vz (it_pt q)) = z).
  { intros q I. apply F in I. unfold rcoord in I. inversion I. auto. }
  assert (M0 : real_cell inv (vx (g_mean g)) = x) by (apply (M 0); intros q I; apply Q; auto).
  assert (M1 : real_cell inv (vy (g_mean g)) = y) by (apply (M 1); intros q I; apply Q; auto).
  assert (M2 : real_cell inv (vz (g_mean g)) = z) by (apply (M 2); intros q I; apply Q; auto).
  unfold rcoord. rewrite M0, M1, M2.
  reflexivity.
Qed.

Lemma Zfloor_near (a b : R) : (Rabs (a - b) <= 1)%R -> (Z.abs (Zfloor a - Zfloor b) <= 1)%Z.
Proof.
  intros H. apply Rabs_le_inv in H.
  pose proof (Zfloor_lb a). pose proof (Zfloor_ub a). pose proof (Zfloor_lb b). pose proof (Zfloor_ub b).
  assert (IZR (Zfloor a) < IZR (Zfloor b + 2))%R by (rewrite plus_IZR; lra).
  assert (IZR (Zfloor b) < IZR (Zfloor a + 2))%R by (rewrite plus_IZR; lra).
  apply lt_IZR in H4, H5. lia.
Qed.

Lemma cube27_In dx dy dz : In (dx, dy, dz) cube27 <-> (Z.abs dx <= 1 /\ Z.abs dy <= 1 /\ Z.abs dz <= 1)%Z.
Proof.
  unfold cube27. rewrite in_flat_map. split.
  - intros (i & Hi & I). apply in_flat_map in I. destruct I as (j & Hj & I).
    apply in_map_iff in I. destruct I as (k & E & Hk). inversion E; subst. simpl in Hi, Hj, Hk. lia.
  - intros (A & B & C). exists dx. split; [simpl; lia|]. apply in_flat_map. exists dy.
    split; [simpl; lia|]. apply in_map_iff. exists dz. split; auto. simpl; lia.
Qed.
