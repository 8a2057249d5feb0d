(** Estimation on the library's own tree uses exact nearest points. *)
From Coq Require Import ZifyBool ZifyNat ZifyN.
From Verif Require Import Base BaseProofs Num Vec F64 KnnModel KdModel KdSpec KdF64 KdThms Lin FactorModel EstModel EstSpec EstProofs
  PipeModel PipeProofs EstF64Spec.
Open Scope nat_scope.

Section Est.
Context (order : sumtree) (FS : full_sum order).

Lemma tree_knn_exact (c : cloud Ffld) tree q k : (forall p, In p (cl_points c) -> vfinite p) ->
  kd_wf_f64 (cl_points (D := Ffld) c) 20 tree -> vfinite q -> (0 < Z.of_nat k < 2 ^ 31)%Z ->
  exists res, is_knn (D := Fnum) (dist_to (D := Fnum) (fsqd order) (cl_points c) q) (length (cl_points c)) k res /\
    tree_knn order c tree q k = Ok (map (fun e => N.to_nat (fst e)) res).
Proof using FS.
  intros Fi W Hq Hk. unfold tree_knn, knn_search_api.
  assert (EI : int_of_size_t (N.of_nat k) = Z.of_nat k).
  { unfold int_of_size_t. rewrite nat_N_Z. rewrite Z.mod_small by lia. destruct (Z.ltb_spec (Z.of_nat k) (2 ^ 31)); lia. }
  rewrite EI.
  destruct (kd_exact_f64 order FS (cl_points c) 20 128 Fi ltac:(lia) tree q W Hq) as (rk & R1 & R2).
  destruct (knn_init Fnum None (Z.of_nat k)) as [r0| | |] eqn:E0;
    [|unfold knn_init in E0; destruct (Z.leb_spec (Z.of_nat k) 0); [lia|discriminate]..].
  assert (K : buffer_size r0 = k).
  { unfold knn_init in E0; destruct (Z.leb_spec (Z.of_nat k) 0); [lia|]. injection E0 as <-. unfold buffer_size. cbn. lia. }
  destruct (R2 None (Z.of_nat k) r0 E0 ltac:(lia)) as (r & -> & B). rewrite K in B. cbn [bind].
  exists (firstn k rk). split; [apply R1|]. destruct B as (B1 & B2 & _). rewrite B1, B2.
  rewrite <- (map_length fst (firstn k rk)). rewrite firstn_app, Nat.sub_diag, firstn_all, firstn_O, app_nil_r, map_map. reflexivity.
Qed.

Context (eig : m3 Ffld -> m3 Ffld) (of_nat : nat -> f64) (milli : f64) (jp jn : vec4 Ffld) (jc : m4 Ffld).

Lemma estimate_exact st k (c c' : cloud Ffld) tree : (forall p, In p (cl_points c) -> vfinite p) ->
  kd_wf_f64 (cl_points (D := Ffld) c) 20 tree -> (0 < Z.of_nat k < 2 ^ 31)%Z ->
  EstModel.estimate (D := Ffld) (tree_knn order c tree) eig of_nat milli st jp jn jc k c = Ok c' ->
  estimated (fsqd order) eig of_nat milli st k c'.
Proof using FS.
  intros Fi W Hk E.
  destruct (estimate_writes (tree_knn order c tree) eig of_nat milli st jp jn jc k c c' E) as (P & LN & LC & _ & _ & WS).
  intros i p Ei. rewrite P in *.
  assert (Li : i < length (cl_points c)) by (apply nth_error_Some; intros Q; pose proof (eq_trans (eq_sym Ei) Q); discriminate).
  destruct (WS i Li) as (ws & LW & IW). unfold local_writes in LW.
  change (nth_error (A := vec4 (fbase Ffld)) (cl_points c) i = Some p) in Ei. rewrite (proj2 (get_Ok _ _ _) Ei) in LW. cbn [bind] in LW.
  destruct (tree_knn_exact c tree p k Fi W (Fi p (nth_error_In _ _ Ei)) Hk) as (res & KN & EK). rewrite EK in LW. cbn [bind] in LW.
  rewrite map_length in LW.
  assert (Hp : exists pts, mapM (fun j => get (cl_points c) j) (map (fun e => N.to_nat (fst e)) res) = Ok pts /\
    Forall2 (fun (e : N * f64) p => nth_error (A := vec4 Fnum) (cl_points c) (N.to_nat (fst e)) = Some p) res pts).
  { destruct KN as (_ & G & _). revert G. clear. induction res as [|[j d] res IH]; intros G; cbn [map mapM].
    - exists []. split; [reflexivity|constructor].
    - destruct IH as (pts & -> & F); [intros; apply G; right; assumption|].
      destruct (G j d (or_introl eq_refl)) as (j' & Lj & -> & _). cbn [fst]. rewrite Nat2N.id.
      destruct (get_lt (cl_points c) j' Lj) as [x Ex]. rewrite Ex. cbn [bind]. exists (x :: pts). split; [reflexivity|].
      constructor; [cbn [fst]; rewrite Nat2N.id; apply get_Ok; exact Ex|exact F]. }
  destruct Hp as (pts & EM & F2). assert (Lp : length (A := vec4 Fnum) pts = length res) by (clear - F2; induction F2 as [|x y l l2 H F2 IH]; [reflexivity|exact (f_equal S IH)]).
  exists pts. split; [exists res; split; [exact KN|exact F2]|]. rewrite Lp.
  destruct (length res <? 5).
  - injection LW as <-. destruct st; cbn [has_normals has_covs invalid_writes In] in *; split; intros; try discriminate.
    + apply (IW (WNormal i normal_invalid)); auto.
    + apply (IW (WCov i cov_invalid)); auto.
    + apply (IW (WNormal i normal_invalid)); auto.
    + apply (IW (WCov i cov_invalid)); auto.
  - rewrite EM in LW. cbn [bind] in LW. injection LW as <-. destruct st; cbn [has_normals has_covs valid_writes In] in *; split; intros; try discriminate.
    + apply (IW (WNormal i _)); auto.
    + apply (IW (WCov i _)); auto.
    + apply (IW (WNormal i _)); auto.
    + apply (IW (WCov i _)); auto.
Qed.
End Est.
