(** C84: search results do not depend on how the tree was built. *)
From Coq Require Import Reals.
From Flocq Require Import IEEE754.BinarySingleNaN.
From Verif Require Import Base BaseProofs Num Vec F64 F64Proofs RNum KnnModel KnnSpec
  KdModel KdSpec KdProofs KdTop KdF64 KdReal KdThms NthElement Prop_KdTree.
Open Scope nat_scope.

(** Two doubles that compare equal (and so are not NaN). *)
Definition same_value (a b : f64) : Prop := f64_le a b = true /\ f64_le b a = true.

Lemma NoDup_app_left {A} (a b : list A) : NoDup (a ++ b) -> NoDup a.
Proof. induction a as [|x a IH]; intros H; [constructor|]. cbn in H. inversion H as [|? ? N D]; subst. constructor; [intros I; apply N, in_or_app; left; exact I|apply IH, D]. Qed.

Section Counting.
Context (sqd : vec4 Fnum -> vec4 Fnum -> f64) (points : list (vec4 Fnum)) (q : vec4 Fnum).
Context (OK : forall p, In p points -> notnan (sqd p q)).
Notation dist := (dist_to (D := Fnum) sqd points q).
Notation n := (length points).

Lemma dist_ok j : j < n -> notnan (dist j).
Proof. intros H. unfold dist_to. destruct (nth_error points j) as [p|] eqn:E; [|apply nth_error_None in E; lia]. apply OK. eapply nth_error_In, E. Qed.

Lemma count_points x : length (filter (fun j => f64_lt (dist j) x) (seq 0 n)) = length (filter (fun p => f64_lt (sqd p q) x) points).
Proof.
  clear OK. assert (H : forall l lo (g : nat -> f64), (forall i p, nth_error l i = Some p -> g (lo + i) = sqd p q) ->
    length (filter (fun j => f64_lt (g j) x) (seq lo (length l))) = length (filter (fun p => f64_lt (sqd p q) x) l)).
  { induction l as [|p l IH]; intros lo g G; [reflexivity|]. cbn [length seq filter]. pose proof (G 0 p eq_refl) as G0. rewrite Nat.add_0_r in G0. rewrite G0.
    assert (IH' := IH (S lo) g ltac:(intros i p' E; replace (S lo + i) with (lo + S i) by lia; apply G; exact E)).
    destruct (f64_lt (sqd p q) x); cbn [length]; rewrite IH'; reflexivity. }
  apply H. intros i p E. cbn [plus]. unfold dist_to. rewrite E. reflexivity.
Qed.

Context (k : nat) (res : list (N * f64)) (K : is_knn (D := Fnum) dist n k res).

Lemma res_ok c : In c res -> exists j, j < n /\ fst c = N.of_nat j /\ snd c = dist j /\ notnan (snd c).
Proof. intros H. destruct K as (_ & G & _). destruct c as [i d]. destruct (G i d H) as (j & Lj & -> & ->). exists j. split; [exact Lj|]. split; [reflexivity|]. split; [reflexivity|]. apply dist_ok, Lj. Qed.

Lemma sorted_at l : StronglySorted (fun a b : N * f64 => f64_lt (snd b) (snd a) = false) l -> forall a b x y, a < b -> nth_error l a = Some x -> nth_error l b = Some y -> f64_lt (snd y) (snd x) = false.
Proof.
  clear. induction 1 as [|c l S IH F]; intros a b x y L A B; [destruct a; discriminate A|]. destruct b as [|b]; [lia|]. cbn in B. destruct a as [|a].
  - cbn in A. injection A as <-. rewrite Forall_forall in F. apply F. eapply nth_error_In, B.
  - cbn in A. exact (IH a b x y ltac:(lia) A B).
Qed.

Lemma nodup_nat : NoDup (map (fun c : N * f64 => N.to_nat (fst c)) res).
Proof.
  destruct K as (ND & _). rewrite <- (map_map fst N.to_nat). apply FinFun.Injective_map_NoDup; [|exact ND]. intros a b H. apply N2Nat.inj. exact H.
Qed.

Lemma firstn_nth {A} (l : list A) m x : In x (firstn m l) -> exists a, a < m /\ nth_error l a = Some x.
Proof.
  clear. revert m. induction l as [|y l IH]; intros [|m] H; cbn in H; try contradiction. destruct H as [<-|H]; [exists 0; split; [lia|reflexivity]|].
  destruct (IH m H) as (a & La & E). exists (S a). split; [lia|exact E].
Qed.
Lemma nth_firstn_in {A} (l : list A) m a x : a < m -> nth_error l a = Some x -> In x (firstn m l).
Proof. clear. revert m a. induction l as [|y l IH]; intros [|m] [|a] L E; cbn in *; try lia; try discriminate E; [injection E as <-; left; reflexivity|right; apply (IH m a); [lia|exact E]]. Qed.

Lemma at_least i c x : nth_error res i = Some c -> notnan x -> f64_lt (snd c) x = true -> S i <= length (filter (fun p => f64_lt (sqd p q) x) points).
Proof.
  intros E Nx L. rewrite <- count_points. pose proof nodup_nat as ND. destruct K as (_ & _ & S & _). cbn [nlt Fnum] in S.
  assert (LR : i < length res) by (apply nth_error_Some; rewrite E; discriminate).
  set (h := map (fun c : N * f64 => N.to_nat (fst c)) (firstn (Datatypes.S i) res)).
  assert (NH : NoDup h).
  { unfold h. rewrite <- firstn_map. rewrite <- (firstn_skipn (Datatypes.S i) (map _ res)) in ND. exact (NoDup_app_left _ _ ND). }
  assert (LH : length h = Datatypes.S i) by (unfold h; rewrite map_length, firstn_length; lia). rewrite <- LH. apply NoDup_incl_length; [exact NH|].
  intros j Hj. unfold h in Hj. apply in_map_iff in Hj. destruct Hj as (e & <- & He). destruct (firstn_nth _ _ _ He) as (a & La & Ea).
  destruct (res_ok e (nth_error_In _ _ Ea)) as (j & Lj & F1 & F2 & Ne). destruct (res_ok c (nth_error_In _ _ E)) as (_ & _ & _ & _ & Nc).
  rewrite F1, Nat2N.id. apply filter_In. split; [apply in_seq; lia|]. rewrite <- F2.
  destruct (Nat.eq_dec a i) as [->|NE]; [rewrite E in Ea; injection Ea as <-; exact L|].
  pose proof (sorted_at res S a i e c ltac:(lia) Ea E) as SA. destruct (f64_lt (snd e) x) eqn:Q; [reflexivity|].
  pose proof (ol_cotrans Fnum notnan f64_order (snd c) (snd e) x Nc Ne Nx SA Q) as B. cbn [nlt Fnum] in B. rewrite B in L. discriminate L.
Qed.

Lemma at_most i c : nth_error res i = Some c -> length (filter (fun p => f64_lt (sqd p q) (snd c)) points) <= i.
Proof.
  intros E. rewrite <- count_points. destruct K as (_ & G & S & _ & C). cbn [nlt Fnum] in S, C.
  set (h := map (fun c : N * f64 => N.to_nat (fst c)) (firstn i res)).
  assert (LH : length h <= i) by (unfold h; rewrite map_length, firstn_length; lia). eapply Nat.le_trans; [|exact LH].
  apply NoDup_incl_length; [apply NoDup_filter, seq_NoDup|]. intros j Hj. apply filter_In in Hj. destruct Hj as [Hj L]. apply in_seq in Hj.
  destruct (in_dec N.eq_dec (N.of_nat j) (map fst res)) as [I|I].
  - apply in_map_iff in I. destruct I as (e & F & Ie). destruct (In_nth_error _ _ Ie) as [a Ea]. destruct (res_ok e Ie) as (j' & Lj & F1 & F2 & Ne). rewrite F in F1. apply Nat2N.inj in F1. subst j'.
    unfold h. apply in_map_iff. exists e. split; [rewrite F; apply Nat2N.id|]. apply (nth_firstn_in res i a); [|exact Ea].
    rewrite <- F2 in L. destruct (Nat.lt_trichotomy a i) as [La|[->|La]]; [exact La| |].
    + rewrite E in Ea. injection Ea as <-. pose proof (ol_irrefl Fnum notnan f64_order (snd c) Ne) as B. cbn [nlt Fnum] in B. rewrite B in L. discriminate L.
    + rewrite (sorted_at res S i a c e La E Ea) in L. discriminate L.
  - assert (B : f64_lt (dist j) (snd c) = false) by exact (C j ltac:(lia) I c (nth_error_In _ _ E)).
    assert (X : true = false) by (etransitivity; [symmetry; exact L|exact B]). discriminate X.
Qed.
End Counting.

Lemma filter_perm {A} (f : A -> bool) l m : Permutation l m -> length (filter f l) = length (filter f m).
Proof. induction 1 as [|x l m H IH|x y l|l m r H1 IH1 H2 IH2]; cbn [filter]; [reflexivity|destruct (f x); cbn [length]; lia|destruct (f x), (f y); reflexivity|lia]. Qed.

Lemma le_of_not_lt a b : notnan a -> notnan b -> f64_lt b a = false -> f64_le a b = true.
Proof. intros A B H. rewrite f64_le_negb_lt by assumption. rewrite H. reflexivity. Qed.

Section Two.
Context (sqd : vec4 Fnum -> vec4 Fnum -> f64) (l1 l2 : list (vec4 Fnum)) (q : vec4 Fnum) (P : Permutation l1 l2) (OK : forall p, In p l1 -> notnan (sqd p q)).
Context (k : nat) (s1 s2 : list (N * f64)) (K1 : is_knn (D := Fnum) (dist_to (D := Fnum) sqd l1 q) (length l1) k s1) (K2 : is_knn (D := Fnum) (dist_to (D := Fnum) sqd l2 q) (length l2) k s2).
Lemma OK2 : forall p, In p l2 -> notnan (sqd p q).
Proof using P OK. intros p H. apply OK. eapply Permutation_in; [apply Permutation_sym, P|exact H]. Qed.
Lemma same_length : length s1 = length s2.
Proof using P K1 K2.
  clear OK. destruct K1 as (_ & _ & _ & L1 & _). destruct K2 as (_ & _ & _ & L2 & _). pose proof (count_points sqd l1 q (nmaxv (n := Fnum))) as C1. pose proof (count_points sqd l2 q (nmaxv (n := Fnum))) as C2.
  pose proof (filter_perm (fun p => f64_lt (sqd p q) (nmaxv (n := Fnum))) _ _ P) as CP.
  etransitivity; [exact L1|]. etransitivity; [|symmetry; exact L2]. apply f_equal. etransitivity; [exact C1|]. etransitivity; [exact CP|symmetry; exact C2].
Qed.
Lemma same_at i c1 c2 : nth_error s1 i = Some c1 -> nth_error s2 i = Some c2 -> same_value (snd c1) (snd c2).
Proof using P OK K1 K2.
  intros E1 E2. destruct (res_ok sqd l1 q OK k s1 K1 c1 (nth_error_In _ _ E1)) as (_ & _ & _ & _ & N1). destruct (res_ok sqd l2 q OK2 k s2 K2 c2 (nth_error_In _ _ E2)) as (_ & _ & _ & _ & N2).
  split; apply le_of_not_lt; try assumption.
  - destruct (f64_lt (snd c2) (snd c1)) eqn:L; [|reflexivity]. exfalso. pose proof (at_least sqd l2 q OK2 k s2 K2 i c2 (snd c1) E2 N1 L) as A. pose proof (at_most sqd l1 q OK k s1 K1 i c1 E1) as B.
    rewrite (filter_perm _ _ _ P) in B. lia.
  - destruct (f64_lt (snd c1) (snd c2)) eqn:L; [|reflexivity]. exfalso. pose proof (at_least sqd l1 q OK k s1 K1 i c1 (snd c2) E1 N2 L) as A. pose proof (at_most sqd l2 q OK2 k s2 K2 i c2 E2) as B.
    rewrite (filter_perm _ _ _ P) in A. lia.
Qed.
End Two.

Lemma forall2_nth {A B : Type} (R : A -> B -> Prop) : forall l m, length l = length m -> (forall i x y, nth_error l i = Some x -> nth_error m i = Some y -> R x y) -> Forall2 R l m.
Proof.
  induction l as [|a l IH]; intros [|b m] L H; cbn in L; try discriminate L; constructor.
  - apply (H 0); reflexivity.
  - apply IH; [lia|]. intros i x y Hx Hy. apply (H (S i)); assumption.
Qed.

Lemma forall2_same {A : Type} (l m : list A) : Forall2 eq l m -> l = m.
Proof. induction 1; congruence. Qed.

(** Two trees over the same points, in any order, built with any leaf sizes, scan counts and
    nth_element: every query finds as many neighbours, at the same distances. *)
Theorem C84_distances : forall order ne1 ne2 points1 points2 leaf1 leaf2 scan1 scan2 query,
  kd_env order ne1 points1 leaf1 scan1 -> kd_env order ne2 points2 leaf2 scan2 -> Permutation points1 points2 -> vfinite query ->
  exists tree1 tree2,
    build_tree axis_apply (axis_find scan1) ne1 points1 leaf1 = Ok tree1 /\ build_tree axis_apply (axis_find scan2) ne2 points2 leaf2 = Ok tree2 /\
    forall k, (0 < k)%Z -> exists r1 r2,
      knn_search (fsqd order) axis_apply points1 tree1 query (nzero (n := Fnum)) None k = Ok r1 /\
      knn_search (fsqd order) axis_apply points2 tree2 query (nzero (n := Fnum)) None k = Ok r2 /\
      num_found_neighbors r1 = num_found_neighbors r2 /\ Forall2 same_value (distances r1) (distances r2).
Proof.
  intros order ne1 ne2 points1 points2 leaf1 leaf2 scan1 scan2 query V1 V2 P Hq.
  destruct (C01_kdtree_knn_exact _ _ _ _ _ _ V1 Hq) as (t1 & rk1 & B1 & K1 & S1). destruct (C01_kdtree_knn_exact _ _ _ _ _ _ V2 Hq) as (t2 & rk2 & B2 & K2 & S2).
  exists t1, t2. split; [exact B1|]. split; [exact B2|]. intros k Hk. destruct (S1 k Hk) as (r1 & E1 & F1 & _ & D1). destruct (S2 k Hk) as (r2 & E2 & F2 & _ & D2).
  exists r1, r2. split; [exact E1|]. split; [exact E2|].
  assert (OK : forall p, In p points1 -> notnan (fsqd order p query)).
  { intros p Hp. destruct V1 as (FS & _ & _ & FP & _). apply fsqd_ok; [apply FP, Hp|exact Hq]. }
  pose proof (same_length (fsqd order) points1 points2 query P (Z.to_nat k) _ _ (K1 (Z.to_nat k)) (K2 (Z.to_nat k))) as L. split; [etransitivity; [exact F1|]; etransitivity; [exact L|symmetry; exact F2]|].
  change (length (firstn (Z.to_nat k) rk1) = length (firstn (Z.to_nat k) rk2)) in L. rewrite D1, D2, L. apply Forall2_app; [|clear; induction (_ - _) as [|m IH]; cbn [repeat]; constructor; [split; vm_compute; reflexivity|exact IH]].
  apply forall2_nth; [rewrite !map_length; exact L|]. intros i x y X Y. rewrite nth_error_map in X, Y.
  destruct (nth_error (firstn (Z.to_nat k) rk1) i) as [c1|] eqn:Q1; [|discriminate X]. destruct (nth_error (firstn (Z.to_nat k) rk2) i) as [c2|] eqn:Q2; [|discriminate Y]. injection X as <-. injection Y as <-.
  exact (same_at (fsqd order) points1 points2 query P OK (Z.to_nat k) _ _ (K1 _) (K2 _) i c1 c2 Q1 Q2).
Qed.

(** Without ties, the neighbours are the same points in the same order. *)
Theorem C84_no_ties : forall order ne1 ne2 points leaf1 leaf2 scan1 scan2 query,
  kd_env order ne1 points leaf1 scan1 -> kd_env order ne2 points leaf2 scan2 -> vfinite query ->
  (forall i j p p', nth_error points i = Some p -> nth_error points j = Some p' -> same_value (fsqd order p query) (fsqd order p' query) -> i = j) ->
  exists tree1 tree2,
    build_tree axis_apply (axis_find scan1) ne1 points leaf1 = Ok tree1 /\ build_tree axis_apply (axis_find scan2) ne2 points leaf2 = Ok tree2 /\
    forall k, (0 < k)%Z -> exists r1 r2,
      knn_search (fsqd order) axis_apply points tree1 query (nzero (n := Fnum)) None k = Ok r1 /\
      knn_search (fsqd order) axis_apply points tree2 query (nzero (n := Fnum)) None k = Ok r2 /\
      num_found_neighbors r1 = num_found_neighbors r2 /\ indices r1 = indices r2 /\ distances r1 = distances r2.
Proof.
  intros order ne1 ne2 points leaf1 leaf2 scan1 scan2 query V1 V2 Hq NT.
  destruct (C01_kdtree_knn_exact _ _ _ _ _ _ V1 Hq) as (t1 & rk1 & B1 & K1 & S1). destruct (C01_kdtree_knn_exact _ _ _ _ _ _ V2 Hq) as (t2 & rk2 & B2 & K2 & S2).
  exists t1, t2. split; [exact B1|]. split; [exact B2|]. intros k Hk. destruct (S1 k Hk) as (r1 & E1 & F1 & I1 & D1). destruct (S2 k Hk) as (r2 & E2 & F2 & I2 & D2).
  exists r1, r2. split; [exact E1|]. split; [exact E2|].
  assert (OK : forall p, In p points -> notnan (fsqd order p query)).
  { intros p Hp. destruct V1 as (FS & _ & _ & FP & _). apply fsqd_ok; [apply FP, Hp|exact Hq]. }
  pose proof (same_length (fsqd order) points points query (Permutation_refl _) (Z.to_nat k) _ _ (K1 (Z.to_nat k)) (K2 (Z.to_nat k))) as L.
  assert (EQ : firstn (Z.to_nat k) rk1 = firstn (Z.to_nat k) rk2).
  { apply forall2_same. apply forall2_nth; [exact L|]. intros i c1 c2 Q1 Q2.
    pose proof (same_at (fsqd order) points points query (Permutation_refl _) OK (Z.to_nat k) _ _ (K1 _) (K2 _) i c1 c2 Q1 Q2) as SV.
    destruct (res_ok (fsqd order) points query OK _ _ (K1 (Z.to_nat k)) c1 (nth_error_In _ _ Q1)) as (j1 & L1 & X1 & Y1 & _). destruct (res_ok (fsqd order) points query OK _ _ (K2 (Z.to_nat k)) c2 (nth_error_In _ _ Q2)) as (j2 & L2 & X2 & Y2 & _).
    destruct c1 as [i1 d1], c2 as [i2 d2]. cbn [fst snd] in *. subst. unfold dist_to in *.
    destruct (nth_error points j1) as [p1|] eqn:P1; [|apply nth_error_None in P1; lia]. destruct (nth_error points j2) as [p2|] eqn:P2; [|apply nth_error_None in P2; lia].
    assert (j1 = j2) by (apply (NT j1 j2 p1 p2 P1 P2 SV)). subst j2. rewrite P1 in P2. injection P2 as <-. reflexivity. }
  rewrite I1, I2, D1, D2, F1, F2, EQ. repeat split.
Qed.

Definition tied : list (vec4 Fnum) := [fpt 8 0 0; fpt 9 0 0; fpt 10 0 0; fpt 0 0 0; fpt 4 0 0].

(** With a tie, the leaf size alone decides which of the equally near points is reported. *)
Theorem C84_ties_refuted :
  ~ (forall order ne points leaf1 leaf2 scan query tree1 tree2 r1 r2,
     kd_env order ne points leaf1 scan -> kd_env order ne points leaf2 scan -> vfinite query ->
     build_tree axis_apply (axis_find scan) ne points leaf1 = Ok tree1 -> build_tree axis_apply (axis_find scan) ne points leaf2 = Ok tree2 ->
     knn_search (fsqd order) axis_apply points tree1 query (nzero (n := Fnum)) None 1 = Ok r1 ->
     knn_search (fsqd order) axis_apply points tree2 query (nzero (n := Fnum)) None 1 = Ok r2 ->
     indices r1 = indices r2).
Proof.
  intros H.
  assert (E : forall leaf, (3 <= size_t_of_int leaf)%N -> kd_env eigen_order sort_nth_element tied leaf 128).
  { intros leaf HL. split; [apply eigen_order_full|]. split; [apply sort_nth_element_contract|]. split; [discriminate|]. split.
    { intros p Hp. unfold tied in Hp; cbn [In] in Hp. repeat (destruct Hp as [<-|Hp]; [apply fpt_finite; vm_compute; reflexivity|]). destruct Hp. }
    split; [vm_compute; discriminate|]. split; [exact HL|]. vm_compute. split; congruence. }
  assert (Q : vfinite (fpt 6 0 0)) by (apply fpt_finite; vm_compute; reflexivity).
  pose (run leaf := let* t := build_tree axis_apply (axis_find 128) sort_nth_element tied leaf in
    let* r := knn_search (fsqd eigen_order) axis_apply tied t (fpt 6 0 0) (nzero (n := Fnum)) None 1 in Ok (indices r)).
  assert (R1 : run 3%Z = Ok [4%N]) by (vm_compute; reflexivity). assert (R2 : run 20%Z = Ok [0%N]) by (vm_compute; reflexivity). unfold run in R1, R2.
  destruct (build_tree axis_apply (axis_find 128) sort_nth_element tied 3) as [t1| | |] eqn:B1; try discriminate R1.
  destruct (build_tree axis_apply (axis_find 128) sort_nth_element tied 20) as [t2| | |] eqn:B2; try discriminate R2. cbn [bind] in R1, R2.
  destruct (knn_search (fsqd eigen_order) axis_apply tied t1 _ _ _ _) as [r1| | |] eqn:S1; try discriminate R1.
  destruct (knn_search (fsqd eigen_order) axis_apply tied t2 _ _ _ _) as [r2| | |] eqn:S2; try discriminate R2. cbn [bind] in R1, R2.
  pose proof (H _ _ _ 3%Z 20%Z _ _ _ _ _ _ (E 3%Z ltac:(vm_compute; discriminate)) (E 20%Z ltac:(vm_compute; discriminate)) Q B1 B2 S1 S2) as X.
  rewrite X in R1. rewrite R1 in R2. discriminate R2.
Qed.

(** * Non-vacuity *)
Example rebuild_env : kd_env eigen_order sort_nth_element (rev cloud7) 4 2 /\ Permutation cloud7 (rev cloud7).
Proof.
  split; [|apply Permutation_rev]. split; [apply eigen_order_full|]. split; [apply sort_nth_element_contract|]. split; [discriminate|]. split.
  { intros p Hp. apply in_rev in Hp. destruct kd_env_inhabited as (_ & _ & _ & F & _). apply F, Hp. }
  split; [vm_compute; discriminate|]. split; [vm_compute; discriminate|]. vm_compute. split; congruence.
Qed.

(** The two trees differ in size and the indices differ, the distances do not. *)
Example rebuild_run :
  let run pts leaf scan :=
    let* t := build_tree axis_apply (axis_find scan) sort_nth_element pts leaf in
    let* r := knn_search (fsqd eigen_order) axis_apply pts t (fpt 3 3 3) (nzero (n := Fnum)) None 3 in
    Ok (length (t_nodes t), num_found_neighbors r, indices r, map B2SF (distances r)) in
  match run cloud7 3%Z 128%Z, run (rev cloud7) 4%Z 2%Z with
  | Ok (n1, f1, i1, d1), Ok (n2, f2, i2, d2) => n1 <> n2 /\ f1 = f2 /\ i1 <> i2 /\ d1 = d2
  | _, _ => False
  end.
Proof. vm_compute. repeat split; discriminate. Qed.

(** Seen from (0, 0, 0) no two points of the cloud are equally far. *)
Example no_ties_met : forall i j p p', nth_error cloud7 i = Some p -> nth_error cloud7 j = Some p' ->
  same_value (fsqd eigen_order p (fpt 0 0 0)) (fsqd eigen_order p' (fpt 0 0 0)) -> i = j.
Proof.
  intros i j p p' Hi Hj [A B].
  assert (Li : i < 7) by (apply (nth_error_Some cloud7); rewrite Hi; discriminate). assert (Lj : j < 7) by (apply (nth_error_Some cloud7); rewrite Hj; discriminate).
  do 7 (destruct i as [|i]; [cbn in Hi; injection Hi as <-; do 7 (destruct j as [|j]; [cbn in Hj; injection Hj as <-; first [reflexivity|vm_compute in A; discriminate A|vm_compute in B; discriminate B]|]); lia|]). lia.
Qed.

Print Assumptions C84_distances.
Print Assumptions C84_no_ties.
Print Assumptions C84_ties_refuted.
