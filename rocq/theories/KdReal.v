(** The kd-tree over exact reals with arbitrary split directions (NormalProjection). *)
From Coq Require Import Reals Lra Psatz.
From Flocq Require Import Core.
From Verif Require Import Base Num Vec RNum KdModel KdSpec KdProofs KdSearchProofs.
Open Scope R_scope.

Notation vec3r := (vec3 Rnum).

Lemma normal_apply_R (n : vec3r) p :
  normal_apply n p = n0 n * vx p + n1 n * vy p + n2 n * vz p.
Proof. reflexivity. Qed.

(** The direction is not longer than 1 (an eigenvector column is a unit vector). *)
Definition short (n : vec3r) : Prop := n0 n * n0 n + n1 n * n1 n + n2 n * n2 n <= 1.

Definition rfma (a b c : R) : R := a * b + c.
Definition rsqd (order : sumtree) : vec4 Rnum -> vec4 Rnum -> car Rnum := sq_dist (D := Rnum) rfma order.

Fixpoint leafsum (l : list nat) (v : vec4 Rnum) : R :=
  match l with [] => 0 | i :: l => vcomp v i * vcomp v i + leafsum l v end.

Lemma leafsum_app l1 l2 v : leafsum (l1 ++ l2) v = leafsum l1 v + leafsum l2 v.
Proof. induction l1; simpl; try rewrite IHl1; cbn [car Rnum]; lra. Qed.

Lemma leafsum_perm l1 l2 v : Permutation l1 l2 -> leafsum l1 v = leafsum l2 v.
Proof. induction 1; simpl; cbn [car Rnum] in *; lra. Qed.

Lemma sum_eval_leafsum t v : sum_eval (D := Rnum) rfma t v = leafsum (sum_leaves t) v.
Proof.
  induction t as [i|l IHl r IHr|i t IH]; cbn [sum_eval sum_leaves leafsum].
  - change (@nmul Rnum) with Rmult. symmetry. apply Rplus_0_r.
  - change (@nadd Rnum) with Rplus. rewrite leafsum_app, IHl, IHr. reflexivity.
  - rewrite IH. reflexivity.
Qed.

(** Every order computes the textbook squared distance. *)
Lemma rsqd_eq order p q : full_sum order ->
  rsqd order p q = (vx p - vx q)^2 + (vy p - vy q)^2 + (vz p - vz q)^2 + (vw p - vw q)^2.
Proof.
  intros F. unfold rsqd, sq_dist. rewrite sum_eval_leafsum.
  rewrite (leafsum_perm _ _ _ F). simpl. cbn [nsub Rnum car]. ring.
Qed.

Lemma cauchy3 a b c x y z : a*a+b*b+c*c <= 1 -> (a*x+b*y+c*z)^2 <= x^2+y^2+z^2.
Proof.
  intros H.
  assert (L : (a*x+b*y+c*z)^2 <= (a*a+b*b+c*c) * (x^2+y^2+z^2)).
  { pose proof (pow2_ge_0 (a*y-b*x)). pose proof (pow2_ge_0 (a*z-c*x)).
    pose proof (pow2_ge_0 (b*z-c*y)).
    replace ((a*a+b*b+c*c) * (x^2+y^2+z^2)) with
      ((a*x+b*y+c*z)^2 + ((a*y-b*x)^2 + (a*z-c*x)^2 + (b*z-c*y)^2)) by ring. lra. }
  pose proof (pow2_ge_0 x). pose proof (pow2_ge_0 y). pose proof (pow2_ge_0 z). nra.
Qed.

Lemma normal_prune order q : full_sum order ->
  prune_law Rnum (fun _ => True) (vec4 Rnum) (rsqd order) vec3r (normal_apply (D := Rnum)) q (fun _ => True) short.
Proof.
  intros F n p m Hn _ _. cbv zeta. split; [exact I|].
  cbn [nlt nsub nmul nzero Rnum]. rewrite (rsqd_eq order p q F).
  assert (C : (normal_apply n p - normal_apply n q)^2 <=
     (vx p - vx q)^2 + (vy p - vy q)^2 + (vz p - vz q)^2 + (vw p - vw q)^2).
  { pose proof (cauchy3 (n0 n) (n1 n) (n2 n) (vx p - vx q) (vy p - vy q) (vz p - vz q) Hn) as C.
    replace (normal_apply n p - normal_apply n q) with
      (n0 n * (vx p - vx q) + n1 n * (vy p - vy q) + n2 n * (vz p - vz q))
      by (rewrite !normal_apply_R; ring).
    pose proof (pow2_ge_0 (vw p - vw q)). cbn [car Rnum] in *. lra. }
  split; intros H1 H2; apply Rlt_bool_false_iff.
  - apply Rlt_bool_iff in H1. apply Rlt_bool_false_iff in H2.
    eapply Rle_trans; [|exact C]. nra.
  - apply Rlt_bool_false_iff in H1, H2. eapply Rle_trans; [|exact C]. nra.
Qed.

(** The axis-aligned projection is the special case of a coordinate direction. *)
Lemma axis_normal a p : (a < 3)%nat ->
  exists n : vec3r, short n /\ normal_apply n p = axis_apply a p.
Proof.
  intros H. destruct a as [|[|[|a]]]; try lia.
  - exists (V3 (D := Rnum) 1 0 0). unfold short, normal_apply, axis_apply; simpl. split; [lra|]. cbn; lra.
  - exists (V3 (D := Rnum) 0 1 0). unfold short, normal_apply, axis_apply; simpl. split; [lra|]. cbn; lra.
  - exists (V3 (D := Rnum) 0 0 1). unfold short, normal_apply, axis_apply; simpl. split; [lra|]. cbn; lra.
Qed.
