(** Lengths of real vectors under matrices, and determinants of perturbed matrices. *)
From Coq Require Import Reals Lra Psatz.
From Flocq Require Import Core.
From Verif Require Import Base Num Vec RNum Lin LinSpec LinProofs FlatSpec RigidSpec.
Open Scope R_scope.

Implicit Types (x y : v3 Rfld) (M N : m3 Rfld).

Lemma len_nonneg x : 0 <= length3 x.
Proof. apply sqrt_pos. Qed.
Lemma len_sq x : length3 x * length3 x = dot3 x x.
Proof. apply sqrt_sqrt. apply dot3_self_nonneg. Qed.
Lemma len_le x a : 0 <= a -> dot3 x x <= a * a -> length3 x <= a.
Proof. intros A H. unfold length3. rewrite <- (sqrt_square a A). apply sqrt_le_1_alt. exact H. Qed.

Lemma lagrange x y : dot3 x y * dot3 x y <= dot3 x x * dot3 y y.
Proof.
  destruct x as [a b c], y as [d e f]. unfold dot3. cbn [p0 p1 p2 nadd nmul fbase Rfld Rnum]. change (car (fbase Rfld)) with R in *.
  pose proof (Rle_0_sqr (a * e - b * d)). pose proof (Rle_0_sqr (a * f - c * d)). pose proof (Rle_0_sqr (b * f - c * e)). unfold Rsqr in *.
  assert (E : (a * a + b * b + c * c) * (d * d + e * e + f * f) - (a * d + b * e + c * f) * (a * d + b * e + c * f) =
    (a * e - b * d) * (a * e - b * d) + (a * f - c * d) * (a * f - c * d) + (b * f - c * e) * (b * f - c * e)) by ring. lra.
Qed.
Lemma dot_le x y : Rabs (dot3 x y) <= length3 x * length3 y.
Proof.
  pose proof (len_nonneg x). pose proof (len_nonneg y). rewrite <- (Rabs_pos_eq (length3 x * length3 y)) by (apply Rmult_le_pos; lra).
  apply Rsqr_le_abs_0. unfold Rsqr. replace (length3 x * length3 y * (length3 x * length3 y)) with ((length3 x * length3 x) * (length3 y * length3 y)) by ring.
  rewrite !len_sq. apply lagrange.
Qed.
Lemma len_add x y : length3 (add3 x y) <= length3 x + length3 y.
Proof.
  pose proof (len_nonneg x). pose proof (len_nonneg y). apply len_le; [lra|].
  pose proof (dot_le x y) as D. pose proof (Rle_abs (dot3 x y)). pose proof (len_sq x) as X. pose proof (len_sq y) as Y.
  assert (E : dot3 (add3 x y) (add3 x y) = dot3 x x + 2 * dot3 x y + dot3 y y) by (clear; destruct x, y; lring).
  rewrite E, <- X, <- Y. change (car (fbase Rfld)) with R in *. lra.
Qed.
Lemma len_near x d (b : R) : length3 d <= b -> Rabs (length3 (add3 x d) - length3 x) <= b.
Proof.
  intros H. pose proof (len_add x d). pose proof (len_add (add3 x d) (opp3 d)) as B.
  assert (E : add3 (add3 x d) (opp3 d) = x) by (clear; destruct x, d; lring). rewrite E in B.
  assert (N : length3 (opp3 d) = length3 d) by (unfold length3; f_equal; clear; destruct d; lring). rewrite N in B.
  apply Rabs_le. lra.
Qed.

(** A matrix with small entries moves nothing far. *)
Definition entries (f : R) (M : m3 Rfld) : Prop :=
  (Rabs (p0 (r0 M)) <= f /\ Rabs (p1 (r0 M)) <= f /\ Rabs (p2 (r0 M)) <= f) /\
  (Rabs (p0 (r1 M)) <= f /\ Rabs (p1 (r1 M)) <= f /\ Rabs (p2 (r1 M)) <= f) /\
  (Rabs (p0 (r2 M)) <= f /\ Rabs (p1 (r2 M)) <= f /\ Rabs (p2 (r2 M)) <= f).
Lemma row_small (a b c d e g f : R) : Rabs a <= f -> Rabs b <= f -> Rabs c <= f ->
  (a * d + b * e + c * g) * (a * d + b * e + c * g) <= 3 * (f * f) * (d * d + e * e + g * g).
Proof.
  intros A B C. assert (F : 0 <= f) by (pose proof (Rabs_pos a); lra).
  assert (S : forall t, Rabs t <= f -> t * t <= f * f) by (intros t T; rewrite <- (Rabs_pos_eq f) in T by lra; apply Rsqr_le_abs_1 in T; exact T).
  apply S in A. apply S in B. apply S in C.
  assert (L : (a * d + b * e + c * g) * (a * d + b * e + c * g) <= (a * a + b * b + c * c) * (d * d + e * e + g * g)).
  { pose proof (Rle_0_sqr (a * e - b * d)). pose proof (Rle_0_sqr (a * g - c * d)). pose proof (Rle_0_sqr (b * g - c * e)). unfold Rsqr in *. lra. }
  apply Rle_trans with (1 := L). apply Rmult_le_compat_r; [|lra].
  pose proof (Rle_0_sqr d). pose proof (Rle_0_sqr e). pose proof (Rle_0_sqr g). unfold Rsqr in *. lra.
Qed.
Lemma small_matrix f M x : 0 <= f -> entries f M -> length3 (mv3 M x) <= 3 * f * length3 x.
Proof.
  intros F ((A & B & C) & (D & E & G) & (H & I & J)). pose proof (len_nonneg x) as L.
  apply len_le; [apply Rmult_le_pos; lra|]. replace (3 * f * length3 x * (3 * f * length3 x)) with (9 * (f * f) * (length3 x * length3 x)) by ring.
  rewrite len_sq. destruct x as [d e g], M as [[a1 a2 a3] [b1 b2 b3] [c1 c2 c3]].
  cbn in A, B, C, D, E, G, H, I, J. unfold mv3, dot3. cbn [p0 p1 p2 r0 r1 r2 nadd nmul fbase Rfld Rnum]. change (car (fbase Rfld)) with R in *.
  pose proof (row_small a1 a2 a3 d e g f A B C). pose proof (row_small b1 b2 b3 d e g f D E G). pose proof (row_small c1 c2 c3 d e g f H I J). lra.
Qed.

(** Entries of a matrix that keeps lengths up to [e]. *)
Definition stretch (e : R) (M : m3 Rfld) : Prop := forall x, Rabs (length3 (mv3 M x) - length3 x) <= e * length3 x.
Lemma comp_le x : Rabs (p0 x) <= length3 x /\ Rabs (p1 x) <= length3 x /\ Rabs (p2 x) <= length3 x.
Proof.
  pose proof (len_nonneg x) as L. pose proof (len_sq x) as S. destruct x as [a b c]. cbn [p0 p1 p2].
  change (dot3 (P3 a b c) (P3 a b c)) with (a * a + b * b + c * c) in S. change (car (fbase Rfld)) with R in *.
  pose proof (Rle_0_sqr a). pose proof (Rle_0_sqr b). pose proof (Rle_0_sqr c). unfold Rsqr in *.
  split; [|split]; rewrite <- (Rabs_pos_eq (length3 _)) by exact L; apply Rsqr_le_abs_0; unfold Rsqr; lra.
Qed.
Lemma stretch_entries e M : stretch e M -> entries (1 + e) M.
Proof.
  intros S. assert (U : forall v : v3 Rfld, dot3 v v = 1 -> length3 v = 1) by (intros v H; unfold length3; rewrite H; apply sqrt_1).
  assert (K : forall v : v3 Rfld, dot3 v v = 1 -> length3 (mv3 M v) <= 1 + e).
  { intros v H. specialize (S v). rewrite (U v H) in S. apply Rabs_le_inv in S. lra. }
  pose proof (K (P3 (1 : car Rfld) (0 : car Rfld) (0 : car Rfld)) ltac:(cbn; ring)) as A.
  pose proof (K (P3 (0 : car Rfld) (1 : car Rfld) (0 : car Rfld)) ltac:(cbn; ring)) as B.
  pose proof (K (P3 (0 : car Rfld) (0 : car Rfld) (1 : car Rfld)) ltac:(cbn; ring)) as C.
  clear K S U. assert (EA : mv3 M (P3 (1 : car Rfld) (0 : car Rfld) (0 : car Rfld)) = c0 M) by (clear; destruct M as [[] [] []]; lring).
  assert (EB : mv3 M (P3 (0 : car Rfld) (1 : car Rfld) (0 : car Rfld)) = c1 M) by (clear; destruct M as [[] [] []]; lring).
  assert (EC : mv3 M (P3 (0 : car Rfld) (0 : car Rfld) (1 : car Rfld)) = c2 M) by (clear; destruct M as [[] [] []]; lring).
  rewrite EA in A. rewrite EB in B. rewrite EC in C. clear EA EB EC.
  pose proof (comp_le (c0 M)) as (A0 & A1 & A2). pose proof (comp_le (c1 M)) as (B0 & B1 & B2). pose proof (comp_le (c2 M)) as (C0 & C1 & C2).
  destruct M as [[] [] []]. unfold entries. cbn in *. repeat split; lra.
Qed.

Lemma stretch_mm d e M N : 0 <= d <= 1 -> 0 <= e <= 1 -> stretch d M -> stretch e N -> stretch (d + e + d * e) (mm3 M N).
Proof.
  intros D E A B x. assert (Q : mv3 (mm3 M N) x = mv3 M (mv3 N x)) by (clear; destruct M as [[] [] []], N as [[] [] []], x; lring). rewrite Q.
  pose proof (A (mv3 N x)) as A1. pose proof (B x) as B1. pose proof (len_nonneg x). pose proof (len_nonneg (mv3 N x)).
  set (p := length3 (mv3 M (mv3 N x))) in *. set (q := length3 (mv3 N x)) in *. set (r := length3 x) in *. clearbody p q r.
  apply Rabs_le_inv in A1. apply Rabs_le_inv in B1. apply Rabs_le.
  assert (d * q <= d * (r + e * r)) by (apply Rmult_le_compat_l; lra). assert (0 <= d * e * r) by (apply Rmult_le_pos; [apply Rmult_le_pos|]; lra). nra.
Qed.
Lemma stretch_near e f M N : 0 <= f -> stretch e M -> entries f (msub3 N M) -> stretch (e + 3 * f) N.
Proof.
  intros F S H x. assert (Q : mv3 N x = add3 (mv3 M x) (mv3 (msub3 N M) x)) by (clear; destruct M as [[] [] []], N as [[] [] []], x; lring). rewrite Q.
  pose proof (len_near (mv3 M x) (mv3 (msub3 N M) x) _ (small_matrix f _ x F H)) as A. specialize (S x).
  replace (length3 (add3 (mv3 M x) (mv3 (msub3 N M) x)) - length3 x) with
    ((length3 (add3 (mv3 M x) (mv3 (msub3 N M) x)) - length3 (mv3 M x)) + (length3 (mv3 M x) - length3 x)) by ring.
  eapply Rle_trans; [apply Rabs_triang|]. lra.
Qed.

(** Determinants. *)
Lemma tri_near (a b c p q r B f : R) : 0 <= f -> Rabs a <= B -> Rabs b <= B -> Rabs c <= B -> Rabs p <= B -> Rabs q <= B -> Rabs r <= B ->
  Rabs (p - a) <= f -> Rabs (q - b) <= f -> Rabs (r - c) <= f -> Rabs (p * (q * r) - a * (b * c)) <= 3 * (B * B) * f.
Proof.
  intros F A1 A2 A3 P1 P2 P3 D1 D2 D3. assert (B0 : 0 <= B) by (pose proof (Rabs_pos a); lra).
  assert (T : forall x y z : R, Rabs x <= B -> Rabs y <= B -> Rabs z <= f -> Rabs (x * y * z) <= B * B * f).
  { intros x y z X Y Z. rewrite !Rabs_mult. apply Rmult_le_compat; auto using Rabs_pos. - apply Rmult_le_pos; apply Rabs_pos. - apply Rmult_le_compat; auto using Rabs_pos. }
  replace (p * (q * r) - a * (b * c)) with (q * r * (p - a) + a * r * (q - b) + a * b * (r - c)) by ring.
  pose proof (T q r (p - a) P2 P3 D1). pose proof (T a r (q - b) A1 P3 D2). pose proof (T a b (r - c) A1 A2 D3).
  eapply Rle_trans; [apply Rabs_triang|]. eapply Rle_trans; [apply Rplus_le_compat_r, Rabs_triang|]. lra.
Qed.
Lemma det_near B f M N : 0 <= f -> entries B M -> entries B N -> entries f (msub3 N M) -> Rabs (det3 N - det3 M) <= 18 * (B * B) * f.
Proof.
  intros F. destruct M as [[a1 a2 a3] [b1 b2 b3] [c1 c2 c3]], N as [[p1 p2 p3] [q1 q2 q3] [s1 s2 s3]]. unfold entries. cbn.
  intros ((A1 & A2 & A3) & (B1 & B2 & B3) & (C1 & C2 & C3)) ((P1 & P2 & P3) & (Q1 & Q2 & Q3) & (S1 & S2 & S3))
    ((D1 & D2 & D3) & (E1 & E2 & E3) & (G1 & G2 & G3)).
  change (car (fbase Rfld)) with R in *.
  pose proof (tri_near a1 b2 c3 p1 q2 s3 B f F A1 B2 C3 P1 Q2 S3 D1 E2 G3) as T1.
  pose proof (tri_near a1 b3 c2 p1 q3 s2 B f F A1 B3 C2 P1 Q3 S2 D1 E3 G2) as T2.
  pose proof (tri_near a2 b1 c3 p2 q1 s3 B f F A2 B1 C3 P2 Q1 S3 D2 E1 G3) as T3.
  pose proof (tri_near a2 b3 c1 p2 q3 s1 B f F A2 B3 C1 P2 Q3 S1 D2 E3 G1) as T4.
  pose proof (tri_near a3 b1 c2 p3 q1 s2 B f F A3 B1 C2 P3 Q1 S2 D3 E1 G2) as T5.
  pose proof (tri_near a3 b2 c1 p3 q2 s1 B f F A3 B2 C1 P3 Q2 S1 D3 E2 G1) as T6.
  apply Rabs_le_inv in T1, T2, T3, T4, T5, T6. apply Rabs_le. lra.
Qed.
Lemma det_mm M N : det3 (mm3 M N) = det3 M * det3 N.
Proof. clear; destruct M as [[] [] []], N as [[] [] []]; lring. Qed.
