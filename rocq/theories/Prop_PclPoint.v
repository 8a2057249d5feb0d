(** C64: PCL clouds keep what they are given, to float precision. *)
From Coq Require Import Reals Lra Psatz ZArith List.
From Coq Require Import ZifyBool ZifyNat.
From Flocq Require Import Core IEEE754.BinarySingleNaN.
From Verif Require Import Base BaseProofs Num F64 F32 F32Proofs Vec Lin CloudModel CloudSpec CloudProofs IoModel IoSpec KittiModel KittiSpec Prop_Kitti PclPointModel PclPointSpec.
Import ListNotations.
Open Scope nat_scope.
Local Open Scope list_scope.

(** * One number *)
Lemma round32_nearest (x : R) (z : f32) : is_finite z = true -> (Rabs (round32 x - x) <= Rabs (B2R z - x))%R.
Proof.
  intros F. destruct (round_N_pt radix2 fexp32 (fun z => negb (Z.even z)) x) as (_ & H). apply H. apply generic_format_B2R.
Qed.
Lemma round32_limit : round32 float_limit = bpow radix2 128.
Proof.
  unfold round32, round. assert (V : float_limit = (IZR 33554431 * bpow radix2 103)%R).
  { unfold float_limit. replace 128%Z with (25 + 103)%Z by reflexivity. rewrite bpow_plus. change (bpow radix2 25) with 33554432%R. replace (IZR 33554431) with (33554432 - 1)%R by lra. ring. }
  assert (C : cexp radix2 fexp32 float_limit = 104%Z).
  { unfold cexp. rewrite (mag_unique_pos radix2 float_limit 128); [reflexivity|]. split.
    - rewrite V. change (128 - 1)%Z with (24 + 103)%Z. rewrite bpow_plus. apply Rmult_le_compat_r; [apply bpow_ge_0|]. change (bpow radix2 24) with (IZR 16777216). apply IZR_le. lia.
    - unfold float_limit. pose proof (bpow_gt_0 radix2 103). lra. }
  unfold scaled_mantissa. rewrite C, V. rewrite Rmult_assoc, <- bpow_plus. change (103 + - (104))%Z with (-1)%Z. change (bpow radix2 (-1)) with (/ 2)%R.
  replace (ZnearestE (IZR 33554431 * / 2)) with 16777216%Z.
  - unfold F2R. cbn [Defs.Fnum Defs.Fexp]. change 128%Z with (24 + 104)%Z. rewrite bpow_plus. reflexivity.
  - symmetry. assert (FL : Zfloor (IZR 33554431 * / 2) = 16777215%Z).
    { apply Zfloor_imp. split; [|]; cbn; lra. }
    unfold Znearest. rewrite FL. rewrite Rcompare_Eq by lra. cbn [negb Z.even]. apply Zceil_imp. split; cbn; lra.
Qed.
Lemma round32_below x : (Rabs x < float_limit)%R -> (Rabs (round32 x) < bpow radix2 128)%R.
Proof.
  intros L. set (top := (Bmax_float : f32)). assert (T : B2R top = (bpow radix2 128 - bpow radix2 104)%R).
  { change (B2R top) with (IZR 16777215 * bpow radix2 104)%R. replace (bpow radix2 128) with (16777216 * bpow radix2 104)%R by (change 128%Z with (24 + 104)%Z; rewrite bpow_plus; reflexivity).
    replace (IZR 16777215) with (16777216 - 1)%R by lra. ring. }
  assert (R1 : (Rabs (round32 (Rabs x) - Rabs x) <= Rabs (B2R top - Rabs x))%R) by (apply round32_nearest; reflexivity).
  assert (A : Rabs (round32 x) = round32 (Rabs x)).
  { unfold round32. symmetry. apply round_NE_abs. typeclasses eauto. }
  rewrite A. unfold float_limit in L. rewrite T in R1. set (b := bpow radix2 128) in *. set (ax := Rabs x) in *.
  assert (G : bpow radix2 104 = (2 * bpow radix2 103)%R) by (change 104%Z with (1 + 103)%Z; rewrite bpow_plus; reflexivity). rewrite G in R1. pose proof (bpow_gt_0 radix2 103) as P.
  apply Rnot_le_lt. intros C. rewrite Rabs_pos_eq in R1 by lra. unfold Rabs in R1 at 1. destruct Rcase_abs; lra.
Qed.
Lemma narrow_nearest (x : f64) : nearest_float x (narrow x).
Proof.
  assert (NF : is_finite x = true -> is_nan x = false) by (destruct x; cbn; congruence).
  assert (SG : is_nan x = false -> Bsign (narrow x) = Bsign x).
  { intros N. destruct (is_finite x) eqn:F.
    - pose proof (narrow_finite x F) as H. destruct (Rlt_bool _ _); [apply H|rewrite H; reflexivity].
    - destruct x; try discriminate; reflexivity. }
  unfold nearest_float. split; [destruct x; cbn; congruence|]. split; [exact SG|]. split; [|split].
  - intros N F. destruct x; try discriminate. reflexivity.
  - intros F L. pose proof (narrow_finite x F) as H. rewrite Rlt_bool_true in H by (apply round32_below, L). destruct H as (H1 & H2 & _).
    split; [exact H1|]. intros z Z. rewrite H2. apply round32_nearest, Z.
  - intros F L. pose proof (narrow_finite x F) as H. rewrite Rlt_bool_false in H; [exact H|].
    replace (Rabs (round32 (B2R x))) with (round32 (Rabs (B2R x))) by (unfold round32; apply round_NE_abs; typeclasses eauto).
    rewrite <- round32_limit. apply round_le; [typeclasses eauto..|exact L].
Qed.
Lemma kept_stored x : kept x (widen (narrow x)).
Proof. exists (narrow x). split; [apply narrow_nearest|apply widen_same]. Qed.

(** * Histories *)
Section History.
Context (blank : ppoint).
Definition got {X Y} (f : X -> Y) (d : Y) (o : option X) : Y := match o with Some x => f x | None => d end.
Definition holds (h : list (op (vec4 Fnum) (m4 Ffld))) (i : nat) : ppoint :=
  mkPP (got (cast4 (A := Fnum) (B := Snum) narrow) (pp_point blank) (last_set sets_point h i))
       (got (cast4 (A := Fnum) (B := Snum) narrow) (pp_normal blank) (last_set sets_normal h i))
       (got (cast_m4 (A := Ffld) (B := Sfld) narrow) (pp_cov blank) (last_set sets_cov h i)).
Lemma put_tab f n i (g : ppoint -> ppoint) : i < n ->
  pcl_put (map f (seq 0 n)) i g = Ok (map (fun j => if j =? i then g (f i) else f j) (seq 0 n)).
Proof.
  intros L. unfold pcl_put, pcl_at. rewrite nth_tab. replace (i <? n) with true by lia. cbn [bind]. f_equal. apply upd_tab, L.
Qed.
Lemma pcl_apply_spec h o : in_range h ->
  match index_of o with
  | Some i => if i <? size_of h then pcl_apply blank (map (holds h) (seq 0 (size_of h))) o = Ok (map (holds (o :: h)) (seq 0 (size_of (o :: h))))
              else pcl_apply blank (map (holds h) (seq 0 (size_of h))) o = Abort
  | None => pcl_apply blank (map (holds h) (seq 0 (size_of h))) o = Ok (map (holds (o :: h)) (seq 0 (size_of (o :: h))))
  end.
Proof.
  intros R. destruct o as [n|j v|j v|j v]; cbn [index_of pcl_apply].
  - f_equal. cbn [size_of]. apply list_ext. intros i. rewrite nth_tab, map_length, seq_length. destruct (i <? n) eqn:E.
    + apply Nat.ltb_lt in E. unfold holds. cbn [last_set]. replace (i <? n) with true by lia. destruct (Nat.lt_ge_cases i (size_of h)) as [L|L].
      * rewrite nth_error_app1 by (rewrite firstn_length, map_length, seq_length; lia). rewrite nth_firstn, nth_tab.
        replace (i <? n) with true by lia. replace (i <? size_of h) with true by lia. reflexivity.
      * rewrite nth_error_app2 by (rewrite firstn_length, map_length, seq_length; lia). rewrite firstn_length, map_length, seq_length, nth_repeat.
        replace (i - Nat.min n (size_of h) <? n - size_of h) with true by lia.
        rewrite !last_set_beyond by (eauto using idx_point, idx_normal, idx_cov). destruct blank; reflexivity.
    + apply nth_error_None. rewrite app_length, firstn_length, repeat_length, map_length, seq_length. apply Nat.ltb_ge in E. lia.
  - destruct (j <? size_of h) eqn:L; [apply Nat.ltb_lt in L|apply Nat.ltb_ge in L].
    + rewrite put_tab by exact L. f_equal. apply map_tab_ext. intros i _. unfold holds. cbn [last_set sets_point sets_normal sets_cov].
      destruct (i =? j) eqn:E; [|reflexivity]. apply Nat.eqb_eq in E. subst. reflexivity.
    + unfold pcl_put, pcl_at. rewrite nth_tab. replace (j <? size_of h) with false by lia. reflexivity.
  - destruct (j <? size_of h) eqn:L; [apply Nat.ltb_lt in L|apply Nat.ltb_ge in L].
    + rewrite put_tab by exact L. f_equal. apply map_tab_ext. intros i _. unfold holds. cbn [last_set sets_point sets_normal sets_cov].
      destruct (i =? j) eqn:E; [|reflexivity]. apply Nat.eqb_eq in E. subst. reflexivity.
    + unfold pcl_put, pcl_at. rewrite nth_tab. replace (j <? size_of h) with false by lia. reflexivity.
  - destruct (j <? size_of h) eqn:L; [apply Nat.ltb_lt in L|apply Nat.ltb_ge in L].
    + rewrite put_tab by exact L. f_equal. apply map_tab_ext. intros i _. unfold holds. cbn [last_set sets_point sets_normal sets_cov].
      destruct (i =? j) eqn:E; [|reflexivity]. apply Nat.eqb_eq in E. subst. reflexivity.
    + unfold pcl_put, pcl_at. rewrite nth_tab. replace (j <? size_of h) with false by lia. reflexivity.
Qed.
Lemma pcl_run_spec ops : forall h, in_range h ->
  (in_range (rev ops ++ h) -> pcl_run blank ops (map (holds h) (seq 0 (size_of h))) = Ok (map (holds (rev ops ++ h)) (seq 0 (size_of (rev ops ++ h))))) /\
  (~ in_range (rev ops ++ h) -> pcl_run blank ops (map (holds h) (seq 0 (size_of h))) = Abort).
Proof.
  induction ops as [|o ops IH]; intros h R; cbn [rev app].
  - split; [reflexivity|contradiction].
  - rewrite <- app_assoc. cbn [app]. pose proof (pcl_apply_spec h o R) as S. unfold pcl_run in *. cbn [foldM].
    destruct (index_of o) as [i|] eqn:I.
    + destruct (i <? size_of h) eqn:L; rewrite S; cbn [bind].
      * apply IH. cbn [in_range]. rewrite I. split; [apply Nat.ltb_lt; exact L|exact R].
      * split; [|reflexivity]. intros C. apply in_range_app in C. cbn [in_range] in C. rewrite I in C. apply Nat.ltb_ge in L. lia.
    + rewrite S. cbn [bind]. apply IH. cbn [in_range]. rewrite I. auto.
Qed.
End History.

Lemma kept4_stored (v : vec4 Fnum) : kept4 v (cast4 (A := Snum) (B := Fnum) widen (cast4 (A := Fnum) (B := Snum) narrow v)).
Proof. repeat split; apply kept_stored. Qed.
Lemma kept_m4_stored (m : m4 Ffld) : kept_m4 m (cast_m4 (A := Sfld) (B := Ffld) widen (cast_m4 (A := Ffld) (B := Sfld) narrow m)).
Proof. repeat split; apply kept_stored. Qed.
(** Every history of calls throws exactly if some write was outside the cloud of its time;
    otherwise every attribute read is the last value set, to the nearest float, or that of a new
    point; reading outside throws. *)
Theorem C64_history : forall blank (ops : list (op (vec4 Fnum) (m4 Ffld))),
  (~ in_range (rev ops) -> pcl_run blank ops [] = Abort) /\
  (in_range (rev ops) -> exists c, pcl_run blank ops [] = Ok c /\ pcl_size c = size_of (rev ops) /\
   (forall i, pcl_size c <= i -> pcl_point c i = Abort /\ pcl_normal c i = Abort /\ pcl_cov c i = Abort) /\
   (forall i, i < pcl_size c -> exists p n m, pcl_point c i = Ok p /\ pcl_normal c i = Ok n /\ pcl_cov c i = Ok m /\
     (forall v, last_set sets_point (rev ops) i = Some v -> kept4 v p) /\
     (forall v, last_set sets_normal (rev ops) i = Some v -> kept4 v n) /\
     (forall v, last_set sets_cov (rev ops) i = Some v -> kept_m4 v m) /\
     (last_set sets_point (rev ops) i = None -> pcl_point [blank] 0 = Ok p) /\
     (last_set sets_normal (rev ops) i = None -> pcl_normal [blank] 0 = Ok n) /\
     (last_set sets_cov (rev ops) i = None -> pcl_cov [blank] 0 = Ok m))).
Proof.
  intros blank ops. destruct (pcl_run_spec blank ops [] I) as (A & B). rewrite app_nil_r in A, B. cbn [size_of seq map] in A, B.
  split; [exact B|]. intros R. specialize (A R). eexists. split; [exact A|]. unfold pcl_size. rewrite map_length, seq_length. split; [reflexivity|].
  split.
  - intros i L. unfold pcl_point, pcl_normal, pcl_cov, pcl_at. rewrite nth_tab. replace (i <? size_of (rev ops)) with false by lia. auto.
  - intros i L. unfold pcl_point, pcl_normal, pcl_cov, pcl_at. rewrite nth_tab. replace (i <? size_of (rev ops)) with true by lia. cbn [bind nth_error].
    do 3 eexists. split; [reflexivity|]. split; [reflexivity|]. split; [reflexivity|].
    unfold holds. cbn [pp_point pp_normal pp_cov].
    split; [intros v ->; apply kept4_stored|]. split; [intros v ->; apply kept4_stored|]. split; [intros v ->; apply kept_m4_stored|].
    split; [intros ->; reflexivity|]. split; intros ->; reflexivity.
Qed.
(** Writing back what was read changes nothing. *)
Lemma upd_same {A} (l : list A) i x : nth_error l i = Some x -> upd l i x = l.
Proof. revert i. induction l as [|y l IH]; intros [|i] H; try discriminate; cbn in *; [congruence|]. rewrite IH; auto. Qed.
Lemma cast4_back (v : vec4 Snum) : cast4 (A := Fnum) (B := Snum) narrow (cast4 (A := Snum) (B := Fnum) widen v) = v.
Proof. destruct v. unfold cast4. f_equal; apply narrow_widen. Qed.
Lemma cast_m4_back (m : m4 Sfld) : cast_m4 (A := Ffld) (B := Sfld) narrow (cast_m4 (A := Sfld) (B := Ffld) widen m) = m.
Proof.
  destruct m as [[[a b c] [d e f] [g h i]] [j k l] [m n o] p]. unfold cast_m4, cast_m3, cast_v3. cbn [b33 b34 b43 b44 r0 r1 r2 p0 p1 p2].
  rewrite !narrow_widen. reflexivity.
Qed.
Theorem C64_write_back : forall blank (c : pcl_cloud) i p n m,
  pcl_point c i = Ok p -> pcl_normal c i = Ok n -> pcl_cov c i = Ok m ->
  pcl_apply blank c (SetPoint i p) = Ok c /\ pcl_apply blank c (SetNormal i n) = Ok c /\ pcl_apply blank c (SetCov i m) = Ok c.
Proof.
  intros blank c i p n m. unfold pcl_point, pcl_normal, pcl_cov, pcl_at. destruct (nth_error c i) as [q|] eqn:E; try discriminate. cbn [bind].
  intros [= <-] [= <-] [= <-]. cbn [pcl_apply]. unfold pcl_put, pcl_at. rewrite E. cbn [bind]. rewrite !cast4_back, cast_m4_back. destruct q.
  rewrite upd_same by exact E. auto.
Qed.
(** A data set converted to a PCL cloud holds the very floats of the file. *)
Definition pcl_resize blank (c : pcl_cloud) (n : nat) : outcome pcl_cloud := pcl_apply blank c (Resize n).
Definition pcl_set_point blank (c : pcl_cloud) (i : nat) (v : vec4 Fnum) : outcome pcl_cloud := pcl_apply blank c (SetPoint i v).
Definition raw_point (p : vec4f) : vec4 Snum := V4 (D := Snum) (decode (fx p)) (decode (fy p)) (decode (fz p)) (decode (fw p)).
Theorem C64_convert : forall blank raw,
  convert_frame [] (pcl_resize blank) (pcl_set_point blank) raw = Ok (map (fun p => mkPP (raw_point p) (pp_normal blank) (pp_cov blank)) raw).
Proof.
  intros blank raw. unfold convert_frame, pcl_resize. cbn [pcl_apply bind length]. rewrite firstn_nil, Nat.sub_0_r. cbn [app].
  assert (G : forall todo done, raw = done ++ todo ->
    foldM (fun c i => let* p := get raw i in pcl_set_point blank c i (cast_point p)) (seq (length done) (length todo))
      (map (fun p => mkPP (raw_point p) (pp_normal blank) (pp_cov blank)) done ++ repeat blank (length todo)) =
    Ok (map (fun p => mkPP (raw_point p) (pp_normal blank) (pp_cov blank)) raw)).
  { induction todo as [|p todo IH]; intros done E.
    - cbn [length seq foldM repeat]. rewrite E, !app_nil_r. reflexivity.
    - cbn [length seq foldM repeat]. rewrite (proj2 (get_Ok raw (length done) p)) by (rewrite E, nth_error_app2, Nat.sub_diag by lia; reflexivity).
      cbn [bind]. unfold pcl_set_point at 1. cbn [pcl_apply]. unfold pcl_put, pcl_at.
      rewrite nth_error_app2 by (rewrite map_length; lia). rewrite map_length, Nat.sub_diag. cbn [nth_error bind].
      specialize (IH (done ++ [p])). rewrite app_length in IH. cbn [length] in IH. rewrite Nat.add_1_r in IH. rewrite <- IH by (rewrite E, <- app_assoc; reflexivity).
      f_equal. rewrite map_app, <- app_assoc. cbn [map app].
      assert (U : cast4 (A := Fnum) (B := Snum) narrow (cast_point p) = raw_point p) by apply (cast4_back (raw_point p)). rewrite U.
      clear. induction done as [|q done IH]; cbn [map app length upd]; [reflexivity|]. f_equal. exact IH. }
  apply (G raw []). reflexivity.
Qed.

(** * How much is lost *)
Theorem C64_error : forall x y : f64, is_finite x = true -> (Rabs (B2R x) < float_limit)%R -> kept x y ->
  is_finite y = true /\ (Rabs (B2R y - B2R x) <= bpow radix2 (-24) * Rabs (B2R x) + bpow radix2 (-150))%R.
Proof.
  intros x y F L (s & (_ & _ & _ & N & _) & (_ & S2 & _ & S4)). destruct (N F L) as (FS & M). rewrite S2, S4. split; [exact FS|].
  eapply Rle_trans; [|apply round32_error].
  pose proof (narrow_finite x F) as H. rewrite Rlt_bool_true in H by (apply round32_below, L). destruct H as (H1 & H2 & _). rewrite <- H2. apply M, H1.
Qed.
(** Covariances keep their zeros, and stay positive definite when they were so by a margin of a
    millionth, as every estimated covariance is. *)
Lemma kept_zero x y : kept x y -> is_finite x = true -> B2R x = 0%R -> is_finite y = true /\ B2R y = 0%R.
Proof.
  intros K F Z. assert (L : (Rabs (B2R x) < float_limit)%R).
  { rewrite Z, Rabs_R0. unfold float_limit. pose proof (bpow_lt radix2 103 128 eq_refl). lra. }
  destruct K as (s & (_ & _ & _ & N & _) & (_ & S2 & _ & S4)). destruct (N F L) as (FS & M). rewrite S2, S4. split; [exact FS|].
  specialize (M (B754_zero false) eq_refl). rewrite Z in M. cbn [B2R] in M. rewrite !Rminus_0_r, Rabs_R0 in M. pose proof (Rabs_pos (B2R s)). 
  destruct (Req_dec (B2R s) 0) as [E|E]; [exact E|]. apply Rabs_no_R0 in E. lra.
Qed.
Lemma kept_entry x y : kept x y -> is_finite x = true /\ (Rabs (B2R x) <= 2)%R -> (Rabs (B2R y - B2R x) <= / 4000000)%R.
Proof.
  intros K (F & B). assert (G : (2 < float_limit)%R).
  { unfold float_limit. replace (bpow radix2 128) with (33554432 * bpow radix2 103)%R by (change 128%Z with (25 + 103)%Z; rewrite bpow_plus; reflexivity).
    pose proof (bpow_le radix2 1 103 ltac:(lia)) as H. change (bpow radix2 1) with 2%R in H. lra. }
  destruct (C64_error x y F (Rle_lt_trans _ _ _ B G) K) as (_ & H). eapply Rle_trans; [exact H|].
  assert (E1 : bpow radix2 (-24) = (/ 16777216)%R) by reflexivity. pose proof (bpow_le radix2 (-150) (-30) ltac:(lia)) as E2. assert (E3 : bpow radix2 (-30) = (/ 1073741824)%R) by reflexivity.
  rewrite E1. rewrite E3 in E2. pose proof (Rabs_pos (B2R x)). lra.
Qed.
Lemma bilinear_error (e x y d : R) : (Rabs e <= d -> 0 <= d -> - (d * (x * x + y * y)) <= 2 * (e * (x * y)))%R.
Proof.
  intros H D. unfold Rabs in H. assert (L : (- d <= e <= d)%R) by (destruct Rcase_abs in H; lra).
  pose proof (Rle_0_sqr (x + y)). pose proof (Rle_0_sqr (x - y)). unfold Rsqr in *. nra.
Qed.
Lemma upd_get {A} (l : list A) i x y : nth_error l i = Some y -> nth_error (upd l i x) i = Some x.
Proof. revert i. induction l as [|z l IH]; intros [|i] H; try discriminate; cbn in *; auto. Qed.
Lemma cov_stored blank c c' i C C' : pcl_apply blank c (SetCov i C) = Ok c' -> pcl_cov c' i = Ok C' ->
  C' = cast_m4 (A := Sfld) (B := Ffld) widen (cast_m4 (A := Ffld) (B := Sfld) narrow C).
Proof.
  cbn [pcl_apply]. unfold pcl_put, pcl_cov, pcl_at. destruct (nth_error c i) as [q|] eqn:E; [|discriminate]. cbn [bind]. intros [= <-].
  rewrite (upd_get c i _ q E). cbn [bind pp_cov]. intros [= <-]. reflexivity.
Qed.
Theorem C64_covariances : forall blank c c' i (C C' : m4 Ffld) (margin : R),
  pcl_apply blank c (SetCov i C) = Ok c' -> pcl_cov c' i = Ok C' ->
  every3 (fun x => is_finite x = true /\ Rabs (B2R x) <= 2)%R (b33 C) ->
  (forall x y z, margin * (x * x + y * y + z * z) <= form (b33 C) x y z)%R ->
  (forall x y z, (margin - / 1000000) * (x * x + y * y + z * z) <= form (b33 C') x y z)%R /\
  (tr3 (b33 C) = b33 C -> tr3 (b33 C') = b33 C') /\
  (forall v v', In (v, v') [(p0 (b34 C), p0 (b34 C')); (p1 (b34 C), p1 (b34 C')); (p2 (b34 C), p2 (b34 C'));
                            (p0 (b43 C), p0 (b43 C')); (p1 (b43 C), p1 (b43 C')); (p2 (b43 C), p2 (b43 C')); (b44 C, b44 C')] ->
     is_finite (v : f64) = true -> B2R (v : f64) = 0%R -> B2R (v' : f64) = 0%R).
Proof.
  intros blank c c' i C C' margin W G E P. pose proof (cov_stored _ _ _ _ _ _ W G) as S. assert (K : kept_m4 C C') by (rewrite S; apply kept_m4_stored). split; [|split].
  - destruct K as (((K00 & K01 & K02) & (K10 & K11 & K12) & (K20 & K21 & K22)) & _). destruct E as (E00 & E01 & E02 & E10 & E11 & E12 & E20 & E21 & E22).
    pose proof (kept_entry _ _ K00 E00) as D00. pose proof (kept_entry _ _ K01 E01) as D01. pose proof (kept_entry _ _ K02 E02) as D02.
    pose proof (kept_entry _ _ K10 E10) as D10. pose proof (kept_entry _ _ K11 E11) as D11. pose proof (kept_entry _ _ K12 E12) as D12.
    pose proof (kept_entry _ _ K20 E20) as D20. pose proof (kept_entry _ _ K21 E21) as D21. pose proof (kept_entry _ _ K22 E22) as D22.
    clear - P D00 D01 D02 D10 D11 D12 D20 D21 D22.
    intros x y z. specialize (P x y z). unfold form in *.
    set (d := (/ 4000000)%R) in *. assert (DP : (0 <= d)%R) by (unfold d; lra).
    pose proof (bilinear_error _ x x d D00 DP). pose proof (bilinear_error _ x y d D01 DP). pose proof (bilinear_error _ x z d D02 DP).
    pose proof (bilinear_error _ x y d D10 DP). pose proof (bilinear_error _ y y d D11 DP). pose proof (bilinear_error _ y z d D12 DP).
    pose proof (bilinear_error _ x z d D20 DP). pose proof (bilinear_error _ y z d D21 DP). pose proof (bilinear_error _ z z d D22 DP).
    clear D00 D01 D02 D10 D11 D12 D20 D21 D22.
    repeat match goal with |- context [B2R ?t] => let v := fresh "c" in set (v := B2R t) in *; clearbody v end.
    repeat match goal with H : context [B2R ?t] |- _ => let v := fresh "c" in set (v := B2R t) in *; clearbody v end.
    replace (/ 1000000)%R with (4 * d)%R by (unfold d; lra). clearbody d. 
    pose proof (Rle_0_sqr x). pose proof (Rle_0_sqr y). pose proof (Rle_0_sqr z). unfold Rsqr in *.
    assert (0 <= d * (x * x) /\ 0 <= d * (y * y) /\ 0 <= d * (z * z))%R by (split; [|split]; apply Rmult_le_pos; assumption).
    lra.
  - intros Y. rewrite S. clear - Y. destruct C as [[[a b c] [d e f] [g h i]] bv cv bb]. unfold tr3, c0, c1, c2 in *. cbn [b33 r0 r1 r2 p0 p1 p2 cast_m4 cast_m3 cast_v3] in *.
    injection Y. intros. subst. reflexivity.
  - intros v v' I F Z. destruct K as (_ & (J0 & J1 & J2) & (L0 & L1 & L2) & K44). cbn [In] in I.
    destruct I as [I|[I|[I|[I|[I|[I|[I|[]]]]]]]]; injection I as <- <-; eapply kept_zero; eassumption.
Qed.

(** A cloud that was only resized claims to have normals and covariances. *)
Theorem C64_attributes_refuted : forall blank n, 0 < n -> exists c, pcl_run blank [Resize n] [] = Ok c /\
  pcl_has_points c = true /\ pcl_has_normals c = true /\ pcl_has_covs c = true /\
  (forall i, i < n -> pcl_cov c i = pcl_cov [blank] 0 /\ pcl_normal c i = pcl_normal [blank] 0).
Proof.
  intros blank n L. eexists. split; [reflexivity|]. cbn [length]. rewrite firstn_nil, Nat.sub_0_r. cbn [app].
  destruct n as [|n]; [lia|]. split; [reflexivity|]. split; [reflexivity|]. split; [reflexivity|]. intros i Hi.
  unfold pcl_cov, pcl_normal, pcl_at. rewrite nth_repeat. replace (i <? S n) with true by lia. auto.
Qed.

(** * Instances *)
Definition float_zero : f32 := B754_zero false.
Definition zero_point : ppoint :=
  let z := V4 (D := Snum) float_zero float_zero float_zero float_zero in
  let z3 := P3 (D := Sfld) float_zero float_zero float_zero in mkPP z z (B4 (M3 z3 z3 z3) z3 z3 float_zero).
Definition given : vec4 Fnum := V4 (D := Fnum) (f64_div (f64_of 1 0) (f64_of 10 0)) (f64_of 3 (-1)) (f64_of 1 200) (f64_of 1 0).
(** 0.1 becomes the float 13421773 / 2^27, 1.5 stays, 2^200 becomes infinite. *)
Example C64_instance : in_range (rev [Resize 1; SetPoint 0 given] : list (op (vec4 Fnum) (m4 Ffld))) /\ exists c,
  pcl_run zero_point [Resize 1; SetPoint 0 given] [] = Ok c /\
  pcl_point c 0 = Ok (V4 (D := Fnum) (f64_of 13421773 (-27)) (f64_of 3 (-1)) (B754_infinity false) (f64_of 1 0)) /\ pcl_point c 1 = Abort.
Proof.
  assert (E0 : widen (narrow (f64_div (f64_of 1 0) (f64_of 10 0))) = f64_of 13421773 (-27)) by (apply B2SF_inj; vm_compute; reflexivity).
  assert (E1 : widen (narrow (f64_of 3 (-1))) = f64_of 3 (-1)) by (apply B2SF_inj; vm_compute; reflexivity).
  assert (E2 : widen (narrow (f64_of 1 200)) = B754_infinity false) by (apply B2SF_inj; vm_compute; reflexivity).
  assert (E3 : widen (narrow (f64_of 1 0)) = f64_of 1 0) by (apply B2SF_inj; vm_compute; reflexivity).
  split; [cbn; lia|]. eexists. split; [reflexivity|]. split; [|reflexivity].
  transitivity (Ok (V4 (D := Fnum) (widen (narrow (f64_div (f64_of 1 0) (f64_of 10 0)))) (widen (narrow (f64_of 3 (-1)))) (widen (narrow (f64_of 1 200))) (widen (narrow (f64_of 1 0))))); [reflexivity|].
  rewrite E0, E1, E2, E3. reflexivity.
Qed.
Definition flat_cov : m4 Ffld :=
  let z : car Ffld := f64_of 0 0 in let o : car Ffld := f64_of 1 0 in let e : car Ffld := f64_of 1 (-9) in
  B4 (M3 (P3 o z z) (P3 z o z) (P3 z z e)) (P3 z z z) (P3 z z z) z.
Example C64_cov_instance :
  every3 (fun x => is_finite x = true /\ Rabs (B2R x) <= 2)%R (b33 flat_cov) /\ tr3 (b33 flat_cov) = b33 flat_cov /\
  (forall x y z, / 512 * (x * x + y * y + z * z) <= form (b33 flat_cov) x y z)%R.
Proof.
  assert (V0 : B2R (f64_of 0 0) = 0%R) by reflexivity.
  assert (V1 : B2R (f64_of 1 0) = 1%R).
  { assert (f64_of 1 0 = @B754_finite 53 1024 false 4503599627370496 (-52) eq_refl) as -> by (apply B2SF_inj; vm_compute; reflexivity).
    unfold B2R, F2R. cbn [Defs.Fnum Defs.Fexp cond_Zopp]. change (bpow radix2 (-52)) with (/ 4503599627370496)%R. lra. }
  assert (V2 : B2R (f64_of 1 (-9)) = (/ 512)%R).
  { assert (f64_of 1 (-9) = @B754_finite 53 1024 false 4503599627370496 (-61) eq_refl) as -> by (apply B2SF_inj; vm_compute; reflexivity).
    unfold B2R, F2R. cbn [Defs.Fnum Defs.Fexp cond_Zopp]. change (bpow radix2 (-61)) with (/ 2305843009213693952)%R. lra. }
  split; [|split; [reflexivity|]].
  - unfold every3, flat_cov. cbn [b33 r0 r1 r2 p0 p1 p2]. rewrite V0, V1, V2. rewrite Rabs_R0, Rabs_R1, (Rabs_pos_eq (/ 512)) by lra.
    assert (F0 : is_finite (f64_of 0 0) = true) by reflexivity. assert (F1 : is_finite (f64_of 1 0) = true) by (vm_compute; reflexivity). assert (F2 : is_finite (f64_of 1 (-9)) = true) by (vm_compute; reflexivity).
    rewrite F0, F1, F2. repeat split; lra.
  - intros x y z. unfold form, flat_cov. cbn [b33 r0 r1 r2 p0 p1 p2]. rewrite V0, V1, V2. pose proof (Rle_0_sqr x). pose proof (Rle_0_sqr y). unfold Rsqr in *. lra.
Qed.

Print Assumptions C64_history.
Print Assumptions C64_write_back.
Print Assumptions C64_convert.
Print Assumptions C64_error.
Print Assumptions C64_covariances.
Print Assumptions C64_attributes_refuted.
