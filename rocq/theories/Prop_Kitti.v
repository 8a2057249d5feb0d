(** C63: the data set reader. *)
From Coq Require Import Reals Lra Psatz ZArith List Ascii String Permutation Sorted.
From Coq Require Import ZifyBool ZifyNat ZifyN.
From Flocq Require Import Core IEEE754.BinarySingleNaN.
From Verif Require Import Base BaseProofs Num F64 F32 F32Proofs Vec IoModel IoSpec IoProofs CloudModel CloudProofs KittiModel KittiSpec Prop_Io.
Import ListNotations.
Open Scope nat_scope.
Local Open Scope list_scope.

(** * Names *)
Lemma last_dot_spec s : match last_dot s with
  | Some e => exists p r, s = p ++ e /\ e = "."%char :: r /\ ~ In "."%char r
  | None => ~ In "."%char s end.
Proof.
  induction s as [|c t IH]; cbn [last_dot]; [auto|]. destruct (last_dot t) as [e|].
  - destruct IH as (p & r & -> & E & N). exists (c :: p), r. auto.
  - destruct (Ascii.eqb_spec c ".") as [->|NE]; [|cbn; intuition]. exists [], t. auto.
Qed.
Lemma last_dot_unique s p r : s = p ++ "."%char :: r -> ~ In "."%char r -> last_dot s = Some ("."%char :: r).
Proof.
  intros -> N. induction p as [|c p IH]; cbn [app last_dot].
  - pose proof (last_dot_spec r) as H. destruct (last_dot r) as [e|]; [|rewrite Ascii.eqb_refl; reflexivity].
    destruct H as (q & r' & -> & -> & _). exfalso. apply N. apply in_or_app. right. left. reflexivity.
  - rewrite IH. reflexivity.
Qed.
Lemma bytes_eqb_spec a b : bytes_eqb a b = true <-> a = b.
Proof. unfold bytes_eqb. destruct (list_eq_dec ascii_dec a b); split; congruence. Qed.
Lemma scan_name_extension n : bytes_eqb (extension n) (chars ".bin") = true <-> scan_name n.
Proof.
  rewrite bytes_eqb_spec. unfold scan_name. change (chars ".bin") with ("."%char :: chars "bin").
  assert (NB : ~ In "."%char (chars "bin")) by (cbn; intuition discriminate).
  destruct n as [|c t].
  - cbn [extension]. split; [discriminate|]. intros (s & _ & E). destruct s; discriminate.
  - cbn [extension]. destruct (bytes_eqb (c :: t) (chars "..")) eqn:DD.
    + apply bytes_eqb_spec in DD. injection DD as -> ->. split; [discriminate|]. intros (s & _ & E). destruct s as [|? [|? [|? ?]]]; discriminate.
    + split.
      * intros E. pose proof (last_dot_spec t) as L. destruct (last_dot t) as [e|]; [|discriminate]. destruct L as (p & r & -> & _ & _).
        exists (c :: p). subst e. split; [discriminate|reflexivity].
      * intros (s & NE & E). destruct s as [|c' s]; [congruence|]. cbn [app] in E. injection E as -> E.
        rewrite (last_dot_unique t s (chars "bin") E NB). reflexivity.
Qed.

(** * The order of the files *)
Lemma chars_inj a b : chars a = chars b -> a = b.
Proof. unfold chars. intros E. rewrite <- (string_of_list_ascii_of_string a), <- (string_of_list_ascii_of_string b), E. reflexivity. Qed.
Lemma before_cons c a b : before a b -> before (c :: a) (c :: b).
Proof.
  intros [(d & r & ->)|(p & x & y & r & s & -> & -> & L)]; [left|right].
  - exists d, r. reflexivity.
  - exists (c :: p), x, y, r, s. auto.
Qed.
Lemma ascii_lt c d : c <> d -> nat_of_ascii c < nat_of_ascii d \/ nat_of_ascii d < nat_of_ascii c.
Proof.
  intros NE. assert (nat_of_ascii c <> nat_of_ascii d); [|lia]. intros E. apply NE. rewrite <- (ascii_nat_embedding c), <- (ascii_nat_embedding d), E. reflexivity.
Qed.
Lemma before_total a : forall b, a = b \/ before a b \/ before b a.
Proof.
  induction a as [|c a IH]; intros [|d b].
  - auto.
  - right. left. left. exists d, b. reflexivity.
  - right. right. left. exists c, a. reflexivity.
  - destruct (ascii_dec c d) as [<-|NE].
    + destruct (IH b) as [<-|[H|H]]; auto using before_cons.
    + right. destruct (ascii_lt c d NE) as [L|L]; [left|right]; right; [exists [], c, d, a, b|exists [], d, c, b, a]; auto.
Qed.
(** Two sorted arrangements of the same distinct strings are the same. *)
Lemma sorted_unique (l1 : list string) : forall l2, Permutation l1 l2 ->
  StronglySorted (fun a b => ~ before (chars b) (chars a)) l1 -> StronglySorted (fun a b => ~ before (chars b) (chars a)) l2 -> l1 = l2.
Proof.
  induction l1 as [|x l1 IH]; intros l2 P S1 S2.
  - apply Permutation_nil in P. auto.
  - destruct l2 as [|y l2]; [apply Permutation_sym, Permutation_nil in P; discriminate|].
    inversion S1 as [|? ? S1' F1]; inversion S2 as [|? ? S2' F2]; subst. rewrite Forall_forall in F1, F2.
    assert (x = y).
    { destruct (string_dec x y) as [E|NE]; [exact E|]. exfalso.
      assert (In y l1) by (destruct (Permutation_in y (Permutation_sym P) (or_introl eq_refl)); [congruence|assumption]).
      assert (In x l2) by (destruct (Permutation_in x P (or_introl eq_refl)); [congruence|assumption]).
      destruct (before_total (chars x) (chars y)) as [E|[B|B]]; [apply chars_inj in E; congruence|eapply F2; eauto|eapply F1; eauto]. }
    subst y. f_equal. apply IH; auto. eapply Permutation_cons_inv. exact P.
Qed.
Lemma read_points_total w n : exists ps, read_points w n = Ok ps.
Proof.
  destruct (w n) as [b|] eqn:E.
  - destruct (C41_any_file w n b E) as (ps & tr & _ & _ & H). eauto.
  - exists []. apply (C41_failures (fun _ => true) w n []). exact E.
Qed.
Lemma read_all w l : exists frames, mapM (read_points w) l = Ok frames /\ Forall2 (fun n f => read_points w n = Ok f) l frames.
Proof.
  induction l as [|n l IH]; [exists []; auto|]. destruct IH as (fr & E & F). destruct (read_points_total w n) as (ps & H).
  exists (ps :: fr). cbn [mapM]. rewrite H. cbn [bind]. rewrite E. auto.
Qed.
Lemma path_inj dir a b : path_of dir a = path_of dir b -> a = b.
Proof.
  unfold path_of. intros E. assert (A : forall (s x y : string), String.append s x = String.append s y -> x = y).
  { induction s as [|c s IH]; cbn; intros x y H; [exact H|]. injection H as H. auto. }
  apply A in E. apply (A "/"%string) in E. rewrite <- (list_ascii_of_string_of_list_ascii a), <- (list_ascii_of_string_of_list_ascii b), E. reflexivity.
Qed.
Lemma strictly_sorted l : NoDup l -> StronglySorted (fun a b => ~ before (chars b) (chars a)) l -> StronglySorted (fun a b => before (chars a) (chars b)) l.
Proof.
  intros ND S. induction S as [|x l S IH F]; [constructor|]. inversion ND as [|? ? NI ND']; subst. constructor; [auto|].
  rewrite Forall_forall in *. intros y I. destruct (before_total (chars x) (chars y)) as [E|[B|B]]; [|exact B|exfalso; eapply F; eauto].
  apply chars_inj in E. subst y. contradiction.
Qed.
Lemma firstn_cap {A} k (l : list A) : (if k <? length l then firstn k l else l) = firstn k l.
Proof. destruct (Nat.ltb_spec k (length l)); [reflexivity|]. symmetry. apply firstn_all2. lia. Qed.

(** The frames are the scans of the directory in the order of their names, at most as many as
    asked for; a file that cannot be opened is an empty frame. *)
Theorem C63_frames : forall sort w dir names max, sorts sort -> NoDup names -> exists files frames,
  StronglySorted (fun a b => before (chars a) (chars b)) files /\
  (forall p, In p files <-> exists n, In n names /\ scan_name n /\ p = path_of dir n) /\
  kitti_open sort w dir (Some names) max = Ok frames /\
  Forall2 (fun p f => read_points w p = Ok f /\ (w p = None -> f = [])) (firstn max files) frames.
Proof.
  intros sort w dir names max HS ND. set (all := map (path_of dir) (filter (fun n => bytes_eqb (extension n) (chars ".bin")) names)).
  destruct (HS all) as (P & S). destruct (read_all w (firstn max (sort all))) as (frames & E & F).
  exists (sort all), frames. split; [|split; [|split]].
  - apply strictly_sorted; [|exact S]. eapply Permutation_NoDup; [exact P|]. unfold all. apply FinFun.Injective_map_NoDup.
    + intros a b. apply path_inj.
    + apply NoDup_filter. exact ND.
  - intros p. rewrite <- (Permutation_in' (eq_refl p) P). unfold all. rewrite in_map_iff. split.
    + intros (n & <- & I). apply filter_In in I. destruct I as (I & X). exists n. rewrite <- scan_name_extension. auto.
    + intros (n & I & X & ->). exists n. split; [reflexivity|]. apply filter_In. rewrite scan_name_extension. auto.
  - unfold kitti_open. fold all. rewrite firstn_cap. exact E.
  - clear - F. induction F as [|p f l fr H F IH]; constructor; auto. split; [exact H|]. intros N.
    rewrite (proj1 (C41_failures (fun _ => true) w p []) N) in H. congruence.
Qed.
(** The order in which the operating system lists the directory does not matter, nor which sort
    is used. *)
Theorem C63_listing_order : forall sort sort' w dir names names' max, sorts sort -> sorts sort' -> Permutation names names' ->
  kitti_open sort w dir (Some names) max = kitti_open sort' w dir (Some names') max.
Proof.
  intros sort sort' w dir names names' max HS HS' P. unfold kitti_open.
  set (all := map (path_of dir) (filter _ names)). set (all' := map (path_of dir) (filter _ names')).
  assert (PA : Permutation all all').
  { unfold all, all'. apply Permutation_map. clear - P. induction P; cbn [filter].
    - constructor.
    - destruct (bytes_eqb _ _); auto.
    - destruct (bytes_eqb (extension x) _), (bytes_eqb (extension y) _); auto. apply perm_swap.
    - eapply Permutation_trans; eauto. }
  replace (sort' all') with (sort all); [reflexivity|]. destruct (HS all) as (Q & S), (HS' all') as (Q' & S').
  apply sorted_unique; auto. eapply Permutation_trans; [exact (Permutation_sym Q)|]. eapply Permutation_trans; [exact PA|exact Q'].
Qed.

(** * Numbers *)
Lemma widen_same (x : f32) : same_number x (widen x).
Proof.
  unfold same_number. destruct (is_finite x) eqn:F.
  - destruct (widen_finite x F) as (A & B & C). rewrite A, B, C. destruct x; try discriminate; destruct (widen _); try discriminate; auto.
  - destruct x; try discriminate; cbn; auto.
Qed.
Lemma byte_range c : (0 <= byte c < 256)%Z.
Proof. unfold byte. destruct c as [[] [] [] [] [] [] [] []]; vm_compute; split; congruence. Qed.
Lemma word_range f : (0 <= word32 f < 4294967296)%Z.
Proof. destruct f as [[[a b] c] d]. cbn [word32]. pose proof (byte_range a). pose proof (byte_range b). pose proof (byte_range c). pose proof (byte_range d). lia. Qed.
Lemma normalize_exact m e (s : bool) : (0 <= m < 16777216)%Z -> (-149 <= e <= 104)%Z -> (m = 0 \/ e = -149 \/ 8388608 <= m)%Z ->
  let x := binary_normalize 24 128 prec24 prec24lt mode_NE (if s then (- m)%Z else m) e s in
  is_finite x = true /\ B2R x = ((if s then -1 else 1) * (IZR m * bpow radix2 e))%R /\ Bsign x = s.
Proof.
  intros M E N x. pose proof (binary_normalize_correct 24 128 _ _ mode_NE (if s then (- m)%Z else m) e s) as H. cbv zeta in H. fold x in H.
  set (v := F2R {| Defs.Fnum := if s then (- m)%Z else m; Defs.Fexp := e |}) in *.
  assert (V : v = ((if s then -1 else 1) * (IZR m * bpow radix2 e))%R).
  { unfold v, F2R. cbn [Defs.Fnum Defs.Fexp]. destruct s; [rewrite opp_IZR|]; ring. }
  assert (AB : (Rabs v < bpow radix2 128)%R).
  { rewrite V, Rabs_mult. replace (Rabs (if s then -1 else 1))%R with 1%R by (unfold Rabs; destruct s; destruct Rcase_abs; lra).
    rewrite Rmult_1_l, Rabs_mult, (Rabs_pos_eq (bpow _ _)) by apply bpow_ge_0. rewrite Rabs_pos_eq by (apply IZR_le; lia).
    apply Rlt_le_trans with (bpow radix2 24 * bpow radix2 104)%R; [|rewrite <- bpow_plus; apply bpow_le; lia].
    apply Rlt_le_trans with (bpow radix2 24 * bpow radix2 e)%R.
    - apply Rmult_lt_compat_r; [apply bpow_gt_0|]. change (bpow radix2 24) with (IZR 16777216). apply IZR_lt. lia.
    - apply Rmult_le_compat_l; [apply bpow_ge_0|]. apply bpow_le. lia. }
  assert (G : generic_format radix2 fexp32 v).
  { unfold v. change fexp32 with (FLT_exp (-149) 24). apply generic_format_FLT. exists (Float radix2 (if s then (- m)%Z else m) e); cbn [Defs.Fnum Defs.Fexp].
    - reflexivity.
    - destruct s; change (Zpower radix2 24) with 16777216%Z; lia.
    - lia. }
  change (SpecFloat.fexp 24 128) with fexp32 in H. rewrite (round_generic radix2 fexp32 _ v G) in H. rewrite Rlt_bool_true in H by exact AB.
  destruct H as (H1 & H2 & H3). split; [exact H2|]. split; [rewrite H1; exact V|]. rewrite H3, V.
  destruct (Z.eq_dec m 0) as [->|MN].
  - rewrite Rcompare_Eq; [reflexivity|]. destruct s; lra.
  - assert (PV : (0 < IZR m * bpow radix2 e)%R) by (apply Rmult_lt_0_compat; [apply IZR_lt; lia|apply bpow_gt_0]).
    destruct s; [rewrite Rcompare_Lt by lra|rewrite Rcompare_Gt by lra]; reflexivity.
Qed.
(** The four bytes of a coordinate are read as the IEEE number they hold, and the cast to double
    keeps it: sign bit, exponent field, fraction. *)
Theorem C63_numbers : forall f, exists (s : bool) (e m : Z), (0 <= e < 256 /\ 0 <= m < 8388608 /\
  word32 f = (if s then 2147483648 else 0) + 8388608 * e + m)%Z /\
  same_number (decode f) (widen (decode f)) /\
  (if (e =? 255)%Z then (if (m =? 0)%Z then decode f = B754_infinity s else is_nan (decode f) = true)
   else is_finite (decode f) = true /\ Bsign (decode f) = s /\ B2R (decode f) = ieee_value s e m).
Proof.
  intros f. pose proof (word_range f) as W. unfold decode. set (n := word32 f) in *.
  exists (n / 2147483648 =? 1)%Z, (n / 8388608 mod 256)%Z, (n mod 8388608)%Z.
  set (s := (n / 2147483648 =? 1)%Z). set (e := (n / 8388608 mod 256)%Z). set (m := (n mod 8388608)%Z).
  assert (RE : (0 <= e < 256)%Z) by (apply Z.mod_pos_bound; lia). assert (RM : (0 <= m < 8388608)%Z) by (apply Z.mod_pos_bound; lia).
  split; [|split].
  - repeat split; try lia. unfold s, e, m. destruct (Z.eqb_spec (n / 2147483648) 1); Z.div_mod_to_equations; lia.
  - apply widen_same.
  - clearbody s e m. clear n W. unfold ieee_value. destruct (Z.eqb_spec e 255).
    + destruct (m =? 0)%Z; reflexivity.
    + destruct (Z.eqb_spec e 0) as [->|NE].
      * destruct (normalize_exact m (-149) s) as (A & B & C); [lia|lia|lia|]. rewrite A, B, C. auto.
      * destruct (normalize_exact (m + 8388608) (e - 150) s) as (A & B & C); [lia|lia|lia|]. rewrite A, B, C. split; [reflexivity|]. split; [reflexivity|].
        f_equal. rewrite plus_IZR. replace (e - 127)%Z with (23 + (e - 150))%Z by lia. rewrite bpow_plus. change (bpow radix2 23) with 8388608%R. field.
Qed.

(** * Conversion *)
Lemma convert_loop {M} (raw : list vec4f) : forall todo done (c : pcloud (vec4 Fnum) M) N K, raw = done ++ todo ->
  c = mkPC (map (fun p => Some (cast_point p)) done ++ repeat None (length todo)) N K ->
  foldM (fun c i => let* p := get raw i in cloud_set_point c i (cast_point p)) (seq (length done) (length todo)) c =
    Ok (mkPC (map (fun p => Some (cast_point p)) raw) N K).
Proof.
  induction todo as [|p todo IH]; intros done c N K E ->.
  - cbn [length seq foldM repeat]. rewrite E, !app_nil_r. reflexivity.
  - cbn [length seq foldM repeat]. rewrite (proj2 (get_Ok raw (length done) p)) by (rewrite E, nth_error_app2, Nat.sub_diag by lia; reflexivity).
    cbn [bind]. unfold cloud_set_point at 1. cbn [apply pc_points pc_normals pc_covs].
    rewrite set_Ok by (rewrite app_length, map_length; cbn [length]; lia). cbn [bind].
    specialize (IH (done ++ [p])). rewrite app_length in IH. cbn [length] in IH. rewrite Nat.add_1_r in IH. apply IH.
    + rewrite E, <- app_assoc. reflexivity.
    + f_equal. rewrite map_app, <- app_assoc. cbn [map app]. clear. induction done as [|q done IH]; cbn [map app length upd]; [reflexivity|]. f_equal. exact IH.
Qed.
Lemma convert_frame_spec {M} raw : convert_frame (C := pcloud (vec4 Fnum) M) pc_empty cloud_resize cloud_set_point raw =
  Ok (mkPC (map (fun p => Some (cast_point p)) raw) (repeat None (length raw)) (repeat None (length raw))).
Proof.
  unfold convert_frame, cloud_resize. cbn [apply bind pc_empty pc_points pc_normals pc_covs]. unfold vresize. rewrite !firstn_nil. cbn [app length]. rewrite Nat.sub_0_r.
  apply (convert_loop raw raw []); reflexivity.
Qed.
(** Every point of every frame arrives, in its place, with the same coordinates and fourth
    coordinate one; nothing else is set.  Releasing empties the data set and changes nothing of
    what is returned. *)
Theorem C63_convert : forall M release frames, exists cs,
  convert_clouds (M := M) release frames = Ok (cs, if release then [] else frames) /\
  Forall2 (fun raw c => pc_points c = map (fun p => Some (cast_point p)) raw /\
                        pc_normals c = repeat None (length raw) /\ pc_covs c = repeat None (length raw)) frames cs /\
  convert_clouds (M := M) release (if release then [] else frames) = Ok (if release then [] else cs, if release then [] else frames).
Proof.
  intros M release frames.
  assert (G : exists cs, mapM (convert_frame (C := pcloud (vec4 Fnum) M) pc_empty cloud_resize cloud_set_point) frames = Ok cs /\
    Forall2 (fun raw c => pc_points c = map (fun p => Some (cast_point p)) raw /\ pc_normals c = repeat None (length raw) /\ pc_covs c = repeat None (length raw)) frames cs).
  { induction frames as [|raw frames IH]; [exists []; auto|]. destruct IH as (cs & E & F). eexists. cbn [mapM]. rewrite convert_frame_spec. cbn [bind]. rewrite E.
    split; [reflexivity|]. constructor; auto. }
  destruct G as (cs & E & F). exists cs. unfold convert_clouds, convert. destruct release.
  - rewrite E. cbn [bind mapM]. auto.
  - rewrite E. cbn [bind]. auto.
Qed.
(** What write_points stored comes back: the frame of a file holds the points that were written,
    coordinate by coordinate the same number, and one as the fourth. *)
Theorem C63_stored_scans : forall w path (points : list vec4f), w path = Some (flat_map point_bytes points) ->
  exists raw, read_points w path = Ok raw /\
  Forall2 (fun p (v : vec4 Fnum) => same_number (decode (fx p)) (vx v) /\ same_number (decode (fy p)) (vy v) /\
                                    same_number (decode (fz p)) (vz v) /\ vw v = f64_of 1 0) points (map cast_point raw).
Proof.
  intros w path points E. exists (map homogeneous points). split.
  - pose proof (C41_round_trip (fun _ => true) w path points eq_refl) as H. cbv zeta in H. destruct H as (H & _).
    unfold read_points, write_points, fs_put in *. rewrite String.eqb_refl in H. rewrite E. exact H.
  - rewrite map_map. assert (O : widen (decode one32) = f64_of 1 0) by (apply B2SF_inj; vm_compute; reflexivity).
    induction points as [|p points IH]; constructor.
    + cbn [cast_point homogeneous fx fy fz fw vx vy vz vw]. rewrite O. auto using widen_same.
    + clear E. revert IH. intros IH. clear IH. induction points as [|q points IH]; constructor; auto.
      cbn [cast_point homogeneous fx fy fz fw vx vy vz vw]. rewrite O. auto using widen_same.
Qed.

(** * A sort that meets the contract, and a directory *)
Fixpoint less (a b : bytes) : bool :=
  match a, b with
  | _, [] => false
  | [], _ :: _ => true
  | c :: a, d :: b => (nat_of_ascii c <? nat_of_ascii d) || (Ascii.eqb c d && less a b)
  end.
Lemma less_before a : forall b, before a b -> less a b = true.
Proof.
  induction a as [|c a IH]; intros b [(d & r & ->)|(p & x & y & r & s & E1 & E2 & L)].
  - reflexivity.
  - destruct p; discriminate.
  - cbn [app less]. rewrite Ascii.eqb_refl, IH; [cbn; apply orb_true_r|]. left. exists d, r. reflexivity.
  - subst b. destruct p as [|c' p]; cbn [app] in *.
    + injection E1 as -> ->. cbn [less]. apply Nat.ltb_lt in L. rewrite L. reflexivity.
    + injection E1 as -> ->. cbn [less]. rewrite Ascii.eqb_refl, IH; [cbn; apply orb_true_r|]. right. exists p, x, y, r, s. auto.
Qed.
Lemma less_before_iff a : forall b, less a b = true <-> before a b.
Proof.
  intros b. split; [|apply less_before]. revert b. induction a as [|c a IH]; intros [|d b] H; try discriminate.
  - left. exists d, b. reflexivity.
  - cbn [less] in H. apply orb_true_iff in H. destruct H as [H|H].
    + apply Nat.ltb_lt in H. right. exists [], c, d, a, b. auto.
    + apply andb_true_iff in H. destruct H as (E & H). apply Ascii.eqb_eq in E. subst d. apply before_cons. auto.
Qed.
Lemma less_trans a : forall b c, less a b = true -> less b c = true -> less a c = true.
Proof.
  induction a as [|x a IH]; intros [|y b] [|z c] H1 H2; try discriminate; [reflexivity|]. cbn [less] in *.
  apply orb_true_iff in H1, H2. apply orb_true_iff. destruct H1 as [H1|H1], H2 as [H2|H2].
  - left. apply Nat.ltb_lt in H1, H2. apply Nat.ltb_lt. lia.
  - apply andb_true_iff in H2. destruct H2 as (E & _). apply Ascii.eqb_eq in E. subst. auto.
  - apply andb_true_iff in H1. destruct H1 as (E & _). apply Ascii.eqb_eq in E. subst. auto.
  - right. apply andb_true_iff in H1, H2. destruct H1 as (E & H1), H2 as (E2 & H2). apply Ascii.eqb_eq in E, E2. subst. rewrite Ascii.eqb_refl. cbn. eauto.
Qed.
Lemma less_irrefl a : less a a = false.
Proof. induction a as [|x a IH]; [reflexivity|]. cbn [less]. rewrite Nat.ltb_irrefl, IH, andb_false_r. reflexivity. Qed.
(** * Numbered scans *)
Lemma decimal_acc b : forall acc, fold_left (fun a c => 10 * a + (Z.of_nat (nat_of_ascii c) - 48))%Z b acc = (acc * 10 ^ Z.of_nat (length b) + decimal b)%Z.
Proof.
  unfold decimal. induction b as [|c b IH]; intros acc; cbn [fold_left length]; [rewrite Z.pow_0_r; lia|].
  rewrite IH, (IH (10 * 0 + _)%Z), Nat2Z.inj_succ, Z.pow_succ_r by lia. ring.
Qed.
Lemma decimal_cons c b : decimal (c :: b) = ((Z.of_nat (nat_of_ascii c) - 48) * 10 ^ Z.of_nat (length b) + decimal b)%Z.
Proof. unfold decimal at 1. cbn [fold_left]. rewrite decimal_acc. ring. Qed.
Lemma decimal_range b : Forall is_digit b -> (0 <= decimal b < 10 ^ Z.of_nat (length b))%Z.
Proof.
  induction 1 as [|c b (d & R & E) F IH]; [cbn; lia|]. rewrite decimal_cons. cbn [length]. rewrite E, Nat2Z.inj_succ, Z.pow_succ_r by lia.
  rewrite Z2Nat.id by lia. nia.
Qed.
Lemma less_same_end a : forall b e, length a = length b -> less (a ++ e) (b ++ e) = less a b.
Proof.
  induction a as [|c a IH]; intros [|d b] e L; try discriminate; cbn [app less].
  - apply less_irrefl.
  - rewrite IH by (cbn in L; lia). reflexivity.
Qed.
Lemma less_decimal a : forall b, length a = length b -> Forall is_digit a -> Forall is_digit b -> less a b = true <-> (decimal a < decimal b)%Z.
Proof.
  induction a as [|c a IH]; intros [|d b] L Fa Fb; try discriminate; [split; [discriminate|cbn; lia]|].
  cbn [length] in L. injection L as L. inversion Fa as [|? ? Da Fa']; inversion Fb as [|? ? Db Fb']; subst.
  cbn [less]. rewrite !decimal_cons. pose proof (decimal_range a Fa') as Ra. pose proof (decimal_range b Fb') as Rb. specialize (IH b L Fa' Fb'). rewrite L in *.
  destruct Da as (x & Rx & Ex), Db as (y & Ry & Ey). rewrite orb_true_iff, andb_true_iff, IH, Nat.ltb_lt, Ascii.eqb_eq.
  assert (EQ : c = d <-> x = y).
  { split; [intros ->; rewrite Ex in Ey; lia|]. intros ->. rewrite <- (ascii_nat_embedding c), <- (ascii_nat_embedding d). congruence. }
  rewrite EQ, Ex, Ey, !Z2Nat.id by lia. replace (48 + x - 48)%Z with x by lia. replace (48 + y - 48)%Z with y by lia.
  set (P := (10 ^ Z.of_nat (length b))%Z) in *. split.
  - intros [H|(-> & H)]; [|lia]. assert (x + 1 <= y)%Z by lia. nia.
  - intros H. destruct (Z.lt_trichotomy x y) as [T|[T|T]]; [left; lia|right; split; [exact T|subst; lia]|exfalso; nia].
Qed.
(** Scans numbered with the same number of digits come in numeric order ... *)
Theorem C63_numbered : forall a b, length a = length b -> Forall is_digit a -> Forall is_digit b ->
  (before (a ++ chars ".bin") (b ++ chars ".bin") <-> (decimal a < decimal b)%Z).
Proof. intros a b L Fa Fb. rewrite <- less_before_iff, less_same_end by exact L. apply less_decimal; assumption. Qed.
(** ... but not without leading zeros. *)
Theorem C63_unpadded_refuted : exists a b, Forall is_digit a /\ Forall is_digit b /\ (decimal a < decimal b)%Z /\
  before (b ++ chars ".bin") (a ++ chars ".bin").
Proof.
  exists (chars "2"), (chars "10"). split; [|split; [|split]].
  - repeat constructor. exists 2%Z. split; [lia|reflexivity].
  - constructor; [exists 1%Z|constructor; [exists 0%Z|constructor]]; (split; [lia|reflexivity]).
  - reflexivity.
  - rewrite <- less_before_iff. reflexivity.
Qed.
Example C63_numbered_instance : before (chars "000009.bin") (chars "000010.bin") /\ Forall is_digit (chars "000009").
Proof.
  split; [rewrite <- less_before_iff; reflexivity|]. repeat (constructor; [first [exists 0%Z; split; [lia|reflexivity]|exists 9%Z; split; [lia|reflexivity]]|]). constructor.
Qed.

Fixpoint insert (x : string) (l : list string) : list string :=
  match l with
  | [] => [x]
  | y :: t => if less (chars y) (chars x) then y :: insert x t else x :: y :: t
  end.
Definition insertion (l : list string) : list string := fold_right insert [] l.
Lemma insert_perm x l : Permutation (x :: l) (insert x l).
Proof.
  induction l as [|y t IH]; cbn [insert]; [auto|]. destruct (less _ _); [|auto].
  eapply Permutation_trans; [apply perm_swap|]. apply perm_skip. exact IH.
Qed.
Lemma insert_sorted x l : StronglySorted (fun a b => ~ before (chars b) (chars a)) l -> StronglySorted (fun a b => ~ before (chars b) (chars a)) (insert x l).
Proof.
  intros S. induction S as [|y t S IH F]; cbn [insert]; [constructor; constructor|].
  destruct (less (chars y) (chars x)) eqn:E.
  - constructor; [exact IH|]. rewrite Forall_forall in *. intros z I. apply (Permutation_in _ (Permutation_sym (insert_perm x t))) in I. destruct I as [<-|I]; [|auto].
    rewrite <- less_before_iff. intros E2. pose proof (less_trans _ _ _ E E2) as C. rewrite less_irrefl in C. discriminate.
  - constructor; [constructor; assumption|]. constructor; [rewrite <- less_before_iff, E; discriminate|]. rewrite Forall_forall in *. intros z I B.
    apply (F z I). rewrite <- less_before_iff in *. destruct (before_total (chars x) (chars y)) as [EE|[B'|B']].
    + rewrite EE in B. exact B.
    + rewrite <- less_before_iff in B'. eapply less_trans; eauto.
    + rewrite <- less_before_iff in B'. congruence.
Qed.
Example C63_sort_exists : sorts insertion.
Proof.
  intros l. induction l as [|x l (P & S)]; cbn [insertion fold_right]; [split; constructor|]. split.
  - eapply Permutation_trans; [apply perm_skip; exact P|]. apply insert_perm.
  - apply insert_sorted, S.
Qed.
(** Three scans listed out of order among other files; the second one cannot be opened. *)
Definition half32 : float32 := ("000", "000", "000", "063")%char.
Definition some_point : vec4f := F4 half32 one32 zero32 zero32.
Definition some_disk : fs := fun p =>
  if String.eqb p "d/000000.bin" then Some (point_bytes some_point) else
  if String.eqb p "d/000002.bin" then Some (point_bytes some_point ++ point_bytes some_point) else None.
Definition some_names : list bytes := map chars ["000002.bin"; "times.txt"; ".bin"; "000001.bin"; "000000.bin"; "x.bin.old"]%string.
Example C63_instance :
  NoDup some_names /\
  kitti_open insertion some_disk "d" (Some some_names) 10 = Ok [[homogeneous some_point]; []; [homogeneous some_point; homogeneous some_point]] /\
  kitti_open insertion some_disk "d" (Some some_names) 1 = Ok [[homogeneous some_point]] /\
  cast_point (homogeneous some_point) = V4 (D := Fnum) (f64_of 1 (-1)) (f64_of 1 0) (f64_of 0 0) (f64_of 1 0).
Proof.
  split; [|split; [reflexivity|split; [reflexivity|]]].
  - unfold some_names. cbn [map]. repeat (constructor; [cbn [In]; intuition discriminate|]). constructor.
  - unfold cast_point. cbn [homogeneous some_point fx fy fz fw]. f_equal; apply B2SF_inj; vm_compute; reflexivity.
Qed.

Print Assumptions C63_frames.
Print Assumptions C63_listing_order.
Print Assumptions C63_numbers.
Print Assumptions C63_convert.
Print Assumptions C63_stored_scans.
Print Assumptions C63_numbered.
Print Assumptions C63_unpadded_refuted.
