(** Proofs about point files. *)
From Coq Require Import ZArith Ascii String ZifyBool ZifyNat ZifyN.
From Verif Require Import Base BaseProofs IoModel IoSpec.
Ltac Zify.zify_post_hook ::= Z.div_mod_to_equations.
Open Scope nat_scope.

(** * Reading buffers *)
Lemma mapM_seq {A} (f : nat -> outcome A) (l : list A) : forall a,
  (forall i p, nth_error l i = Some p -> f (a + i) = Ok p) ->
  mapM f (seq a (length l)) = Ok l.
Proof.
  induction l as [|p l IH]; intros a H; simpl; auto.
  rewrite <- (Nat.add_0_r a) at 1. rewrite (H 0 p eq_refl). cbn [bind].
  rewrite IH; [reflexivity|]. intros i q Hq. replace (S a + i) with (a + S i) by lia. apply H. exact Hq.
Qed.

Lemma float_bytes_length f : length (float_bytes f) = 4.
Proof. destruct f as [[[a b] c] d]. reflexivity. Qed.
Lemma point_bytes_length p : length (point_bytes p) = 16.
Proof. unfold point_bytes. rewrite !app_length, !float_bytes_length. reflexivity. Qed.

Lemma get_app_r {A} (l1 l2 : list A) i : get (l1 ++ l2) (length l1 + i) = get l2 i.
Proof. unfold get. rewrite nth_error_app2 by lia.
  replace (length l1 + i - length l1) with i by lia. reflexivity. Qed.

Lemma get_float_at pre f post o : length pre = o ->
  get_float (map Some (pre ++ float_bytes f ++ post)) o = Ok f.
Proof.
  intros <-. unfold get_float. rewrite map_app.
  assert (L : length (map Some pre) = length pre) by apply map_length.
  rewrite <- L. rewrite !get_app_r. destruct f as [[[a b] c] d]. reflexivity.
Qed.

Lemma get_float_short b o : length b <= o + 3 -> get_float (map Some b) o = UB.
Proof.
  intros H. unfold get_float, get.
  assert (N : forall i, length b <= i -> nth_error (map Some b) i = None).
  { intros i Hi. apply nth_error_None. rewrite map_length. exact Hi. }
  assert (S : forall i, nth_error (map (@Some ascii) b) i = None \/
                        exists x, nth_error (map Some b) i = Some (Some x)).
  { intros i. rewrite nth_error_map. destruct (nth_error b i); simpl; eauto. }
  destruct (S (o + 0)) as [->|(x & ->)]; [reflexivity|]. cbn [bind].
  destruct (S (o + 1)) as [->|(y & ->)]; [reflexivity|]. cbn [bind].
  destruct (S (o + 2)) as [->|(z & ->)]; [reflexivity|]. cbn [bind].
  rewrite N by lia. reflexivity.
Qed.

Lemma split_at {A} (l : list A) i p :
  nth_error l i = Some p -> exists l1 l2, l = l1 ++ p :: l2 /\ length l1 = i.
Proof. apply nth_error_split. Qed.

Lemma flat_map_length_const {A B} (f : A -> list B) k l :
  (forall a, In a l -> length (f a) = k) -> length (flat_map f l) = k * length l.
Proof.
  induction l as [|a l IH]; intros H; simpl; [lia|].
  rewrite app_length, (H a (or_introl eq_refl)), IH; [lia|]. intros; apply H; right; auto.
Qed.

(** Any long enough byte string is a sequence of floats, hence of points. *)
Lemma floats_of n : forall b, 4 * n <= length b ->
  exists fl, length fl = n /\ firstn (4 * n) b = flat_map float_bytes fl.
Proof.
  induction n as [|n IH]; intros b H.
  - exists []. auto.
  - destruct b as [|a0 [|a1 [|a2 [|a3 b]]]]; simpl in H; try lia.
    destruct (IH b) as (fl & L & E); [lia|].
    exists ((a0, a1, a2, a3) :: fl). split; [simpl; lia|].
    replace (4 * S n) with (S (S (S (S (4 * n))))) by lia. cbn [firstn flat_map].
    rewrite E. reflexivity.
Qed.

Lemma points_of n : forall b, 16 * n <= length b ->
  exists pts, length pts = n /\ firstn (16 * n) b = flat_map point_bytes pts.
Proof.
  induction n as [|n IH]; intros b H.
  - exists []. auto.
  - destruct (floats_of 4 (firstn 16 b)) as (fl & L & E).
    { rewrite firstn_length. lia. }
    rewrite firstn_firstn in E. change (Nat.min (4 * 4) 16) with 16 in E.
    destruct fl as [|x [|y [|z [|w [|]]]]]; try discriminate L.
    destruct (IH (skipn 16 b)) as (pts & LP & EP); [rewrite skipn_length; lia|].
    exists (F4 x y z w :: pts). split; [simpl; lia|]. cbn [flat_map].
    rewrite <- EP. replace (16 * S n) with (16 + 16 * n) by lia.
    rewrite <- (firstn_skipn 16 b) at 1. rewrite firstn_app.
    assert (L16 : length (firstn 16 b) = 16) by (rewrite firstn_length; lia).
    rewrite L16, firstn_all2 by lia. replace (16 + 16 * n - 16) with (16 * n) by lia.
    f_equal. rewrite E. cbn [flat_map]. rewrite app_nil_r. reflexivity.
Qed.

Lemma flat_map_split {A B} (f : A -> list B) l1 a l2 :
  flat_map f (l1 ++ a :: l2) = flat_map f l1 ++ f a ++ flat_map f l2.
Proof. rewrite flat_map_app. reflexivity. Qed.

Lemma put_slice_full {A} (l s : list A) : length s = length l -> put_slice l 0 s = s.
Proof.
  intros H. unfold put_slice. rewrite Nat.add_0_l. cbn [firstn app].
  rewrite skipn_all2 by lia. apply app_nil_r.
Qed.

(** * Raw files *)
Theorem read_points_bytes w name b :
  w name = Some b ->
  exists pts, length pts = length b / 16 /\
    firstn (16 * (length b / 16)) b = flat_map point_bytes pts /\
    read_points w name = Ok (map homogeneous pts).
Proof.
  intros E. set (n := length b / 16). assert (Hn : 16 * n <= length b) by (unfold n; lia).
  destruct (points_of n b Hn) as (pts & L & EP). exists pts. split; [exact L|]. split; [exact EP|].
  unfold read_points. rewrite E. fold n.
  assert (LF : length (firstn (16 * n) b) = 16 * n) by (rewrite firstn_length; lia).
  unfold read_into. rewrite LF, repeat_length, Nat.leb_refl. cbn [bind].
  rewrite put_slice_full by (rewrite map_length, repeat_length; exact LF).
  rewrite EP. replace n with (length (map homogeneous pts)) at 1 by (rewrite map_length; exact L).
  apply mapM_seq. intros i p Hp. rewrite nth_error_map in Hp.
  destruct (nth_error pts i) as [q|] eqn:Eq; [|discriminate]. inversion Hp; subst p.
  destruct (split_at pts i q Eq) as (l1 & l2 & -> & Li).
  rewrite flat_map_split. cbn [Nat.add].
  assert (LP : length (flat_map point_bytes l1) = 16 * i).
  { rewrite (flat_map_length_const _ 16) by (intros; apply point_bytes_length). lia. }
  unfold point_bytes at 2 5 8. rewrite <- !app_assoc.
  rewrite get_float_at by exact LP. cbn [bind].
  rewrite (app_assoc (flat_map point_bytes l1)), get_float_at
    by (rewrite app_length, float_bytes_length; lia). cbn [bind].
  rewrite (app_assoc _ (float_bytes (fy q))), get_float_at
    by (rewrite !app_length, !float_bytes_length; lia). reflexivity.
Qed.

Lemma flat_map_points_inj l1 : forall l2,
  flat_map point_bytes l1 = flat_map point_bytes l2 -> length l1 = length l2 -> l1 = l2.
Proof.
  induction l1 as [|p l1 IH]; intros [|q l2] E L; simpl in L; try discriminate; auto.
  cbn [flat_map] in E.
  assert (P : point_bytes p = point_bytes q).
  { apply (f_equal (firstn 16)) in E. rewrite !firstn_app, !point_bytes_length in E.
    rewrite Nat.sub_diag, !firstn_O, !app_nil_r in E.
    rewrite !firstn_all2 in E by (rewrite point_bytes_length; lia). exact E. }
  rewrite P in E. apply app_inv_head in E.
  rewrite (IH l2 E) by lia. f_equal.
  destruct p as [[[[? ?] ?] ?] [[[? ?] ?] ?] [[[? ?] ?] ?] [[[? ?] ?] ?]],
           q as [[[[? ?] ?] ?] [[[? ?] ?] ?] [[[? ?] ?] ?] [[[? ?] ?] ?]].
  cbn in P. inversion P. reflexivity.
Qed.

Theorem read_write ok w name pts : ok name = true ->
  read_points (write_points ok w name pts) name = Ok (map homogeneous pts).
Proof.
  intros H. unfold write_points. rewrite H.
  set (b := flat_map point_bytes pts).
  assert (LB : length b = 16 * length pts)
    by (apply flat_map_length_const; intros; apply point_bytes_length).
  destruct (read_points_bytes (fs_put w name b) name b) as (pts' & L & E & R).
  { unfold fs_put. rewrite String.eqb_refl. reflexivity. }
  rewrite R. f_equal. f_equal.
  replace (length b / 16) with (length pts) in * by lia.
  rewrite firstn_all2 in E by lia. symmetry. apply flat_map_points_inj; [exact E|lia].
Qed.

(** * Header lines *)
Lemma getline_line l rest : ~ In lf l -> getline (l ++ lf :: rest) = (l, rest, false).
Proof.
  induction l as [|c l IH]; intros H; cbn [getline app].
  - destruct (ascii_dec lf lf); [reflexivity|congruence].
  - destruct (ascii_dec c lf) as [->|N]; [exfalso; apply H; left; auto|].
    rewrite IH; [reflexivity|]. intros K; apply H; right; auto.
Qed.

Lemma skip_space_word w b : word w -> skip_space (w ++ b) = w ++ b.
Proof.
  intros [Hn Hf]. destruct w as [|c w]; [congruence|]. inversion Hf; subst. simpl. rewrite H1. reflexivity.
Qed.
Lemma take_word_app w b : Forall (fun c => is_space c = false) w ->
  (forall c t, b = c :: t -> is_space c = true) ->
  take_word (w ++ b) = (w, b).
Proof.
  intros Hf Hb. induction Hf as [|c w Hc Hf IH]; cbn [app take_word].
  - destruct b as [|c t]; [reflexivity|]. cbn [take_word]. rewrite (Hb c t eq_refl). reflexivity.
  - rewrite Hc, IH. reflexivity.
Qed.

Lemma next_token_word w b : word w -> (forall c t, b = c :: t -> is_space c = true) ->
  next_token (w ++ b) = (w, b).
Proof.
  intros Hw Hb. unfold next_token. rewrite skip_space_word by exact Hw.
  apply take_word_app; [apply Hw|exact Hb].
Qed.

Lemma next_token_sp w b : word w -> (forall c t, b = c :: t -> is_space c = true) ->
  next_token (sp :: w ++ b) = (w, b).
Proof. intros Hw Hb. unfold next_token. cbn. apply (next_token_word w b Hw Hb). Qed.

Lemma tokens3 a b c : word a -> word b -> word c ->
  let '(t1, r1) := next_token (a ++ [sp] ++ b ++ [sp] ++ c) in
  let '(t2, r2) := next_token r1 in
  let '(t3, _) := next_token r2 in
  t1 = a /\ t2 = b /\ t3 = c.
Proof.
  intros Ha Hb Hc.
  rewrite next_token_word; [|exact Ha|intros x t E; inversion E; reflexivity].
  cbn [app].
  rewrite next_token_sp; [|exact Hb|intros x t E; inversion E; reflexivity].
  replace (sp :: c) with (sp :: c ++ []) by (rewrite app_nil_r; reflexivity).
  rewrite next_token_sp; [|exact Hc|intros x t E; discriminate]. auto.
Qed.

Lemma bytes_eqb_true a : bytes_eqb a a = true.
Proof. unfold bytes_eqb. destruct (list_eq_dec ascii_dec a a); congruence. Qed.
Lemma bytes_eqb_false a b : a <> b -> bytes_eqb a b = false.
Proof. unfold bytes_eqb. destruct (list_eq_dec ascii_dec a b); congruence. Qed.

Lemma starts_with_app w b : starts_with w (w ++ b) = true.
Proof. induction w as [|c w IH]; simpl; auto. destruct (ascii_dec c c); congruence. Qed.
Lemma starts_with_false w b : (forall r, b <> w ++ r) -> starts_with w b = false.
Proof.
  revert b. induction w as [|c w IH]; intros b H; simpl.
  - exfalso. apply (H b). reflexivity.
  - destruct b as [|d b]; auto. destruct (ascii_dec c d) as [->|]; auto.
    apply IH. intros r E. apply (H r). rewrite E. reflexivity.
Qed.

Lemma word_lit (s : string) : forallb (fun c => negb (is_space c)) (chars s) = true -> chars s <> [] ->
  word (chars s).
Proof.
  intros H N. split; auto. rewrite forallb_forall in H. apply Forall_forall. intros c Hc.
  specialize (H c Hc). destruct (is_space c); [discriminate|reflexivity].
Qed.
Lemma word_element : word (chars "element"). Proof. apply word_lit; [reflexivity|discriminate]. Qed.
Lemma word_vertex : word (chars "vertex"). Proof. apply word_lit; [reflexivity|discriminate]. Qed.
Lemma word_property : word (chars "property"). Proof. apply word_lit; [reflexivity|discriminate]. Qed.
Lemma word_float : word (chars "float"). Proof. apply word_lit; [reflexivity|discriminate]. Qed.

Lemma digit_facts c : is_digit c -> is_space c = false /\
  digit c = Some (Z.of_nat (nat_of_ascii c) - 48)%Z /\ c <> "-"%char /\ c <> "+"%char /\ c <> lf /\
  (0 <= Z.of_nat (nat_of_ascii c) - 48 <= 9)%Z.
Proof.
  intros (d & Hd & E). unfold is_space, digit. set (n := nat_of_ascii c) in *.
  assert (48 <= n <= 57) by lia.
  split; [lia|]. split.
  { replace ((48 <=? n) && (n <=? 57)) with true by lia. f_equal. lia. }
  split; [intros ->; change n with 45 in *; lia|].
  split; [intros ->; change n with 43 in *; lia|].
  split; [intros ->; change n with 10 in *; lia|]. lia.
Qed.

Lemma digits_word c : c <> [] -> Forall is_digit c -> word c.
Proof.
  intros N F. split; auto. eapply Forall_impl; [|exact F]. intros a Ha. apply digit_facts, Ha.
Qed.

Lemma digits_value_eq b : Forall is_digit b -> forall acc,
  digits_value acc b = fold_left (fun a c => 10 * a + (Z.of_nat (nat_of_ascii c) - 48))%Z b acc.
Proof.
  induction 1 as [|c b Hc Hf IH]; intros acc; simpl; auto.
  destruct (digit_facts c Hc) as (_ & -> & _). apply IH.
Qed.

Lemma decimal_nonneg b : Forall is_digit b -> forall acc, (0 <= acc)%Z ->
  (0 <= fold_left (fun a c => 10 * a + (Z.of_nat (nat_of_ascii c) - 48))%Z b acc)%Z.
Proof.
  induction 1 as [|c b Hc Hf IH]; intros acc Ha; cbn [fold_left]; auto.
  apply IH. destruct (digit_facts c Hc) as (_ & _ & _ & _ & _ & H). lia.
Qed.

Lemma stol_digits c : c <> [] -> Forall is_digit c -> (decimal c <= 9223372036854775807)%Z ->
  stol c = Some (decimal c) /\ (0 <= decimal c)%Z.
Proof.
  intros N F B. pose proof (decimal_nonneg c F 0%Z (Z.le_refl 0)) as P. fold (decimal c) in P.
  split; [|exact P]. unfold stol.
  assert (SK : skip_space c = c).
  { rewrite <- (app_nil_r c) at 1. rewrite skip_space_word by (apply digits_word; auto). apply app_nil_r. }
  rewrite SK. destruct c as [|a c]; [congruence|].
  inversion F as [|? ? Ha Fc]; subst. destruct (digit_facts a Ha) as (_ & D & N1 & N2 & _).
  destruct (ascii_dec a "-"%char); [congruence|]. destruct (ascii_dec a "+"%char); [congruence|].
  rewrite D. rewrite digits_value_eq by exact F. fold (decimal (a :: c)).
  cbv beta iota zeta. set (v := decimal (a :: c)) in *. clearbody v.
  replace ((-9223372036854775808 <=? v) && (v <=? 9223372036854775807))%Z with true by lia. reflexivity.
Qed.

Lemma In_app_sp (a b : bytes) : In lf (a ++ [sp] ++ b) -> In lf a \/ In lf b.
Proof. intros H. apply in_app_or in H. destruct H as [H|[H|H]]; auto. discriminate. Qed.

Lemma word_no_lf w : word w -> ~ In lf w.
Proof. intros [_ F] H. rewrite Forall_forall in F. specialize (F _ H). discriminate. Qed.

Lemma hline_no_lf l : hline_ok l -> ~ In lf (hline_bytes l).
Proof.
  destruct l as [t|c|n]; cbn [hline_ok hline_bytes]; intros H K.
  - destruct H as (_ & H & _). auto.
  - destruct H as (N & F & _). apply In_app_sp in K. destruct K as [K|K]; [apply word_no_lf in K; auto; apply word_element|].
    apply In_app_sp in K. destruct K as [K|K]; [apply word_no_lf in K; auto; apply word_vertex|].
    apply word_no_lf in K; auto. apply digits_word; auto.
  - apply In_app_sp in K. destruct K as [K|K]; [apply word_no_lf in K; auto; apply word_property|].
    apply In_app_sp in K. destruct K as [K|K]; [apply word_no_lf in K; auto; apply word_float|].
    apply word_no_lf in K; auto.
Qed.

Definition lines_bytes (ls : list hline) : bytes := flat_map (fun l => hline_bytes l ++ [lf]) ls.

Lemma header_lines_run ls : forall fuel props n tail,
  Forall hline_ok ls ->
  header_loop (length ls + fuel) (lines_bytes ls ++ tail) props n =
  header_loop fuel tail (props ++ properties_of ls) (count_of ls n).
Proof.
  induction ls as [|l ls IH]; intros fuel props n tail Hok.
  - cbn. rewrite app_nil_r. reflexivity.
  - inversion Hok as [|? ? Hl Hls]; subst.
    assert (E : lines_bytes (l :: ls) ++ tail = hline_bytes l ++ lf :: (lines_bytes ls ++ tail)).
    { unfold lines_bytes. cbn [flat_map]. rewrite <- !app_assoc. reflexivity. }
    rewrite E. cbn [length Nat.add header_loop].
    rewrite getline_line by (apply hline_no_lf; exact Hl).
    assert (NE : exists c t, hline_bytes l = c :: t).
    { destruct l as [t|c|m]; cbn [hline_bytes].
      - destruct Hl as (Hl & _). destruct t as [|x t]; [congruence|eauto].
      - cbn [chars list_ascii_of_string app]. eauto.
      - cbn [chars list_ascii_of_string app]. eauto. }
    destruct NE as (c0 & t0 & NE).
    destruct l as [t|c|m].
    + cbn [hline_bytes] in *. destruct Hl as (H1 & H2 & H3 & H4 & H5).
      rewrite NE. cbv iota. rewrite <- NE.
      rewrite (bytes_eqb_false _ _ H3), (starts_with_false _ _ H4), (starts_with_false _ _ H5).
      rewrite IH by exact Hls. reflexivity.
    + destruct Hl as (N & F & B). rewrite NE. cbv iota. rewrite <- NE.
      pose proof (tokens3 _ _ _ word_element word_vertex (digits_word c N F)) as T.
      cbn [hline_bytes] in *.
      rewrite bytes_eqb_false.
      2: { cbn [chars list_ascii_of_string app]. intros K. inversion K. }
      rewrite starts_with_app.
      destruct (next_token (chars "element" ++ [sp] ++ chars "vertex" ++ [sp] ++ c)) as [t1 r1].
      destruct (next_token r1) as [t2 r2]. destruct (next_token r2) as [t3 r3].
      destruct T as (-> & -> & ->). rewrite !bytes_eqb_true. cbn [negb orb].
      destruct (stol_digits c N F B) as [-> P].
      replace (decimal c <? 0)%Z with false by lia. rewrite IH by exact Hls. reflexivity.
    + rewrite NE. cbv iota. rewrite <- NE.
      pose proof (tokens3 _ _ _ word_property word_float Hl) as T.
      cbn [hline_bytes] in *.
      rewrite bytes_eqb_false.
      2: { cbn [chars list_ascii_of_string app]. intros K. inversion K. }
      rewrite starts_with_false.
      2: { intros r K. cbn [chars list_ascii_of_string app] in K. inversion K. }
      rewrite starts_with_app.
      destruct (next_token (chars "property" ++ [sp] ++ chars "float" ++ [sp] ++ m)) as [t1 r1].
      destruct (next_token r1) as [t2 r2]. destruct (next_token r2) as [t3 r3].
      destruct T as (-> & -> & ->). rewrite !bytes_eqb_true. cbn [negb].
      rewrite IH by exact Hls. cbn [properties_of count_of]. rewrite <- app_assoc. reflexivity.
Qed.

Lemma lines_bytes_length ls : length ls <= length (lines_bytes ls).
Proof.
  induction ls as [|l ls IH]; simpl; [lia|]. unfold lines_bytes in *. rewrite !app_length. simpl. lia.
Qed.

(** Enough fuel: one more than the number of bytes. *)
Lemma header_lines_file ls tail : Forall hline_ok ls ->
  exists fuel, length tail < fuel /\
    header_loop (S (length (lines_bytes ls ++ tail))) (lines_bytes ls ++ tail) [] 0 =
    header_loop fuel tail (properties_of ls) (count_of ls 0).
Proof.
  intros H. pose proof (lines_bytes_length ls) as L.
  exists (S (length (lines_bytes ls ++ tail)) - length ls).
  rewrite app_length in *. split; [lia|].
  replace (S (length (lines_bytes ls) + length tail))
    with (length ls + (S (length (lines_bytes ls) + length tail) - length ls)) at 1 by lia.
  rewrite header_lines_run by exact H. reflexivity.
Qed.

Lemma header_loop_run ls tail : Forall hline_ok ls ->
  header_loop (S (length (ply_header ls ++ tail))) (ply_header ls ++ tail) [] 0 =
  Ok (HDone (chars "end_header") (properties_of ls) (count_of ls 0) tail false).
Proof.
  intros H.
  assert (E : ply_header ls ++ tail = lines_bytes ls ++ (chars "end_header" ++ lf :: tail)).
  { unfold ply_header, lines_bytes. rewrite <- !app_assoc. reflexivity. }
  rewrite E. destruct (header_lines_file ls (chars "end_header" ++ lf :: tail) H) as (fuel & Hf & ->).
  destruct fuel as [|fuel]; [lia|].
  cbn [header_loop]. rewrite (getline_line (chars "end_header")); [reflexivity|].
  intros K. repeat (destruct K as [K|K]; [discriminate|]). destruct K.
Qed.

Lemma read_ply_header w name ls tail :
  Forall hline_ok ls -> w name = Some (ply_header ls ++ tail) ->
  read_ply w name =
  (let* _ := check_properties (chars "end_header") (properties_of ls) in
   let* pts := read_body (length (properties_of ls)) (count_of ls 0) tail in
   Ok (Ret pts)).
Proof.
  intros H E. unfold read_ply. rewrite E. rewrite header_loop_run by exact H. reflexivity.
Qed.

Lemma check_ok props : 3 <= length props -> Forall word props ->
  check_properties (chars "end_header") props = Ok tt.
Proof.
  intros L F. destruct props as [|a [|b [|c r]]]; simpl in L; try lia.
  inversion F as [|? ? Ha F1]; subst. inversion F1 as [|? ? Hb F2]; subst. inversion F2 as [|? ? Hc _]; subst.
  destruct Ha as [Ha _], Hb as [Hb _], Hc as [Hc _].
  unfold check_properties. cbn.
  destruct a as [|a a']; [congruence|]. destruct b as [|b b']; [congruence|]. destruct c as [|c c']; [congruence|].
  cbn. generalize (length a' =? 0) (length b' =? 0) (length c' =? 0). intros [] [] []; cbn;
    repeat (destruct (ascii_dec _ _); cbn); reflexivity.
Qed.

(** * The body *)
Lemma put_slice_zeros (s : list (option ascii)) k : length s <= k ->
  put_slice (repeat (Some "000"%char) k) 0 s = s ++ repeat (Some "000"%char) (k - length s).
Proof.
  intros H. unfold put_slice. cbn [firstn app Nat.add]. f_equal.
  replace k with (length s + (k - length s)) at 1 by lia. rewrite repeat_app, skipn_app.
  rewrite skipn_all2 by (rewrite repeat_length; lia). rewrite repeat_length, Nat.sub_diag. reflexivity.
Qed.

Lemma repeat_map {A B} (f : A -> B) x n : map f (repeat x n) = repeat (f x) n.
Proof. induction n; simpl; congruence. Qed.

(** The bytes the loop sees: what was read, padded with zeros to the size of the buffer. *)
Definition seen_bytes (np n : nat) (tail : bytes) : bytes :=
  firstn (16 * n) tail ++ repeat "000"%char (4 * (np * n) - length (firstn (16 * n) tail)).

Lemma read_body_seen np n tail :
  length (firstn (16 * n) tail) <= 4 * (np * n) ->
  read_body np n tail =
  mapM (fun i =>
          let* x := get_float (map Some (seen_bytes np n tail)) (4 * (i * np + 0)) in
          let* y := get_float (map Some (seen_bytes np n tail)) (4 * (i * np + 1)) in
          let* z := get_float (map Some (seen_bytes np n tail)) (4 * (i * np + 2)) in
          Ok (F4 x y z one32)) (seq 0 n).
Proof.
  intros H. unfold read_body, read_into. rewrite repeat_length.
  replace (length (firstn (16 * n) tail) <=? 4 * (np * n)) with true by lia. cbn [bind].
  rewrite put_slice_zeros by (rewrite map_length; exact H).
  replace (map Some (firstn (16 * n) tail) ++ _) with (map Some (seen_bytes np n tail)); [reflexivity|].
  unfold seen_bytes. rewrite map_app, map_length. f_equal. apply repeat_map.
Qed.

Lemma read_body_overrun np n tail :
  4 * (np * n) < length (firstn (16 * n) tail) -> read_body np n tail = UB.
Proof.
  intros H. unfold read_body, read_into. rewrite repeat_length.
  replace (length (firstn (16 * n) tail) <=? 4 * (np * n)) with false by lia. reflexivity.
Qed.

(** Records laid out in the buffer. *)
Lemma read_body_records np n (recs : list (list float32)) tail pad pts :
  length recs = n -> 3 <= np ->
  (forall r, In r recs -> length r = np) ->
  length (firstn (16 * n) tail) <= 4 * (np * n) ->
  seen_bytes np n tail = flat_map record_bytes recs ++ pad ->
  Forall2 vertex_of recs pts ->
  read_body np n tail = Ok pts.
Proof.
  intros L Np Hr Hle Hs F. rewrite read_body_seen by exact Hle. rewrite Hs.
  assert (LP : length pts = n) by (rewrite <- L; clear -F; induction F; simpl; auto).
  rewrite <- LP at 1. apply mapM_seq. intros i p Hp. cbn [Nat.add].
  assert (exists r, nth_error recs i = Some r /\ vertex_of r p) as (r & Er & V).
  { clear -F Hp. revert i Hp. induction F as [|r q recs pts Hv F IH]; intros [|i] Hp; simpl in *;
      try discriminate; [inversion Hp; subst; eauto|eauto]. }
  destruct (split_at recs i r Er) as (l1 & l2 & El & Li). rewrite El, flat_map_split.
  destruct V as (x & y & z & rest & -> & ->).
  assert (L1 : length (flat_map record_bytes l1) = 4 * (i * np)).
  { rewrite (flat_map_length_const _ (4 * np)); [rewrite Li; lia|]. intros a Ha.
    unfold record_bytes. rewrite (flat_map_length_const _ 4) by (intros; apply float_bytes_length).
    rewrite (Hr a); [reflexivity|]. rewrite El. apply in_or_app. auto. }
  unfold record_bytes at 2 5 8. cbn [flat_map]. rewrite <- !app_assoc.
  rewrite get_float_at by lia. cbn [bind].
  rewrite (app_assoc (flat_map record_bytes l1)), get_float_at
    by (rewrite app_length, float_bytes_length; lia). cbn [bind].
  rewrite (app_assoc _ (float_bytes y)), get_float_at
    by (rewrite !app_length, !float_bytes_length; lia). reflexivity.
Qed.

(** Without assuming a layout: past the 16 bytes per vertex that are read there are zeros. *)
Lemma read_body_past np n tail : 3 <= np ->
  length (firstn (16 * n) tail) <= 4 * (np * n) ->
  exists pts, read_body np n tail = Ok pts /\ length pts = n /\
    forall i, i < n -> length (firstn (16 * n) tail) <= 4 * (i * np) -> nth_error pts i = Some (vertex zero32 zero32 zero32).
Proof.
  intros Hp Hle.
  rewrite read_body_seen by exact Hle.
  assert (LS : length (seen_bytes np n tail) = 4 * (np * n)).
  { unfold seen_bytes. rewrite app_length, repeat_length. lia. }
  destruct (floats_of (np * n) (seen_bytes np n tail)) as (fl & LF & EF); [lia|].
  rewrite firstn_all2 in EF by lia.
  set (val i := nth i fl zero32).
  assert (G : forall k, k < np * n -> get_float (map Some (seen_bytes np n tail)) (4 * k) = Ok (val k)).
  { intros k Hk. rewrite EF.
    destruct (split_at fl k (val k)) as (l1 & l2 & E & L).
    { apply nth_error_nth'. lia. }
    rewrite E at 1. rewrite flat_map_split. apply get_float_at.
    rewrite (flat_map_length_const _ 4) by (intros; apply float_bytes_length). lia. }
  assert (Z0 : forall k, length (firstn (16 * n) tail) <= 4 * k -> k < np * n -> val k = zero32).
  { intros k Hk Hk'.
    assert (GS : get_float (map Some (seen_bytes np n tail)) (4 * k) = Ok zero32).
    { unfold seen_bytes. set (got := firstn (16 * n) tail) in *.
      replace (repeat "000"%char (4 * (np * n) - length got)) with
        (repeat "000"%char (4 * k - length got) ++ float_bytes zero32 ++
         repeat "000"%char (4 * (np * n) - 4 * k - 4)).
      - rewrite app_assoc. apply get_float_at. rewrite app_length, repeat_length. lia.
      - change (float_bytes zero32) with (repeat "000"%char 4). rewrite <- !repeat_app. f_equal. lia. }
    rewrite G in GS by lia. congruence. }
  exists (map (fun i => F4 (val (i * np + 0)) (val (i * np + 1)) (val (i * np + 2)) one32) (seq 0 n)).
  split.
  - rewrite <- (seq_length n 0) at 1.
    rewrite <- (map_length (fun i => F4 (val (i * np + 0)) (val (i * np + 1)) (val (i * np + 2)) one32) (seq 0 n)).
    apply mapM_seq. intros i p Hi. rewrite nth_error_map in Hi.
    destruct (nth_error (seq 0 n) i) as [j|] eqn:Ej; [|discriminate].
    assert (Hin : i < n) by (rewrite <- (seq_length n 0); apply nth_error_Some; congruence).
    assert (j = i).
    { apply (nth_error_nth _ _ 0) in Ej. rewrite seq_nth in Ej by auto. lia. }
    subst j. inversion Hi; subst p. cbn [Nat.add].
    assert (i * np + 2 < np * n) by nia.
    rewrite !G by lia. reflexivity.
  - split; [rewrite map_length, seq_length; reflexivity|].
    intros i Hi H4. rewrite nth_error_map.
    assert (ES : nth_error (seq 0 n) i = Some i).
    { rewrite (nth_error_nth' _ 0) by (rewrite seq_length; auto). rewrite seq_nth by auto. reflexivity. }
    rewrite ES. cbn [option_map]. rewrite !Z0 by nia. reflexivity.
Qed.
