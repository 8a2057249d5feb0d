(** C41, C42: point files. *)
From Coq Require Import ZArith Ascii String ZifyBool ZifyNat ZifyN.
From Verif Require Import Base BaseProofs IoModel IoSpec IoProofs.
Ltac Zify.zify_post_hook ::= Z.div_mod_to_equations.
Open Scope nat_scope.

(** ** C41: raw files *)

(** Writing and reading back gives the same points, with the fourth coordinate one; other
    files are untouched. *)
Theorem C41_round_trip :
  forall (openable : string -> bool) (w : fs) (name : string) (points : list vec4f),
  openable name = true ->
  let w' := write_points openable w name points in
  read_points w' name = Ok (map homogeneous points) /\
  forall other, other <> name -> w' other = w other.
Proof.
  intros ok w name pts H w'. split; [apply read_write; exact H|].
  intros other N. unfold w', write_points. rewrite H. unfold fs_put.
  destruct (String.eqb_spec other name); congruence.
Qed.

(** Any byte string: one point per complete 16-byte record, in order, with the bytes of the
    file as x, y, z; a partial trailing record is ignored; nothing indeterminate is read. *)
Theorem C41_any_file :
  forall (w : fs) (name : string) (b : bytes),
  w name = Some b ->
  exists (points : list vec4f) (trailing : bytes),
    b = flat_map point_bytes points ++ trailing /\ length trailing < 16 /\
    read_points w name = Ok (map homogeneous points).
Proof.
  intros w name b E. destruct (read_points_bytes w name b E) as (pts & L & EP & R).
  exists pts, (skipn (16 * (length b / 16)) b). split; [rewrite <- EP; symmetry; apply firstn_skipn|].
  split; [rewrite skipn_length; lia|exact R].
Qed.

(** A file that cannot be opened reads as an empty cloud, like an empty file; a failed write
    changes nothing. *)
Theorem C41_failures :
  forall (openable : string -> bool) (w : fs) (name : string) (points : list vec4f),
  (w name = None -> read_points w name = Ok []) /\
  (openable name = false -> write_points openable w name points = w).
Proof.
  intros ok w name pts. split; intros H.
  - unfold read_points. rewrite H. reflexivity.
  - unfold write_points. rewrite H. reflexivity.
Qed.

(** ** C42: PLY files *)

(** Four float properties per vertex: every vertex is returned, whatever follows. *)
Theorem C42_four_properties :
  forall (w : fs) (name : string) (ls : list hline) (records : list (list float32))
         (extra : bytes) (points : list vec4f),
  Forall hline_ok ls -> length (properties_of ls) = 4 ->
  length records = count_of ls 0 -> (forall r, In r records -> length r = 4) ->
  Forall2 vertex_of records points ->
  w name = Some (ply_header ls ++ flat_map record_bytes records ++ extra) ->
  read_ply w name = Ok (Ret points).
Proof.
  intros w name ls recs extra pts Hok Lp Lr Hr F E.
  rewrite (read_ply_header w name ls _ Hok E). rewrite check_ok.
  - cbn [bind]. rewrite Lp.
    assert (LB : length (flat_map record_bytes recs) = 16 * count_of ls 0).
    { rewrite (flat_map_length_const _ 16); [lia|]. intros r Ir.
      unfold record_bytes. rewrite (flat_map_length_const _ 4) by (intros; apply float_bytes_length).
      rewrite (Hr r Ir). reflexivity. }
    rewrite (read_body_records 4 (count_of ls 0) recs _ [] pts); auto.
    + rewrite firstn_length. lia.
    + unfold seen_bytes. rewrite firstn_app, LB, Nat.sub_diag, firstn_O, app_nil_r, firstn_all2 by lia.
      rewrite LB. replace (4 * (4 * count_of ls 0) - 16 * count_of ls 0) with 0 by lia. reflexivity.
  - lia.
  - clear -Hok. induction Hok as [|l ls H Hok IH]; simpl; [constructor|].
    destruct l; auto.
Qed.

(** Three float properties and nothing after the last vertex: every vertex is returned. *)
Theorem C42_three_properties :
  forall (w : fs) (name : string) (ls : list hline) (records : list (list float32))
         (points : list vec4f),
  Forall hline_ok ls -> length (properties_of ls) = 3 ->
  length records = count_of ls 0 -> (forall r, In r records -> length r = 3) ->
  Forall2 vertex_of records points ->
  w name = Some (ply_header ls ++ flat_map record_bytes records) ->
  read_ply w name = Ok (Ret points).
Proof.
  intros w name ls recs pts Hok Lp Lr Hr F E.
  rewrite (read_ply_header w name ls _ Hok E). rewrite check_ok.
  - cbn [bind]. rewrite Lp.
    assert (LB : length (flat_map record_bytes recs) = 12 * count_of ls 0).
    { rewrite (flat_map_length_const _ 12); [lia|]. intros r Ir.
      unfold record_bytes. rewrite (flat_map_length_const _ 4) by (intros; apply float_bytes_length).
      rewrite (Hr r Ir). reflexivity. }
    rewrite (read_body_records 3 (count_of ls 0) recs _ [] pts); auto.
    + rewrite firstn_length. lia.
    + unfold seen_bytes. rewrite firstn_all2 by lia.
      rewrite LB. replace (4 * (3 * count_of ls 0) - 12 * count_of ls 0) with 0 by lia. reflexivity.
  - lia.
  - clear -Hok. induction Hok as [|l ls H Hok IH]; simpl; [constructor|].
    destruct l; auto.
Qed.

Lemma props_words ls : Forall hline_ok ls -> Forall word (properties_of ls).
Proof. intros Hok. induction Hok as [|l ls H Hok IH]; simpl; [constructor|]. destruct l; auto. Qed.

(** Refuted with three properties when anything follows the vertices (faces, a comment, one
    stray byte): the read overruns the buffer. *)
Theorem C42_three_properties_with_more_data_refuted :
  forall (w : fs) (name : string) (ls : list hline) (payload : bytes),
  Forall hline_ok ls -> length (properties_of ls) = 3 -> 0 < count_of ls 0 ->
  12 * count_of ls 0 < length payload ->
  w name = Some (ply_header ls ++ payload) ->
  read_ply w name = UB.
Proof.
  intros w name ls payload Hok Lp Hn Hl E.
  rewrite (read_ply_header w name ls _ Hok E).
  rewrite check_ok by (try lia; apply props_words; exact Hok).
  cbn [bind]. rewrite read_body_overrun; [reflexivity|]. rewrite firstn_length, Lp. lia.
Qed.

(** Refuted with five or more properties: only 16 bytes per vertex are read, and the vertices
    beyond come back at the origin, whatever the file says.  With five vertices or more the
    last one always does. *)
Theorem C42_many_properties_refuted :
  forall (w : fs) (name : string) (ls : list hline) (payload : bytes),
  let np := length (properties_of ls) in
  let n := count_of ls 0 in
  Forall hline_ok ls -> 5 <= np ->
  w name = Some (ply_header ls ++ payload) ->
  exists points, read_ply w name = Ok (Ret points) /\ length points = n /\
    (forall i, i < n -> 4 * n <= i * np -> nth_error points i = Some (vertex zero32 zero32 zero32)) /\
    (5 <= n -> nth_error points (n - 1) = Some (vertex zero32 zero32 zero32)).
Proof.
  intros w name ls payload np n Hok Lp E.
  rewrite (read_ply_header w name ls _ Hok E).
  rewrite check_ok by (try (fold np; lia); apply props_words; exact Hok).
  cbn [bind]. fold np n.
  destruct (read_body_past np n payload) as (pts & R & L & Z); [lia|rewrite firstn_length; nia|].
  rewrite R. exists pts. split; [reflexivity|]. split; [exact L|].
  assert (Z' : forall i, i < n -> 4 * n <= i * np -> nth_error pts i = Some (vertex zero32 zero32 zero32)).
  { intros i Hi H. apply Z; auto. rewrite firstn_length. lia. }
  split; [exact Z'|]. intros Hn. apply Z'; [lia|].
  assert ((n - 1) * 5 <= (n - 1) * np) by (apply Nat.mul_le_mono_l; lia). lia.
Qed.

(** Refuted for a truncated file: missing vertices come back at the origin, without an error. *)
Theorem C42_truncated_file_refuted :
  forall (w : fs) (name : string) (ls : list hline),
  Forall hline_ok ls -> 3 <= length (properties_of ls) ->
  w name = Some (ply_header ls) ->
  exists points, read_ply w name = Ok (Ret points) /\ length points = count_of ls 0 /\
    forall i, i < count_of ls 0 -> nth_error points i = Some (vertex zero32 zero32 zero32).
Proof.
  intros w name ls Hok Lp E. rewrite <- (app_nil_r (ply_header ls)) in E.
  rewrite (read_ply_header w name ls _ Hok E).
  rewrite check_ok by (try lia; apply props_words; exact Hok). cbn [bind].
  destruct (read_body_past (length (properties_of ls)) (count_of ls 0) []) as (pts & R & L & Z).
  { exact Lp. } { rewrite firstn_nil. simpl. lia. }
  rewrite R. exists pts. split; [reflexivity|]. split; [exact L|].
  intros i Hi. apply Z; auto. rewrite firstn_nil. simpl. lia.
Qed.

(** Refuted for any file with a second kind of element, e.g. faces: nothing is returned. *)
Theorem C42_other_elements_refuted :
  forall (w : fs) (name : string) (ls : list hline) (kind count rest : bytes),
  Forall hline_ok ls -> word kind -> word count -> kind <> chars "vertex" ->
  w name = Some (lines_bytes ls ++ (chars "element" ++ [sp] ++ kind ++ [sp] ++ count) ++ lf :: rest) ->
  read_ply w name = Ok (Ret []).
Proof.
  intros w name ls kind count rest Hok Hk Hc N E. unfold read_ply. rewrite E.
  destruct (header_lines_file ls ((chars "element" ++ [sp] ++ kind ++ [sp] ++ count) ++ lf :: rest) Hok)
    as (fuel & Hf & ->).
  destruct fuel as [|fuel]; [lia|]. cbn [header_loop].
  rewrite getline_line.
  2: { intros K. apply In_app_sp in K. destruct K as [K|K]; [apply word_no_lf in K; auto; apply word_element|].
       apply In_app_sp in K. destruct K as [K|K]; apply word_no_lf in K; auto. }
  set (line := chars "element" ++ [sp] ++ kind ++ [sp] ++ count).
  assert (NE : exists c t, line = c :: t) by (unfold line; cbn [chars list_ascii_of_string app]; eauto).
  destruct NE as (c0 & t0 & NE). rewrite NE. cbv iota. rewrite <- NE.
  rewrite bytes_eqb_false.
  2: { unfold line. cbn [chars list_ascii_of_string app]. intros K. inversion K. }
  unfold line. rewrite starts_with_app.
  pose proof (tokens3 _ _ _ word_element Hk Hc) as T.
  destruct (next_token (chars "element" ++ [sp] ++ kind ++ [sp] ++ count)) as [t1 r1].
  destruct (next_token r1) as [t2 r2]. destruct (next_token r2) as [t3 r3].
  destruct T as (-> & -> & ->). rewrite bytes_eqb_true, bytes_eqb_false by exact N. reflexivity.
Qed.

(** A property of any other type than float: an empty cloud, not reinterpreted bytes. *)
Theorem C42_other_types_rejected :
  forall (w : fs) (name : string) (ls : list hline) (type prop rest : bytes),
  Forall hline_ok ls -> word type -> word prop -> type <> chars "float" ->
  w name = Some (lines_bytes ls ++ (chars "property" ++ [sp] ++ type ++ [sp] ++ prop) ++ lf :: rest) ->
  read_ply w name = Ok (Ret []).
Proof.
  intros w name ls kind count rest Hok Hk Hc N E. unfold read_ply. rewrite E.
  destruct (header_lines_file ls ((chars "property" ++ [sp] ++ kind ++ [sp] ++ count) ++ lf :: rest) Hok)
    as (fuel & Hf & ->).
  destruct fuel as [|fuel]; [lia|]. cbn [header_loop].
  rewrite getline_line.
  2: { intros K. apply In_app_sp in K. destruct K as [K|K]; [apply word_no_lf in K; auto; apply word_property|].
       apply In_app_sp in K. destruct K as [K|K]; apply word_no_lf in K; auto. }
  set (line := chars "property" ++ [sp] ++ kind ++ [sp] ++ count).
  assert (NE : exists c t, line = c :: t) by (unfold line; cbn [chars list_ascii_of_string app]; eauto).
  destruct NE as (c0 & t0 & NE). rewrite NE. cbv iota. rewrite <- NE.
  rewrite bytes_eqb_false.
  2: { unfold line. cbn [chars list_ascii_of_string app]. intros K. inversion K. }
  assert (starts_with (chars "element") line = false) as ->.
  { unfold line. reflexivity. }
  unfold line. rewrite starts_with_app.
  pose proof (tokens3 _ _ _ word_property Hk Hc) as T.
  destruct (next_token (chars "property" ++ [sp] ++ kind ++ [sp] ++ count)) as [t1 r1].
  destruct (next_token r1) as [t2 r2]. destruct (next_token r2) as [t3 r3].
  destruct T as (-> & -> & ->). rewrite bytes_eqb_false by exact N. reflexivity.
Qed.

(** Refuted for a header without properties: properties[0] is read out of range. *)
Theorem C42_no_properties_refuted :
  forall (w : fs) (name : string) (ls : list hline) (payload : bytes),
  Forall hline_ok ls -> properties_of ls = [] ->
  w name = Some (ply_header ls ++ payload) ->
  read_ply w name = UB.
Proof.
  intros w name ls payload Hok Lp E. rewrite (read_ply_header w name ls _ Hok E), Lp. reflexivity.
Qed.

(** The header loop always ends: every file has an outcome, never a lack of fuel. *)
Lemma getline_length b : forall l r e, getline b = (l, r, e) ->
  length r <= length b /\ (l <> [] -> length r < length b).
Proof.
  induction b as [|c b IH]; intros l r e E; cbn [getline] in E.
  - inversion E; subst. simpl. split; [lia|congruence].
  - destruct (ascii_dec c lf).
    + inversion E; subst. simpl. split; [lia|congruence].
    + destruct (getline b) as [[l' r'] e'] eqn:G. inversion E; subst.
      destruct (IH _ _ _ eq_refl). cbn [length]. lia.
Qed.

Lemma header_loop_total fuel : forall b props n, length b < fuel ->
  exists h, header_loop fuel b props n = Ok h.
Proof.
  induction fuel as [|fuel IH]; intros b props n H; [lia|]. cbn [header_loop].
  destruct (getline b) as [[l r] e] eqn:G. apply getline_length in G. destruct G as [_ G].
  destruct l as [|c l]; [eauto|]. assert (LR : length r < fuel) by (specialize (G ltac:(discriminate)); lia).
  repeat match goal with
  | |- exists h, (if ?c then _ else _) = Ok h => destruct c
  | |- exists h, (let (a, b) := ?e in _) = Ok h => destruct e
  | |- exists h, (match ?e with Some _ => _ | None => _ end) = Ok h => destruct e
  end; eauto.
Qed.

Theorem C42_header_always_ends :
  forall (w : fs) (name : string), read_ply w name <> OutOfFuel /\ read_ply w name <> Abort.
Proof.
  intros w name.
  assert (NO : forall A (f : nat -> outcome A) l, (forall i, f i <> OutOfFuel /\ f i <> Abort) ->
                 mapM f l <> OutOfFuel /\ mapM f l <> Abort).
  { intros A f l H. induction l as [|x l [I1 I2]]; simpl; [split; discriminate|].
    destruct (H x) as [H1 H2]. destruct (f x); cbn [bind]; try (split; congruence).
    destruct (mapM f l); cbn [bind]; split; congruence. }
  assert (GN : forall A (l : list A) i, get l i <> OutOfFuel /\ get l i <> Abort).
  { intros A l i. unfold get. destruct (nth_error l i); split; discriminate. }
  assert (GF : forall buf o, get_float buf o <> OutOfFuel /\ get_float buf o <> Abort).
  { intros buf o. unfold get_float.
    repeat match goal with
    | |- context [get buf ?i] => destruct (get buf i) as [[?|]| | |] eqn:?; cbn [bind];
        try (split; discriminate); try (exfalso; destruct (GN _ buf i); congruence)
    end. }
  unfold read_ply. destruct (w name) as [b|]; [|split; discriminate].
  destruct (header_loop_total (S (length b)) b [] 0 ltac:(lia)) as (h & ->). cbn [bind].
  destruct h as [line props n rest eof| |]; try (split; discriminate).
  assert (C : check_properties line props = UB \/ check_properties line props = Ok tt).
  { unfold check_properties. destruct (length line <? 3); auto. unfold get.
    repeat match goal with
    | |- context [match nth_error ?l ?i with _ => _ end] => destruct (nth_error l i); cbn [bind]; auto
    | |- context [if ?c then Ok true else _] => destruct c; cbn [bind]; auto
    end. }
  destruct C as [->| ->]; cbn [bind]; [split; discriminate|].
  unfold read_body, read_into. destruct (_ <=? _); cbn [bind]; [|split; discriminate].
  match goal with |- context [mapM ?f ?l] => pose proof (NO _ f l) as M; destruct (mapM f l) end;
    cbn [bind]; try (split; discriminate); destruct M as [M1 M2]; try congruence;
    intros i;
    repeat match goal with
    | |- context [get_float ?b ?o] => destruct (GF b o); destruct (get_float b o); cbn [bind];
        try (split; congruence)
    end.
Qed.

(** ** Non-vacuity *)
Definition demo_header (count : string) (names : list string) : list hline :=
  [LOther (chars "ply"); LOther (chars "format binary_little_endian 1.0"); LVertex (chars count)]
  ++ map (fun n => LProperty (chars n)) names.

Example C42_header_ok : Forall hline_ok (demo_header "12" ["x"; "y"; "z"; "intensity"]%string).
Proof.
  repeat constructor; cbn [hline_ok];
    repeat match goal with
    | |- _ /\ _ => split
    | |- _ <> [] => discriminate
    | |- chars _ <> chars _ => discriminate
    | |- ~ In lf _ => intros K; cbn in K; repeat (destruct K as [K|K]; [discriminate|]); destruct K
    | |- forall r, _ <> _ ++ _ => intros r K; cbn in K; inversion K
    | |- word (chars _) => apply word_lit; [reflexivity|discriminate]
    | |- Forall is_digit _ => cbn; repeat constructor
    end.
  - exists 1%Z. split; [lia|reflexivity].
  - exists 2%Z. split; [lia|reflexivity].
  - vm_compute. discriminate.
Qed.

Definition demo_float (n : nat) : float32 := (ascii_of_nat n, "000"%char, "128"%char, "063"%char).
Definition demo_file (b : bytes) : fs := fun _ => Some b.

(** Two vertices with four properties, followed by junk. *)
Example C42_example :
  read_ply (demo_file (ply_header (demo_header "2" ["x"; "y"; "z"; "i"]%string)
     ++ flat_map record_bytes [map demo_float [1; 2; 3; 4]; map demo_float [5; 6; 7; 8]] ++ chars "junk")) "f"
  = Ok (Ret [vertex (demo_float 1) (demo_float 2) (demo_float 3); vertex (demo_float 5) (demo_float 6) (demo_float 7)]).
Proof. vm_compute. reflexivity. Qed.

Example C42_example_overrun :
  read_ply (demo_file (ply_header (demo_header "1" ["x"; "y"; "z"]%string)
     ++ flat_map record_bytes [map demo_float [1; 2; 3]] ++ chars "j")) "f" = UB.
Proof. vm_compute. reflexivity. Qed.

(** Properties of type double: the header ends the reading. *)
Example C42_example_double :
  let ls := demo_header "12" ["x"; "y"; "z"; "intensity"]%string in
  Forall hline_ok ls /\ word (chars "double") /\ word (chars "time") /\ chars "double" <> chars "float" /\
  read_ply (demo_file (lines_bytes ls
     ++ (chars "property" ++ [sp] ++ chars "double" ++ [sp] ++ chars "time") ++ lf :: chars "end_header")) "f" = Ok (Ret []).
Proof.
  split; [exact C42_header_ok|].
  split; [apply word_lit; [reflexivity|discriminate]|].
  split; [apply word_lit; [reflexivity|discriminate]|].
  split; [discriminate|]. vm_compute. reflexivity.
Qed.

Example C42_example_count : count_of (demo_header "12" []) 0 = 12.
Proof. reflexivity. Qed.

Example C41_example :
  let pts := [F4 (demo_float 1) (demo_float 2) (demo_float 3) (demo_float 4)] in
  read_points (write_points (fun _ => true) (fun _ => None) "f" pts) "f" = Ok (map homogeneous pts).
Proof. vm_compute. reflexivity. Qed.

Print Assumptions C41_round_trip.
Print Assumptions C41_any_file.
Print Assumptions C41_failures.
Print Assumptions C42_four_properties.
Print Assumptions C42_three_properties.
Print Assumptions C42_three_properties_with_more_data_refuted.
Print Assumptions C42_many_properties_refuted.
Print Assumptions C42_truncated_file_refuted.
Print Assumptions C42_other_elements_refuted.
Print Assumptions C42_no_properties_refuted.
Print Assumptions C42_header_always_ends.
Print Assumptions C42_other_types_rejected.
