(** C61: the statistics helper; C62: the benchmark's command line and engine registry. *)
From Coq Require Import Reals Lra Psatz ZArith List String Ascii Permutation.
From Flocq Require Import Core IEEE754.BinarySingleNaN.
From Verif Require Import Base BaseProofs Num RNum F64 Lin BenchModel BenchSpec.
Import ListNotations.
Local Open Scope list_scope.
Local Open Scope nat_scope.

(** * C61 *)
Section Any.
Context (D : fld).
Lemma pushed_snoc log (xs : list (car D)) x : pushed log (xs ++ [x]) = push (pushed log xs) x.
Proof. unfold pushed. rewrite fold_left_app. reflexivity. Qed.
Lemma pushed_fields log (xs : list (car D)) :
  m_full_log (pushed log xs) = log /\ m_full_data (pushed log xs) = xs /\ m_num_data (pushed log xs) = length xs.
Proof.
  induction xs as [|x xs IH] using rev_ind; [auto|]. rewrite pushed_snoc. destruct IH as (A & B & C). cbn [push m_full_log m_full_data m_num_data].
  rewrite A, B, C, app_length. auto.
Qed.
End Any.

Lemma total_snoc f xs x : total_of f (xs ++ [x]) = (total_of f xs + f x)%R.
Proof. unfold total_of. induction xs as [|y xs IH]; cbn [app fold_right]; [lra|]. rewrite IH. lra. Qed.
Lemma sums_real log (xs : list R) :
  (m_sum (D := Rfld) (pushed (D := Rfld) log xs) = total_of (fun x => x) xs /\ m_sq_sum (D := Rfld) (pushed (D := Rfld) log xs) = total_of (fun x => x * x) xs)%R.
Proof.
  induction xs as [|x xs IH] using rev_ind; [split; reflexivity|]. rewrite (pushed_snoc Rfld), !total_snoc. destruct IH as (A & B).
  cbn [push m_sum m_sq_sum]. rewrite A, B. split; reflexivity.
Qed.
Lemma total_deviation m xs : total_of (fun x => x - m)%R xs = (total_of (fun x => x) xs - INR (length xs) * m)%R.
Proof. induction xs as [|x xs IH]; [cbn; lra|]. cbn [length]. rewrite S_INR. unfold total_of in *. cbn [fold_right]. rewrite IH. lra. Qed.
Lemma total_square m xs : total_of (fun x => (x - m) * (x - m))%R xs =
  (total_of (fun x => x * x) xs - 2 * m * total_of (fun x => x) xs + INR (length xs) * (m * m))%R.
Proof. induction xs as [|x xs IH]; [cbn; lra|]. cbn [length]. rewrite S_INR. unfold total_of in *. cbn [fold_right]. rewrite IH. lra. Qed.
Lemma total_nonneg f xs : (forall x, 0 <= f x)%R -> (0 <= total_of f xs)%R.
Proof. intros H. induction xs as [|x xs IH]; cbn [total_of fold_right]; [lra|]. specialize (H x). unfold total_of in IH. lra. Qed.

(** In exact arithmetic, after any history of at least one value: the mean and the (population)
    standard deviation. *)
Theorem C61_mean_std : forall log (xs : list R), xs <> [] ->
  let (m, sd) := mean_std (D := Rfld) INR (pushed (D := Rfld) log xs) in is_mean m xs /\ is_deviation sd m xs.
Proof.
  intros log xs NE. destruct (sums_real log xs) as (A & B). destruct (pushed_fields Rfld log xs) as (_ & _ & C).
  unfold mean_std. rewrite A, B, C. change (@Datatypes.length (car (fbase Rfld)) xs) with (@Datatypes.length R xs). set (n := INR (length xs)). set (s := total_of (fun x => x) xs). set (q := total_of (fun x => x * x)%R xs).
  change (@ndiv (fbase Rfld)) with Rdiv. change (@nsub (fbase Rfld)) with Rminus. change (@nmul (fbase Rfld)) with Rmult. change (@fsqrt Rfld) with sqrt.
  assert (N : (0 < n)%R) by (unfold n; apply lt_0_INR; destruct xs; [congruence|cbn; lia]).
  assert (V : ((q - s / n * s) / n = total_of (fun x => (x - s / n) * (x - s / n)) xs / n)%R).
  { rewrite total_square. fold n s q. field. lra. }
  split; [|split].
  - unfold is_mean. rewrite total_deviation. fold n s. field. lra.
  - apply sqrt_pos.
  - rewrite sqrt_sqrt.
    + rewrite V. fold n. field. lra.
    + rewrite V. apply Rmult_le_pos; [apply total_nonneg; intros x; apply Rle_0_sqr|]. apply Rlt_le, Rinv_0_lt_compat, N.
Qed.
(** Any arithmetic: the last value is the last one pushed, and without the full log the summary is
    mean, deviation and last value. *)
Theorem C61_last : forall (D : fld) of_nat nan ne log (xs : list (car D)) x,
  last_pushed (pushed log (xs ++ [x])) = x /\
  summary of_nat nan ne (pushed false (xs ++ [x])) =
    Ok (fst (mean_std of_nat (pushed false (xs ++ [x]))), snd (mean_std of_nat (pushed false (xs ++ [x]))), x).
Proof.
  intros D of_nat nan ne log xs x. split; [unfold last_pushed; rewrite pushed_snoc; reflexivity|].
  unfold summary. destruct (pushed_fields D false (xs ++ [x])) as (-> & _). destruct (mean_std of_nat (pushed false (xs ++ [x]))) as [m sd].
  rewrite pushed_snoc. reflexivity.
Qed.
(** In doubles the deviation of equal values need not be a number. *)
Definition tenth : f64 := f64_div (f64_of 1 0) (f64_of 10 0).
Definition count64 (n : nat) : f64 := f64_of (Z.of_nat n) 0.
Theorem C61_equal_values_refuted : exists x : f64, is_finite x = true /\
  is_nan (snd (mean_std (D := Ffld) count64 (pushed (D := Ffld) false [x; x; x]))) = true.
Proof. exists tenth. split; vm_compute; reflexivity. Qed.
(** The median of a log with data is never computed: the call of nth_element is undefined,
    whatever that function does elsewhere; without the log it is "not a number". *)
Theorem C61_median_refuted : forall (D : fld) of_nat nan ne (xs : list (car D)),
  median nan ne (pushed false xs) = Ok nan /\
  (xs <> [] -> median nan ne (pushed true xs) = UB /\ summary of_nat nan ne (pushed true xs) = UB).
Proof.
  intros D of_nat nan ne xs. split.
  - unfold median. destruct (pushed_fields D false xs) as (-> & _). reflexivity.
  - intros NE. assert (M : median nan ne (pushed true xs) = UB).
    { unfold median. destruct (pushed_fields D true xs) as (-> & -> & _). destruct xs as [|x xs]; [congruence|]. cbn [negb orb].
      unfold nth_element_call. set (n := length (x :: xs)). assert (L : n / 2 < n) by (apply Nat.div_lt; cbn [length] in n; lia).
      replace (n <=? n / 2) with false by (symmetry; apply Nat.leb_gt; exact L). rewrite andb_false_r. reflexivity. }
    split; [exact M|]. unfold summary. destruct (pushed_fields D true xs) as (-> & _). destruct (mean_std of_nat (pushed true xs)). rewrite M. reflexivity.
Qed.
(** The data are stored in both modes. *)
Theorem C61_storage_refuted : forall (D : fld) (xs : list (car D)), m_full_data (pushed false xs) = xs.
Proof. intros D xs. apply pushed_fields. Qed.
Example C61_instance : let (m, sd) := mean_std (D := Rfld) INR (pushed (D := Rfld) false [1; 3]%R) in m = 2%R /\ sd = 1%R.
Proof.
  split; [change ((0 + 1 + 3) / (1 + 1) = 2)%R; lra|].
  change (sqrt ((0 + 1 * 1 + 3 * 3 - (0 + 1 + 3) / (1 + 1) * (0 + 1 + 3)) / (1 + 1)) = 1)%R. replace ((0 + 1 * 1 + 3 * 3 - (0 + 1 + 3) / (1 + 1) * (0 + 1 + 3)) / (1 + 1))%R with 1%R by lra. apply sqrt_1.
Qed.

(** * C62 *)
Lemma is_option_prefix w : is_option w = String.prefix "--" w.
Proof.
  destruct w as [|a [|b w]]; [reflexivity| |].
  - unfold is_option. cbn [String.prefix]. destruct (ascii_dec "-" a); reflexivity.
  - unfold is_option. cbn [String.prefix]. destruct (ascii_dec "-" a) as [<-|A], (ascii_dec "-" b) as [<-|B]; try reflexivity.
    all: try (destruct (Ascii.eqb_spec a "-"); [congruence|]); try (destruct (Ascii.eqb_spec b "-"); [congruence|]); destruct w; reflexivity.
Qed.
Lemma plain_word {F} stoi stod w rest (o : options F) : no_option w -> parse_args stoi stod (w :: rest) o = parse_args stoi stod rest o.
Proof.
  intros H. unfold no_option in H. rewrite <- is_option_prefix in H. cbn [parse_args].
  assert (N : forall s, is_option s = true -> String.eqb w s = false).
  { intros s S. destruct (String.eqb_spec w s); [|reflexivity]. subst. congruence. }
  rewrite !N by reflexivity. rewrite H. reflexivity.
Qed.
Section Step.
Context {F : Type} (stoi : string -> option Z) (stod : string -> option F).
Lemma parse_value {A} (parse : string -> option A) v rest x : parse v = Some x -> number parse (v :: rest) = Ok x.
Proof. intros E. unfold number. cbn [value_of bind]. rewrite E. reflexivity. Qed.
Lemma parse_threads v rest o z : no_option v -> stoi v = Some z ->
  parse_args stoi stod ("--num_threads"%string :: v :: rest) o = parse_args stoi stod rest (set_num_threads o z).
Proof. intros P E. rewrite <- (plain_word stoi stod v rest) by exact P. pose proof (parse_value stoi v rest z E) as N. revert N. generalize (v :: rest). intros l N. cbn [parse_args]. rewrite N. reflexivity. Qed.
Lemma parse_neighbors v rest o z : no_option v -> stoi v = Some z ->
  parse_args stoi stod ("--num_neighbors"%string :: v :: rest) o = parse_args stoi stod rest (set_num_neighbors o z).
Proof. intros P E. rewrite <- (plain_word stoi stod v rest) by exact P. pose proof (parse_value stoi v rest z E) as N. revert N. generalize (v :: rest). intros l N. cbn [parse_args]. rewrite N. reflexivity. Qed.
Lemma parse_downsampling v rest o z : no_option v -> stod v = Some z ->
  parse_args stoi stod ("--downsampling_resolution"%string :: v :: rest) o = parse_args stoi stod rest (set_downsampling_resolution o z).
Proof. intros P E. rewrite <- (plain_word stoi stod v rest) by exact P. pose proof (parse_value stod v rest z E) as N. revert N. generalize (v :: rest). intros l N. cbn [parse_args]. rewrite N. reflexivity. Qed.
Lemma parse_voxels v rest o z : no_option v -> stod v = Some z ->
  parse_args stoi stod ("--voxel_resolution"%string :: v :: rest) o = parse_args stoi stod rest (set_voxel_resolution o z).
Proof. intros P E. rewrite <- (plain_word stoi stod v rest) by exact P. pose proof (parse_value stod v rest z E) as N. revert N. generalize (v :: rest). intros l N. cbn [parse_args]. rewrite N. reflexivity. Qed.
Lemma parse_engine v rest o : no_option v ->
  parse_args stoi stod ("--engine"%string :: v :: rest) o = parse_args stoi stod rest (set_engine o v).
Proof. intros P. rewrite <- (plain_word stoi stod v rest) by exact P. assert (N : value_of (v :: rest) = Ok v) by reflexivity. revert N. generalize (v :: rest). intros l N. cbn [parse_args]. rewrite N. reflexivity. Qed.
End Step.
Lemma parse_items {F} stoi stod items rest : forall o : options F, Forall (sensible stoi stod) items ->
  parse_args stoi stod (flat_map words items ++ rest) o = parse_args stoi stod rest (meant stoi stod items o).
Proof.
  induction items as [|i items IH]; intros o H; [destruct o; reflexivity|]. inversion H as [|? ? Hi Hr]; subst.
  cbn [flat_map]. rewrite <- app_assoc.
  destruct i as [|v|v|v|v|v|w]; cbn [words app sensible] in *.
  - cbn [parse_args]. rewrite String.eqb_refl. rewrite IH by exact Hr. reflexivity.
  - destruct Hi as [P Q]. destruct (stoi v) as [z|] eqn:E; [|congruence]. rewrite (parse_threads _ _ _ _ _ z P E), IH by exact Hr.
    unfold meant. cbn [last_of threads_of visualize_of neighbors_of downsampling_of voxels_of engine_of]. rewrite E. reflexivity.
  - destruct Hi as [P Q]. destruct (stoi v) as [z|] eqn:E; [|congruence]. rewrite (parse_neighbors _ _ _ _ _ z P E), IH by exact Hr.
    unfold meant. cbn [last_of threads_of visualize_of neighbors_of downsampling_of voxels_of engine_of]. rewrite E. reflexivity.
  - destruct Hi as [P Q]. destruct (stod v) as [z|] eqn:E; [|congruence]. rewrite (parse_downsampling _ _ _ _ _ z P E), IH by exact Hr.
    unfold meant. cbn [last_of threads_of visualize_of neighbors_of downsampling_of voxels_of engine_of]. rewrite E. reflexivity.
  - destruct Hi as [P Q]. destruct (stod v) as [z|] eqn:E; [|congruence]. rewrite (parse_voxels _ _ _ _ _ z P E), IH by exact Hr.
    unfold meant. cbn [last_of threads_of visualize_of neighbors_of downsampling_of voxels_of engine_of]. rewrite E. reflexivity.
  - rewrite parse_engine by exact Hi. rewrite IH by exact Hr. reflexivity.
  - rewrite plain_word by exact Hi. rewrite IH by exact Hr. reflexivity.
Qed.
Definition defaults {F} (quarter one : F) : options F := mkOptions false 4 20 quarter one one "small_gicp".

(** Sensible options in any order after the two paths: every setting is the last one given, or
    the default; words that are no options are passed over. *)
Theorem C62_options : forall F stoi stod (quarter one : F) name dataset output items,
  no_option name -> no_option dataset -> no_option output -> Forall (sensible stoi stod) items ->
  command_line stoi stod quarter one (name :: dataset :: output :: flat_map words items) =
    Ok (Run dataset output (meant stoi stod items (defaults quarter one))).
Proof.
  intros F stoi stod quarter one name dataset output items N1 N2 N3 H. unfold command_line. rewrite !plain_word by assumption.
  rewrite <- (app_nil_r (flat_map words items)), parse_items by exact H. reflexivity.
Qed.
(** Anything else that starts with two dashes is refused, whatever follows. *)
Theorem C62_unknown_option : forall F stoi stod (quarter one : F) name dataset output items w rest,
  no_option name -> no_option dataset -> no_option output -> Forall (sensible stoi stod) items ->
  String.prefix "--" w = true -> w <> "--visualize"%string -> ~ In w takes_value ->
  command_line stoi stod quarter one (name :: dataset :: output :: flat_map words items ++ w :: rest) = Ok Refused.
Proof.
  intros F stoi stod quarter one name dataset output items w rest N1 N2 N3 H P NV NT. unfold command_line. rewrite !plain_word by assumption.
  rewrite parse_items by exact H. cbn [parse_args]. cbn [takes_value In] in NT.
  assert (E : forall s, w <> s -> String.eqb w s = false) by (intros s S; destruct (String.eqb_spec w s); [contradiction|reflexivity]).
  rewrite !E by (intros ->; tauto). rewrite is_option_prefix, P. reflexivity.
Qed.
(** An option without its value reads the null pointer behind the arguments. *)
Theorem C62_missing_value_refuted : forall F stoi stod (quarter one : F) name dataset output items w,
  no_option name -> no_option dataset -> no_option output -> Forall (sensible stoi stod) items -> In w takes_value ->
  command_line stoi stod quarter one (name :: dataset :: output :: flat_map words items ++ [w]) = UB.
Proof.
  intros F stoi stod quarter one name dataset output items w N1 N2 N3 H I. unfold command_line. rewrite !plain_word by assumption.
  rewrite parse_items by exact H. cbn [takes_value In] in I. destruct I as [<-|[<-|[<-|[<-|[<-|[]]]]]]; reflexivity.
Qed.
(** The correspondence distance cannot be set: no command line changes it, the option is refused. *)
Lemma distance_kept {F} stoi stod args : forall (o o' : options F), parse_args stoi stod args o = Ok (Some o') ->
  o_max_correspondence_distance o' = o_max_correspondence_distance o.
Proof.
  induction args as [|w rest IH]; intros o o' H; cbn [parse_args] in H; [injection H as <-; reflexivity|].
  unfold number in H.
  repeat match type of H with
  | (if ?b then _ else _) = _ => destruct b
  | (let* _ := (let* _ := value_of rest in _) in _) = _ => destruct (value_of rest); cbn [bind] in H
  | (let* _ := value_of rest in _) = _ => destruct (value_of rest); cbn [bind] in H
  | (let* _ := match ?e with Some _ => _ | None => _ end in _) = _ => destruct e; cbn [bind] in H
  | UB = _ => discriminate H | Abort = _ => discriminate H | OutOfFuel = _ => discriminate H | Ok None = _ => discriminate H
  end; try (apply IH in H; rewrite H; reflexivity).
Qed.
Theorem C62_distance_refuted : forall F stoi stod (quarter one : F) args dataset output o,
  command_line stoi stod quarter one args = Ok (Run dataset output o) -> o_max_correspondence_distance o = one.
Proof.
  intros F stoi stod quarter one args dataset output o H. unfold command_line in H. destruct args as [|a [|b [|c rest]]]; try discriminate.
  destruct (parse_args stoi stod (a :: b :: c :: rest) (mkOptions false 4 20 quarter one one "small_gicp")) as [[o'|]| | |] eqn:E; cbn [bind] in H; try discriminate.
  injection H as <- <- <-. apply distance_kept in E. exact E.
Qed.
(** The usage text states another default voxel resolution (numbers in hundredths). *)
Theorem C62_stated_defaults_refuted : forall stoi stod name dataset output,
  no_option name -> no_option dataset -> no_option output ->
  exists o, command_line (F := Z) stoi stod 25%Z 100%Z [name; dataset; output] = Ok (Run dataset output o) /\
    (o_num_threads o, o_num_neighbors o, o_downsampling_resolution o) = fst usage_defaults /\ o_voxel_resolution o <> snd usage_defaults.
Proof.
  intros stoi stod name dataset output N1 N2 N3. eexists. split.
  - exact (C62_options Z stoi stod 25%Z 100%Z name dataset output [] N1 N2 N3 (Forall_nil _)).
  - split; [reflexivity|discriminate].
Qed.

(** The registry: an engine is made exactly for the listed names, by the factory registered first
    under that name; with distinct names the order of registration (the order of the static
    initialisers, which the language leaves open) does not matter. *)
Theorem C62_registry : forall E (r : list (string * E)) name,
  (create_odometry r name <> None <-> In name (odometry_names r)) /\
  (forall e, create_odometry r name = Some e -> In (name, e) r) /\
  (forall e e', create_odometry r name = Some e -> create_odometry (register_odometry r name e') name = Some e).
Proof.
  intros E r name. unfold create_odometry, odometry_names, register_odometry. split; [|split].
  - destruct (find (fun p => String.eqb (fst p) name) r) as [p|] eqn:F.
    + apply find_some in F. destruct F as (I & Q). apply String.eqb_eq in Q. split; [|congruence]. intros _. rewrite <- Q. apply in_map, I.
    + split; [congruence|]. intros I. exfalso. apply in_map_iff in I. destruct I as (p & Q & I). pose proof (find_none _ _ F p I) as N. cbn in N.
      rewrite Q, String.eqb_refl in N. discriminate N.
  - intros e. destruct (find (fun p => String.eqb (fst p) name) r) as [p|] eqn:F; [|discriminate]. intros [= <-].
    apply find_some in F. destruct F as (I & Q). apply String.eqb_eq in Q. rewrite <- Q. destruct p. exact I.
  - intros e e'. induction r as [|p r IH]; cbn [find app]; [discriminate|]. destruct (String.eqb (fst p) name); [auto|exact IH].
Qed.
Theorem C62_registration_order : forall E (r r' : list (string * E)) name, Permutation r r' -> NoDup (odometry_names r) ->
  create_odometry r name = create_odometry r' name.
Proof.
  intros E r r' name P ND.
  assert (U : forall e1 e2, In (name, e1) r -> In (name, e2) r -> e1 = e2).
  { clear P. unfold odometry_names in ND. induction r as [|[n e] r IH]; cbn [In map fst] in *; [tauto|]. inversion ND as [|? ? NI ND']; subst.
    intros e1 e2 [H1|H1] [H2|H2]; [congruence| | |auto].
    - injection H1 as -> ->. exfalso. apply NI. apply (in_map fst) in H2. exact H2.
    - injection H2 as -> ->. exfalso. apply NI. apply (in_map fst) in H1. exact H1. }
  destruct (C62_registry E r name) as (A & B & _). destruct (C62_registry E r' name) as (A' & B' & _).
  assert (PN : Permutation (odometry_names r) (odometry_names r')) by (apply Permutation_map; exact P).
  destruct (create_odometry r name) as [e|] eqn:Ee, (create_odometry r' name) as [e'|] eqn:Ee'.
  - f_equal. apply U; [apply B; reflexivity|]. apply (Permutation_in _ (Permutation_sym P)). apply B'. reflexivity.
  - exfalso. apply A'; [|reflexivity]. eapply Permutation_in; [exact PN|]. apply A. discriminate.
  - exfalso. apply A; [|reflexivity]. eapply Permutation_in; [exact (Permutation_sym PN)|]. apply A'. discriminate.
  - reflexivity.
Qed.

(** The names registered in src/benchmark are distinct. *)
Definition registered_names : list string :=
  ["small_gicp"; "small_vgicp_model_tbb"; "fast_vgicp"; "fast_gicp"; "pcl"; "small_vgicp_tbb"; "small_gicp_omp"; "small_vgicp_omp";
   "small_gicp_tbb_flow"; "small_gicp_tbb"; "small_gicp_pcl"; "small_vgicp_model_omp"; "small_gicp_model_tbb"; "small_gicp_model_omp"]%string.
Example C62_names : NoDup (odometry_names (map (fun n => (n, n)) registered_names)) /\
  create_odometry (map (fun n => (n, n)) registered_names) "small_gicp_omp" = Some "small_gicp_omp"%string.
Proof.
  split; [|reflexivity]. vm_compute. repeat (constructor; [cbn [In]; intuition discriminate|]). constructor.
Qed.
Example C62_instance : exists o, command_line (F := Z) (fun s => Some (Z.of_nat (String.length s))) (fun s => Some (Z.of_nat (String.length s))) 25%Z 100%Z
  ["bench"; "data"; "out"; "--num_threads"; "xx"; "--visualize"; "extra"; "--engine"; "small_gicp_omp"; "--num_threads"; "xxxxxx"]%string = Ok (Run "data" "out" o) /\
  o_num_threads o = 6%Z /\ o_visualize o = true /\ o_engine o = "small_gicp_omp"%string /\ o_num_neighbors o = 20%Z.
Proof. eexists. split; [reflexivity|]. auto. Qed.

Print Assumptions C61_mean_std.
Print Assumptions C61_last.
Print Assumptions C61_equal_values_refuted.
Print Assumptions C61_median_refuted.
Print Assumptions C61_storage_refuted.
Print Assumptions C62_options.
Print Assumptions C62_unknown_option.
Print Assumptions C62_missing_value_refuted.
Print Assumptions C62_distance_refuted.
Print Assumptions C62_stated_defaults_refuted.
Print Assumptions C62_registry.
Print Assumptions C62_registration_order.
