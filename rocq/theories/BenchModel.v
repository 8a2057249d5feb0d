(** Model of the benchmark tools: Summarizer of include/small_gicp/benchmark/benchmark.hpp, the
    registry of src/small_gicp/benchmark/benchmark_odom.cpp, and the command line of
    src/benchmark/odometry_benchmark.cpp. *)
From Coq Require Import ZArith List String Ascii.
From Verif Require Import Base Num Lin.
Import ListNotations.
Local Open Scope list_scope.

(** * Summarizer, benchmark.hpp:35-84 *)
Section Summarizer.
Context (D : fld) (of_nat : nat -> car D) (nan : car D).
Notation K := (car D).

(** Members, benchmark.hpp:77-84.  num_data is counted without wrapping at 2^64. *)
Record summarizer : Type := mkSum {
  m_full_log : bool; m_full_data : list K; m_num_data : nat; m_sum : K; m_sq_sum : K; m_last_x : K
}.
(** benchmark.hpp:37 *)
Definition summarizer_init (full_log : bool) : summarizer := mkSum full_log [] 0 nzero nzero nzero.
(** push, benchmark.hpp:39-46: the data are appended in both modes. *)
Definition push (s : summarizer) (x : K) : summarizer :=
  mkSum (m_full_log s) (m_full_data s ++ [x]) (m_num_data s + 1) (nadd (m_sum s) x) (nadd (m_sq_sum s) (nmul x x)) x.
(** mean_std, benchmark.hpp:48-52 *)
Definition mean_std (s : summarizer) : K * K :=
  let mean := ndiv (m_sum s) (of_nat (m_num_data s)) in
  let var := ndiv (nsub (m_sq_sum s) (nmul mean (m_sum s))) (of_nat (m_num_data s)) in
  (mean, fsqrt var).
(** std::nth_element(begin + first, begin + nth, begin + last) on a vector: [first, nth) and
    [nth, last) must be ranges of the vector, otherwise the call is undefined; [ne] is what it
    does to the range (position, list). *)
Definition nth_element_call (ne : nat -> list K -> list K) (first nth last : nat) (l : list K) : outcome (list K) :=
  if ((first <=? nth) && (nth <=? last) && (last <=? length l))%bool%nat
  then Ok (put_slice l first (ne (nth - first) (slice l first last))) else UB.
(** median, benchmark.hpp:54-62; the second argument is end(), the third the middle. *)
Definition median (ne : nat -> list K -> list K) (s : summarizer) : outcome K :=
  if (negb (m_full_log s) || match m_full_data s with [] => true | _ => false end)%bool then Ok nan
  else
    let sorted := m_full_data s in
    let* sorted := nth_element_call ne 0 (length sorted) (length sorted / 2) sorted in
    get sorted (length sorted / 2).
(** last, benchmark.hpp:64 *)
Definition last_pushed (s : summarizer) : K := m_last_x s.
(** The numbers str() prints, benchmark.hpp:66-75: mean, deviation and median or last value. *)
Definition summary (ne : nat -> list K -> list K) (s : summarizer) : outcome (K * K * K) :=
  if m_full_log s then
    let (mean, std) := mean_std s in
    let* med := median ne s in Ok (mean, std, med)
  else let (mean, std) := mean_std s in Ok (mean, std, m_last_x s).
(** A fresh summarizer after a history of pushes; summarize(), benchmark.hpp:87-94, is [summary]
    of it with full_log = false. *)
Definition pushed (full_log : bool) (xs : list K) : summarizer := fold_left push xs (summarizer_init full_log).
End Summarizer.
Arguments m_full_log {D}. Arguments m_full_data {D}. Arguments m_num_data {D}. Arguments m_sum {D}. Arguments m_sq_sum {D}. Arguments m_last_x {D}.
Arguments summarizer_init {D}. Arguments push {D}. Arguments mean_std {D}. Arguments median {D}. Arguments summary {D}. Arguments pushed {D}.
Arguments nth_element_call {D}. Arguments last_pushed {D}. Arguments mkSum {D}.

(** * The registry, benchmark_odom.cpp:7-28 *)
Section Registry.
(** What a factory makes. *)
Context (Engine : Type).
Definition registry : Type := list (string * Engine).
(** register_odometry, benchmark_odom.cpp:9-12 *)
Definition register_odometry (r : registry) (name : string) (e : Engine) : registry := r ++ [(name, e)].
(** odometry_names, benchmark_odom.cpp:14-18 *)
Definition odometry_names (r : registry) : list string := map fst r.
(** create_odometry, benchmark_odom.cpp:20-27; None is nullptr. *)
Definition create_odometry (r : registry) (name : string) : option Engine :=
  match find (fun p => String.eqb (fst p) name) r with Some p => Some (snd p) | None => None end.
End Registry.
Arguments register_odometry {Engine}. Arguments odometry_names {Engine}. Arguments create_odometry {Engine}.

(** * The command line, odometry_benchmark.cpp:6-55 *)
Section CommandLine.
(** double; std::stoi and std::stod, None when they throw. *)
Context (F : Type) (stoi : string -> option Z) (stod : string -> option F).

(** OdometryEstimationParams, benchmark_odom.hpp:19-27, and the engine name. *)
Record options : Type := mkOptions {
  o_visualize : bool; o_num_threads : Z; o_num_neighbors : Z; o_downsampling_resolution : F;
  o_voxel_resolution : F; o_max_correspondence_distance : F; o_engine : string
}.
Definition set_visualize o := mkOptions true (o_num_threads o) (o_num_neighbors o) (o_downsampling_resolution o) (o_voxel_resolution o) (o_max_correspondence_distance o) (o_engine o).
Definition set_num_threads o v := mkOptions (o_visualize o) v (o_num_neighbors o) (o_downsampling_resolution o) (o_voxel_resolution o) (o_max_correspondence_distance o) (o_engine o).
Definition set_num_neighbors o v := mkOptions (o_visualize o) (o_num_threads o) v (o_downsampling_resolution o) (o_voxel_resolution o) (o_max_correspondence_distance o) (o_engine o).
Definition set_downsampling_resolution o v := mkOptions (o_visualize o) (o_num_threads o) (o_num_neighbors o) v (o_voxel_resolution o) (o_max_correspondence_distance o) (o_engine o).
Definition set_voxel_resolution o v := mkOptions (o_visualize o) (o_num_threads o) (o_num_neighbors o) (o_downsampling_resolution o) v (o_max_correspondence_distance o) (o_engine o).
Definition set_engine o v := mkOptions (o_visualize o) (o_num_threads o) (o_num_neighbors o) (o_downsampling_resolution o) (o_voxel_resolution o) (o_max_correspondence_distance o) v.

(** arg.size() >= 2 && arg.substr(0, 2) == "--", line 51 *)
Definition is_option (arg : string) : bool :=
  match arg with
  | String a (String b _) => (Ascii.eqb a "-"%char && Ascii.eqb b "-"%char)%bool
  | _ => false
  end.
(** argv[i + 1] as a std::string; argv[argc] is a null pointer. *)
Definition value_of (rest : list string) : outcome string :=
  match rest with v :: _ => Ok v | [] => UB end.
(** std::stoi, std::stod of it; an exception that is not caught ends the program. *)
Definition number {A : Type} (parse : string -> option A) (rest : list string) : outcome A :=
  let* v := value_of rest in match parse v with Some x => Ok x | None => Abort end.

(** The loop of lines 37-55 from argument [arg :: rest] on: the value of an option is looked at
    again as an argument.  None is return 1. *)
Fixpoint parse_args (args : list string) (o : options) : outcome (option options) :=
  match args with
  | [] => Ok (Some o)
  | arg :: rest =>
      if String.eqb arg "--visualize" then parse_args rest (set_visualize o)
      else if String.eqb arg "--num_threads" then let* v := number stoi rest in parse_args rest (set_num_threads o v)
      else if String.eqb arg "--num_neighbors" then let* v := number stoi rest in parse_args rest (set_num_neighbors o v)
      else if String.eqb arg "--downsampling_resolution" then let* v := number stod rest in parse_args rest (set_downsampling_resolution o v)
      else if String.eqb arg "--voxel_resolution" then let* v := number stod rest in parse_args rest (set_voxel_resolution o v)
      else if String.eqb arg "--engine" then let* v := value_of rest in parse_args rest (set_engine o v)
      else if is_option arg then Ok None
      else parse_args rest o
  end.
(** What main does with its arguments before it creates the engine, lines 9-67. *)
Inductive action : Type := Usage | Refused | Run (dataset_path output_path : string) (o : options).
Definition command_line (quarter one : F) (args : list string) : outcome action :=
  match args with
  | name :: dataset_path :: output_path :: rest =>
      let* r := parse_args args (mkOptions false 4 20 quarter one one "small_gicp") in
      match r with None => Ok Refused | Some o => Ok (Run dataset_path output_path o) end
  | _ => Ok Usage
  end.
(** The defaults the usage text states, lines 13-16: threads, neighbours and the two resolutions
    in hundredths. *)
Definition usage_defaults : Z * Z * Z * Z := (4, 20, 25, 200)%Z.
End CommandLine.
Arguments mkOptions {F}. Arguments o_visualize {F}. Arguments o_num_threads {F}. Arguments o_num_neighbors {F}. Arguments o_downsampling_resolution {F}.
Arguments o_voxel_resolution {F}. Arguments o_max_correspondence_distance {F}. Arguments o_engine {F}.
Arguments set_visualize {F}. Arguments set_num_threads {F}. Arguments set_num_neighbors {F}. Arguments set_downsampling_resolution {F}.
Arguments set_voxel_resolution {F}. Arguments set_engine {F}. Arguments parse_args {F}. Arguments command_line {F}. Arguments Usage {F}. Arguments Refused {F}. Arguments Run {F}.
