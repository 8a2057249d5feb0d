(** What the benchmark tools should report and accept. *)
From Coq Require Import Reals ZArith List String.
From Verif Require Import Base BenchModel.
Import ListNotations.
Local Open Scope list_scope.

(** Sum of [f] over the data. *)
Definition total_of (f : R -> R) (xs : list R) : R := fold_right (fun x s => f x + s)%R 0%R xs.
(** [m] is the mean: the deviations from it cancel. [sd] is the standard deviation: its square is
    the average of the squared deviations. *)
Definition is_mean (m : R) (xs : list R) : Prop := total_of (fun x => x - m)%R xs = 0%R.
Definition is_deviation (sd m : R) (xs : list R) : Prop :=
  (0 <= sd)%R /\ (INR (length xs) * (sd * sd) = total_of (fun x => (x - m) * (x - m)) xs)%R.

(** A command line as a user means it. *)
Inductive item : Type :=
| Visualize | Threads (v : string) | Neighbors (v : string) | Downsampling (v : string) | Voxels (v : string) | Engine (v : string)
| Word (w : string).
Definition words (i : item) : list string :=
  match i with
  | Visualize => ["--visualize"%string]
  | Threads v => ["--num_threads"%string; v]
  | Neighbors v => ["--num_neighbors"%string; v]
  | Downsampling v => ["--downsampling_resolution"%string; v]
  | Voxels v => ["--voxel_resolution"%string; v]
  | Engine v => ["--engine"%string; v]
  | Word w => [w]
  end.
Definition no_option (w : string) : Prop := String.prefix "--" w = false.
Section Meaning.
Context {F : Type} (stoi : string -> option Z) (stod : string -> option F).
(** Values are numbers where numbers are asked for, and do not look like options. *)
Definition sensible (i : item) : Prop :=
  match i with
  | Visualize => True
  | Threads v | Neighbors v => no_option v /\ stoi v <> None
  | Downsampling v | Voxels v => no_option v /\ stod v <> None
  | Engine v => no_option v
  | Word w => no_option w
  end.
(** The last item of a sort counts. *)
Fixpoint last_of {A : Type} (f : item -> option A) (items : list item) (default : A) : A :=
  match items with
  | [] => default
  | i :: l => last_of f l (match f i with Some v => v | None => default end)
  end.
Definition threads_of i := match i with Threads v => stoi v | _ => None end.
Definition neighbors_of i := match i with Neighbors v => stoi v | _ => None end.
Definition downsampling_of i := match i with Downsampling v => stod v | _ => None end.
Definition voxels_of i := match i with Voxels v => stod v | _ => None end.
Definition engine_of i := match i with Engine v => Some v | _ => None end.
Definition visualize_of i := match i with Visualize => Some true | _ => None end.
Definition meant (items : list item) (o : options F) : options F :=
  mkOptions (last_of visualize_of items (o_visualize o)) (last_of threads_of items (o_num_threads o))
    (last_of neighbors_of items (o_num_neighbors o)) (last_of downsampling_of items (o_downsampling_resolution o))
    (last_of voxels_of items (o_voxel_resolution o)) (o_max_correspondence_distance o) (last_of engine_of items (o_engine o)).
End Meaning.
(** The words main treats as options of its own. *)
Definition takes_value : list string :=
  ["--num_threads"; "--num_neighbors"; "--downsampling_resolution"; "--voxel_resolution"; "--engine"]%string.
