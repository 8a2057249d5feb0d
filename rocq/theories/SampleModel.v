(** Model of random_sampling: include/small_gicp/util/downsampling.hpp:85-110. *)
From Verif Require Import Base KdModel.

Section Sample.
Context (T : Type) (zero : T) (RNG : Type).
Context (sample : RNG -> list nat -> nat -> list nat).   (* std::sample, elements written *)

(** downsampling.hpp:85-110.  The output cloud is its point array ([zero]: the value a
    resized slot holds); the advanced generator state is not returned. *)
Definition random_sampling (points : list T) (num_samples : nat) (rng : RNG) : outcome (list T) :=
  match points with
  | [] => Ok []
  | _ =>
      let indices := seq 0 (length points) in
      let num_samples := if length indices <=? num_samples then length indices else num_samples in
      let samples := sample rng indices num_samples in
      if num_samples <? length samples then UB          (* writes past the end of samples *)
      else
        let samples := samples ++ repeat 0 (num_samples - length samples) in
        let downsampled := repeat zero num_samples in
        foldM (fun out i =>
                 let* s := get samples i in
                 let* p := get points s in
                 set out i p) (seq 0 num_samples) downsampled
  end.
End Sample.
Arguments random_sampling {T} _ {RNG}.
