(** Model of include/small_gicp/ann/knn_result.hpp. *)
From Verif Require Import Base Num.

Section Knn.
Context (D : num).

(** KnnResult::INVALID, knn_result.hpp:35 (std::numeric_limits<size_t>::max()). *)
Definition INVALID : N := 18446744073709551615%N.

(** struct KnnResult<N>, knn_result.hpp:33-108.  [static_n] is the template argument
    when N > 0 ([None] for N == -1); [capacity] the constructor argument;
    [indices]/[distances] are the caller's buffers, [num_found_neighbors] the counter.
    Simplification: buffers are exactly [buffer_size] long; the index transform is
    applied by the caller of [push] (see [push_with]). *)
Record knn_result : Type := mkKnn {
  static_n : option nat;
  capacity : Z;
  num_found_neighbors : nat;
  indices : list N;
  distances : list (car D)
}.

(** knn_result.hpp:64-70 *)
Definition buffer_size (r : knn_result) : nat :=
  match static_n r with
  | Some n => n
  | None => Z.to_nat (capacity r)
  end.

(** Constructor, knn_result.hpp:41-61: aborts on a bad neighbour count, then fills the
    buffers with INVALID and DBL_MAX. *)
Definition knn_init (sn : option nat) (num_neighbors : Z) : outcome knn_result :=
  let fill k := {| static_n := sn; capacity := num_neighbors; num_found_neighbors := 0;
                   indices := repeat INVALID k; distances := repeat nmaxv k |} in
  match sn with
  | Some n => if (0 <=? num_neighbors)%Z then Abort else Ok (fill n)
  | None => if (num_neighbors <=? 0)%Z then Abort else Ok (fill (Z.to_nat num_neighbors))
  end.

(** knn_result.hpp:76: distances[buffer_size() - 1] *)
Definition worst_distance (r : knn_result) : outcome (car D) :=
  get (distances r) (buffer_size r - 1).

(** The insertion loop, knn_result.hpp:90-93.  Returns the final insert_loc and buffers. *)
Fixpoint shift_loop (loc : nat) (distance : car D) (idx : list N) (dst : list (car D))
  : outcome (nat * list N * list (car D)) :=
  match loc with
  | O => Ok (O, idx, dst)
  | S l =>
      let* d := get dst l in
      if nlt distance d then
        let* i := get idx l in
        let* idx' := set idx loc i in
        let* dst' := set dst loc d in
        shift_loop l distance idx' dst'
      else Ok (loc, idx, dst)
  end.

(** push, knn_result.hpp:80-100. *)
Definition push (r : knn_result) (index : N) (distance : car D) : outcome knn_result :=
  let* worst := worst_distance r in
  if nle worst distance then Ok r
  else
    let k := buffer_size r in
    let* (idx, dst) :=
      (match static_n r with
       | Some 1 =>
           let* idx := set (indices r) 0 index in
           let* dst := set (distances r) 0 distance in
           Ok (idx, dst)
       | _ =>
           let* (loc, idx, dst) :=
              shift_loop (Nat.min (num_found_neighbors r) (k - 1)) distance
                         (indices r) (distances r) in
           let* idx := set idx loc index in
           let* dst := set dst loc distance in
           Ok (idx, dst)
       end) in
    Ok {| static_n := static_n r; capacity := capacity r;
          num_found_neighbors := Nat.min (num_found_neighbors r + 1) k;
          indices := idx; distances := dst |}.

(** Pushing a whole candidate sequence (callers loop over candidates). *)
Definition push_all (r : knn_result) (l : list (N * car D)) : outcome knn_result :=
  foldM (fun r c => push r (fst c) (snd c)) l r.

(** KnnSetting::fulfilled, knn_result.hpp:16-19: worst_distance() < epsilon. *)
Definition fulfilled (epsilon : car D) (r : knn_result) : outcome bool :=
  let* w := worst_distance r in Ok (nlt w epsilon).

End Knn.
Arguments static_n {D}.
Arguments capacity {D}.
Arguments num_found_neighbors {D}.
Arguments indices {D}.
Arguments distances {D}.
Arguments buffer_size {D}.
Arguments worst_distance {D}.
Arguments shift_loop {D}.
Arguments push {D}.
Arguments push_all {D}.
Arguments fulfilled {D}.
