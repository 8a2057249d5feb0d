(** Model of the task-parallel sorts: include/small_gicp/util/sort_omp.hpp.

    Both functions recurse through OpenMP tasks on sub-ranges of one shared array.  A
    configuration is the array together with the tasks that have been created and not yet
    executed; a step executes the body of any one of them up to the point where it creates
    its own tasks, so every order in which a team of any size can pick up tasks is a
    sequence of steps.  Treating a body as one step is justified by the theorems that
    bodies of concurrently pending tasks work on disjoint ranges. *)
From Coq Require Import ZArith.
From Verif Require Import Base.

Section Sorts.
Context (A : Type) (comp : A -> A -> bool).
Context (sort : (A -> A -> bool) -> list A -> list A).                   (* std::sort *)
Context (inplace_merge : (A -> A -> bool) -> nat -> list A -> list A).   (* std::inplace_merge, middle as offset *)
Context (partition : (A -> bool) -> list A -> list A * nat).             (* std::partition, returned iterator as offset *)

(** sort_omp.hpp:21, 64: n < 1024. *)
Definition small (n : nat) : bool := (N.of_nat n <? 1024)%N.

(** std::sort(first, last, comp) on a range of the array. *)
Definition sort_range (arr : list A) (first last : nat) : list A :=
  put_slice arr first (sort comp (slice arr first last)).

(** * quick_sort_omp *)

(** sort_omp.hpp:69-71. *)
Definition median3 (a b c : A) : A :=
  if comp a b then (if comp b c then b else if comp a c then c else a)
  else (if comp a c then a else if comp b c then c else b).

Definition INT_MAX : N := 2147483647%N.

(** sort_omp.hpp:73-78: the pivot.  [const int offset = n / 8]; the largest product formed
    is offset * 7, which is signed overflow beyond INT_MAX (this also covers lengths whose
    n / 8 does not fit an int). *)
Definition choose_pivot (arr : list A) (first last : nat) : outcome A :=
  let offset := (last - first) / 8 in
  if (INT_MAX <? N.of_nat (offset * 7))%N then UB
  else
    let* x0 := get arr first in
    let* x1 := get arr (first + offset) in
    let* x2 := get arr (first + offset * 2) in
    let* x3 := get arr (first + offset * 3) in
    let* x4 := get arr (first + offset * 4) in
    let* x5 := get arr (first + offset * 5) in
    let* x6 := get arr (first + offset * 6) in
    let* x7 := get arr (first + offset * 7) in
    let* x8 := get arr (last - 1) in
    let m1 := median3 x0 x1 x2 in
    let m2 := median3 x3 x4 x5 in
    let m3 := median3 x6 x7 x8 in
    Ok (median3 m1 m2 m3).

(** sort_omp.hpp:62-87, one call of quick_sort_omp_impl: the new array and the two ranges
    handed to tasks. *)
Definition quick_body (arr : list A) (first last : nat) : outcome (list A * list (nat * nat)) :=
  if small (last - first) then Ok (sort_range arr first last, [])
  else
    let* pivot := choose_pivot arr first last in
    let (s1, k1) := partition (fun val => comp val pivot) (slice arr first last) in
    let arr := put_slice arr first s1 in
    let middle1 := first + k1 in
    let (s2, k2) := partition (fun val => negb (comp pivot val)) (slice arr middle1 last) in
    let arr := put_slice arr middle1 s2 in
    let middle2 := middle1 + k2 in
    Ok (arr, [(first, middle1); (middle2, last)]).

(** A configuration: array and pending tasks. *)
Definition qconf : Type := (list A * list (nat * nat))%type.

(** Executing the pending task at position [i] of the pool.  The tasks it creates join the
    pool (their position is irrelevant: any task may be picked next). *)
Definition qstep (c : qconf) (i : nat) : option (outcome qconf) :=
  match nth_error (snd c) i with
  | None => None
  | Some (first, last) =>
      Some (let* (arr, spawned) := quick_body (fst c) first last in
            Ok (arr, firstn i (snd c) ++ skipn (S i) (snd c) ++ spawned))
  end.

(** sort_omp.hpp:95-101: quick_sort_omp calls the implementation on the whole range from
    one thread of the team; the end of the parallel region waits for all tasks. *)
Definition qinit (l : list A) : qconf := (l, [(0, length l)]).

Inductive qrun (l : list A) : nat -> qconf -> Prop :=
| qrun_init : qrun l 0 (qinit l)
| qrun_step k c i c' : qrun l k c -> qstep c i = Some (Ok c') -> qrun l (S k) c'.

(** * merge_sort_omp *)

(** A call of merge_sort_omp_impl: not started, waiting for its two tasks at the taskwait,
    or returned. *)
Inductive mproc : Type :=
| MCall (first last : nat)
| MWait (first center last : nat) (p q : mproc)
| MDone.

(** sort_omp.hpp:19-36: all steps that some thread can take next. *)
Fixpoint msteps (arr : list A) (p : mproc) : list (outcome (list A * mproc)) :=
  match p with
  | MCall first last =>
      let n := last - first in
      if small n then [Ok (sort_range arr first last, MDone)]
      else
        let center := first + n / 2 in
        [Ok (arr, MWait first center last (MCall first center) (MCall center last))]
  | MWait first center last p q =>
      match p, q with
      | MDone, MDone =>
          [Ok (put_slice arr first (inplace_merge comp (center - first) (slice arr first last)), MDone)]
      | _, _ =>
          map (fun o => let* (arr', p') := o in Ok (arr', MWait first center last p' q)) (msteps arr p) ++
          map (fun o => let* (arr', q') := o in Ok (arr', MWait first center last p q')) (msteps arr q)
      end
  | MDone => []
  end.

(** The range each of these steps reads and writes, aligned with [msteps]. *)
Fixpoint mtouches (p : mproc) : list (nat * nat) :=
  match p with
  | MCall first last => [(first, last)]
  | MWait first center last p q =>
      match p, q with
      | MDone, MDone => [(first, last)]
      | _, _ => mtouches p ++ mtouches q
      end
  | MDone => []
  end.

(** sort_omp.hpp:45-54. *)
Definition minit (l : list A) : list A * mproc := (l, MCall 0 (length l)).

Inductive mrun (l : list A) : nat -> list A * mproc -> Prop :=
| mrun_init : mrun l 0 (minit l)
| mrun_step k c c' : mrun l k c -> In (Ok c') (msteps (fst c) (snd c)) -> mrun l (S k) c'.

End Sorts.
Arguments choose_pivot {A}.
Arguments median3 {A}.
Arguments sort_range {A}.
Arguments quick_body {A}.
Arguments qstep {A}.
Arguments qinit {A}.
Arguments qrun {A}.
Arguments msteps {A}.
Arguments minit {A}.
Arguments mrun {A}.
