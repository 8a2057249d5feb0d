(** Reductions: registration/reduction.hpp, reduction_omp.hpp, reduction_tbb.hpp.
    Factor type, contribution type and the per-factor linearize are parameters. *)
From Verif Require Import Base.

Section Reduce.
Context (F S : Type) (zero : S) (plus : S -> S -> S).
(** factors[i].linearize(…, i, …): the updated factor and, if it returned true, (H, b, e). *)
Context (lin : nat -> F -> outcome (F * option S)).

(** One iteration of the loops (reduction.hpp:32-44, reduction_omp.hpp:33-46,
    reduction_tbb.hpp:46-58) against an accumulator. *)
Definition visit (i : nat) (st : list F * S) : outcome (list F * S) :=
  let '(fs, acc) := st in
  let* f := get fs i in
  let* (f', r) := lin i f in
  let* fs := set fs i f' in
  Ok (fs, match r with None => acc | Some s => plus acc s end).

(** SerialReduction::linearize, reduction.hpp:20-47. *)
Definition serial (fs : list F) : outcome (list F * S) :=
  foldM (fun st i => visit i st) (seq 0 (length fs)) (fs, zero).

(** SerialReduction::error, reduction.hpp:55-61, for a per-factor error [ef]. *)
Definition serial_error (ef : F -> outcome S) (fs : list F) : outcome S :=
  foldM (fun sum f => let* e := ef f in Ok (plus sum e)) fs zero.

(** ParallelReductionOMP::linearize, reduction_omp.hpp:20-55.  State of the parallel loop:
    the factors, one accumulator per thread, and the iterations nobody has taken yet.  The
    guided schedule is over-approximated by letting any thread take any remaining iteration
    at any time.  An iteration touches factors[i] and the accumulators of its own thread
    only, so it is one step. *)
Record omp_state : Type := mkOmp { o_factors : list F; o_accs : list S; o_todo : list nat }.
Definition omp_init (threads : nat) (fs : list F) : omp_state :=
  mkOmp fs (repeat zero threads) (seq 0 (length fs)).
Inductive omp_step (threads : nat) : omp_state -> outcome omp_state -> Prop :=
| OmpStep : forall fs accs l1 i l2 t,
    t < threads ->                             (* omp_get_thread_num() < num_threads *)
    omp_step threads (mkOmp fs accs (l1 ++ i :: l2))
      (let* a := get accs t in
       let* (fs', a') := visit i (fs, a) in
       let* accs' := set accs t a' in
       Ok (mkOmp fs' accs' (l1 ++ l2))).
Inductive omp_runs (threads : nat) : omp_state -> outcome omp_state -> Prop :=
| OmpHere : forall st, omp_runs threads st (Ok st)
| OmpMore : forall st st1 o, omp_step threads st (Ok st1) -> omp_runs threads st1 o -> omp_runs threads st o
| OmpFail : forall st o, omp_step threads st o -> (forall st1, o <> Ok st1) -> omp_runs threads st o.
(** The loop over Hs[1..] and the return value, reduction_omp.hpp:48-54. *)
Definition omp_result (accs : list S) : outcome S :=
  let* a0 := get accs 0 in Ok (fold_left plus (tl accs) a0).

(** reduction(+ : sum_e) of ParallelReductionOMP::error, reduction_omp.hpp:57-66: every thread
    has a private copy starting at 0; the copies are added to sum_e = 0 in any order. *)
Definition omp_error_result (accs : list S) (s : S) : Prop :=
  exists accs', Permutation accs accs' /\ s = fold_left plus accs' zero.

(** tbb::parallel_reduce with LinearizeSum, reduction_tbb.hpp:11-82, 117-131.  A body runs
    over [lo, hi) with its accumulator; before or during the run the scheduler may split the
    rest of a range, either giving the right part to a new body made by the splitting
    constructor (accumulator zero, joined later) or letting the same body continue with it. *)
Inductive task : Type :=
| TRun (lo hi : nat) (acc : S)
| TSeq (l : task) (mid hi : nat)
| TSplit (l r : task)
| TDone (acc : S).
Inductive tbb_step : list F * task -> outcome (list F * task) -> Prop :=
| TbbIter : forall fs lo hi acc, lo < hi ->
    tbb_step (fs, TRun lo hi acc)
      (let* (fs', acc') := visit lo (fs, acc) in Ok (fs', TRun (lo + 1) hi acc'))
| TbbEnd : forall fs lo acc, tbb_step (fs, TRun lo lo acc) (Ok (fs, TDone acc))
| TbbSplit : forall fs lo mid hi acc, lo < mid < hi ->
    tbb_step (fs, TRun lo hi acc) (Ok (fs, TSplit (TRun lo mid acc) (TRun mid hi zero)))
| TbbCont : forall fs lo mid hi acc, lo < mid < hi ->
    tbb_step (fs, TRun lo hi acc) (Ok (fs, TSeq (TRun lo mid acc) mid hi))
| TbbNext : forall fs acc mid hi, tbb_step (fs, TSeq (TDone acc) mid hi) (Ok (fs, TRun mid hi acc))
| TbbJoin : forall fs a b, tbb_step (fs, TSplit (TDone a) (TDone b)) (Ok (fs, TDone (plus a b)))
| TbbSeqL : forall fs l o mid hi, tbb_step (fs, l) o ->
    tbb_step (fs, TSeq l mid hi) (let* (fs', l') := o in Ok (fs', TSeq l' mid hi))
| TbbSplitL : forall fs l r o, tbb_step (fs, l) o ->
    tbb_step (fs, TSplit l r) (let* (fs', l') := o in Ok (fs', TSplit l' r))
| TbbSplitR : forall fs l r o, tbb_step (fs, r) o ->
    tbb_step (fs, TSplit l r) (let* (fs', r') := o in Ok (fs', TSplit l r')).
Inductive tbb_runs : list F * task -> outcome (list F * task) -> Prop :=
| TbbHere : forall st, tbb_runs st (Ok st)
| TbbMore : forall st st1 o, tbb_step st (Ok st1) -> tbb_runs st1 o -> tbb_runs st o
| TbbFail : forall st o, tbb_step st o -> (forall st1, o <> Ok st1) -> tbb_runs st o.
Definition tbb_init (fs : list F) : list F * task := (fs, TRun 0 (length fs) zero).

End Reduce.
Arguments visit {F S}.
Arguments serial {F S}.
Arguments serial_error {F S}.
Arguments mkOmp {F S}.
Arguments o_factors {F S}.
Arguments o_accs {F S}.
Arguments o_todo {F S}.
Arguments omp_init {F S}.
Arguments omp_step {F S}.
Arguments omp_runs {F S}.
Arguments omp_result {S}.
Arguments omp_error_result {S}.
Arguments TRun {S}. Arguments TSeq {S}. Arguments TSplit {S}. Arguments TDone {S}.
Arguments tbb_step {F S}.
Arguments tbb_runs {F S}.
Arguments tbb_init {F S}.
