(** Model of the parallel radix sort: include/small_gicp/util/sort_tbb.hpp.

    The three tbb::parallel_for loops are run by interleaving: every tile (or bin) owns a
    loop counter, and a schedule is an arbitrary list of tile (bin) numbers saying which
    one performs its next iteration.  A number whose loop has ended does nothing.  A
    schedule that stops before all loops have ended yields [OutOfFuel]. *)
From Coq Require Import ZArith.
From Verif Require Import Base KdModel SortModel.

Section Radix.
Context (T : Type) (key_ : T -> N).
(** Width of the key type in bits (sizeof(Key) * 8) and the template arguments. *)
Context (width bits tile_size : nat).

(** sort_tbb.hpp:45, 47, 49. *)
Definition num_steps : nat := (width + bits - 1) / bits.
Definition num_bins : nat := 2 ^ bits.
Definition num_tiles (n : nat) : nat := (n + tile_size - 1) / tile_size.

(** sort_tbb.hpp:63: the digit examined in a step. *)
Definition digit (step : nat) (x : T) : nat :=
  N.to_nat (N.land (N.shiftr (key_ x) (N.of_nat (step * bits))) (2 ^ N.of_nat bits - 1)).

(** sort_tbb.hpp:69-70, 106-107. *)
Definition data_begin (tile : nat) : nat := tile * tile_size.
Definition data_end (n tile : nat) : nat := Nat.min ((tile + 1) * tile_size) n.

(** Loop counters at the start; all loops have ended. *)
Definition counters0 (n : nat) : list nat := map data_begin (seq 0 (num_tiles n)).
Definition ended (n : nat) (cnt : list nat) : bool :=
  forallb (fun p => snd p =? data_end n (fst p)) (combine (seq 0 (num_tiles n)) cnt).

(** sort_tbb.hpp:72-75: one iteration of the histogram loop of a tile.  The counter is an
    [int]; incrementing it beyond INT_MAX is signed overflow.  Simplification: a tile that
    starts beyond INT_MAX (where the conversion of data_begin wraps) is reported the same
    way. *)
Definition hist_step (first : list T) (step : nat) (st : list nat * list nat) (tile : nat)
    : outcome (list nat * list nat) :=
  let (buckets, cnt) := st in
  let n := length first in
  let* i := get cnt tile in
  if i <? data_end n tile then
    let* x := get first i in
    let j := digit step x * num_tiles n + tile in
    let* v := get buckets j in
    let* buckets := set buckets j (v + 1) in
    if (INT_MAX <? N.of_nat (i + 1))%N then UB
    else
      let* cnt := set cnt tile (i + 1) in
      Ok (buckets, cnt)
  else Ok st.

(** sort_tbb.hpp:80-83: counts of the last tile of bin i-1 saved in global_offsets[i]. *)
Definition save_step (n : nat) (buckets go : list nat) (i : nat) : outcome (list nat) :=
  let* v := get buckets (i * num_tiles n - 1) in set go i v.

(** sort_tbb.hpp:86-98: one iteration of the prefix loop of a bin; local state: next tile
    and [last] (tile 0 stands for lines 89-90). *)
Definition bin_step (n : nat) (st : list nat * list (nat * nat)) (bin : nat)
    : outcome (list nat * list (nat * nat)) :=
  let (buckets, loc) := st in
  let* (tile, last) := get loc bin in
  if tile <? num_tiles n then
    let j := bin * num_tiles n + tile in
    let* tmp := get buckets j in
    let* v := (if tile =? 0 then Ok 0
               else let* prev := get buckets (j - 1) in Ok (prev + last)) in
    let* buckets := set buckets j v in
    let* loc := set loc bin (tile + 1, tmp) in
    Ok (buckets, loc)
  else Ok st.

Definition bins_ended (n : nat) (loc : list (nat * nat)) : bool :=
  forallb (fun p => fst p =? num_tiles n) loc.

(** sort_tbb.hpp:101-103. *)
Definition global_step (n : nat) (buckets go : list nat) (i : nat) : outcome (list nat) :=
  let* a := get go i in
  let* b := get go (i - 1) in
  let* c := get buckets (i * num_tiles n - 1) in
  set go i (a + (b + c)).

(** sort_tbb.hpp:109-114: one iteration of the scatter loop of a tile. *)
Definition scatter_step (first : list T) (step : nat) (go : list nat)
    (st : list nat * list T * list nat) (tile : nat) : outcome (list nat * list T * list nat) :=
  let '(buckets, sorted, cnt) := st in
  let n := length first in
  let* i := get cnt tile in
  if i <? data_end n tile then
    let* x := get first i in
    let bin := digit step x in
    let j := bin * num_tiles n + tile in
    let* o := get buckets j in
    let* buckets := set buckets j (o + 1) in
    let* g := get go bin in
    let* sorted := set sorted (g + o) x in
    let* cnt := set cnt tile (i + 1) in
    Ok (buckets, sorted, cnt)
  else Ok st.

(** Schedules of the three parallel loops of one step. *)
Record sched : Type := mkSched { s_hist : list nat; s_bins : list nat; s_scatter : list nat }.

Definition guard (b : bool) : outcome unit := if b then Ok tt else OutOfFuel.

(** sort_tbb.hpp:62-118: one radix step from [first] into [sorted]. *)
Definition radix_pass (step : nat) (s : sched) (first sorted : list T) : outcome (list T) :=
  let n := length first in
  let* (buckets, cnt) :=
    foldM (hist_step first step) (s_hist s) (repeat 0 (num_bins * num_tiles n), counters0 n) in
  let* _ := guard (ended n cnt) in
  let* go := foldM (save_step n buckets) (seq 1 (num_bins - 1)) (repeat 0 num_bins) in
  let* (buckets, loc) := foldM (bin_step n) (s_bins s) (buckets, repeat (0, 0) num_bins) in
  let* _ := guard (bins_ended n loc) in
  let* go := foldM (global_step n buckets) (seq 1 (num_bins - 1)) go in
  let* (buckets, sorted, cnt) :=
    foldM (scatter_step first step go) (s_scatter s) (buckets, sorted, counters0 n) in
  let* _ := guard (ended n cnt) in
  Ok sorted.

(** sort_tbb.hpp:61-121: the user's array and the sorted_buffer exchange roles. *)
Definition radix_loop_step (scheds : nat -> sched) (mem : list T * list T) (step : nat)
    : outcome (list T * list T) :=
  let (user, buffer) := mem in
  if Nat.even step
  then let* buffer := radix_pass step (scheds step) user buffer in Ok (user, buffer)
  else let* user := radix_pass step (scheds step) buffer user in Ok (user, buffer).

(** sort_tbb.hpp:33-127.  [old] is the previous content of buffers.sorted_buffer (the
    other two buffers are overwritten by std::fill in every step) and [d] the element that
    resize appends. *)
Definition radix_sort (scheds : nat -> sched) (old : list T) (d : T) (l : list T)
    : outcome (list T) :=
  match l with
  | [] => Ok []
  | _ =>
      let* (user, buffer) :=
        foldM (radix_loop_step scheds) (seq 0 num_steps) (l, resize old (length l) d) in
      Ok (if num_steps mod 2 =? 1 then buffer else user)
  end.

(** Schedules only name existing tiles and bins. *)
Definition sched_ok (n : nat) (s : sched) : Prop :=
  Forall (fun t => t < num_tiles n) (s_hist s) /\
  Forall (fun b => b < num_bins) (s_bins s) /\
  Forall (fun t => t < num_tiles n) (s_scatter s).

End Radix.
Arguments radix_sort {T}.
Arguments radix_pass {T}.
Arguments digit {T}.
Arguments hist_step {T}.
Arguments scatter_step {T}.
Arguments radix_loop_step {T}.
