(** Model of include/small_gicp/util/fast_floor.hpp on IEEE doubles and 32-bit ints. *)
From Coq Require Import ZArith.
From Flocq Require Import IEEE754.BinarySingleNaN.
From Verif Require Import Base Num F64.

(** How out-of-range conversions and int overflow behave: undefined (the C++ standard) or
    what x86 SSE instructions do (cvttpd2dq yields INT_MIN, paddd/psubd wrap). *)
Inductive int_mode : Type := Strict | X86.

Definition INT_MIN : Z := (-2147483648)%Z.
Definition INT_MAX : Z := 2147483647%Z.
Definition in_int (z : Z) : bool := ((INT_MIN <=? z) && (z <=? INT_MAX))%Z.
(** Two's complement wrap-around of a 32-bit result. *)
Definition wrap32 (z : Z) : Z := ((z + 2147483648) mod 4294967296 - 2147483648)%Z.

(** Result of an int addition or subtraction. *)
Definition int_result (m : int_mode) (z : Z) : outcome Z :=
  if in_int z then Ok z else match m with Strict => UB | X86 => Ok (wrap32 z) end.

(** pt.cast<int>(), fast_floor.hpp:13, one component: truncation towards zero. *)
Definition cast_int (m : int_mode) (x : f64) : outcome Z :=
  if is_finite x && in_int (Btrunc x) then Ok (Btrunc x)
  else match m with Strict => UB | X86 => Ok INT_MIN end.

(** fast_floor, fast_floor.hpp:12-15, one component. *)
Definition fast_floor (m : int_mode) (x : f64) : outcome Z :=
  let* n := cast_int m x in
  int_result m (n - (if f64_lt x (f64_of n 0) then 1 else 0))%Z.
