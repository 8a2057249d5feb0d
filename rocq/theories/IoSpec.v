(** Specification vocabulary for point files. *)
From Coq Require Import ZArith Ascii String.
From Verif Require Import Base IoModel.
Open Scope nat_scope.

(** A point with the homogeneous coordinate forced to one. *)
Definition homogeneous (p : vec4f) : vec4f := F4 (fx p) (fy p) (fz p) one32.

(** A PLY header: lines the reader ignores, the vertex count in decimal, float properties. *)
Inductive hline : Type :=
| LOther (text : bytes)             (** ply, format, comment ... *)
| LVertex (count : bytes)           (** element vertex <count> *)
| LProperty (name : bytes).         (** property float <name> *)

Definition sp : ascii := " "%char.
Definition hline_bytes (l : hline) : bytes :=
  match l with
  | LOther t => t
  | LVertex c => chars "element" ++ [sp] ++ chars "vertex" ++ [sp] ++ c
  | LProperty n => chars "property" ++ [sp] ++ chars "float" ++ [sp] ++ n
  end.
Definition ply_header (ls : list hline) : bytes :=
  flat_map (fun l => hline_bytes l ++ [lf]) ls ++ chars "end_header" ++ [lf].

Definition is_digit (c : ascii) : Prop := exists d, (0 <= d <= 9)%Z /\ nat_of_ascii c = Z.to_nat (48 + d).
Definition decimal (b : bytes) : Z :=
  fold_left (fun a c => 10 * a + (Z.of_nat (nat_of_ascii c) - 48))%Z b 0%Z.

(** Lines are well formed: printable words, decimal counts in range, ignored lines that do not
    look like keywords. *)
Definition word (b : bytes) : Prop := b <> [] /\ Forall (fun c => is_space c = false) b.
Definition hline_ok (l : hline) : Prop :=
  match l with
  | LOther t => t <> [] /\ ~ In lf t /\ t <> chars "end_header" /\
                (forall r, t <> chars "element" ++ r) /\ (forall r, t <> chars "property" ++ r)
  | LVertex c => c <> [] /\ Forall is_digit c /\ (decimal c <= 9223372036854775807)%Z
  | LProperty n => word n
  end.

Fixpoint properties_of (ls : list hline) : list bytes :=
  match ls with
  | [] => []
  | LProperty n :: t => n :: properties_of t
  | _ :: t => properties_of t
  end.
(** The vertex count: the last one given. *)
Fixpoint count_of (ls : list hline) (n : nat) : nat :=
  match ls with
  | [] => n
  | LVertex c :: t => count_of t (Z.to_nat (decimal c))
  | _ :: t => count_of t n
  end.

(** A vertex record as stored in the file: its float properties in order. *)
Definition record_bytes (r : list float32) : bytes := flat_map float_bytes r.
Definition vertex (x y z : float32) : vec4f := F4 x y z one32.
Definition vertex_of (r : list float32) (p : vec4f) : Prop :=
  exists x y z rest, r = x :: y :: z :: rest /\ p = vertex x y z.
