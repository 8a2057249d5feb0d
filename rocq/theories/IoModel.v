(** Model of include/small_gicp/benchmark/read_points.hpp: raw float4 files and simple PLY. *)
From Coq Require Import ZArith Ascii String.
From Verif Require Import Base.
Open Scope nat_scope.

(** A byte is an [ascii]; a float is its four bytes in memory (files are raw memory images, so
    byte order and the meaning of the bits do not matter). *)
Definition bytes : Type := list ascii.
Definition float32 : Type := (ascii * ascii * ascii * ascii)%type.
(** Eigen::Vector4f *)
Record vec4f : Type := F4 { fx : float32; fy : float32; fz : float32; fw : float32 }.

Definition float_bytes (f : float32) : bytes := let '(a, b, c, d) := f in [a; b; c; d].
Definition point_bytes (p : vec4f) : bytes :=
  float_bytes (fx p) ++ float_bytes (fy p) ++ float_bytes (fz p) ++ float_bytes (fw p).
(** 0.0f, and 1.0f on a little-endian machine. *)
Definition zero32 : float32 := ("000", "000", "000", "000")%char.
Definition one32 : float32 := ("000", "000", "128", "063")%char.

(** The file system: contents by name, [None] when the file cannot be opened for reading. *)
Definition fs : Type := string -> option bytes.
Definition fs_put (w : fs) (name : string) (b : bytes) : fs :=
  fun n => if String.eqb n name then Some b else w n.

(** ifs.read(p, n) on a good stream with [rest] left: stores min(n, available) bytes from the
    start of the buffer; storing past the end of the buffer is undefined behaviour. *)
Definition read_into {A : Type} (buf : list A) (inj : ascii -> A) (n : nat) (rest : bytes)
  : outcome (list A) :=
  let got := firstn n rest in
  if length got <=? length buf then Ok (put_slice buf 0 (map inj got)) else UB.

(** One float of a byte buffer whose bytes may be indeterminate. *)
Definition get_float (buf : list (option ascii)) (o : nat) : outcome float32 :=
  let byte i := let* x := get buf (o + i) in
                match x with Some b => Ok b | None => UB end in
  let* a := byte 0 in let* b := byte 1 in let* c := byte 2 in let* d := byte 3 in
  Ok (a, b, c, d).

(** read_points, read_points.hpp:15-33.  The vector's elements are indeterminate until read
    (Eigen's default constructor writes nothing); the loop of lines 28-30 sets the fourth
    coordinate.  The result is read as values, so an element left indeterminate is [UB]. *)
Definition read_points (w : fs) (name : string) : outcome (list vec4f) :=
  match w name with
  | None => Ok []
  | Some b =>
      let num_points := length b / 16 in
      let* buf := read_into (repeat None (16 * num_points)) Some (16 * num_points) b in
      mapM (fun i =>
              let* x := get_float buf (16 * i) in
              let* y := get_float buf (16 * i + 4) in
              let* z := get_float buf (16 * i + 8) in
              Ok (F4 x y z one32)) (seq 0 num_points)
  end.

(** write_points, read_points.hpp:38-46, when the file can be opened: it is truncated and the
    array written; [openable] says whether opening for writing succeeds. *)
Definition write_points (openable : string -> bool) (w : fs) (name : string) (points : list vec4f) : fs :=
  if openable name then fs_put w name (flat_map point_bytes points) else w.

(** * PLY *)
Definition lf : ascii := "010"%char.
Definition chars (s : string) : bytes := list_ascii_of_string s.
Definition bytes_eqb (a b : bytes) : bool :=
  if list_eq_dec ascii_dec a b then true else false.

(** std::getline on a good stream: the line, what is left, and whether eof was hit (no
    terminator found).  Called only with eof not set. *)
Fixpoint getline (b : bytes) : bytes * bytes * bool :=
  match b with
  | [] => ([], [], true)
  | c :: t =>
      if ascii_dec c lf then ([], t, false)
      else let '(l, r, e) := getline t in (c :: l, r, e)
  end.

(** std::isspace in the C locale. *)
Definition is_space (c : ascii) : bool :=
  let n := nat_of_ascii c in (n =? 32) || ((9 <=? n) && (n <=? 13)).

(** stringstream >> string: skip white space, take up to the next one; [[]] at the end. *)
Fixpoint skip_space (b : bytes) : bytes :=
  match b with
  | c :: t => if is_space c then skip_space t else b
  | [] => []
  end.
Fixpoint take_word (b : bytes) : bytes * bytes :=
  match b with
  | c :: t => if is_space c then ([], b) else let (w, r) := take_word t in (c :: w, r)
  | [] => ([], [])
  end.
Definition next_token (b : bytes) : bytes * bytes := take_word (skip_space b).

(** line.find(word) == 0 *)
Fixpoint starts_with (w b : bytes) : bool :=
  match w, b with
  | [], _ => true
  | c :: w', d :: b' => if ascii_dec c d then starts_with w' b' else false
  | _, [] => false
  end.

(** std::stol: optional sign, longest run of digits; [None] when it throws (no digits, or out
    of the range of a 64-bit long). *)
Definition digit (c : ascii) : option Z :=
  let n := nat_of_ascii c in
  if (48 <=? n) && (n <=? 57) then Some (Z.of_nat (n - 48)) else None.
Fixpoint digits_value (acc : Z) (b : bytes) : Z :=
  match b with
  | c :: t => match digit c with Some d => digits_value (10 * acc + d)%Z t | None => acc end
  | [] => acc
  end.
Definition stol (b : bytes) : option Z :=
  let b := skip_space b in
  let (neg, b) := match b with
                  | c :: t => if ascii_dec c "-"%char then (true, t)
                              else if ascii_dec c "+"%char then (false, t) else (false, b)
                  | [] => (false, b)
                  end in
  match b with
  | c :: _ =>
      match digit c with
      | Some _ =>
          let v := digits_value 0 b in
          let v := if neg then (- v)%Z else v in
          if ((-9223372036854775808 <=? v) && (v <=? 9223372036854775807))%Z then Some v else None
      | None => None
      end
  | [] => None
  end.

(** What read_ply does: return points, or throw (std::stol, or resize to an impossible size). *)
Inductive ply_result : Type := Ret (points : list vec4f) | Throws.

(** Outcome of the header loop, lines 62-89. *)
Inductive header : Type :=
| HDone (line : bytes) (properties : list bytes) (num_points : nat) (rest : bytes) (eof : bool)
| HReturnEmpty
| HThrows.

(** The loop of lines 62-89, on a stream with [b] left.  [fuel] bounds the number of lines;
    one more than the number of bytes always suffices.  resize to a negative (huge) size
    throws; other sizes are assumed to fit in memory. *)
Fixpoint header_loop (fuel : nat) (b : bytes) (properties : list bytes) (num_points : nat)
  : outcome header :=
  match fuel with
  | O => OutOfFuel
  | S fuel =>
      let '(line, rest, eof) := getline b in
      (* getline fails iff nothing was extracted; the line is then empty *)
      match line with
      | [] => Ok (HDone [] properties num_points rest eof)
      | _ =>
          if bytes_eqb line (chars "end_header") then Ok (HDone line properties num_points rest eof)
          else
            let continue properties num_points :=
              if eof then Ok (HDone line properties num_points rest true)
              else header_loop fuel rest properties num_points in
            if starts_with (chars "element") line then
              let (token, r) := next_token line in
              let (vertex, r) := next_token r in
              let (count, _) := next_token r in
              if negb (bytes_eqb token (chars "element")) || negb (bytes_eqb vertex (chars "vertex"))
              then Ok HReturnEmpty
              else match stol count with
                   | None => Ok HThrows
                   | Some n => if (n <? 0)%Z then Ok HThrows else continue properties (Z.to_nat n)
                   end
            else if starts_with (chars "property") line then
              let (token, r) := next_token line in
              let (type, r) := next_token r in
              let (name, _) := next_token r in
              if negb (bytes_eqb type (chars "float")) then Ok HReturnEmpty
              else continue (properties ++ [name]) num_points
            else continue properties num_points
      end
  end.

(** std::tolower on one byte, C locale. *)
Definition tolower (c : ascii) : ascii :=
  let n := nat_of_ascii c in if (65 <=? n) && (n <=? 90) then ascii_of_nat (n + 32) else c.

(** The property check of lines 91-93.  It only decides whether a warning is printed, but
    properties[i] with i out of range is undefined behaviour. *)
Definition check_properties (line : bytes) (properties : list bytes) : outcome unit :=
  if length line <? 3 then Ok tt
  else
    let not_single i := let* p := get properties i in Ok (negb (length p =? 1)) in
    let not_char i c := let* p := get properties i in
                        let* x := get p 0 in
                        Ok (if ascii_dec (tolower x) c then false else true) in
    let or_else (a b : outcome bool) := let* x := a in if x then Ok true else b in
    let* _ := or_else (not_single 0) (or_else (not_single 1) (or_else (not_single 2)
              (or_else (not_char 0 "x"%char) (or_else (not_char 1 "y"%char) (not_char 2 "z"%char))))) in
    Ok tt.

(** Lines 100-108: the float buffer starts as zeros; 16 bytes per point are read into it,
    whatever the number of properties. *)
Definition read_body (num_props num_points : nat) (rest : bytes) : outcome (list vec4f) :=
  let* buf := read_into (repeat (Some "000"%char) (4 * (num_props * num_points))) Some (16 * num_points) rest in
  mapM (fun i =>
          let* x := get_float buf (4 * (i * num_props + 0)) in
          let* y := get_float buf (4 * (i * num_props + 1)) in
          let* z := get_float buf (4 * (i * num_props + 2)) in
          Ok (F4 x y z one32)) (seq 0 num_points).

(** read_ply, read_points.hpp:52-111. *)
Definition read_ply (w : fs) (name : string) : outcome ply_result :=
  match w name with
  | None => Ok (Ret [])
  | Some b =>
      let* h := header_loop (S (length b)) b [] 0 in
      match h with
      | HReturnEmpty => Ok (Ret [])
      | HThrows => Ok Throws
      | HDone line properties num_points rest eof =>
          let* _ := check_properties line properties in
          (* a stream at eof delivers nothing *)
          let* pts := read_body (length properties) num_points (if eof then [] else rest) in
          Ok (Ret pts)
      end
  end.
