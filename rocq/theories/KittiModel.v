(** KittiDataset, include/small_gicp/benchmark/benchmark.hpp:96-144. *)
From Coq Require Import ZArith List Ascii String.
From Flocq Require Import IEEE754.BinarySingleNaN.
From Verif Require Import Base Num F64 F32 Vec IoModel CloudModel.
Import ListNotations.
Open Scope nat_scope.
Local Open Scope list_scope.

(** * Files *)
(** path::extension() of a file name: from the last dot on; a dot in the first place does not
    count, "." and ".." have none.  Used at benchmark.hpp:101. *)
Fixpoint last_dot (s : bytes) : option bytes :=
  match s with
  | [] => None
  | c :: t => match last_dot t with Some e => Some e | None => if Ascii.eqb c "." then Some (c :: t) else None end
  end.
Definition extension (name : bytes) : bytes :=
  match name with
  | [] => []
  | _ :: t => if bytes_eqb name (chars "..") then [] else match last_dot t with Some e => e | None => [] end
  end.
(** The path the iterator gives for an entry: dataset_path / name. *)
Definition path_of (dir : string) (name : bytes) : string := String.append dir (String.append "/" (string_of_list_ascii name)).

(** The constructor, benchmark.hpp:98-115.  [entries] are the names in the order in which the
    operating system lists them, None when the directory cannot be read (the iterator throws).
    [sort] is std::sort on the path strings.  When a later file cannot be opened read_points
    returns an empty frame. *)
Definition kitti_open (sort : list string -> list string) (w : fs) (dir : string) (entries : option (list bytes)) (max_num_data : nat)
  : outcome (list (list vec4f)) :=
  match entries with
  | None => Abort
  | Some names =>
      let filenames := map (path_of dir) (filter (fun n => bytes_eqb (extension n) (chars ".bin")) names) in
      let sorted := sort filenames in
      let kept := if max_num_data <? length sorted then firstn max_num_data sorted else sorted in
      mapM (read_points w) kept
  end.

(** * Numbers *)
(** The float held by four bytes on a little-endian machine. *)
Definition byte (c : ascii) : Z := Z.of_nat (nat_of_ascii c).
Definition word32 (f : float32) : Z :=
  let '(a, b, c, d) := f in (byte a + 256 * (byte b + 256 * (byte c + 256 * byte d)))%Z.
Definition decode (f : float32) : f32 :=
  let n := word32 f in
  let s := (n / 2147483648 =? 1)%Z in
  let e := (n / 8388608 mod 256)%Z in
  let m := (n mod 8388608)%Z in
  let sgn (z : Z) := if s then Z.opp z else z in
  if (e =? 255)%Z then (if (m =? 0)%Z then B754_infinity s else B754_nan)
  else if (e =? 0)%Z then binary_normalize 24 128 _ _ mode_NE (sgn m) (-149) s
  else binary_normalize 24 128 _ _ mode_NE (sgn (m + 8388608)%Z) (e - 150) s.
(** raw_points[i].cast<double>() *)
Definition cast_point (p : vec4f) : vec4 Fnum :=
  V4 (D := Fnum) (widen (decode (fx p))) (widen (decode (fy p))) (widen (decode (fz p))) (widen (decode (fw p))).

(** * convert, benchmark.hpp:118-140 *)
Section Convert.
(** Any cloud type through its traits. *)
Context {C : Type} (fresh : C) (resize : C -> nat -> outcome C) (set_point : C -> nat -> vec4 Fnum -> outcome C).
Definition convert_frame (raw : list vec4f) : outcome C :=
  let* c := resize fresh (length raw) in
  foldM (fun c i => let* p := get raw i in set_point c i (cast_point p)) (seq 0 (length raw)) c.
(** The converted frames and the dataset afterwards. *)
Definition convert (release : bool) (frames : list (list vec4f)) : outcome (list C * list (list vec4f)) :=
  let* cs := mapM convert_frame frames in
  Ok (cs, if release then [] else frames).
End Convert.
(** small_gicp::PointCloud. *)
Definition cloud_resize {M : Type} (c : pcloud (vec4 Fnum) M) (n : nat) : outcome (pcloud (vec4 Fnum) M) := apply c (Resize n).
Definition cloud_set_point {M : Type} (c : pcloud (vec4 Fnum) M) (i : nat) (v : vec4 Fnum) : outcome (pcloud (vec4 Fnum) M) := apply c (SetPoint i v).
Definition convert_clouds {M : Type} := convert (C := pcloud (vec4 Fnum) M) pc_empty cloud_resize cloud_set_point.
