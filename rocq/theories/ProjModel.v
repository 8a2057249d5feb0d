(** Model of include/small_gicp/ann/projective_search.hpp. *)
From Coq Require Import ZArith.
From Flocq Require Import IEEE754.BinarySingleNaN.
From Verif Require Import Base Num Vec F64 FloorModel KnnModel.

(** BorderClamp and BorderRepeat, projective_search.hpp:30-39. *)
Inductive border : Type := BorderClamp | BorderRepeat.
Definition border_apply (b : border) (x width : Z) : Z :=
  match b with
  | BorderClamp => x
  | BorderRepeat =>
      (if x <? 0 then x + width else if width <=? x then x - width else x)%Z
  end.

(** invalid_index, projective_search.hpp:141, and the conversion of a size_t to uint32_t
    on assignment to an element of index_map (line 62). *)
Definition U32 : N := 4294967296%N.
Definition invalid_index : N := 4294967295%N.
Definition to_u32 (n : N) : N := (n mod U32)%N.

(** for (int d = -w; d <= w; d++), projective_search.hpp:113 and 119. *)
Definition zrange (w : Z) : list Z :=
  map (fun i => (Z.of_nat i - w)%Z) (seq 0 (Z.to_nat (2 * w + 1))).

Section Proj.
Context (D : num) (P : Type).
(** (traits::point(points, index) - query).squaredNorm(), line 130. *)
Context (dist : P -> P -> car D).
(** The pixel (u, v) of a point for an image of [cols] x [rows]: the projection followed by
    the two conversions "const int u = uv[0] * cols" (lines 56-57 and 110-111); [UB] when a
    conversion is out of range.  [pixel_f64] below is the instance on doubles. *)
Context (pixel : Z -> Z -> P -> outcome (Z * Z)).
Context (border_h border_v : border).
Context (mode : int_mode).

(** The object: the cloud is referenced, not copied (line 143).  The image is kept as a
    list of rows one after another; Eigen's storage order is not observable. *)
Record projective : Type := mkProj {
  pr_points : list P;
  pr_cols : Z;
  pr_rows : Z;
  pr_map : list N;
  search_window_h : Z;
  search_window_v : Z
}.

(** u < 0 || u >= cols || v < 0 || v >= rows, negated: lines 59, 115 and 121. *)
Definition inside (cols rows u v : Z) : bool :=
  ((0 <=? u) && (u <? cols) && (0 <=? v) && (v <? rows))%Z.
Definition cell (cols u v : Z) : nat := Z.to_nat (v * cols + u).

(** index_map(v, u): outside the image is undefined behaviour. *)
Definition map_get (cols rows : Z) (m : list N) (v u : Z) : outcome N :=
  if inside cols rows u v then get m (cell cols u v) else UB.
Definition map_set (cols rows : Z) (m : list N) (v u : Z) (x : N) : outcome (list N) :=
  if inside cols rows u v then set m (cell cols u v) x else UB.

(** Loop body of the constructor, lines 53-63. *)
Definition fill_step (cols rows : Z) (m : list N) (ip : nat * P) : outcome (list N) :=
  let* (u, v) := pixel cols rows (snd ip) in
  if inside cols rows u v then map_set cols rows m v u (to_u32 (N.of_nat (fst ip)))
  else Ok m.

(** Constructor, lines 49-64.  A negative image size is outside Eigen's contract. *)
Definition proj_build (width height : Z) (points : list P) : outcome projective :=
  if ((width <? 0) || (height <? 0))%Z then UB
  else
    let* m := foldM (fill_step width height)
                    (combine (seq 0 (length points)) points)
                    (repeat invalid_index (Z.to_nat (width * height))) in
    Ok (mkProj points width height m 10 5).

(** Body of the inner loop, lines 119-136.  The flag records the early return of line 134. *)
Definition inner_step (s : projective) (query : P) (epsilon : car D) (u v_clamped : Z)
  (st : knn_result D * bool) (du : Z) : outcome (knn_result D * bool) :=
  let (r, done) := st in
  if done then Ok st
  else
    let* x := int_result mode (u + du)%Z in
    let u_clamped := border_apply border_h x (pr_cols s) in
    if ((u_clamped <? 0) || (pr_cols s <=? u_clamped))%Z then Ok (r, false)
    else
      let* index := map_get (pr_cols s) (pr_rows s) (pr_map s) v_clamped u_clamped in
      if (index =? invalid_index)%N then Ok (r, false)
      else
        let* p := get (pr_points s) (N.to_nat index) in
        let* r' := push r index (dist p query) in
        let* f := fulfilled epsilon r' in
        Ok (r', f).

(** Body of the outer loop, lines 113-137. *)
Definition outer_step (s : projective) (query : P) (epsilon : car D) (u v : Z)
  (st : knn_result D * bool) (dv : Z) : outcome (knn_result D * bool) :=
  let (r, done) := st in
  if done then Ok st
  else
    let* y := int_result mode (v + dv)%Z in
    let v_clamped := border_apply border_v y (pr_rows s) in
    if ((v_clamped <? 0) || (pr_rows s <=? v_clamped))%Z then Ok (r, false)
    else foldM (inner_step s query epsilon u v_clamped) (zrange (search_window_h s)) (r, false).

(** knn_search into a result, lines 103-138. *)
Definition proj_search (s : projective) (query : P) (epsilon : car D) (r : knn_result D)
  : outcome (knn_result D) :=
  let* (u, v) := pixel (pr_cols s) (pr_rows s) query in
  let* st := foldM (outer_step s query epsilon u v) (zrange (search_window_v s)) (r, false) in
  Ok (fst st).

(** knn_search(query, k, ...) and knn_search<N>(query, ...), lines 83-100: dynamic and
    static capacity. *)
Definition proj_knn (s : projective) (query : P) (sn : option nat) (k : Z) (epsilon : car D)
  : outcome (knn_result D) :=
  let* r := knn_init D sn k in proj_search s query epsilon r.

(** nearest_neighbor_search, lines 72-74: knn_search<1>. *)
Definition proj_nn (s : projective) (query : P) (epsilon : car D) : outcome (knn_result D) :=
  proj_knn s query (Some 1) (-1) epsilon.

End Proj.
Arguments pr_points {P}.
Arguments pr_cols {P}.
Arguments pr_rows {P}.
Arguments pr_map {P}.
Arguments search_window_h {P}.
Arguments search_window_v {P}.
Arguments mkProj {P}.

(** "const int u = uv[0] * index_map.cols()": the product in double, then truncation. *)
Definition pixel_f64 {P} (mode : int_mode) (project : P -> f64 * f64) (cols rows : Z) (p : P)
  : outcome (Z * Z) :=
  let* u := cast_int mode (f64_mul (fst (project p)) (f64_of cols 0)) in
  let* v := cast_int mode (f64_mul (snd (project p)) (f64_of rows 0)) in
  Ok (u, v).

(** M_PI, and the literal 1e-3 of line 17. *)
Definition f64_pi : f64 := f64_of 884279719003555 (-48).
Definition f64_1e_3 : f64 := f64_of 4611686018427388 (-62).

(** EquirectangularProjection::operator(), projective_search.hpp:16-26, on head<3>() of a
    point; std::asin and std::atan2 are parameters, [order] is the evaluation order of
    squaredNorm (any order over the first three components). *)
Definition equirect (asin : f64 -> f64) (atan2 : f64 -> f64 -> f64) (order : sumtree)
  (p : vec4 Fnum) : f64 * f64 :=
  let half := f64_of 1 (-1) in
  let sq := sum_eval (D := Fnum) f64_fma order p in
  if f64_lt sq f64_1e_3 then (half, half)
  else
    (* normalized(): divides by the norm when the squared norm is positive *)
    let n a := if f64_lt (B754_zero false) sq then f64_div a (Bsqrt mode_NE sq) else a in
    let lat := Bopp (asin (n (vy p))) in
    let lon := atan2 (n (vx p)) (n (vz p)) in
    (f64_add (f64_div lon (f64_mul (f64_of 1 1) f64_pi)) half,
     f64_add (f64_div lat f64_pi) half).
