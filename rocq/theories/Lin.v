(** Fixed-size linear algebra as used by the registration code (Eigen), over a number system
    with the extra operations the factors need.

    Simplification, throughout: sums inside matrix products are evaluated left to right.
    Eigen may use another association (and fused operations); claims that depend on rounding
    are therefore only made where both sides are the same expression. *)
From Coq Require Import Reals ZArith.
From Flocq Require Import Core IEEE754.BinarySingleNaN.
From Verif Require Import Base Num Vec F64 RNum.

(** A number system with unary minus, square root, absolute value, 1 and 0.5. *)
Record fld : Type := mkFld {
  fbase :> num;
  fopp : car fbase -> car fbase;
  fsqrt : car fbase -> car fbase;
  fabs : car fbase -> car fbase;
  fone : car fbase;
  fhalf : car fbase
}.
Arguments fopp {f}.
Arguments fsqrt {f}.
Arguments fabs {f}.
Arguments fone {f}.
Arguments fhalf {f}.

Definition Rfld : fld := mkFld Rnum Ropp sqrt Rabs 1%R (/ 2)%R.
Definition Ffld : fld :=
  mkFld Fnum (@Bopp 53 1024) (fun x => Bsqrt mode_NE x) (@Babs 53 1024) (f64_of 1 0) (f64_of 1 (-1)).

Section Lin.
Context (D : fld).
Notation K := (car D).

(** Eigen::Vector3d, Eigen::Matrix3d (rows) *)
Record v3 : Type := P3 { p0 : K; p1 : K; p2 : K }.
Record m3 : Type := M3 { r0 : v3; r1 : v3; r2 : v3 }.

Definition zero3 : v3 := P3 nzero nzero nzero.
Definition add3 (a b : v3) : v3 := P3 (nadd (p0 a) (p0 b)) (nadd (p1 a) (p1 b)) (nadd (p2 a) (p2 b)).
Definition sub3 (a b : v3) : v3 := P3 (nsub (p0 a) (p0 b)) (nsub (p1 a) (p1 b)) (nsub (p2 a) (p2 b)).
Definition opp3 (a : v3) : v3 := P3 (fopp (p0 a)) (fopp (p1 a)) (fopp (p2 a)).
Definition scale3 (s : K) (a : v3) : v3 := P3 (nmul s (p0 a)) (nmul s (p1 a)) (nmul s (p2 a)).
Definition mul3 (a b : v3) : v3 := P3 (nmul (p0 a) (p0 b)) (nmul (p1 a) (p1 b)) (nmul (p2 a) (p2 b)).
Definition dot3 (a b : v3) : K :=
  nadd (nadd (nmul (p0 a) (p0 b)) (nmul (p1 a) (p1 b))) (nmul (p2 a) (p2 b)).

Definition c0 (m : m3) : v3 := P3 (p0 (r0 m)) (p0 (r1 m)) (p0 (r2 m)).
Definition c1 (m : m3) : v3 := P3 (p1 (r0 m)) (p1 (r1 m)) (p1 (r2 m)).
Definition c2 (m : m3) : v3 := P3 (p2 (r0 m)) (p2 (r1 m)) (p2 (r2 m)).
Definition tr3 (m : m3) : m3 := M3 (c0 m) (c1 m) (c2 m).
Definition mv3 (m : m3) (v : v3) : v3 := P3 (dot3 (r0 m) v) (dot3 (r1 m) v) (dot3 (r2 m) v).
Definition mm3 (a b : m3) : m3 :=
  let row r := P3 (dot3 r (c0 b)) (dot3 r (c1 b)) (dot3 r (c2 b)) in
  M3 (row (r0 a)) (row (r1 a)) (row (r2 a)).
Definition madd3 (a b : m3) : m3 := M3 (add3 (r0 a) (r0 b)) (add3 (r1 a) (r1 b)) (add3 (r2 a) (r2 b)).
Definition msub3 (a b : m3) : m3 := M3 (sub3 (r0 a) (r0 b)) (sub3 (r1 a) (r1 b)) (sub3 (r2 a) (r2 b)).
Definition mopp3 (a : m3) : m3 := M3 (opp3 (r0 a)) (opp3 (r1 a)) (opp3 (r2 a)).
Definition mscale3 (s : K) (a : m3) : m3 := M3 (scale3 s (r0 a)) (scale3 s (r1 a)) (scale3 s (r2 a)).
Definition mzero3 : m3 := M3 zero3 zero3 zero3.
Definition diag3 (v : v3) : m3 :=
  M3 (P3 (p0 v) nzero nzero) (P3 nzero (p1 v) nzero) (P3 nzero nzero (p2 v)).
Definition id3 : m3 := diag3 (P3 fone fone fone).
(** a * b^T *)
Definition outer3 (a b : v3) : m3 := M3 (scale3 (p0 a) b) (scale3 (p1 a) b) (scale3 (p2 a) b).

(** skew, util/lie.hpp:13-23 *)
Definition skew (x : v3) : m3 :=
  M3 (P3 nzero (fopp (p2 x)) (p1 x))
     (P3 (p2 x) nzero (fopp (p0 x)))
     (P3 (fopp (p1 x)) (p0 x) nzero).

(** Eigen's 3x3 inverse(): cofactors divided by the determinant. *)
Definition cof (a b c d : K) : K := nsub (nmul a d) (nmul b c).
Definition cofactors (m : m3) : m3 :=
  M3 (P3 (cof (p1 (r1 m)) (p2 (r1 m)) (p1 (r2 m)) (p2 (r2 m)))
         (cof (p2 (r1 m)) (p0 (r1 m)) (p2 (r2 m)) (p0 (r2 m)))
         (cof (p0 (r1 m)) (p1 (r1 m)) (p0 (r2 m)) (p1 (r2 m))))
     (P3 (cof (p1 (r2 m)) (p2 (r2 m)) (p1 (r0 m)) (p2 (r0 m)))
         (cof (p2 (r2 m)) (p0 (r2 m)) (p2 (r0 m)) (p0 (r0 m)))
         (cof (p0 (r2 m)) (p1 (r2 m)) (p0 (r0 m)) (p1 (r0 m))))
     (P3 (cof (p1 (r0 m)) (p2 (r0 m)) (p1 (r1 m)) (p2 (r1 m)))
         (cof (p2 (r0 m)) (p0 (r0 m)) (p2 (r1 m)) (p0 (r1 m)))
         (cof (p0 (r0 m)) (p1 (r0 m)) (p0 (r1 m)) (p1 (r1 m)))).
Definition det3 (m : m3) : K := dot3 (r0 m) (r0 (cofactors m)).
Definition inv3 (m : m3) : m3 := mscale3 (ndiv fone (det3 m)) (tr3 (cofactors m)).

(** Eigen::Matrix4d in blocks: [[b33, b34], [b43^T, b44]]. *)
Record m4 : Type := B4 { b33 : m3; b34 : v3; b43 : v3; b44 : K }.
Definition madd4 (a b : m4) : m4 :=
  B4 (madd3 (b33 a) (b33 b)) (add3 (b34 a) (b34 b)) (add3 (b43 a) (b43 b)) (nadd (b44 a) (b44 b)).
Definition mm4 (a b : m4) : m4 :=
  B4 (madd3 (mm3 (b33 a) (b33 b)) (outer3 (b34 a) (b43 b)))
     (add3 (mv3 (b33 a) (b34 b)) (scale3 (b44 b) (b34 a)))
     (add3 (mv3 (tr3 (b33 b)) (b43 a)) (scale3 (b44 a) (b43 b)))
     (nadd (dot3 (b43 a) (b34 b)) (nmul (b44 a) (b44 b))).
Definition tr4 (a : m4) : m4 := B4 (tr3 (b33 a)) (b43 a) (b34 a) (b44 a).

(** Eigen::Isometry3d: linear part and translation; last row (0,0,0,1). *)
Record pose : Type := mkPose { rot : m3; tra : v3 }.
Definition pose_id : pose := mkPose id3 zero3.
Definition pose_mat (T : pose) : m4 := B4 (rot T) (tra T) zero3 fone.
Definition pose_mul (A B : pose) : pose :=
  mkPose (mm3 (rot A) (rot B)) (add3 (mv3 (rot A) (tra B)) (tra A)).
Definition head (p : vec4 D) : v3 := P3 (vx p) (vy p) (vz p).
(** T * p for a Vector4d: the fourth component is kept. *)
Definition pose_pt (T : pose) (p : vec4 D) : vec4 D :=
  let h := add3 (mv3 (rot T) (head p)) (scale3 (vw p) (tra T)) in
  V4 (p0 h) (p1 h) (p2 h) (vw p).
Definition sqnorm4 (v : vec4 D) : K :=
  nadd (nadd (nmul (vx v) (vx v)) (nmul (vy v) (vy v))) (nadd (nmul (vz v) (vz v)) (nmul (vw v) (vw v))).

(** Eigen::Matrix<double,6,1> and 6x6 in 3-blocks (rotation first). *)
Record v6 : Type := P6 { rv : v3; tv : v3 }.
Record m6 : Type := M6 { brr : m3; brt : m3; btr : m3; btt : m3 }.
Definition zero6 : v6 := P6 zero3 zero3.
Definition mzero6 : m6 := M6 mzero3 mzero3 mzero3 mzero3.
Definition add6 (a b : v6) : v6 := P6 (add3 (rv a) (rv b)) (add3 (tv a) (tv b)).
Definition opp6 (a : v6) : v6 := P6 (opp3 (rv a)) (opp3 (tv a)).
Definition scale6 (s : K) (a : v6) : v6 := P6 (scale3 s (rv a)) (scale3 s (tv a)).
Definition dot6 (a b : v6) : K := nadd (dot3 (rv a) (rv b)) (dot3 (tv a) (tv b)).
Definition madd6 (a b : m6) : m6 :=
  M6 (madd3 (brr a) (brr b)) (madd3 (brt a) (brt b)) (madd3 (btr a) (btr b)) (madd3 (btt a) (btt b)).
Definition mscale6 (s : K) (a : m6) : m6 :=
  M6 (mscale3 s (brr a)) (mscale3 s (brt a)) (mscale3 s (btr a)) (mscale3 s (btt a)).
Definition mv6 (m : m6) (v : v6) : v6 :=
  P6 (add3 (mv3 (brr m) (rv v)) (mv3 (brt m) (tv v))) (add3 (mv3 (btr m) (rv v)) (mv3 (btt m) (tv v))).
Definition tr6 (m : m6) : m6 := M6 (tr3 (brr m)) (tr3 (btr m)) (tr3 (brt m)) (tr3 (btt m)).
Definition diag6 (v : v6) : m6 := M6 (diag3 (rv v)) mzero3 mzero3 (diag3 (tv v)).
Definition id6 : m6 := M6 id3 mzero3 mzero3 id3.

(** A 3x6 Jacobian [jr | jt] (the fourth row of the code's 4x6 matrix is zero). *)
Record jac : Type := Jac { jr : m3; jt : m3 }.
Definition jmul (J : jac) (d : v6) : v3 := add3 (mv3 (jr J) (rv d)) (mv3 (jt J) (tv d)).
(** J^T * W * J and J^T * r *)
Definition jwj (J : jac) (W : m3) : m6 :=
  let w x y := mm3 (mm3 (tr3 x) W) y in
  M6 (w (jr J) (jr J)) (w (jr J) (jt J)) (w (jt J) (jr J)) (w (jt J) (jt J)).
Definition jtj (J : jac) : m6 :=
  let w x y := mm3 (tr3 x) y in
  M6 (w (jr J) (jr J)) (w (jr J) (jt J)) (w (jt J) (jr J)) (w (jt J) (jt J)).
Definition jtr (J : jac) (v : v3) : v6 := P6 (mv3 (tr3 (jr J)) v) (mv3 (tr3 (jt J)) v).

End Lin.
Arguments P3 {D}. Arguments p0 {D}. Arguments p1 {D}. Arguments p2 {D}.
Arguments M3 {D}. Arguments r0 {D}. Arguments r1 {D}. Arguments r2 {D}.
Arguments zero3 {D}. Arguments add3 {D}. Arguments sub3 {D}. Arguments opp3 {D}.
Arguments scale3 {D}. Arguments mul3 {D}. Arguments dot3 {D}.
Arguments c0 {D}. Arguments c1 {D}. Arguments c2 {D}. Arguments tr3 {D}.
Arguments mv3 {D}. Arguments mm3 {D}. Arguments madd3 {D}. Arguments msub3 {D}. Arguments mopp3 {D}.
Arguments mscale3 {D}. Arguments mzero3 {D}. Arguments diag3 {D}. Arguments id3 {D}.
Arguments outer3 {D}. Arguments skew {D}. Arguments cof {D}. Arguments cofactors {D}.
Arguments det3 {D}. Arguments inv3 {D}.
Arguments B4 {D}. Arguments b33 {D}. Arguments b34 {D}. Arguments b43 {D}. Arguments b44 {D}.
Arguments madd4 {D}. Arguments mm4 {D}. Arguments tr4 {D}.
Arguments mkPose {D}. Arguments rot {D}. Arguments tra {D}. Arguments pose_id {D}.
Arguments pose_mat {D}. Arguments pose_mul {D}. Arguments head {D}. Arguments pose_pt {D}.
Arguments sqnorm4 {D}.
Arguments P6 {D}. Arguments rv {D}. Arguments tv {D}.
Arguments M6 {D}. Arguments brr {D}. Arguments brt {D}. Arguments btr {D}. Arguments btt {D}.
Arguments zero6 {D}. Arguments mzero6 {D}. Arguments add6 {D}. Arguments opp6 {D}.
Arguments scale6 {D}. Arguments dot6 {D}. Arguments madd6 {D}. Arguments mscale6 {D}.
Arguments mv6 {D}. Arguments tr6 {D}. Arguments diag6 {D}. Arguments id6 {D}.
Arguments Jac {D}. Arguments jr {D}. Arguments jt {D}. Arguments jmul {D}.
Arguments jwj {D}. Arguments jtj {D}. Arguments jtr {D}.
