(** SO(3) and SE(3) exponentials, util/lie.hpp, in real arithmetic (sin, cos and sqrt are the
    real functions; rounding is ignored). *)
From Coq Require Import Reals.
From Verif Require Import Base Num Vec RNum Lin.
Open Scope R_scope.

Definition r3 (a b c : R) : v3 Rfld := P3 (a : car Rfld) (b : car Rfld) (c : car Rfld).

(** Eigen::Quaterniond(w, x, y, z) *)
Record quat : Type := mkQuat { qw : R; qv : v3 Rfld }.

(** so3_exp, lie.hpp:54-71. *)
Definition imag_taylor (s : R) : R := 0.5 - 1 / 48 * s + 1 / 3840 * (s * s).
Definition real_taylor (s : R) : R := 1 - 1 / 8 * s + 1 / 384 * (s * s).
Definition so3_exp (omega : v3 Rfld) : quat :=
  let theta_sq := dot3 omega omega in
  if Rlt_dec theta_sq 1e-10 then mkQuat (real_taylor theta_sq) (scale3 (imag_taylor theta_sq : car Rfld) omega)
  else
    let theta := sqrt theta_sq in
    let half_theta := 0.5 * theta in
    mkQuat (cos half_theta) (scale3 (sin half_theta / theta : car Rfld) omega).

(** Eigen's toRotationMatrix(), which does not normalise. *)
Definition to_rotation (q : quat) : m3 Rfld :=
  let w := qw q in let x : R := p0 (qv q) in let y : R := p1 (qv q) in let z : R := p2 (qv q) in
  let tx := 2 * x in let ty := 2 * y in let tz := 2 * z in
  M3 (r3 (1 - (ty * y + tz * z)) (ty * x - tz * w) (tz * x + ty * w))
     (r3 (ty * x + tz * w) (1 - (tx * x + tz * z)) (tz * y - tx * w))
     (r3 (tz * x - ty * w) (tz * y + tx * w) (1 - (tx * x + ty * y))).

(** se3_exp, lie.hpp:77-96. *)
Definition V_matrix (theta_sq theta : R) (omega : v3 Rfld) : m3 Rfld :=
  let Omega := skew omega in
  madd3 (madd3 id3 (mscale3 ((1 - cos theta) / theta_sq : car Rfld) Omega))
        (mm3 (mscale3 ((theta - sin theta) / (theta_sq * theta) : car Rfld) Omega) Omega).
Definition se3_exp (a : v6 Rfld) : pose Rfld :=
  let omega := rv a in
  let theta_sq := dot3 omega omega in
  let theta := sqrt theta_sq in
  let linear := to_rotation (so3_exp omega) in
  mkPose linear
    (if Rlt_dec theta 1e-10 then mv3 linear (tv a) else mv3 (V_matrix theta_sq theta omega) (tv a)).
