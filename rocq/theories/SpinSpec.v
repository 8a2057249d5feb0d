(** A source turned about the origin of its own frame, over the reals. *)
From Coq Require Import Reals.
From Verif Require Import Base Num Vec RNum Lin LinSpec FactorModel FactorSpec OptModel MoveSpec.
Open Scope R_scope.

(** Turning about the origin by [Q]. *)
Definition spin (Q : m3 Rfld) : pose Rfld := mkPose Q zero3.
(** [T] after turning back. *)
Definition unspin (Q : m3 Rfld) (T : pose Rfld) : pose Rfld := mkPose (mm3 (rot T) (tr3 Q)) (tra T).
(** A twist, a 6x6 matrix and a linear system in the turned frame. *)
Definition spin6 (Q : m3 Rfld) (x : v6 Rfld) : v6 Rfld := P6 (mv3 Q (rv x)) (mv3 Q (tv x)).
Definition conj3 (Q A : m3 Rfld) : m3 Rfld := mm3 (mm3 Q A) (tr3 Q).
Definition conj6 (Q : m3 Rfld) (H : m6 Rfld) : m6 Rfld := M6 (conj3 Q (brr H)) (conj3 Q (brt H)) (conj3 Q (btr H)) (conj3 Q (btt H)).
Definition spun_sys (Q : m3 Rfld) (s : sys Rfld) : sys Rfld := mkSys (conj6 Q (sH s)) (spin6 Q (sb s)) (se s).
(** The result of the registration of the turned source: the pose turned back, H and b in the
    turned frame, everything else the same. *)
Definition spun_result (Q : m3 Rfld) (r : result Rfld) : result Rfld :=
  mkResult (unspin Q (r_T r)) (r_converged r) (r_iterations r) (r_inliers r) (conj6 Q (r_H r)) (spin6 Q (r_b r)) (r_error r).
(** A general factor that prefers no axis of the source frame. *)
Definition frame_free (Q : m3 Rfld) (g : general Rfld) : Prop :=
  (forall T s, upd_sys g (unspin Q T) (spun_sys Q s) = spun_sys Q (upd_sys g T s)) /\
  (forall T e, upd_err g (unspin Q T) e = upd_err g T e).
