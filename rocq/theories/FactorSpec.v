(** What is expected of the factors and of the steps an optimizer tries, over the reals. *)
From Coq Require Import Reals.
From Coquelicot Require Import Coquelicot.
From Verif Require Import Base Num Vec RNum Lin LinSpec FactorModel OptModel LieModel EstSpec.
Open Scope R_scope.

(** A covariance with nothing outside its symmetric positive semidefinite 3x3 block. *)
Definition block_cov (c : m4 Rfld) : Prop :=
  b34 c = zero3 /\ b43 c = zero3 /\ b44 c = (0 : car Rfld) /\ sym3 (b33 c) /\ psd3 (b33 c).
(** Clouds GICP can use: block covariances, positive definite in the target. *)
Definition usable_covs (target : view Rfld N) (source : view Rfld nat) : Prop :=
  (forall i c, at_cov target i = Ok c -> block_cov c /\ spd3 (b33 c)) /\
  (forall i c, at_cov source i = Ok c -> block_cov c).
(** Fourth component one. *)
Definition homogeneous (source : view Rfld nat) : Prop := forall i p, at_point source i = Ok p -> vw p = 1.
(** What covariance estimation writes: the identity block, or a plane covariance. *)
Definition estimated_cov (c : m4 Rfld) : Prop :=
  c = B4 id3 zero3 zero3 (0 : car Rfld) \/ exists n : v3 Rfld, dot3 n n = 1 /\ plane_cov c n.

(** [err] is defined along T exp(t delta) and has derivative [slope] at t = 0. *)
Definition slope_along (err : pose Rfld -> outcome R) (T : pose Rfld) (delta : v6 Rfld) (slope : R) : Prop :=
  exists e : R -> R, (forall t : R, err (pose_mul T (se3_exp (scale6 (t : car Rfld) delta))) = Ok (e t)) /\
    is_derive e 0 slope.

Definition spd6 (A : m6 Rfld) : Prop := forall d, d <> zero6 -> 0 < dot6 d (mv6 A d).
(** Contract of ldlt().solve on symmetric positive definite matrices. *)
Definition solves6 (solve : m6 Rfld -> v6 Rfld -> v6 Rfld) : Prop :=
  forall A b, sym6 A -> spd6 A -> mv6 A (solve A b) = b.

(** Every step of a log was computed from the latest linearised system: P system lambda delta. *)
Section Log.
Context {D : fld} {F : Type} (lambda0 : car D) (P : pose D -> list F -> sys D -> car D -> v6 D -> Prop).
Fixpoint steps_satisfy (cur : option (pose D * list F * sys D)) (log : list (event D F)) : Prop :=
  match log with
  | [] => True
  | Linearized T fs s :: l => steps_satisfy (Some (T, fs, s)) l
  | Tried lambda delta _ _ _ _ :: l =>
      match cur with Some (T, fs, s) => P T fs s lambda delta | None => False end /\ steps_satisfy cur l
  | Stepped delta _ :: l =>
      match cur with Some (T, fs, s) => P T fs s lambda0 delta | None => False end /\ steps_satisfy cur l
  end.
End Log.

(** The axes a mask switches off. *)
Definition mask01 (mask : v6 Rfld) : Prop :=
  Forall (fun x : R => x = 0 \/ x = 1) [p0 (rv mask); p1 (rv mask); p2 (rv mask); p0 (tv mask); p1 (tv mask); p2 (tv mask)].
Definition off_axes (mask delta : v6 Rfld) : v6 Rfld :=
  let pick m d : car Rfld := if Req_EM_T m 0 then d else 0 in
  P6 (P3 (pick (p0 (rv mask)) (p0 (rv delta))) (pick (p1 (rv mask)) (p1 (rv delta))) (pick (p2 (rv mask)) (p2 (rv delta))))
     (P3 (pick (p0 (tv mask)) (p0 (tv delta))) (pick (p1 (tv mask)) (p1 (tv delta))) (pick (p2 (tv mask)) (p2 (tv delta)))).
