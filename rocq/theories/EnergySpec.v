(** Bounds on the steps of a registration in terms of its current error. *)
From Coq Require Import Reals.
From Verif Require Import Base Num Vec RNum Lin LinSpec FactorModel OptModel FactorSpec FactorProofs.
Open Scope R_scope.

(** e + b d + d H d / 2, what the linearised problem predicts for the error after a step d, is
    never negative. *)
Definition model_nonneg (s : sys Rfld) : Prop := forall d, 0 <= se s + dot6 (sb s) d + / 2 * dot6 d (mv6 (sH s) d).

(** The problems: any factor, any clouds, search and rejector, with or without a robust kernel
    of non-negative weight. *)
Definition least_squares (lin : pose Rfld -> list (factor Rfld) -> outcome (list (factor Rfld) * sys Rfld)) : Prop :=
  exists nn reject target source k, (k = GICP -> usable_covs target source) /\
    (lin = reg_lin Rfld nn reject target source k \/
     exists weight : R -> R, (forall e : R, 0 <= weight e) /\ lin = reg_lin_robust Rfld nn reject target source weight k).

(** A step [delta] with damping [mu] from a system of error [e]: mu |delta|^2 <= e / 2. *)
Definition short_step {F : Type} (T : pose Rfld) (fs : list F) (s : sys Rfld) (mu : R) (delta : v6 Rfld) : Prop :=
  mu * dot6 delta delta <= se s / 2.
(** Its part along restricted axes: lambda |delta|^2 <= e / 2, whatever the damping. *)
Definition restricted_step (lambda : R) (mask : v6 Rfld) {F : Type} (T : pose Rfld) (fs : list F) (s : sys Rfld) (mu : R) (delta : v6 Rfld) : Prop :=
  lambda * dot6 (off_axes mask delta) (off_axes mask delta) <= se s / 2.
