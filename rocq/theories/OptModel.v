(** The optimizers and Registration::align: registration/optimizer.hpp, registration.hpp,
    termination_criteria.hpp, registration_result.hpp. *)
From Verif Require Import Base Num Vec Lin FactorModel.

Section Opt.
Context (D : fld).
Notation K := (car D).
Context (F : Type).

(** RegistrationResult, registration_result.hpp:11-31. *)
Record result : Type := mkResult {
  r_T : pose D; r_converged : bool; r_iterations : nat; r_inliers : nat;
  r_H : m6 D; r_b : v6 D; r_error : K
}.
Definition result_init (T : pose D) : result := mkResult T false 0 0 mzero6 zero6 nzero.

(** TerminationCriteria, termination_criteria.hpp:10-23. *)
Record criteria : Type := mkCriteria { translation_eps : K; rotation_eps : K }.
Definition norm3 (v : v3 D) : K := fsqrt (dot3 v v).
Definition converged (c : criteria) (delta : v6 D) : bool :=
  (nle (norm3 (rv delta)) (rotation_eps c) && nle (norm3 (tv delta)) (translation_eps c))%bool.

(** What an optimizer run did, in order (not part of the program): linearisations, with the
    pose, the factors afterwards and the system after the general factor; and trial steps,
    with the damping, the step, the trial pose, the two errors compared and the verdict. *)
Inductive event : Type :=
| Linearized (T : pose D) (fs : list F) (s : sys D)
| Tried (lambda : K) (delta : v6 D) (T' : pose D) (e new_e : K) (accepted : bool)
| Stepped (delta : v6 D) (T' : pose D).

(** reduction.linearize and reduction.error on the factor array, the general factor,
    ldlt().solve on (matrix, right hand side), se3_exp and factor.inlier(). *)
Context (lin : pose D -> list F -> outcome (list F * sys D)) (err : pose D -> list F -> outcome K).
Context (g : general D) (solve : m6 D -> v6 D -> v6 D) (exp6 : v6 D -> pose D) (inl : F -> bool).
Context (crit : criteria).

Definition damped (H : m6 D) (lambda : K) : m6 D := madd6 H (mscale6 lambda id6).
Definition count_inliers (fs : list F) : nat := length (filter inl fs).
Definition set_inliers (r : result) (n : nat) : result :=
  mkResult (r_T r) (r_converged r) (r_iterations r) n (r_H r) (r_b r) (r_error r).

(** GaussNewtonOptimizer::optimize, optimizer.hpp:38-62.  [n] iterations are left, [i] is
    the loop variable.  Verbose output is left out. *)
Fixpoint gn_loop (lambda : K) (n i : nat) (r : result) (fs : list F) : outcome (result * list F * list event) :=
  match n with
  | 0 => Ok (r, fs, [])
  | S n =>
      if r_converged r then Ok (r, fs, []) else
      let* (fs, s) := lin (r_T r) fs in
      let s := upd_sys g (r_T r) s in
      let delta := solve (damped (sH s) lambda) (opp6 (sb s)) in
      let T' := pose_mul (r_T r) (exp6 delta) in
      let r' := mkResult T' (converged crit delta) i (r_inliers r) (sH s) (sb s) (se s) in
      let* (rf, log) := gn_loop lambda n (i + 1) r' fs in
      Ok (rf, Linearized (r_T r) fs s :: Stepped delta T' :: log)
  end.
Definition gauss_newton (lambda : K) (max_iterations : Z) (T : pose D) (fs : list F) : outcome (result * list event) :=
  let* (rf, log) := gn_loop lambda (Z.to_nat max_iterations) 0 (result_init T) fs in
  Ok (set_inliers (fst rf) (count_inliers (snd rf)), log).

(** The lambda iteration, optimizer.hpp:107-136.  Result: the accepted pose with its converged
    flag, if any, the final e and lambda.  The general factor updates e, not new_e, as line 114
    does. *)
Record inner : Type := mkInner { i_step : option (pose D * bool); i_e : K; i_lambda : K }.
Fixpoint lm_inner (factor : K) (n : nat) (T : pose D) (fs : list F) (s : sys D) (e lambda : K)
  : outcome (inner * list event) :=
  match n with
  | 0 => Ok (mkInner None e lambda, [])
  | S n =>
      let delta := solve (damped (sH s) lambda) (opp6 (sb s)) in
      let T' := pose_mul T (exp6 delta) in
      let* new_e := err T' fs in
      let e := upd_err g T' e in
      if nle new_e e then
        Ok (mkInner (Some (T', converged crit delta)) new_e (ndiv lambda factor),
            [Tried lambda delta T' e new_e true])
      else
        let* (r, log) := lm_inner factor n T fs s e (nmul lambda factor) in
        Ok (r, Tried lambda delta T' e new_e false :: log)
  end.

(** LevenbergMarquardtOptimizer::optimize, optimizer.hpp:98-149. *)
Record lm_settings : Type := mkLM {
  lm_max_iterations : Z; lm_max_inner : Z; lm_init_lambda : K; lm_factor : K
}.
Fixpoint lm_loop (c : lm_settings) (n i : nat) (r : result) (lambda : K) (fs : list F)
  : outcome (result * list F * list event) :=
  match n with
  | 0 => Ok (r, fs, [])
  | S n =>
      if r_converged r then Ok (r, fs, []) else
      let* (fs, s) := lin (r_T r) fs in
      let s := upd_sys g (r_T r) s in
      let* (trial, log1) := lm_inner (lm_factor c) (Z.to_nat (lm_max_inner c)) (r_T r) fs s (se s) lambda in
      let log1 := Linearized (r_T r) fs s :: log1 in
      match i_step trial with
      | None => Ok (mkResult (r_T r) (r_converged r) i (r_inliers r) (sH s) (sb s) (i_e trial), fs, log1)
      | Some (T', conv) =>
          let r' := mkResult T' conv i (r_inliers r) (sH s) (sb s) (i_e trial) in
          let* (rf, log) := lm_loop c n (i + 1) r' (i_lambda trial) fs in
          Ok (rf, log1 ++ log)
      end
  end.
Definition levenberg_marquardt (c : lm_settings) (T : pose D) (fs : list F) : outcome (result * list event) :=
  let* (rf, log) := lm_loop c (Z.to_nat (lm_max_iterations c)) 0 (result_init T) (lm_init_lambda c) fs in
  Ok (set_inliers (fst rf) (count_inliers (snd rf)), log).

End Opt.
Arguments mkResult {D}. Arguments r_T {D}. Arguments r_converged {D}. Arguments r_iterations {D}.
Arguments r_inliers {D}. Arguments r_H {D}. Arguments r_b {D}. Arguments r_error {D}.
Arguments result_init {D}. Arguments mkCriteria {D}. Arguments translation_eps {D}. Arguments rotation_eps {D}.
Arguments norm3 {D}. Arguments converged {D}.
Arguments Linearized {D F}. Arguments Tried {D F}. Arguments Stepped {D F}.
Arguments damped {D}. Arguments count_inliers {F}. Arguments set_inliers {D}.
Arguments gn_loop {D F}. Arguments gauss_newton {D F}.
Arguments mkInner {D}. Arguments i_step {D}. Arguments i_e {D}. Arguments i_lambda {D}.
Arguments lm_inner {D F}. Arguments mkLM {D}. Arguments lm_max_iterations {D}. Arguments lm_max_inner {D}.
Arguments lm_init_lambda {D}. Arguments lm_factor {D}. Arguments lm_loop {D F}. Arguments levenberg_marquardt {D F}.

(** Registration::align with a serial or parallel reduction, registration.hpp:30-41: one
    freshly constructed factor per source point.  (The size warnings are output only.) *)
Definition initial_factors {D : fld} (source_size : nat) : list (factor D) := repeat factor_init source_size.
