(** When the calls of an ODE return. *)
From Coq Require Import List Reals.
From Verif Require Import Base Ext M_ODE M_Integrator SpecDeriv.
Open Scope R_scope.

(** Solving for step size [h] and stage factor [a] succeeds for every input of
    the right size, and so do both linear solves at every linearization point
    of the right size. *)
Definition answers (o : ode R) (h a : R) : Prop :=
  (forall inp, input_sizes o inp -> exists r, compute_update o inp h a = Ok r) /\
  (forall lp d, length lp = linearization_point_size o -> input_sizes o d ->
     exists r, compute_update_derivative o lp d h a = Ok r) /\
  (forall lp w, length lp = linearization_point_size o ->
     length (stage_update w) = state_size o -> length (stage_state w) = state_size o ->
     length (independent_output w) = independent_output_size o ->
     exists x, compute_update_adjoint_derivative o lp w h a = Ok x).

(** The loop over the steps has enough fuel for a run with fixed steps. *)
Definition enough_steps {C} (op : options R C) (i : inputs R) : Prop :=
  match o_crit op with
  | PredefinedNumberOfSteps n => (n < loop_limit op)%nat
  | PredefinedFinalTime T => T <= time_initial i + INR (loop_limit op - 1) * o_step op /\ (0 < loop_limit op)%nat
  end.
