(** Stopping a run and continuing it. *)
From Coq Require Import List.
From Verif Require Import Base M_State M_Integrator.
Import ListNotations.

Section Restart.
Context {T : Type} {C : Type}.

(** The same options, but for when the run ends. *)
Definition ending (op : options T C) (cr : criterion T) : options T C := {|
  o_bt := o_bt op; o_ode := o_ode op; o_ckpt := o_ckpt op; o_adaptive := o_adaptive op; o_step := o_step op;
  o_crit := cr; o_inf := o_inf op; o_meas := o_meas op; o_tol := o_tol op; o_ctl := o_ctl op;
  o_callbacks := o_callbacks op; retry_limit := retry_limit op; loop_limit := loop_limit op |}.
Definition steps (op : options T C) (n : nat) : options T C := ending op (PredefinedNumberOfSteps n).
Definition until (op : options T C) (t : T) : options T C := ending op (PredefinedFinalTime t).

(** The inputs for continuing from the outputs [r], with the parameters of [i];
    for perturbations likewise. *)
Definition restart (i : inputs T) (r : outputs T) : inputs T :=
  {| time_initial := time_final r; initial := final r; independent := independent i |}.

(** The weights on the outputs of the first part that a gradient of the second
    part stands for. *)
Definition weights (g : inputs T) : outputs T := {| time_final := time_initial g; final := initial g |}.
End Restart.
