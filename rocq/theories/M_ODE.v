(** Model of the interface
    /repo/src/rkopenmdao/discretized_ode/discretized_ode.py. *)
From Coq Require Import List.
From Verif Require Import Base.
Import ListNotations.

Section ODE.
Context {T : Type}.

(** discretized_ode.py:9-38.  The optional linearization point is a field of
    its own in the calls below. *)
Record ode_in : Type := {
  step_input : list T;
  stage_input : list T;
  independent_input : list T;
  time : T
}.

(** discretized_ode.py:41-68. *)
Record ode_out : Type := {
  stage_update : list T;
  stage_state : list T;
  independent_output : list T
}.

(** discretized_ode.py:71-221.  An implementation is any record of such
    functions.  The three calls may raise.  [compute_update] also returns the
    linearization point; the derivative calls take it as argument
    (openmdao_ode.py:158,194 set it before doing anything else, so the object
    keeps no other state between calls that the results depend on; an
    iterative solver's starting guess is not modelled). *)
Record ode : Type := {
  compute_update : ode_in -> T -> T -> res (ode_out * list T);
  compute_update_derivative : list T -> ode_in -> T -> T -> res ode_out;
  compute_update_adjoint_derivative : list T -> ode_out -> T -> T -> res ode_in;
  compute_state_norm : ode_out -> T;
  state_size : nat;
  independent_input_size : nat;
  independent_output_size : nat;
  linearization_point_size : nat
}.
End ODE.
Arguments ode_in T : clear implicits.
Arguments ode_out T : clear implicits.
Arguments ode T : clear implicits.
