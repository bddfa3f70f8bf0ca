(** Notions for the statements about runs of the integrator component with the
    shipped stage problems.

    The factor by which one Runge-Kutta step multiplies the value of the linear
    test problem y' = mu y, as a function of z = h mu (the stability function). *)
From Coq Require Import String.
From Coq Require Import List Reals.
From Verif Require Import Base Ext M_Tableau M_ODE M_Integrator M_Components M_Packing SpecRK SpecRun.
Import ListNotations.
Local Open Scope string_scope.
Open Scope R_scope.

Definition amplification (s : nat) (a : nat -> nat -> R) (b : nat -> R) (z rho : R) : Prop :=
  exists g : nat -> R,
    (forall i, (i < s)%nat -> g i = 1 + z * rsum s (fun j => a i j * g j)) /\
    rho = 1 + z * rsum s (fun i => b i * g i).

(** Options for [n] steps of size [h] with tableau [bt], callbacks that do not
    raise, and enough fuel for the loops of the model. *)
Definition fixed_steps {C} (op : options R C) (bt : tableau R) (o : ode R) (h : R) (n : nat) : Prop :=
  o_bt op = bt /\ o_ode op = o /\ o_adaptive op = false /\ o_step op = h /\
  o_crit op = PredefinedNumberOfSteps n /\ loops op /\ quiet op /\
  (0 < retry_limit op)%nat /\ (n < loop_limit op)%nat.

(** The input and output vectors of the integrator component for one scalar
    quantity [q]. *)
Definition vec_in (q : string) (t y : R) : vec R := [("time_initial", [t]); (q ++ "_initial", [y])].
Definition vec_out (q : string) (t y : R) : vec R := [("time_final", [t]); (q ++ "_final", [y])].
Definition scalar_io (q : string) : list (string * nat) * list (string * nat) :=
  ([("time_initial", 1%nat); (q ++ "_initial", 1%nat)], [("time_final", 1%nat); (q ++ "_final", 1%nat)]).

(** The solutions of y' = - y and of x' = lambda (x - sin(t + pi/4)) + cos(t + pi/4)
    with given values at [ts]. *)
Definition decay_exact (ts y0 t : R) : R := y0 * exp (- (t - ts)).
Definition prothero_exact (lam ts x0 t : R) : R :=
  sin (t + PI / 4) + (x0 - sin (ts + PI / 4)) * exp (lam * (t - ts)).
