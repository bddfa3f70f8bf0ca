(** Textbook notions the Runge-Kutta theorems are stated with.  Nothing here
    refers to the model's step functions. *)
From Coq Require Import List Reals.
From Verif Require Import Base Ext M_ODE.
Import ListNotations.
Open Scope R_scope.

(** [rsum n f = f 0 + ... + f (n-1)]. *)
Fixpoint rsum (n : nat) (f : nat -> R) : R :=
  match n with O => 0 | S n' => rsum n' f + f n' end.

(** Entry of a vector (0 outside; only used inside the range). *)
Definition vnth (m : nat) (v : list R) : R := nth m v 0.

(** The vector of length [n] with given entries. *)
Definition vmake (n : nat) (f : nat -> R) : list R := map f (seq 0 n).

(** Euclidean inner product. *)
Fixpoint dot (x y : list R) : R :=
  match x, y with
  | a :: x', b :: y' => a * b + dot x' y'
  | _, _ => 0
  end.

(** The Runge-Kutta equations with [s] stages and coefficients [a], [b], [c] for
    y' = f(t, y) in dimension [n]: from (t, y) with step [h], the stage
    derivatives are [k] and the new value is [y1]. *)
Definition rk_stage_value (s n : nat) (a : nat -> nat -> R) (h : R)
    (y : list R) (k : nat -> list R) (i : nat) : list R :=
  vmake n (fun m => vnth m y + h * rsum s (fun j => a i j * vnth m (k j))).

Definition rk_equations (s n : nat) (a : nat -> nat -> R) (b c : nat -> R)
    (f : R -> list R -> list R) (t h : R) (y : list R)
    (k : nat -> list R) (y1 : list R) : Prop :=
  (forall i, (i < s)%nat ->
     k i = f (t + c i * h) (rk_stage_value s n a h y k i)) /\
  y1 = vmake n (fun m => vnth m y + h * rsum s (fun i => b i * vnth m (k i))).

(** What an implementation of the ODE interface promises about its update in
    dimension [n] for y' = f(t, p, y): the stage update solves the stage
    equation (docstring discretized_ode.py:84-90), and arrays have the right
    sizes. *)
Definition solves_stage_equation (o : ode R) (n : nat)
    (f : R -> list R -> list R -> list R) : Prop :=
  forall inp h a r lp,
    length (step_input inp) = n -> length (stage_input inp) = n ->
    compute_update o inp h a = Ok (r, lp) ->
    stage_update r =
      f (time inp) (independent_input inp)
        (vmake n (fun m => vnth m (step_input inp)
                           + h * (vnth m (stage_input inp)
                                  + a * vnth m (stage_update r)))).

(** The results of all calls have the sizes the ODE announces. *)
Definition result_sizes {T} (o : ode T) : Prop :=
  forall inp h a r lp,
    compute_update o inp h a = Ok (r, lp) ->
    length (stage_update r) = state_size o /\
    length (stage_state r) = state_size o /\
    length (independent_output r) = independent_output_size o /\
    length lp = linearization_point_size o.
