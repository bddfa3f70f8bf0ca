(** Changes of variables and reverse products: weights go the other way, from
    the new variables to the old ones. *)
From Coq Require Import List.
From Verif Require Import Base M_Tableau M_State M_ODE M_Integrator SpecRK SpecChange.
Import ListNotations.

Section Change.
Context {T : Type} {N : Num T}.

(** [K] takes weights of the [n'] new states to weights of the [n] old states;
    [Kq] the same for parameters. *)
Record pulls_back (n n' : nat) (K : list T -> list T) : Prop := {
  pb_add : forall x y, length x = n' -> length y = n' -> K (vadd x y) = vadd (K x) (K y);
  pb_scale : forall a x, length x = n' -> K (vscale a x) = vscale a (K x);
  pb_length : forall x, length x = n' -> length (K x) = n }.
Record pulls_back_parameters (q q' : nat) (Kq : list T -> list T) : Prop := {
  pq_zero : Kq (vzeros q') = vzeros q;
  pq_add : forall x y, length x = q' -> length y = q' -> Kq (vadd x y) = vadd (Kq x) (Kq y) }.

(** The adjoint derivatives at two linearization points are the same in the two
    sets of variables.  Only the weights of the stage update count. *)
Definition same_cotangents (K Kq : list T -> list T) (o o' : ode T) (h a : T) (lp lp' : list T) : Prop :=
  forall r r', length (stage_update r') = state_size o' -> stage_update r = K (stage_update r') ->
  match compute_update_adjoint_derivative o' lp' r' h a with
  | Ok x' => exists x, compute_update_adjoint_derivative o lp r h a = Ok x /\
               step_input x = K (step_input x') /\ stage_input x = K (stage_input x') /\
               independent_input x = Kq (independent_input x') /\ time x = time x'
  | Err e => compute_update_adjoint_derivative o lp r h a = Err e
  end.
(** So are they wherever both ODEs have been evaluated. *)
Definition changed_adjoints (ch : change T) (K Kq : list T -> list T) (o o' : ode T) : Prop :=
  forall i h a r lp r' lp', length (step_input i) = state_size o -> length (stage_input i) = state_size o ->
  length (independent_input i) = independent_input_size o ->
  compute_update o i h a = Ok (r, lp) -> compute_update o' (change_in ch i) h a = Ok (r', lp') ->
  same_cotangents K Kq o o' h a lp lp'.

Definition pull_outputs (K : list T -> list T) (d : outputs T) : outputs T :=
  {| time_final := time_final d; final := K (final d) |}.
Definition pull_inputs (K Kq : list T -> list T) (g : inputs T) : inputs T :=
  {| time_initial := time_initial g; initial := K (initial g); independent := Kq (independent g) |}.
End Change.
