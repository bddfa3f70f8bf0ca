(** Driving the time discretization by hand: the calls a user of
    TimeDiscretizationSchemeInterface (time_discretization_scheme_interface.py)
    makes for a run of chosen step sizes, and for its two products. *)
From Coq Require Import List.
From Verif Require Import Base M_Tableau M_State M_ODE M_Step.
Import ListNotations.

Section Drive.
Context {T : Type} {N : Num T}.
Variable bt : tableau T.
Variable o : ode T.

(** compute_step is called once per step size, each time with the state the
    last call returned; [l] are the states returned, which the user keeps. *)
Fixpoint steps (s : rkstate T) (hs : list T) (l : list (rkstate T)) : Prop :=
  match hs, l with
  | [], [] => True
  | h :: hs', s' :: l' => compute_step bt o s h = Ok s' /\ steps s' hs' l'
  | _, _ => False
  end.

(** compute_step_derivative along the states kept, in the same order. *)
Fixpoint steps_derivative (hs : list T) (l : list (rkstate T)) (v v' : rkstate T) : Prop :=
  match hs, l with
  | [], [] => v' = v
  | h :: hs', s :: l' => exists v1, compute_step_derivative bt o s v h = Ok v1 /\ steps_derivative hs' l' v1 v'
  | _, _ => False
  end.

(** compute_step_adjoint_derivative along the states kept, last step first. *)
Fixpoint steps_adjoint (hs : list T) (l : list (rkstate T)) (w w' : rkstate T) : Prop :=
  match hs, l with
  | [], [] => w' = w
  | h :: hs', s :: l' =>
      exists w1, steps_adjoint hs' l' w w1 /\ compute_step_adjoint_derivative bt o s w1 h = Ok w'
  | _, _ => False
  end.
End Drive.
