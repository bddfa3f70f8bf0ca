(** Where the processes meet at callbacks. *)
From Coq Require Import List.
From Verif Require Import Base M_State M_ODE M_Controller M_Measure M_Integrator M_MPI SpecMPI.
Import ListNotations.

Section Meet.
Context {T : Type} {N : Num T}.
(** The callback operations of a process that runs alone ([alone], SpecMPI.v), in
    order: mode, before or after the step, number of the step. *)
Fixpoint met {A} (o : ode T) (p : prog T A) : list (mode * bool * nat) :=
  match p with
  | Done _ _ => []
  | Solve _ i h a k => met o (k (compute_update o i h a))
  | Reduce _ x k => met o (k x)
  | Jvp _ l i h a k => met o (k (compute_update_derivative o l i h a))
  | Vjp _ l r h a k => met o (k (compute_update_adjoint_derivative o l r h a))
  | Hook _ m b s k => (m, b, s) :: met o k
  | Decide _ _ _ k => met o k
  end.
(** The calls of the first callback of each list. *)
Definition first_callback (e : event T) : list (mode * bool * nat) :=
  match e with
  | Before m O step _ => [(m, true, step)]
  | After m O step _ => [(m, false, step)]
  | _ => []
  end.
Definition first_calls (l : list (event T)) : list (mode * bool * nat) := flat_map first_callback l.
End Meet.
