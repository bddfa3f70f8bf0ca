(** Changes of a solution: the system for a state together with a change of it. *)
From Coq Require Import List Reals.
From Verif Require Import Base Ext M_ODE SpecRK SpecConvergence SpecLocal.
Import ListNotations.
Open Scope R_scope.
Local Open Scope list_scope.

(** y' = f(t, y), d' = g(t, y, d) as one system for the entries of y followed by
    those of d. *)
Definition paired (n : nat) (f : R -> list R -> list R) (g : R -> list R -> list R -> list R) (t : R) (z : list R) : list R :=
  vmake n (fun m => vnth m (f t (firstn n z))) ++ vmake n (fun m => vnth m (g t (firstn n z) (skipn n z))).

(** What is asked of the stage solves and of their derivatives in the direction
    with change [dt] of the time and [dxi] of the independent inputs: if the known
    parts are [rho] inside the box, stage value and its change are in the box, and
    the updates are right hand sides there, up to [tol]. *)
Definition nearly_differentiates (o : ode R) (n : nat) (f : R -> list R -> list R) (g : R -> list R -> list R -> list R)
    (xi : list R) (dt : R) (dxi : list R) (X : box) (rho H tol a : R) : Prop :=
  forall inp dinp h r lp dr,
    length (step_input inp) = n -> length (stage_input inp) = n -> independent_input inp = xi ->
    length (step_input dinp) = n -> length (stage_input dinp) = n -> independent_input dinp = dxi -> time dinp = dt ->
    0 < h <= H -> inside (n + n) X rho (time inp) (known_part n inp h ++ known_part n dinp h) ->
    compute_update o inp h a = Ok (r, lp) -> compute_update_derivative o lp dinp h a = Ok dr ->
    inside (n + n) X 0 (time inp) (stage_value n inp h a (stage_update r) ++ stage_value n dinp h a (stage_update dr)) /\
    within n tol (stage_update r) (f (time inp) (stage_value n inp h a (stage_update r))) /\
    within n tol (stage_update dr) (g (time inp) (stage_value n inp h a (stage_update r)) (stage_value n dinp h a (stage_update dr))).
