(** Kaps' problem and what its statements ask of the solvers. *)
From Coq Require Import String.
From Coq Require Import List Reals.
From Verif Require Import Base Ext M_ODE M_Components M_Packing M_Kaps SpecRK.
Import ListNotations.
Local Open Scope string_scope.
Open Scope R_scope.
Local Open Scope list_scope.

(** y1' = (- (1 + 2 eps) y1 + y2^2) / eps, y2' = y1 - y2 - y2^2, and the solution
    with value 1 in both at time 0. *)
Definition kaps_rhs (eps t : R) (y : list R) : list R :=
  [(- (1 + 2 * eps) * vnth 0 y + vnth 1 y ^ 2) / eps; vnth 0 y - vnth 1 y - vnth 1 y ^ 2].
Definition kaps_exact (t : R) : list R := [exp (- 2 * t); exp (- t)].

(** A nonlinear solver that raises unless all residuals are at most [tol]. *)
Definition converged (eps tol : R) (newton : exchange -> list R -> list R -> res (list R)) : Prop :=
  forall ex xs g z, length xs = 4%nat -> newton ex xs g = Ok z ->
    exists r, group_residuals eps ex xs z = Ok r /\ Forall (fun x => Rabs x <= tol) r.

(** With steps up to [H] and the stage factor [a], from known parts between -2/3
    and 5/3, the updates found are at most [M]. *)
Definition moderate (H a M : R) (newton : exchange -> list R -> list R -> res (list R)) : Prop :=
  forall h xs g z, 0 < h <= H -> length xs = 4%nat ->
    - (2 / 3) <= vnth 0 xs + h * vnth 1 xs <= 5 / 3 -> - (2 / 3) <= vnth 2 xs + h * vnth 3 xs <= 5 / 3 ->
    newton {| x_step_size := h; x_stage_factor := a |} xs g = Ok z -> Rabs (vnth 1 z) <= M /\ Rabs (vnth 3 z) <= M.

(** The input and output vectors of the integrator component. *)
Definition kaps_vec_in (t y1 y2 : R) : vec R := [("time_initial", [t]); ("y_1_initial", [y1]); ("y_2_initial", [y2])].
Definition kaps_vec_out (t y1 y2 : R) : vec R := [("time_final", [t]); ("y_1_final", [y1]); ("y_2_final", [y2])].
Definition kaps_io : list (string * nat) * list (string * nat) :=
  ([("time_initial", 1%nat); ("y_1_initial", 1%nat); ("y_2_initial", 1%nat)],
   [("time_final", 1%nat); ("y_1_final", 1%nat); ("y_2_final", 1%nat)]).

(** Linear solvers that raise unless they solve the linearized system of the
    group, or the transposed system, exactly. *)
Definition solves_group (eps : R) (krylov_fwd krylov_rev : exchange -> list R -> list R -> list R -> list R -> res (list R)) : Prop :=
  (forall ex xs z s g dz, length xs = 4%nat -> length z = 4%nat -> length s = 4%nat ->
     krylov_fwd ex xs z s g = Ok dz -> group_fwd eps ex xs z [0; 0; 0; 0] dz = Ok s) /\
  (forall ex xs z w g s, length xs = 4%nat -> length z = 4%nat -> length w = 4%nat ->
     krylov_rev ex xs z w g = Ok s -> exists u, group_rev eps ex xs z s = Ok (u, w)).

(** The linear solver returns only if the system has no other solution. *)
Definition solves_regular (eps : R) (krylov_fwd : exchange -> list R -> list R -> list R -> list R -> res (list R)) : Prop :=
  forall ex xs z s g dz dz', length xs = 4%nat -> length z = 4%nat -> length s = 4%nat -> length dz = 4%nat -> length dz' = 4%nat ->
    krylov_fwd ex xs z s g = Ok dz -> group_fwd eps ex xs z [0; 0; 0; 0] dz' = Ok s -> dz' = dz.

(** When its data moves continuously, the nonlinear solver does not jump to
    another solution. *)
Definition follows_branch (newton : exchange -> list R -> list R -> res (list R)) : Prop :=
  forall ex del (xs g z : R -> list R), 0 < del ->
    (forall k, continuity_pt (fun e => vnth k (xs e)) 0) -> (forall k, continuity_pt (fun e => vnth k (g e)) 0) ->
    (forall e, Rabs e < del -> length (xs e) = 4%nat /\ newton ex (xs e) (g e) = Ok (z e)) ->
    continuity_pt (fun e => vnth 2 (z e)) 0.
