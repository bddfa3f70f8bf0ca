(** Kaps' problem: changes of its solution, and what their statements ask of the
    linear solver. *)
From Coq Require Import List Reals.
From Verif Require Import Base Ext M_ODE M_Components M_Kaps SpecRK.
Import ListNotations.
Open Scope R_scope.
Local Open Scope list_scope.

(** The right hand side of Kaps' problem, differentiated at [y] in direction [d]. *)
Definition kaps_change (eps t : R) (y d : list R) : list R :=
  [(- (1 + 2 * eps) * vnth 0 d + 2 * vnth 1 y * vnth 1 d) / eps; vnth 0 d - vnth 1 d - 2 * vnth 1 y * vnth 1 d].

(** A linear solver that raises unless all residuals are at most [tol]. *)
Definition nearly_group (eps tol : R) (krylov : exchange -> list R -> list R -> list R -> list R -> res (list R)) : Prop :=
  forall ex xs z s g dz, length xs = 4%nat -> length z = 4%nat -> length s = 4%nat -> length dz = 4%nat ->
    krylov ex xs z s g = Ok dz ->
    exists r, group_fwd eps ex xs z [0; 0; 0; 0] dz = Ok r /\ Forall2 (fun x y => Rabs (x - y) <= tol) r s.

(** With steps up to [H] and the stage factor [a], linearized where y_2 is between
    -3 and 3, the changes of the updates are at most [M] times the right hand side. *)
Definition moderate_change (H a M : R) (krylov : exchange -> list R -> list R -> list R -> list R -> res (list R)) : Prop :=
  forall h xs z s g dz b, 0 < h <= H -> length xs = 4%nat -> length z = 4%nat -> length s = 4%nat -> Rabs (vnth 2 z) <= 3 ->
    (forall j, (j < 4)%nat -> Rabs (vnth j s) <= b) ->
    krylov {| x_step_size := h; x_stage_factor := a |} xs z s g = Ok dz ->
    Rabs (vnth 1 dz) <= M * b /\ Rabs (vnth 3 dz) <= M * b.
