(** Conserved quantities: textbook notions. *)
From Coq Require Import List Reals.
From Verif Require Import Base Ext M_ODE SpecRK.
Import ListNotations.
Open Scope R_scope.

(** The linear quantity with weights [w], for instance a total mass. *)
Definition total (n : nat) (w : nat -> R) (y : list R) : R := rsum n (fun m => w m * vnth m y).

(** The bilinear form with matrix [S]; [form n S y y] is the quadratic quantity. *)
Definition form (n : nat) (S : nat -> nat -> R) (y z : list R) : R :=
  rsum n (fun i => rsum n (fun j => S i j * vnth i y * vnth j z)).

(** The right-hand side does not change the linear quantity: as the ODE answers,
    whether or not it solves the stage equation exactly. *)
Definition keeps_total (o : ode R) (w : nat -> R) : Prop :=
  forall inp h a r lp, compute_update o inp h a = Ok (r, lp) -> total (state_size o) w (stage_update r) = 0.
(** ... nor do its derivatives. *)
Definition tangent_keeps_total (o : ode R) (w : nat -> R) : Prop :=
  forall lp inp h a r, compute_update_derivative o lp inp h a = Ok r -> total (state_size o) w (stage_update r) = 0.

(** y' = f(t, y) does not change the quadratic quantity. *)
Definition keeps_form (n : nat) (S : nat -> nat -> R) (f : R -> list R -> list R) : Prop :=
  forall t y, length y = n -> form n S y (f t y) = 0.

(** The algebraic condition on a method under which it keeps quadratic
    quantities (Cooper). *)
Definition quadratic_method (s : nat) (a : nat -> nat -> R) (b : nat -> R) : Prop :=
  forall i j, (i < s)%nat -> (j < s)%nat -> b i * a i j + b j * a j i = b i * b j.
