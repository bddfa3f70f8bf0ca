(** Textbook notions for the approximation of solutions.  Nothing here refers
    to the model. *)
From Coq Require Import List Reals.
From Verif Require Import SpecRK.
Import ListNotations.
Open Scope R_scope.

(** Successive Runge-Kutta steps of sizes [hs] lead from [y] at time [t] to [z]. *)
Fixpoint rk_steps (s n : nat) (a : nat -> nat -> R) (b c : nat -> R) (f : R -> list R -> list R)
    (t : R) (y : list R) (hs : list R) (z : list R) : Prop :=
  match hs with
  | [] => z = y
  | h :: hs' => exists k y1, rk_equations s n a b c f t h y k y1 /\ rk_steps s n a b c f (t + h) y1 hs' z
  end.

(** The time covered by steps. *)
Fixpoint covered (hs : list R) : R := match hs with [] => 0 | h :: hs' => h + covered hs' end.

(** Vectors of length [n] differ by at most [r] in every entry. *)
Definition within (n : nat) (r : R) (x y : list R) : Prop :=
  forall m, (m < n)%nat -> Rabs (vnth m x - vnth m y) <= r.

(** [f] is Lipschitz continuous in both arguments (maximum norm). *)
Definition lipschitz (n : nat) (L : R) (f : R -> list R -> list R) : Prop :=
  forall t t' y z r, length y = n -> length z = n -> within n r y z ->
    within n (L * (Rabs (t - t') + r)) (f t y) (f t' z).

(** [Y] solves y' = f(t, y) for times from [t0] to [t1]. *)
Definition solution (n : nat) (f : R -> list R -> list R) (t0 t1 : R) (Y : R -> list R) : Prop :=
  (forall t, length (Y t) = n) /\
  forall t m, t0 <= t <= t1 -> (m < n)%nat ->
    derivable_pt_lim (fun u => vnth m (Y u)) t (vnth m (f t (Y t))).

(** Bounds for the coefficients of a consistent method. *)
Record method_bounds (s : nat) (a : nat -> nat -> R) (b c : nat -> R) (al be ga : R) : Prop := {
  mb_rows : forall i, (i < s)%nat -> rsum s (fun j => Rabs (a i j)) <= al;
  mb_weights : rsum s (fun i => Rabs (b i)) <= be;
  mb_nodes : forall i, (i < s)%nat -> Rabs (c i) <= ga;
  mb_consistent : rsum s b = 1
}.

(** The constant of the error estimate, for a Lipschitz constant [L], a bound [B]
    of the solution's velocity and steps up to [H]. *)
Definition error_constant (al be ga L B H : R) : R :=
  be * L * (ga + 2 * al * (B + L * ga * H)) + L * (1 + B).
Definition error_bound (al be ga L B H d time : R) : R :=
  (d + time * H * error_constant al be ga L B H) * exp (L * (1 + be) * time).
