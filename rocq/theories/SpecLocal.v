(** Right hand sides that are smooth only next to the solution, and stage
    equations that are solved only up to a tolerance. *)
From Coq Require Import List Reals.
From Verif Require Import Base Ext M_ODE SpecRK SpecConvergence.
Import ListNotations.
Open Scope R_scope.

(** A range of times and of the entries of the state. *)
Record box : Type := { early : R; late : R; low : nat -> R; high : nat -> R }.

(** Time [t] and state [y] lie in the box, at least [r] away from its sides. *)
Definition inside (n : nat) (X : box) (r t : R) (y : list R) : Prop :=
  early X + r <= t <= late X - r /\
  forall m, (m < n)%nat -> low X m + r <= vnth m y <= high X m - r.

(** [f] is Lipschitz continuous in the box. *)
Definition lipschitz_in (n : nat) (X : box) (L : R) (f : R -> list R -> list R) : Prop :=
  forall t t' y z r, length y = n -> length z = n -> inside n X 0 t y -> inside n X 0 t' z -> within n r y z ->
    within n (L * (Rabs (t - t') + r)) (f t y) (f t' z).

(** As [smooth_at] of SpecSmooth.v, with Taylor's formula for changes up to
    [rho]. *)
Record smooth_near (rho : R) (n p : nat) (f : R -> list R -> list R) (t : R) (y : list R)
    (D : list (list R) -> list R) (B : R) : Prop := {
  sn_multilinear : forall us ws u v al be m, (m < n)%nat ->
    vnth m (D (us ++ vmake (S n) (fun j => al * vnth j u + be * vnth j v) :: ws)) =
    al * vnth m (D (us ++ u :: ws)) + be * vnth m (D (us ++ v :: ws));
  sn_bounded : forall vs rs m, (m < n)%nat -> (length vs < p)%nat ->
    Forall2 (fun v r => 0 <= r /\ forall j, (j <= n)%nat -> Rabs (vnth j v) <= r) vs rs ->
    Rabs (vnth m (D vs)) <= B * fold_right Rmult 1 rs;
  sn_taylor : forall k v r m, (m < n)%nat -> (k < p)%nat -> length v = S n -> 0 <= r <= rho ->
    (forall j, (j <= n)%nat -> Rabs (vnth j v) <= r) ->
    Rabs (vnth m (f (t + vnth 0 v) (vmake n (fun j => vnth j y + vnth (S j) v)))
          - rsum (S k) (fun i => / INR (fact i) * vnth m (D (repeat v i)))) <= B * r ^ S k
}.
Definition smooth_close (rho : R) (n p : nat) (f : R -> list R -> list R) (t0 t1 : R) (Y : R -> list R) : Prop :=
  exists D B, 0 <= B /\ forall t, t0 <= t <= t1 -> smooth_near rho n p f t (Y t) (D t) B.

(** The known part of a stage value, and the stage value with the update [k]. *)
Definition known_part (n : nat) (inp : ode_in R) (h : R) : list R :=
  vmake n (fun m => vnth m (step_input inp) + h * vnth m (stage_input inp)).
Definition stage_value (n : nat) (inp : ode_in R) (h a : R) (k : list R) : list R :=
  vmake n (fun m => vnth m (step_input inp) + h * (vnth m (stage_input inp) + a * vnth m k)).

(** What is asked of the stage solves for stage factor [a] and steps up to [H]:
    if the known part is at least [rho] inside the box, the stage value found
    is in the box and the update is the right hand side there up to [tol]. *)
Definition nearly_solves (o : ode R) (n : nat) (f : R -> list R -> list R) (xi : list R) (X : box) (rho H tol a : R) : Prop :=
  forall inp h r lp, length (step_input inp) = n -> length (stage_input inp) = n -> independent_input inp = xi ->
    0 < h <= H -> inside n X rho (time inp) (known_part n inp h) ->
    compute_update o inp h a = Ok (r, lp) ->
    inside n X 0 (time inp) (stage_value n inp h a (stage_update r)) /\
    within n tol (stage_update r) (f (time inp) (stage_value n inp h a (stage_update r))).
