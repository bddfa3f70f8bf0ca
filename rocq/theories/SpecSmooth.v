(** Smoothness of a right hand side along a solution.  Nothing here refers to
    the model. *)
From Coq Require Import List Reals.
From Verif Require Import SpecRK.
Import ListNotations.
Open Scope R_scope.

(** The derivatives of [f] at time [t] and state [y] (of size [n]): [D [v1; ...; vk]]
    is the [k]-th derivative in the directions [v1], ..., [vk], where a direction
    lists the change of time and then the changes of the state.  Derivatives of
    order less than [p] are multilinear and bounded by [B], and Taylor's formula
    of every order up to [p] holds next to the point with remainder bound [B]. *)
Record smooth_at (n p : nat) (f : R -> list R -> list R) (t : R) (y : list R)
    (D : list (list R) -> list R) (B : R) : Prop := {
  sm_multilinear : forall us ws u v al be m, (m < n)%nat ->
    vnth m (D (us ++ vmake (S n) (fun j => al * vnth j u + be * vnth j v) :: ws)) =
    al * vnth m (D (us ++ u :: ws)) + be * vnth m (D (us ++ v :: ws));
  sm_bounded : forall vs rs m, (m < n)%nat -> (length vs < p)%nat ->
    Forall2 (fun v r => 0 <= r /\ forall j, (j <= n)%nat -> Rabs (vnth j v) <= r) vs rs ->
    Rabs (vnth m (D vs)) <= B * fold_right Rmult 1 rs;
  sm_taylor : forall k v r m, (m < n)%nat -> (k < p)%nat -> length v = S n -> 0 <= r <= 1 ->
    (forall j, (j <= n)%nat -> Rabs (vnth j v) <= r) ->
    Rabs (vnth m (f (t + vnth 0 v) (vmake n (fun j => vnth j y + vnth (S j) v)))
          - rsum (S k) (fun i => / INR (fact i) * vnth m (D (repeat v i)))) <= B * r ^ S k
}.

(** [f] is [p] times differentiable, with bounded derivatives, along [Y]. *)
Definition smooth_along (n p : nat) (f : R -> list R -> list R) (t0 t1 : R) (Y : R -> list R) : Prop :=
  exists D B, 0 <= B /\ forall t, t0 <= t <= t1 -> smooth_at n p f t (Y t) (D t) B.

(** The nodes are the row sums of the matrix up to [e]. *)
Definition row_conditions (s : nat) (a : nat -> nat -> R) (c : nat -> R) (e : R) : Prop :=
  forall i, (i < s)%nat -> Rabs (c i - rsum s (a i)) <= e.
