(** Order conditions of Runge-Kutta methods in terms of rooted trees (Hairer,
    Norsett, Wanner, Solving ODEs I, II.2), and polynomials.  Nothing here
    refers to the model's step functions. *)
From Coq Require Import List Reals.
From Verif Require Import Base SpecRK SpecTree.
Import ListNotations.
Local Open Scope R_scope.

(** The density: the order times the densities of the subtrees. *)
Fixpoint density (t : tree) : R :=
  match t with
  | Node ts => INR (order t) * fold_right (fun u x => density u * x) 1 ts
  end.

(** Elementary weight of stage [i]: the product over the subtrees [u] of
    [sum_j a_ij * weight_j u]. *)
Fixpoint stage_weight (s : nat) (a : nat -> nat -> R) (t : tree) (i : nat) : R :=
  match t with
  | Node ts =>
      fold_right (fun u x => rsum s (fun j => a i j * stage_weight s a u j) * x) 1 ts
  end.

(** By how much the order condition of [t] is missed. *)
Definition defect (s : nat) (a : nat -> nat -> R) (b : nat -> R) (t : tree) : R :=
  rsum s (fun i => b i * stage_weight s a t i) - / density t.

(** All conditions of trees with at most [p] vertices hold up to [e]. *)
Definition order_conditions (s : nat) (a : nat -> nat -> R) (b : nat -> R) (p : nat) (e : R) : Prop :=
  forall t, (order t <= p)%nat -> Rabs (defect s a b t) <= e.

(** The weights [b] with nodes [c] integrate the monomials of degree < p over
    [0, 1] up to [e]. *)
Definition quadrature_conditions (s : nat) (b c : nat -> R) (p : nat) (e : R) : Prop :=
  forall k, (k < p)%nat ->
    Rabs (rsum s (fun i => b i * c i ^ k) - / INR (S k)) <= e.

(** The polynomial with the given coefficients (constant term first). *)
Fixpoint peval (q : list R) (x : R) : R :=
  match q with [] => 0 | a :: q' => a + x * peval q' x end.

(** The right hand side y_m' = q_m(t). *)
Definition polynomial_rhs (n : nat) (q : nat -> list R) : R -> list R -> list R -> list R :=
  fun t _ _ => vmake n (fun m => peval (q m) t).

(** [sum_k |r_k| |h|^(k+1)]. *)
Definition magnitude (r : list R) (h : R) : R :=
  rsum (length r) (fun k => Rabs (vnth k r) * Rabs h ^ (S k)).
