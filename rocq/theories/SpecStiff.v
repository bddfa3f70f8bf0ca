(** Notions for stiff problems: weak stage order (Ketcheson et al., DIRK schemes
    with high weak stage order, the source cited at butcher_tableaux.py:335-337)
    and what the shipped tableaux have of it.  Nothing here refers to the model's
    step functions. *)
From Coq Require Import List QArith Reals.
From Verif Require Import M_Tableaux SpecRK.
Import ListNotations.
Local Open Scope R_scope.

(** By how much stage [i] misses the integral of the monomial of degree [k] from
    0 to its node. *)
Definition stage_residual (s : nat) (a : nat -> nat -> R) (c : nat -> R) (k i : nat) : R :=
  rsum s (fun j => a i j * c j ^ k) - c i ^ S k / INR (S k).
(** The matrix applied [m] times. *)
Fixpoint propagated (s : nat) (a : nat -> nat -> R) (m : nat) (v : nat -> R) : nat -> R :=
  match m with
  | O => v
  | S m' => fun i => rsum s (fun j => a i j * propagated s a m' v j)
  end.
(** b A^m tau for the residuals tau of the monomials. *)
Definition weak_residual (s : nat) (a : nat -> nat -> R) (b c : nat -> R) (k m : nat) : R :=
  rsum s (fun i => b i * propagated s a m (stage_residual s a c k) i).
(** Weak stage order [q] up to [e] (powers from [s] on are combinations of the
    lower ones). *)
Definition weak_stage_order (s : nat) (a : nat -> nat -> R) (b c : nat -> R) (q : nat) (e : R) : Prop :=
  forall k m, (k < q)%nat -> (m < s)%nat -> Rabs (weak_residual s a b c k m) <= e.

(** The weak stage orders of the shipped tableaux that are not explicit, and the
    precision to which they have them (0: exactly). *)
Definition stiff_orders : list (shipped * (nat * Q)) := [
  (implicit_euler, (1%nat, 0));
  (implicit_midpoint, (1%nat, 0));
  (third_order_two_stage_sdirk, (1%nat, 0));
  (fifth_order_five_stage_sdirk, (1%nat, 1e-24));
  (embedded_second_order_two_stage_sdirk, (1%nat, 0));
  (embedded_second_order_three_stage_esdirk, (2%nat, 0));
  (embedded_third_order_three_stage_sdirk1, (1%nat, 1e-25));
  (embedded_third_order_three_stage_sdirk2, (1%nat, 0));
  (embedded_third_order_three_stage_esdirk, (2%nat, 0));
  (embedded_third_order_four_stage_sdirk, (1%nat, 0));
  (embedded_third_order_second_weak_stage_order_four_stage_dirk, (2%nat, 1e-11));
  (embedded_third_order_third_weak_stage_order_four_stage_dirk, (3%nat, 3e-11));
  (embedded_third_order_four_stage_esdirk, (2%nat, 1e-25));
  (embedded_third_order_five_stage_esdirk, (2%nat, 0));
  (embedded_fourth_order_four_stage_sdirk, (1%nat, 0));
  (embedded_fourth_order_five_stage_sdirk, (1%nat, 0));
  (embedded_fourth_order_five_stage_esdirk, (2%nat, 1e-25));
  (embedded_fourth_order_six_stage_esdirk, (2%nat, 0));
  (embedded_fourth_order_third_weak_stage_order_six_stage_dirk, (3%nat, 2e-15));
  (embedded_fifth_order_six_stage_esdirk, (2%nat, 1e-24))]%Q.

(** Shipped tableaux whose factor for y' = -y vanishes for large steps. *)
Definition vanishing : list shipped := [
  implicit_euler;
  embedded_second_order_two_stage_sdirk;
  embedded_second_order_three_stage_esdirk;
  embedded_third_order_three_stage_sdirk1;
  embedded_third_order_four_stage_sdirk;
  embedded_third_order_second_weak_stage_order_four_stage_dirk;
  embedded_third_order_third_weak_stage_order_four_stage_dirk;
  embedded_third_order_five_stage_esdirk;
  embedded_fourth_order_five_stage_sdirk;
  embedded_fourth_order_six_stage_esdirk;
  embedded_fourth_order_third_weak_stage_order_six_stage_dirk].
