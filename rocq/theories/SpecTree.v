(** Rooted trees, and the list of the shipped tableaux with the precision their
    printed coefficients allow. *)
From Coq Require Import List QArith.
From Verif Require Import M_Tableaux.
Import ListNotations.

(** A rooted tree is its list of subtrees.  (The order of the subtrees does not
    matter below, so every unordered tree is covered, some several times.) *)
Inductive tree : Type := Node (subtrees : list tree).

(** Number of vertices. *)
Fixpoint order (t : tree) : nat :=
  match t with Node ts => S (fold_right (fun u n => order u + n)%nat 0%nat ts) end.

(** The shipped tableaux with the precision to which the order conditions of
    the main and of the embedded weights hold: 0 where the coefficients are
    small exact expressions, else a bound for the rounding of the printed digits
    and of the check. *)
Definition precision : list (shipped * (Q * Q)) := [
  (explicit_euler, (0, 0));
  (implicit_euler, (0, 0));
  (implicit_midpoint, (0, 0));
  (third_order_two_stage_sdirk, (0, 0));
  (runge_kutta_four, (0, 0));
  (fifth_order_five_stage_sdirk, (1e-25, 0));
  (embedded_heun_euler, (0, 0));
  (embedded_second_order_two_stage_sdirk, (0, 0));
  (embedded_second_order_three_stage_esdirk, (0, 0));
  (embedded_third_order_three_stage_sdirk1, (1e-26, 1e-26));
  (embedded_third_order_three_stage_sdirk2, (0, 0));
  (embedded_third_order_three_stage_esdirk, (0, 0));
  (embedded_third_order_four_stage_sdirk, (0, 0));
  (embedded_third_order_second_weak_stage_order_four_stage_dirk, (1e-11, 1e-11));
  (embedded_third_order_third_weak_stage_order_four_stage_dirk, (3e-11, 1e-16));
  (embedded_third_order_four_stage_esdirk, (1e-26, 1e-26));
  (embedded_third_order_five_stage_esdirk, (0, 2e-26));
  (embedded_fourth_order_four_stage_sdirk, (0, 0));
  (embedded_fourth_order_five_stage_sdirk, (0, 3e-15));
  (embedded_fourth_order_five_stage_esdirk, (1e-26, 1e-26));
  (embedded_fourth_order_six_stage_esdirk, (0, 1e-12));
  (embedded_fourth_order_third_weak_stage_order_six_stage_dirk, (3e-15, 3e-15));
  (embedded_runge_kutta_fehlberg, (0, 0));
  (embedded_fifth_order_six_stage_esdirk, (1e-25, 1e-12))]%Q.
