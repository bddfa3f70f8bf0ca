(** The precision to which the nodes of the shipped tableaux are the row sums of
    their matrices: 0 where they are exactly. *)
From Coq Require Import List QArith.
From Verif Require Import M_Tableaux.
Import ListNotations.

Definition node_precision : list (shipped * Q) := [
  (explicit_euler, 0);
  (implicit_euler, 0);
  (implicit_midpoint, 0);
  (third_order_two_stage_sdirk, 0);
  (runge_kutta_four, 0);
  (fifth_order_five_stage_sdirk, 1e-24);
  (embedded_heun_euler, 0);
  (embedded_second_order_two_stage_sdirk, 0);
  (embedded_second_order_three_stage_esdirk, 0);
  (embedded_third_order_three_stage_sdirk1, 0);
  (embedded_third_order_three_stage_sdirk2, 0);
  (embedded_third_order_three_stage_esdirk, 0);
  (embedded_third_order_four_stage_sdirk, 0);
  (embedded_third_order_second_weak_stage_order_four_stage_dirk, 2e-11);
  (embedded_third_order_third_weak_stage_order_four_stage_dirk, 0);
  (embedded_third_order_four_stage_esdirk, 0);
  (embedded_third_order_five_stage_esdirk, 0);
  (embedded_fourth_order_four_stage_sdirk, 0);
  (embedded_fourth_order_five_stage_sdirk, 0);
  (embedded_fourth_order_five_stage_esdirk, 0);
  (embedded_fourth_order_six_stage_esdirk, 0);
  (embedded_fourth_order_third_weak_stage_order_six_stage_dirk, 2e-15);
  (embedded_runge_kutta_fehlberg, 0);
  (embedded_fifth_order_six_stage_esdirk, 1e-24)]%Q.
