(** What is asked of the power function of the C library, and how precisely the
    shipped tableaux are computed. *)
From Coq Require Import ZArith QArith Qreals Reals SpecFloat List.
From Verif Require Import Base M_Tableau M_Tableaux SpecTree SpecOrder SpecFloating.
Import ListNotations.
Local Open Scope R_scope.

(** Unless they overflow, powers are correct up to four units in the last place
    (or an absolute error of that size next to zero). *)
Definition faithful_power (prec emax : Z) (pow : spec_float -> nat -> spec_float) : Prop :=
  forall x n, float_finite prec emax x -> Rabs (float_value x ^ n) <= powerRZ 2 (emax - 1) ->
    float_finite prec emax (pow x n) /\
    Rabs (float_value (pow x n) - float_value x ^ n) <= 8 * (powerRZ 2 (- prec) * (1 + Rabs (float_value x ^ n))).

(** Multiples of 2^-53, the rounding error of binary64. *)
Definition roundings (k : positive) : Q := Zpos k # 9007199254740992.

(** The shipped tableaux with bounds: how far the computed coefficients are from
    the exact ones at most (in multiples of 2^-prec), and how far the main and
    the embedded weights miss their order conditions at most (in multiples of
    2^-53). *)
Definition float_precision : list (shipped * (positive * (positive * positive))) := ([
  (explicit_euler, (3, (4, 1)));
  (implicit_euler, (3, (4, 1)));
  (implicit_midpoint, (3, (4, 1)));
  (third_order_two_stage_sdirk, (13, (23, 1)));
  (runge_kutta_four, (3, (10, 1)));
  (fifth_order_five_stage_sdirk, (5, (17, 1)));
  (embedded_heun_euler, (3, (6, 5)));
  (embedded_second_order_two_stage_sdirk, (11, (21, 5)));
  (embedded_second_order_three_stage_esdirk, (151, (71, 300)));
  (embedded_third_order_three_stage_sdirk1, (843, (2300, 330)));
  (embedded_third_order_three_stage_sdirk2, (4, (15, 11)));
  (embedded_third_order_three_stage_esdirk, (125, (250, 16)));
  (embedded_third_order_four_stage_sdirk, (6146, (2500, 82)));
  (embedded_third_order_second_weak_stage_order_four_stage_dirk, (3, (43000, 57000)));
  (embedded_third_order_third_weak_stage_order_four_stage_dirk, (4, (160000, 11)));
  (embedded_third_order_four_stage_esdirk, (23101, (9200, 47000)));
  (embedded_third_order_five_stage_esdirk, (7, (34, 24)));
  (embedded_fourth_order_four_stage_sdirk, (16, (130, 20)));
  (embedded_fourth_order_five_stage_sdirk, (13, (34, 26)));
  (embedded_fourth_order_five_stage_esdirk, (1294741, (38000, 2600000)));
  (embedded_fourth_order_six_stage_esdirk, (10, (39, 5700)));
  (embedded_fourth_order_third_weak_stage_order_six_stage_dirk, (5, (55, 34)));
  (embedded_runge_kutta_fehlberg, (23, (82, 74)));
  (embedded_fifth_order_six_stage_esdirk, (10, (62, 1600)))])%positive.

(** The order conditions of computed coefficients: they hold up to [e] up to the order [p], but not
    for the next order. *)
Definition computed_order {N : Num spec_float} (bf : tableau spec_float) (b : list spec_float) (p : nat) (e : R) : Prop :=
  let a i j := float_value (entry (t_A bf) i j) in
  let w i := float_value (nth i b n0) in
  order_conditions (t_stages bf) a w p e /\
  (exists t, order t = S p /\ 1 / 1000 <= Rabs (defect (t_stages bf) a w t)) /\
  quadrature_conditions (t_stages bf) w (fun i => float_value (nth i (t_c bf) n0)) p e.
