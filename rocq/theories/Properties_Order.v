(** Property theorems about the shipped tableaux: C29. *)
From Coq Require Import String.
From Coq Require Import List Reals QArith Qreals Lia Lra.
From Verif Require Import Base Ext M_Tableau M_State M_ODE M_Step M_Tableaux M_TableauxInit
  SpecRK SpecShape SpecTree SpecOrder L_Vec L_Step L_Tableau L_StepProps L_Fields L_OrderCheck L_Order.
Import ListNotations.
Local Open Scope nat_scope.
Local Open Scope R_scope.
Local Open Scope list_scope.

(** Every shipped tableau is in the list the theorems below range over. *)
Theorem C29_every_tableau_covered : map fst precision = all_tableaux.
Proof. exact shipped_complete. Qed.
Print Assumptions C29_every_tableau_covered.

(** All are constructed, without a warning, with the stated coefficients, and
    are explicit or diagonally implicit. *)
Theorem C29_constructed : forall x e eh, In (x, (e, eh)) precision ->
  exists bt, shipped_init x = Ok (bt, []) /\ tableau_wf bt /\ (0 < t_stages bt)%nat /\
    is_implicit bt = false /\ t_p bt = Some (s_p x) /\ t_name bt = s_name x /\
    t_A bt = map (map evalR) (s_A x) /\ t_b bt = map evalR (s_b x) /\ t_c bt = map evalR (s_c x) /\
    t_hat bt = match s_hat x with None => None | Some (bh, ph) => Some (map evalR bh, Some ph) end.
Proof. exact shipped_constructed. Qed.
Print Assumptions C29_constructed.

(** The order conditions of every tree up to the declared order hold: exactly
    for the tableaux written exactly (bound 0). *)
Theorem C29_order_conditions : forall x e eh bt ws,
  In (x, (e, eh)) precision -> shipped_init x = Ok (bt, ws) ->
  order_conditions (t_stages bt) (entry (t_A bt)) (fun i => vnth i (t_b bt)) (s_p x) (Q2R e) /\
  forall bh ph q, s_hat x = Some (bh, ph) -> t_hat bt = Some q ->
    order_conditions (t_stages bt) (entry (t_A bt)) (fun i => vnth i (fst q)) ph (Q2R eh).
Proof. exact shipped_order. Qed.
Print Assumptions C29_order_conditions.

(** The declared orders are not too low either: a condition of the next order
    is missed by more than the precision of the tables. *)
Theorem C29_order_not_higher : forall x e eh bt ws,
  In (x, (e, eh)) precision -> shipped_init x = Ok (bt, ws) ->
  (exists t, order t = S (s_p x) /\
     1 / 1000 <= Rabs (defect (t_stages bt) (entry (t_A bt)) (fun i => vnth i (t_b bt)) t)) /\
  forall bh ph q, s_hat x = Some (bh, ph) -> t_hat bt = Some q ->
    exists t, order t = S ph /\
      1 / 1000 <= Rabs (defect (t_stages bt) (entry (t_A bt)) (fun i => vnth i (fst q)) t).
Proof. exact shipped_order_sharp. Qed.
Print Assumptions C29_order_not_higher.

(** One step on y' = q(t), deg q < p, gives the exact value (up to rounding of
    the tables); the same for the embedded solution. [F] is any antiderivative. *)
Theorem C29_polynomials_exact : forall x e eh bt ws o q ni s h s',
  In (x, (e, eh)) precision -> shipped_init x = Ok (bt, ws) ->
  result_sizes o -> solves_stage_equation o (state_size o) (polynomial_rhs (state_size o) q) ->
  shaped (t_stages bt) (state_size o) ni (independent_output_size o) (linearization_point_size o) s ->
  compute_step bt o s h = Ok s' ->
  forall m F, (m < state_size o)%nat ->
  (forall y, derivable_pt_lim F y (peval (q m) y)) ->
  ((e == 0)%Q -> (length (q m) <= s_p x)%nat ->
   vnth m (final_state s') = vnth m (final_state s) + (F (final_time s + h) - F (final_time s))) /\
  (forall bh ph eb err, s_hat x = Some (bh, ph) -> embedded s' = Some (eb, err) ->
   (eh == 0)%Q -> (length (q m) <= ph)%nat ->
   vnth m eb = vnth m (final_state s) + (F (final_time s + h) - F (final_time s))).
Proof. exact polynomial_step_exact. Qed.
Print Assumptions C29_polynomials_exact.

Theorem C29_polynomials_rounded : forall x e eh bt ws o q ni s h s',
  In (x, (e, eh)) precision -> shipped_init x = Ok (bt, ws) ->
  result_sizes o -> solves_stage_equation o (state_size o) (polynomial_rhs (state_size o) q) ->
  shaped (t_stages bt) (state_size o) ni (independent_output_size o) (linearization_point_size o) s ->
  compute_step bt o s h = Ok s' ->
  forall m F r, (m < state_size o)%nat ->
  (forall y, derivable_pt_lim F y (peval (q m) y)) ->
  (forall y, peval (q m) (final_time s + y) = peval r y) ->
  ((length r <= s_p x)%nat ->
   Rabs (vnth m (final_state s') - (vnth m (final_state s) + (F (final_time s + h) - F (final_time s))))
     <= Q2R e * magnitude r h) /\
  (forall bh ph eb err, s_hat x = Some (bh, ph) -> embedded s' = Some (eb, err) ->
   (length r <= ph)%nat ->
   Rabs (vnth m eb - (vnth m (final_state s) + (F (final_time s + h) - F (final_time s))))
     <= Q2R eh * magnitude r h).
Proof. exact polynomial_step. Qed.
Print Assumptions C29_polynomials_rounded.

(** The expansion [r] asked for always exists. *)
Theorem C29_polynomials_recentre : forall q t,
  exists r, length r = length q /\ forall x, peval q (t + x) = peval r x.
Proof. exact recentre. Qed.
Print Assumptions C29_polynomials_recentre.

(** An ODE y_m' = q_m(t) given to every shipped tableau meets the hypotheses,
    and the step is defined, from a fresh state and for every step size. *)
Example C29_hypotheses_met : forall x e eh n q h, In (x, (e, eh)) precision ->
  exists bt s', shipped_init x = Ok (bt, []) /\
    result_sizes (polynomial_ode n q) /\
    solves_stage_equation (polynomial_ode n q) n (polynomial_rhs n q) /\
    shaped (t_stages bt) n 0 0 0 (create_empty_discretization_state bt (polynomial_ode n q)) /\
    compute_step bt (polynomial_ode n q) (create_empty_discretization_state bt (polynomial_ode n q)) h = Ok s' /\
    (s_hat x <> None -> embedded s' <> None) /\
    forall m y, derivable_pt_lim (pint (q m)) y (peval (q m) y).
Proof. exact polynomial_example. Qed.

(** 16 of the 24 main methods are exact; trees of order 4 exist. *)
Example C29_exact_ones : length (filter (fun q => Qeq_bool (fst (snd q)) 0) precision) = 16%nat /\
  order (Node [Node [Node []]; Node []]) = 4%nat /\ density (Node [Node [Node []]; Node []]) = 8.
Proof. split; [reflexivity|split; [reflexivity|]]; cbn; lra. Qed.
