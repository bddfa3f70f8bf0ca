(** Property theorems about the order of runs and of the error estimate: C64, C65. *)
From Coq Require Import String.
From Coq Require Import List Reals Lra Lia Bool Arith QArith Qreals.
From Verif Require Import Base Ext M_Tableau M_State M_ODE M_Step M_Controller M_Measure M_Integrator M_Tableaux M_TableauxInit
  SpecRK SpecShape SpecRun L_Iter SpecTree SpecOrder SpecNodes SpecConvergence SpecSmooth
  L_Tableau L_Order L_Rows L_Run L_RunProps L_RunOrder WitnessRun WitnessOrder.
Import ListNotations.
Open Scope nat_scope.
Open Scope R_scope.

(** ** C64 *)

(** If a scheme meets the order conditions up to order [p] within [eps] and its
    nodes are the row sums within [nu] (or the ODE does not depend on time), then
    there are constants for the ODE such that every run of any configuration of
    the integrator with steps of at most [hm] <= [H] ends within
    [K * (d + hm^p + nu + eps)] of the solution, [d] being the error of the
    initial values. *)
Theorem C64_order_of_runs :
  forall (bt : tableau R) (o : ode R) f p eps nu L t0 t1 xi Y,
  tableau_wf bt -> is_implicit bt = false -> sized_ode o -> solves_stage_equation o (state_size o) f ->
  (0 < p)%nat -> order_conditions (t_stages bt) (entry (t_A bt)) (fun k => vnth k (t_b bt)) p eps ->
  0 <= nu /\ row_conditions (t_stages bt) (entry (t_A bt)) (fun k => vnth k (t_c bt)) nu \/
  nu = 0 /\ (forall t t' y, f t xi y = f t' xi y) ->
  0 <= L -> lipschitz (state_size o) L (fun t y => f t xi y) ->
  solution (state_size o) (fun t y => f t xi y) t0 t1 Y ->
  smooth_along (state_size o) p (fun t y => f t xi y) t0 t1 Y ->
  exists K H, 0 <= K /\ 0 < H /\
  forall C (op : options R C) c w i w' out d, o_bt op = bt -> o_ode op = o -> loops op -> reachable op c w ->
  inputs_sized o i -> independent i = xi -> time_initial i = t0 ->
  0 <= d -> within (state_size o) d (initial i) (Y t0) ->
  compute op i w = (w', Ok out) -> time_final out <= t1 ->
  exists a l, starts_at op i a /\ trajectory op a l /\
    log w' = (log w ++ bracketed Compute (length (o_callbacks op Compute)) 1 a l)%list /\
    forall hm, Forall (fun x => 0 < step_size (disc x) <= hm) l -> 0 <= hm <= H ->
    within (state_size o) (K * (d + hm ^ p + nu + eps)) (final out) (Y (time_final out)).
Proof. exact run_order. Qed.
Print Assumptions C64_order_of_runs.

(** [n] equal steps from [t0] to [t1]. *)
Theorem C64_fixed_steps :
  forall (bt : tableau R) (o : ode R) f p eps nu L t0 t1 xi Y,
  tableau_wf bt -> is_implicit bt = false -> sized_ode o -> solves_stage_equation o (state_size o) f ->
  (0 < p)%nat -> order_conditions (t_stages bt) (entry (t_A bt)) (fun k => vnth k (t_b bt)) p eps ->
  0 <= nu /\ row_conditions (t_stages bt) (entry (t_A bt)) (fun k => vnth k (t_c bt)) nu \/
  nu = 0 /\ (forall t t' y, f t xi y = f t' xi y) ->
  0 <= L -> lipschitz (state_size o) L (fun t y => f t xi y) ->
  solution (state_size o) (fun t y => f t xi y) t0 t1 Y ->
  smooth_along (state_size o) p (fun t y => f t xi y) t0 t1 Y ->
  t0 < t1 -> exists K N, 0 <= K /\ forall n, (N <= n)%nat ->
  forall C (op : options R C) c w i w' out, o_bt op = bt -> o_ode op = o -> o_adaptive op = false -> loops op ->
  o_crit op = PredefinedNumberOfSteps n -> o_step op = (t1 - t0) / INR n ->
  reachable op c w -> inputs_sized o i -> independent i = xi -> time_initial i = t0 -> initial i = Y t0 ->
  compute op i w = (w', Ok out) ->
  time_final out = t1 /\
  within (state_size o) (K * (((t1 - t0) / INR n) ^ p + nu + eps)) (final out) (Y t1).
Proof. exact fixed_order. Qed.
Print Assumptions C64_fixed_steps.

(** The shipped tableaux with the order they state.  [e] and [nu] are how far
    the printed coefficients are from meeting the conditions; both are 0 for the
    tableaux with exact coefficients. *)
Theorem C64_shipped :
  forall x e eh nu bt o f L t0 t1 xi Y,
  In (x, (e, eh)) precision -> In (x, nu) node_precision -> shipped_init x = Ok (bt, []) ->
  sized_ode o -> solves_stage_equation o (state_size o) f ->
  0 <= L -> lipschitz (state_size o) L (fun t y => f t xi y) -> t0 < t1 ->
  solution (state_size o) (fun t y => f t xi y) t0 t1 Y ->
  smooth_along (state_size o) (s_p x) (fun t y => f t xi y) t0 t1 Y ->
  exists K N, 0 <= K /\ forall n, (N <= n)%nat ->
  forall C (op : options R C) c w i w' out, o_bt op = bt -> o_ode op = o -> o_adaptive op = false -> loops op ->
  o_crit op = PredefinedNumberOfSteps n -> o_step op = (t1 - t0) / INR n ->
  reachable op c w -> inputs_sized o i -> independent i = xi -> time_initial i = t0 -> initial i = Y t0 ->
  compute op i w = (w', Ok out) ->
  time_final out = t1 /\
  within (state_size o) (K * (((t1 - t0) / INR n) ^ s_p x + Q2R nu + Q2R e)) (final out) (Y t1).
Proof. exact shipped_fixed_order. Qed.
Print Assumptions C64_shipped.

(** Every shipped tableau is in both lists of precisions. *)
Theorem C64_shipped_all : map fst precision = all_tableaux /\ map fst node_precision = all_tableaux /\
  forall x e eh, In (x, (e, eh)) precision -> exists bt, shipped_init x = Ok (bt, []).
Proof. exact shipped_all. Qed.
Print Assumptions C64_shipped_all.

Lemma rk4_precision : In (runge_kutta_four, (0%Q, 0%Q)) precision.
Proof. apply (nth_error_In _ 4); reflexivity. Qed.
Lemma rk4_nodes : In (runge_kutta_four, 0%Q) node_precision.
Proof. apply (nth_error_In _ 4); reflexivity. Qed.

(** y' = sin(y) from y(0) = pi/2 to time 1, with the solution 2 atan(exp(t)) and
    the classical method of order 4: all hypotheses hold and all runs return. *)
Example C64_hypotheses_met : exists bt,
  In (runge_kutta_four, (0%Q, 0%Q)) precision /\ In (runge_kutta_four, 0%Q) node_precision /\
  shipped_init runge_kutta_four = Ok (bt, []) /\
  tableau_wf bt /\ is_implicit bt = false /\ sized_ode sine /\ solves_stage_equation sine (state_size sine) sine_f /\
  order_conditions (t_stages bt) (entry (t_A bt)) (fun k => vnth k (t_b bt)) 4 (Q2R 0) /\
  row_conditions (t_stages bt) (entry (t_A bt)) (fun k => vnth k (t_c bt)) (Q2R 0) /\
  s_p runge_kutta_four = 4%nat /\ lipschitz 1 1 (fun t y => sine_f t [0] y) /\
  solution 1 (fun t y => sine_f t [0] y) 0 1 sine_sol /\
  smooth_along 1 4 (fun t y => sine_f t [0] y) 0 1 sine_sol /\
  forall n, exists w' out,
  o_bt (sine_op bt n) = bt /\ o_ode (sine_op bt n) = sine /\ o_adaptive (sine_op bt n) = false /\
  loops (sine_op bt n) /\ o_crit (sine_op bt n) = PredefinedNumberOfSteps n /\ o_step (sine_op bt n) = (1 - 0) / INR n /\
  reachable (sine_op bt n) tt (setup (sine_op bt n) tt) /\ inputs_sized sine sine_in /\
  independent sine_in = [0] /\ time_initial sine_in = 0 /\ initial sine_in = sine_sol 0 /\
  compute (sine_op bt n) sine_in (setup (sine_op bt n) tt) = (w', Ok out).
Proof.
  destruct (shipped_constructed _ _ _ rk4_precision) as (bt & E & W & _ & Himp & _); exists bt.
  split; [exact rk4_precision|]; split; [exact rk4_nodes|]; split; [exact E|].
  split; [exact W|]; split; [exact Himp|]; split; [exact sine_sized|]; split; [exact sine_solves|].
  split; [exact (proj1 (shipped_order _ _ _ bt [] rk4_precision E))|].
  split; [exact (proj2 (shipped_rows _ _ _ _ bt [] rk4_precision rk4_nodes E))|].
  split; [reflexivity|]; split; [apply sine_lipschitz|]; split; [apply sine_solution|]; split; [apply sine_smooth|].
  intros n; destruct (sine_returns _ _ _ bt n rk4_precision ltac:(vm_compute; reflexivity) E) as (w' & out & R).
  exists w', out; repeat (split; [first [reflexivity | exact I | apply reachable_setup | split; reflexivity |
    cbn; unfold sine_sol; rewrite exp_0; reflexivity]|]); exact R.
Qed.

(** so the error of n steps is at most K / n^4. *)
Example C64_sine : exists bt K N, shipped_init runge_kutta_four = Ok (bt, []) /\ forall n, (N <= n)%nat ->
  exists w' out, compute (sine_op bt n) sine_in (setup (sine_op bt n) tt) = (w', Ok out) /\
    time_final out = 1 /\ Rabs (vnth 0 (final out) - 2 * atan (exp 1)) <= K * (1 / INR n) ^ 4.
Proof.
  destruct C64_hypotheses_met as (bt & H1 & H2 & H3 & _ & _ & H4 & H5 & _ & _ & _ & H6 & H7 & H8 & HR).
  destruct (C64_shipped _ _ _ _ bt sine sine_f 1 0 1 [0] sine_sol H1 H2 H3 H4 H5 ltac:(lra) H6 ltac:(lra) H7 H8)
    as (K & N & K0 & HK).
  exists bt, K, N; split; [exact H3|]; intros n Hn; destruct (HR n) as (w' & out & R1 & R2 & R3 & R4 & R5 & R6 & R7 & R8 & R9 & R10 & R11 & R12).
  exists w', out; split; [exact R12|].
  destruct (HK n Hn _ _ tt _ _ w' out R1 R2 R3 R4 R5 R6 R7 R8 R9 R10 R11 R12) as [T W]; split; [exact T|].
  specialize (W 0%nat ltac:(cbn; lia)); cbn [s_p runge_kutta_four] in W.
  rewrite RMicromega.Q2R_0, !Rplus_0_r, Rminus_0_r in W; exact W.
Qed.

(** ** C65 *)

(** The error estimate of a step from a state next to the solution is of the
    order of the weaker of the two methods: at most [h * K * (h^p + ...)]. *)
Theorem C65_estimate_order :
  forall (bt : tableau R) (o : ode R) f bh ph eps eps' nu p L t0 t1 xi Y ni,
  tableau_wf bt -> is_implicit bt = false -> result_sizes o -> solves_stage_equation o (state_size o) f ->
  t_hat bt = Some (bh, ph) -> (0 < p)%nat ->
  order_conditions (t_stages bt) (entry (t_A bt)) (fun k => vnth k (t_b bt)) p eps ->
  order_conditions (t_stages bt) (entry (t_A bt)) (fun k => vnth k bh) p eps' ->
  0 <= nu -> row_conditions (t_stages bt) (entry (t_A bt)) (fun k => vnth k (t_c bt)) nu ->
  0 <= L -> lipschitz (state_size o) L (fun t y => f t xi y) ->
  solution (state_size o) (fun t y => f t xi y) t0 t1 Y ->
  smooth_along (state_size o) p (fun t y => f t xi y) t0 t1 Y ->
  exists K H, 0 <= K /\ 0 < H /\ forall s h s' d,
  shaped (t_stages bt) (state_size o) ni (independent_output_size o) (linearization_point_size o) s ->
  independent_inputs s = xi -> t0 <= final_time s <= t1 -> 0 < h <= H ->
  0 <= d -> within (state_size o) d (final_state s) (Y (final_time s)) ->
  compute_step bt o s h = Ok s' ->
  exists eb err, embedded s' = Some (eb, err) /\
    forall m, (m < state_size o)%nat -> Rabs (vnth m err) <= h * (K * (h ^ p + d + nu + (eps + eps'))).
Proof. exact estimate_order. Qed.
Print Assumptions C65_estimate_order.

(** The shipped embedded tableaux: the order is the smaller of the two stated. *)
Theorem C65_shipped_estimate :
  forall x e eh nu bt bh ph o f L t0 t1 xi Y ni,
  In (x, (e, eh)) precision -> In (x, nu) node_precision -> shipped_init x = Ok (bt, []) -> s_hat x = Some (bh, ph) ->
  result_sizes o -> solves_stage_equation o (state_size o) f ->
  0 <= L -> lipschitz (state_size o) L (fun t y => f t xi y) ->
  solution (state_size o) (fun t y => f t xi y) t0 t1 Y ->
  let p := Nat.min (s_p x) ph in
  smooth_along (state_size o) p (fun t y => f t xi y) t0 t1 Y ->
  exists K H, 0 <= K /\ 0 < H /\ forall s h s' d,
  shaped (t_stages bt) (state_size o) ni (independent_output_size o) (linearization_point_size o) s ->
  independent_inputs s = xi -> t0 <= final_time s <= t1 -> 0 < h <= H ->
  0 <= d -> within (state_size o) d (final_state s) (Y (final_time s)) ->
  compute_step bt o s h = Ok s' ->
  exists eb err, embedded s' = Some (eb, err) /\
    forall m, (m < state_size o)%nat ->
    Rabs (vnth m err) <= h * (K * (h ^ p + d + Q2R nu + (Q2R e + Q2R eh))).
Proof. exact shipped_estimate_order. Qed.
Print Assumptions C65_shipped_estimate.

Lemma heun_precision : In (embedded_heun_euler, (0%Q, 0%Q)) precision.
Proof. apply (nth_error_In _ 6); reflexivity. Qed.

(** A step of any size of the embedded method of Heun and Euler from pi/2. *)
Example C65_hypotheses_met : exists bt bh s,
  In (embedded_heun_euler, (0%Q, 0%Q)) precision /\ In (embedded_heun_euler, 0%Q) node_precision /\
  shipped_init embedded_heun_euler = Ok (bt, []) /\ s_hat embedded_heun_euler = Some (bh, 1%nat) /\
  Nat.min (s_p embedded_heun_euler) 1 = 1%nat /\
  result_sizes sine /\ solves_stage_equation sine (state_size sine) sine_f /\
  lipschitz 1 1 (fun t y => sine_f t [0] y) /\ solution 1 (fun t y => sine_f t [0] y) 0 1 sine_sol /\
  smooth_along 1 1 (fun t y => sine_f t [0] y) 0 1 sine_sol /\
  shaped (t_stages bt) 1 1 0 0 s /\ independent_inputs s = [0] /\ final_time s = 0 /\
  final_state s = sine_sol 0 /\ forall h, exists s', compute_step bt sine s h = Ok s'.
Proof.
  destruct (shipped_constructed _ _ _ heun_precision) as (bt & E & W & _ & Himp & _).
  pose (w := prepare (sine_op bt 1) sine_in (setup (sine_op bt 1) tt)).
  assert (Sh : shaped (t_stages bt) 1 1 0 0 (disc (live w))).
  { apply (wf_live (sine_op bt 1)), wf_prepare; [split; reflexivity|].
    apply (reachable_wf (sine_op bt 1) tt); [exact sine_sized|apply reachable_setup]. }
  exists bt, [Lit 1.0; Lit 0.0], (disc (live w)).
  split; [exact heun_precision|]; split; [apply (nth_error_In _ 6); reflexivity|]; split; [exact E|].
  split; [reflexivity|]; split; [reflexivity|]; split; [apply sine_sized|]; split; [exact sine_solves|].
  split; [apply sine_lipschitz|]; split; [apply sine_solution|]; split; [apply sine_smooth|].
  split; [exact Sh|]; split; [reflexivity|]; split; [reflexivity|].
  split; [cbn; unfold sine_sol; rewrite exp_0; reflexivity|].
  intros h; exact (sine_step _ _ _ bt _ h heun_precision ltac:(vm_compute; reflexivity) E Sh).
Qed.
