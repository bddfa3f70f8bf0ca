(** Property theorems about runs as compositions of Runge-Kutta steps and about
    their error: C57, C58. *)
From Coq Require Import String.
From Coq Require Import List Reals Lra Lia Bool Arith.
From Verif Require Import Base Ext M_Tableau M_State M_ODE M_Step M_Controller M_Measure M_Integrator
  SpecRK SpecShape SpecRun SpecRevolve SpecConvergence L_RunProps L_RunConvergence WitnessRun.
Import ListNotations.
Open Scope R_scope.

(** ** C57 *)

(** Whatever a run returns is the result of the Runge-Kutta steps whose sizes
    the callbacks see, from the initial values; fixed-step runs use the
    configured step. *)
Theorem C57_run_is_composition_of_steps :
  forall (C : Type) (op : options R C) f,
  tableau_wf (o_bt op) -> is_implicit (o_bt op) = false -> sized_ode (o_ode op) ->
  solves_stage_equation (o_ode op) (state_size (o_ode op)) f ->
  forall c w i w' out, loops op -> reachable op c w -> inputs_sized (o_ode op) i ->
  compute op i w = (w', Ok out) ->
  exists a l, starts_at op i a /\ trajectory op a l /\ stops op a l /\
    log w' = (log w ++ bracketed Compute (length (o_callbacks op Compute)) 1 a l)%list /\
    let hs := map (fun x => step_size (disc x)) l in
    rk_steps (t_stages (o_bt op)) (state_size (o_ode op)) (entry (t_A (o_bt op)))
      (fun k => vnth k (t_b (o_bt op))) (fun k => vnth k (t_c (o_bt op)))
      (fun t y => f t (independent i) y) (time_initial i) (initial i) hs (final out) /\
    time_final out = time_initial i + covered hs /\
    (o_adaptive op = false -> hs = repeat (o_step op) (length l)).
Proof. exact (@run_steps). Qed.
Print Assumptions C57_run_is_composition_of_steps.

(** The same with the recomputing checkpointer. *)
Theorem C57_run_is_composition_of_steps_recomputing :
  forall (C : Type) (op : options R C) f,
  tableau_wf (o_bt op) -> is_implicit (o_bt op) = false -> sized_ode (o_ode op) ->
  solves_stage_equation (o_ode op) (state_size (o_ode op)) f ->
  forall n fs rs c c0 w i w' out, stateless op c -> ctl w = c ->
  o_ckpt op = PyrevolveCheckpointer fs rs -> valid_schedule n fs rs -> Forall forward_action fs ->
  reachable op c0 w -> inputs_sized (o_ode op) i -> compute op i w = (w', Ok out) ->
  exists a l, starts_at op i a /\ trajectory op a l /\ length l = S n /\
    log w' = (log w ++ bracketed Compute (length (o_callbacks op Compute)) 0 a l)%list /\
    let hs := map (fun x => step_size (disc x)) l in
    rk_steps (t_stages (o_bt op)) (state_size (o_ode op)) (entry (t_A (o_bt op)))
      (fun k => vnth k (t_b (o_bt op))) (fun k => vnth k (t_c (o_bt op)))
      (fun t y => f t (independent i) y) (time_initial i) (initial i) hs (final out) /\
    time_final out = time_initial i + covered hs /\
    (o_adaptive op = false -> hs = repeat (o_step op) (length l)).
Proof. exact (@revolve_steps). Qed.
Print Assumptions C57_run_is_composition_of_steps_recomputing.

(** and for the trajectory a forward product follows, seen in the state it
    leaves. *)
Theorem C57_forward_product_follows_steps :
  forall (C : Type) (op : options R C) f,
  tableau_wf (o_bt op) -> is_implicit (o_bt op) = false -> sized_ode (o_ode op) ->
  solves_stage_equation (o_ode op) (state_size (o_ode op)) f ->
  forall c w i d w' out, reachable op c w -> inputs_sized (o_ode op) i -> inputs_sized (o_ode op) d ->
  compute_jacvec_product_fwd op i d w = (w', Ok out) ->
  exists a l, starts_at op i a /\ trajectory op a l /\ stops op a l /\
    log w' = (log w ++ bracketed Fwd (length (o_callbacks op Fwd)) 1 a l)%list /\
    let hs := map (fun x => step_size (disc x)) l in
    rk_steps (t_stages (o_bt op)) (state_size (o_ode op)) (entry (t_A (o_bt op)))
      (fun k => vnth k (t_b (o_bt op))) (fun k => vnth k (t_c (o_bt op)))
      (fun t y => f t (independent i) y) (time_initial i) (initial i) hs (final_state (disc (live w'))) /\
    final_time (disc (live w')) = time_initial i + covered hs /\
    (o_adaptive op = false -> hs = repeat (o_step op) (length l)).
Proof. exact (@fwd_steps). Qed.
Print Assumptions C57_forward_product_follows_steps.

(** The ODE y' = p - y as the interface wants it; without a solution of the stage
    equation it raises.  Its derivatives play no role here. *)
Definition relax : ode R := {|
  compute_update := fun i h a =>
    if Req_EM_T (1 + h * a) 0 then Err SolverError
    else Ok ({| stage_update := [(vnth 0 (independent_input i) - (vnth 0 (M_ODE.step_input i) + h * vnth 0 (stage_input i)))
                                 / (1 + h * a)]; stage_state := [0]; independent_output := [] |}, []);
  compute_update_derivative := fun lp i h a =>
    Ok {| stage_update := [0]; stage_state := [0]; independent_output := [] |};
  compute_update_adjoint_derivative := fun lp r h a =>
    Ok {| M_ODE.step_input := [0]; stage_input := [0]; independent_input := [0]; time := 0 |};
  compute_state_norm := fun r => 0;
  state_size := 1; independent_input_size := 1; independent_output_size := 0; linearization_point_size := 0 |}.
Definition relax_f (t : R) (p y : list R) : list R := [vnth 0 p - vnth 0 y].

(** The implicit Euler method. *)
Definition backward_euler : tableau R := {| t_A := [[1]]; t_b := [1]; t_c := [1];
  t_stages := 1; t_p := Some 1%nat; t_name := "backward_euler"; t_hat := None |}.

Lemma backward_euler_imp : is_implicit backward_euler = false.
Proof. vm_compute; destruct (Req_EM_T R1 R0); reflexivity. Qed.

(** [n] steps from time 0 to time 2. *)
Definition relax_op (n : nat) : options R unit := {|
  o_bt := backward_euler; o_ode := relax; o_ckpt := AllCheckpointer; o_adaptive := false;
  o_step := (2 - 0) / INR n; o_crit := PredefinedNumberOfSteps n; o_inf := 0; o_meas := SimpleErrorMeasurer;
  o_tol := 1; o_ctl := halving 1; o_callbacks := fun _ => [quiet_cb]; retry_limit := 1; loop_limit := S n |}.

Lemma relax_sized : sized_ode relax.
Proof.
  split; [|split].
  - intros i h a r lp H; cbn in H; destruct (Req_EM_T _ _); [discriminate|]; injection H as <- <-; cbn; auto.
  - intros lp i h a r H; injection H as <-; cbn; auto.
  - intros lp i h a r H; injection H as <-; cbn; auto.
Qed.
Lemma relax_solves : solves_stage_equation relax 1 relax_f.
Proof.
  intros i h a r lp _ _ H; cbn in H; destruct (Req_EM_T _ _) as [|Hne]; [discriminate|].
  injection H as <- <-; unfold relax_f; cbn; f_equal; field; exact Hne.
Qed.
Lemma relax_returns n y p : (0 < n)%nat ->
  exists w' out, compute (relax_op n) (gin 0 y p) (setup (relax_op n) tt) = (w', Ok out).
Proof.
  intros Hn; assert (Hp : 0 < INR n) by (apply lt_0_INR; exact Hn).
  apply (fixed_returns (relax_op n) tt).
  - apply relax_sized.
  - reflexivity.
  - exact I.
  - intros m cb [<-|[]] k st; auto.
  - cbn; lia.
  - intros s Hs; unfold compute_step, compute_step_base; cbn [o_bt o_ode relax_op backward_euler relax t_stages
      number_of_stages seq for_stages compute_stage compute_update entry t_A nth t_hat o_step].
    unfold compute_stage; cbn [compute_update relax].
    destruct (Req_EM_T _ _) as [E|_].
    { exfalso; cbn in E; assert (0 < (2 - 0) / INR n) by (apply Rdiv_lt_0_compat; lra); lra. }
    pose proof (sh_sio _ _ _ _ _ _ Hs) as Hl; cbn in Hl |- *.
    destruct (stage_independent_outputs s); [discriminate Hl|]; eexists; reflexivity.
  - cbn; lia.
  - apply reachable_setup.
  - split; reflexivity.
Qed.

Example C57_hypotheses_met : exists w' out,
  tableau_wf (o_bt (relax_op 4)) /\ is_implicit (o_bt (relax_op 4)) = false /\ sized_ode (o_ode (relax_op 4)) /\
  solves_stage_equation (o_ode (relax_op 4)) 1 relax_f /\ loops (relax_op 4) /\
  reachable (relax_op 4) tt (setup (relax_op 4) tt) /\ inputs_sized (o_ode (relax_op 4)) (gin 0 3 1) /\
  compute (relax_op 4) (gin 0 3 1) (setup (relax_op 4) tt) = (w', Ok out).
Proof.
  destruct (relax_returns 4 3 1 ltac:(lia)) as (w' & out & E); exists w', out.
  split; [constructor; cbn; auto|]; split; [exact backward_euler_imp|]; split; [apply relax_sized|].
  split; [apply relax_solves|]; split; [exact I|]; split; [apply reachable_setup|]; split; [split; reflexivity|exact E].
Qed.

(** ** C58 *)

(** With steps of at most [H], small compared with the Lipschitz constant of the
    ODE, the error of a run is at most the error of the initial values plus a
    constant times the time and [H], both times an exponential of the time. *)
Theorem C58_error_bound :
  forall (C : Type) (op : options R C) f,
  tableau_wf (o_bt op) -> is_implicit (o_bt op) = false -> sized_ode (o_ode op) ->
  solves_stage_equation (o_ode op) (state_size (o_ode op)) f ->
  forall al be ga L B H,
  method_bounds (t_stages (o_bt op)) (entry (t_A (o_bt op))) (fun k => vnth k (t_b (o_bt op)))
    (fun k => vnth k (t_c (o_bt op))) al be ga ->
  0 <= al -> 0 <= ga -> 0 <= L -> 0 <= B -> 2 * (H * L * al) <= 1 ->
  forall c w i w' out Y d, loops op -> reachable op c w -> inputs_sized (o_ode op) i ->
  compute op i w = (w', Ok out) ->
  lipschitz (state_size (o_ode op)) L (fun t y => f t (independent i) y) ->
  solution (state_size (o_ode op)) (fun t y => f t (independent i) y) (time_initial i) (time_final out) Y ->
  (forall t m, time_initial i <= t <= time_final out -> (m < state_size (o_ode op))%nat ->
     Rabs (vnth m (f t (independent i) (Y t))) <= B) ->
  0 <= d -> within (state_size (o_ode op)) d (initial i) (Y (time_initial i)) ->
  exists a l, starts_at op i a /\ trajectory op a l /\
    log w' = (log w ++ bracketed Compute (length (o_callbacks op Compute)) 1 a l)%list /\
    (Forall (fun x => 0 < step_size (disc x) <= H) l -> 0 <= H ->
     within (state_size (o_ode op)) (error_bound al be ga L B H d (time_final out - time_initial i))
       (final out) (Y (time_final out))).
Proof. exact (@run_error). Qed.
Print Assumptions C58_error_bound.

(** Hence fixed-step runs of a consistent method to a given time come as close to
    the solution as one likes, for all sufficiently large numbers of steps. *)
Theorem C58_runs_converge :
  forall (bt : tableau R) (o : ode R) f L t1 Y i,
  tableau_wf bt -> is_implicit bt = false -> rsum (t_stages bt) (fun k => vnth k (t_b bt)) = 1 ->
  sized_ode o -> solves_stage_equation o (state_size o) f ->
  0 <= L -> lipschitz (state_size o) L (fun t y => f t (independent i) y) ->
  inputs_sized o i -> time_initial i < t1 ->
  solution (state_size o) (fun t y => f t (independent i) y) (time_initial i) t1 Y ->
  initial i = Y (time_initial i) ->
  forall eps, 0 < eps -> exists N, forall n, (N <= n)%nat ->
  forall C (op : options R C) c w w' out, o_bt op = bt -> o_ode op = o -> o_adaptive op = false -> loops op ->
  o_crit op = PredefinedNumberOfSteps n -> o_step op = (t1 - time_initial i) / INR n ->
  reachable op c w -> compute op i w = (w', Ok out) ->
  time_final out = t1 /\ within (state_size o) eps (final out) (Y t1).
Proof. exact (@run_converges). Qed.
Print Assumptions C58_runs_converge.

(** y' = 1 - y from y(0) = 3, whose solution is 1 + 2 exp(-t). *)
Definition relax_sol (t : R) : list R := [1 + 2 * exp (- t)].
Lemma relax_lipschitz p : lipschitz 1 1 (fun t y => relax_f t p y).
Proof.
  intros t t' y z r _ _ W m Hm; destruct m as [|m]; [|lia].
  specialize (W 0%nat Hm); unfold relax_f; cbn [vnth nth] in *; unfold vnth in *; cbn [nth].
  replace (nth 0 p 0 - nth 0 y 0 - (nth 0 p 0 - nth 0 z 0)) with (- (nth 0 y 0 - nth 0 z 0)) by ring.
  rewrite Rabs_Ropp; pose proof (Rabs_pos (t - t')); lra.
Qed.
Lemma relax_solution t0 t1 : solution 1 (fun t y => relax_f t [1] y) t0 t1 relax_sol.
Proof.
  split; [reflexivity|]; intros t m _ Hm; destruct m as [|m]; [|lia].
  unfold relax_f, relax_sol, vnth; cbn [nth].
  replace (1 - (1 + 2 * exp (- t))) with (0 + 2 * (exp (- t) * -1)) by ring.
  apply (derivable_pt_lim_plus (fun _ => 1) (fun u => 2 * exp (- u))); [apply derivable_pt_lim_const|].
  apply (derivable_pt_lim_scal (fun u => exp (- u))).
  apply (derivable_pt_lim_comp (fun u => - u) exp); [|apply derivable_pt_lim_exp].
  apply (derivable_pt_lim_opp id), derivable_pt_lim_id.
Qed.

Example C58_hypotheses_met : forall n, (0 < n)%nat -> exists w' out,
  tableau_wf backward_euler /\ is_implicit backward_euler = false /\
  rsum (t_stages backward_euler) (fun k => vnth k (t_b backward_euler)) = 1 /\
  method_bounds 1 (entry (t_A backward_euler)) (fun k => vnth k (t_b backward_euler))
    (fun k => vnth k (t_c backward_euler)) 1 1 1 /\
  sized_ode relax /\ solves_stage_equation relax (state_size relax) relax_f /\
  lipschitz 1 1 (fun t y => relax_f t [1] y) /\ inputs_sized relax (gin 0 3 1) /\
  solution 1 (fun t y => relax_f t [1] y) 0 2 relax_sol /\
  (forall t m, 0 <= t <= 2 -> (m < 1)%nat -> Rabs (vnth m (relax_f t [1] (relax_sol t))) <= 2) /\
  initial (gin 0 3 1) = relax_sol 0 /\
  o_bt (relax_op n) = backward_euler /\ o_ode (relax_op n) = relax /\ o_adaptive (relax_op n) = false /\
  loops (relax_op n) /\ o_crit (relax_op n) = PredefinedNumberOfSteps n /\ o_step (relax_op n) = (2 - 0) / INR n /\
  reachable (relax_op n) tt (setup (relax_op n) tt) /\
  compute (relax_op n) (gin 0 3 1) (setup (relax_op n) tt) = (w', Ok out).
Proof.
  intros n Hn; destruct (relax_returns n 3 1 Hn) as (w' & out & E); exists w', out.
  split; [constructor; cbn; auto|]; split; [exact backward_euler_imp|]; split; [cbn; lra|].
  split. { constructor; [intros i Hi; destruct i; [|lia]|  |intros i Hi; destruct i; [|lia]|];
    unfold rsum, entry, vnth; cbn; rewrite ?Rabs_R1; lra. }
  split; [apply relax_sized|]; split; [apply relax_solves|]; split; [apply relax_lipschitz|].
  split; [split; reflexivity|]; split; [apply relax_solution|].
  split. { intros t m Ht Hm; destruct m as [|m]; [|lia]; unfold relax_f, relax_sol, vnth; cbn [nth].
    replace (1 - (1 + 2 * exp (- t))) with (- (2 * exp (- t))) by ring.
    rewrite Rabs_Ropp, Rabs_right by (pose proof (exp_pos (- t)); lra).
    destruct (Req_dec t 0) as [->|Hne]; [rewrite Ropp_0, exp_0; lra|].
    assert (exp (- t) < exp 0) by (apply exp_increasing; lra); rewrite exp_0 in *; lra. }
  split; [unfold gin, relax_sol; cbn; f_equal; rewrite Ropp_0, exp_0; ring|].
  repeat (split; [reflexivity|]).
  split; [apply reachable_setup|exact E].
Qed.
