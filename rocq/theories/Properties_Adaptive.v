(** Property theorems about runs with error control: C13, C15, C16, C19, C49. *)
From Coq Require Import List Reals Lia Lra Bool QArith.
From Verif Require Import Base Ext M_Tableau M_State M_ODE M_Step M_Controller M_Measure M_Integrator
  SpecRK SpecDeriv SpecControl SpecRun SpecAdaptive L_Control L_Run L_Iter L_Log L_Adaptive L_Adaptive2
  L_Adaptive3 WitnessRun WitnessAdaptive.
Import ListNotations.

(** ** C13: a step in the middle of a run is accepted with an error above the
    tolerance.  The "remaining time" of the acceptance rule is that after the
    step, so on [0, 1] a step from 0 to 1/2 passes for the closing one: here
    with error 1/2 and tolerance 1/100. *)
Theorem C13_mid_run_step_refuted :
  exists (cfg : config (ext Q)) (op : options (ext Q) (controller (ext Q))) c i w' out a b,
  o_ctl op = ctl_call cfg /\ o_adaptive op = true /\ o_crit op = PredefinedFinalTime (Fin 1%Q) /\
  tol cfg = Fin (1 # 100)%Q /\ lower_bound cfg = Fin (2 # 5)%Q /\
  compute op i (setup op c) = (w', Ok out) /\
  In (Before Compute 0 1 a) (log w') /\ In (After Compute 0 1 b) (log w') /\
  final_time (disc a) = Fin 0%Q /\ final_time (disc b) = Fin (1 # 2)%Q /\
  step_size (disc b) = Fin (1 # 2)%Q /\ nth 0 (err_hist b) NaN = Fin (1 # 2)%Q.
Proof.
  exists (qcfg (1 # 100) (2 # 5)), mid_run, qctl, qin.
  assert (X : exists w x, compute mid_run qin (setup mid_run qctl) = (w, Ok x))
    by (apply returns; vm_compute; reflexivity).
  destruct X as (w & x & E).
  exists w, x.
  assert (L : log w = log (fst (compute mid_run qin (setup mid_run qctl)))) by (rewrite E; reflexivity).
  remember (log (fst (compute mid_run qin (setup mid_run qctl)))) as lg eqn:G; vm_compute in G.
  match type of G with _ = [Before _ _ _ ?a; After _ _ _ ?b; _; _; _; _] => exists a, b end.
  do 5 (split; [reflexivity|]); split; [exact E|]; rewrite L, G; clear.
  split; [left; reflexivity|]; split; [right; left; reflexivity|].
  repeat split; reflexivity.
Qed.
Print Assumptions C13_mid_run_step_refuted.

Open Scope R_scope.

(** ** C15: no accepted step ends after the prescribed final time [tf], and a
    run that returns has reached exactly [tf] (in exact arithmetic). *)
Theorem C15_no_overshoot :
  forall op cfg tf lb, controlled op cfg tf lb ->
  forall i a l t0 h0, starts_at op i a -> time_initial i = Fin t0 -> o_step op = Fin h0 ->
  t0 + h0 <= tf -> trajectory op a l ->
  Forall (fun b => exists t, final_time (disc b) = Fin t /\ t <= tf) l.
Proof.
  intros op cfg tf lb K i a l t0 h0 (S1 & _ & _ & S2) E1 E2.
  exact (c15_no_overshoot op cfg tf lb K a l t0 h0 (conj (eq_trans S1 E1) (eq_trans S2 E2))).
Qed.
Print Assumptions C15_no_overshoot.

Theorem C15_final_time :
  forall op cfg tf lb, controlled op cfg tf lb -> loops op ->
  forall i w w' out t0 h0, time_initial i = Fin t0 -> o_step op = Fin h0 -> 0 <= h0 -> t0 + h0 <= tf ->
  compute op i w = (w', Ok out) -> time_final out = Fin tf.
Proof. intros op cfg tf lb K L i w w' out t0 h0 E1 E2 H1 H2; exact (c15_final_time op cfg tf lb K i w w' out t0 h0 L E1 E2 H1 H2). Qed.
Print Assumptions C15_final_time.

(** A run on [0, 1] with first step 1/2, which returns. *)
Example C15_applies : exists op cfg, controlled op cfg 1 (1/10) /\ loops op /\
  exists i w w' out, time_initial i = Fin 0 /\ o_step op = Fin (1/2) /\ compute op i w = (w', Ok out).
Proof.
  exists (raop 8 (1/2)), (rcfg 8); split; [apply raop_controlled|]; split; [exact I|].
  destruct raop_returns as (w' & out & E).
  exists rain, (setup (raop 8 (1/2)) ractl), w', out; split; [reflexivity|]; split; [reflexivity|exact E].
Qed.

(** ** C16: retries with a single integral controller.  Each retry is strictly
    smaller than the step before it; the controller is left as it was; and
    whatever bound [m] above [n] the repetition is run with, [n] computed from
    step size, lower bound and safety factor, it ends within [n] rejected
    trials, in an accepted step or in an error of the ODE or the error
    measurement, never in one of the controller. *)
Theorem C16_retries_end :
  forall op cfg p eps kappa lb, integral_control op cfg p eps kappa lb ->
  forall st t d n, errors_are_numbers op st -> about_to st t d -> lb <= d -> time_left (o_crit op) t lb ->
  kappa ^ n * d < lb + / 10 ^ 10 ->
  forall m c' st' r, (n < m)%nat ->
  iterate_on_step op m (mk_plain (integral (Fin p))) st = (c', st', r) ->
  c' = mk_plain (integral (Fin p)) /\
  exists l st1, retries op (mk_plain (integral (Fin p))) st l (mk_plain (integral (Fin p))) st1 /\
  decreasing (l ++ [suggestion st1]) /\ (length l <= n)%nat /\
  match r with
  | Ok _ => exists tmp em, trial op st1 tmp em /\ accept_rule cfg (question op st1 tmp em) /\
      disc st' = rk_set (disc st) tmp
  | Err e => trial_fails op st1 e
  end.
Proof.
  intros op cfg p eps kappa lb K st t d n En A Hd Hl Hn m c' st' r Hm.
  exact (integral_ends op cfg p eps kappa lb K st t d n m c' st' r En A Hd Hl Hn Hm).
Qed.
Print Assumptions C16_retries_end.

(** Such an [n] always exists. *)
Theorem C16_bound_exists :
  forall kappa d lb, 0 < kappa < 1 -> 0 <= d -> 0 <= lb -> exists n, kappa ^ n * d < lb + / 10 ^ 10.
Proof. exact bound_exists. Qed.
Print Assumptions C16_bound_exists.

(** A first step of size 1 with error 2 and tolerance 1, which is retried. *)
Example C16_applies : exists op cfg, integral_control op cfg 1 1 (9/10) (1/10) /\
  exists st, errors_are_numbers op st /\ about_to st 0 1 /\ time_left (o_crit op) 0 (1/10) /\
  (9/10) ^ 30 * 1 < 1/10 + / 10 ^ 10 /\ exists c1 st1, retry op (mk_plain (integral (Fin 1))) st c1 st1.
Proof.
  exists (raop 1 1), (rcfg 1); split; [apply raop_integral; lra|].
  exists (live (prepare (raop 1 1) rain (setup (raop 1 1) ractl))).
  split; [apply raop_errors|]; split; [split; reflexivity|]; split; [cbn; lra|]; split; [|exact raop_retried].
  pose proof pow_small; lra.
Qed.

(** ** C19: number of steps.  Whatever the controllers answer, each step of a
    run that returns advances by the lower bound at least or ends at [tf]. *)
Theorem C19_step_count :
  forall op cfg tf lb, controlled op cfg tf lb -> loops op ->
  forall i w w' out t0 h0, time_initial i = Fin t0 -> o_step op = Fin h0 -> lb <= h0 -> t0 + h0 <= tf -> 0 < lb ->
  compute op i w = (w', Ok out) ->
  exists a l, starts_at op i a /\ trajectory op a l /\
    log w' = log w ++ bracketed Compute (length (o_callbacks op Compute)) 1 a l /\
    Forall (fun p => exists t t', final_time (disc (fst p)) = Fin t /\ final_time (disc (snd p)) = Fin t' /\
      t' <= tf /\ (t + lb <= t' \/ t' = tf)) (combine (a :: l) l) /\
    INR (length l) <= (tf - t0) / lb + 1.
Proof. intros op cfg tf lb K L i w w' out t0 h0; exact (c19_step_count op cfg tf lb K i w w' out t0 h0 L). Qed.
Print Assumptions C19_step_count.

Example C19_step_count_applies : exists op cfg, controlled op cfg 1 (1/10) /\ loops op /\
  exists i w w' out, time_initial i = Fin 0 /\ o_step op = Fin (1/2) /\ compute op i w = (w', Ok out).
Proof. exact C15_applies. Qed.

(** With a single integral controller, a run given room for enough trials and
    steps (the bounds [n] and (tf - t0)/lb + 1, so this excludes endless
    repetition) returns, or fails in the ODE or the error measurement, or
    repeats a closing step shorter than the lower bound.  Missing for the full
    property: other controllers, and that last case, which is real. *)
Theorem C19_integral_runs_end_partial :
  forall op cfg p eps kappa tf lb, controlled op cfg tf lb -> integral_control op cfg p eps kappa lb ->
  forall i w w' r t0 h0 n, reachable op (mk_plain (integral (Fin p))) w -> loops op -> quiet op ->
  (forall a l, starts_at op i a -> trajectory op a l -> errors_are_numbers op (last l a)) ->
  time_initial i = Fin t0 -> o_step op = Fin h0 -> lb <= h0 -> t0 + h0 <= tf -> 0 < lb ->
  kappa ^ n * (tf - t0) < lb + / 10 ^ 10 -> (n < retry_limit op)%nat ->
  (tf - t0) / lb + 1 < INR (loop_limit op) ->
  compute op i w = (w', r) ->
  match r with
  | Ok out => time_final out = Fin tf
  | Err e => exists a l, starts_at op i a /\ trajectory op a l /\
      ((exists h, trial_fails op (with_suggestion h (last l a)) e) \/
       (e = OutOfFuel /\ exists t h tmp em, about_to (last l a) t h /\ t + h = tf /\ h < lb /\
          trial op (last l a) tmp em /\ ~ accept_rule cfg (question op (last l a) tmp em)))
  end.
Proof. exact integral_run. Qed.
Print Assumptions C19_integral_runs_end_partial.

Example C19_integral_applies : exists op cfg, controlled op cfg 1 (1/10) /\
  integral_control op cfg 1 8 (9/10) (1/10) /\
  exists i w, reachable op (mk_plain (integral (Fin 1))) w /\ loops op /\ quiet op /\
  (forall a l, starts_at op i a -> trajectory op a l -> errors_are_numbers op (last l a)) /\
  time_initial i = Fin 0 /\ o_step op = Fin (1/2) /\ (9/10) ^ 30 * (1 - 0) < 1/10 + / 10 ^ 10 /\
  (30 < retry_limit op)%nat /\ (1 - 0) / (1/10) + 1 < INR (loop_limit op) /\
  exists w' out, compute op i w = (w', Ok out).
Proof.
  exists (raop 8 (1/2)), (rcfg 8); split; [apply raop_controlled|]; split; [apply raop_integral; lra|].
  exists rain, (setup (raop 8 (1/2)) ractl); split; [exists []; split; [constructor|reflexivity]|].
  split; [exact I|]; split; [apply raop_quiet|]; split; [intros; apply raop_errors|].
  split; [reflexivity|]; split; [reflexivity|]; split; [exact pow_small|]; split; [cbn; lia|].
  split; [cbn; lra|exact raop_returns].
Qed.

(** The closing step: if the time left is below the lower bound and the error
    above the tolerance, the trial is repeated unchanged without end, with any
    chain of controllers and however many trials are allowed. *)
Theorem C19_short_closing_step_forever :
  forall op cfg tf lb, controlled op cfg tf lb ->
  forall c st tmp em t h, trial op st tmp em -> about_to st t h -> t + h = tf ->
  / 10 ^ 10 <= h -> h <= lb - / 10 ^ 10 -> ~ xle em (tol cfg) ->
  forall n, exists c', iterate_on_step op n c st = (c', st, Err OutOfFuel).
Proof.
  intros op cfg tf lb K c st tmp em t h Ht A E H1 H2 H3 n.
  exact (hopeless_forever op cfg tf lb K n c st (short_hopeless op cfg tf lb K _ st tmp em t h Ht A E H1 H2 H3)).
Qed.
Print Assumptions C19_short_closing_step_forever.

(** A step from 0 to the final time 1 under a lower bound of 3. *)
Example C19_short_closing_step_applies : exists op cfg, controlled op cfg 1 3 /\
  exists st tmp em, trial op st tmp em /\ about_to st 0 1 /\ ~ xle em (tol cfg).
Proof. exact short_closing. Qed.

(** So adaptive runs need not end: a concrete run, for every bound on the
    number of trials. *)
Theorem C19_refuted :
  exists (cfg : config (ext Q)) (op : options (ext Q) (controller (ext Q))) c i,
  o_ctl op = ctl_call cfg /\ o_adaptive op = true /\ o_crit op = PredefinedFinalTime (Fin 1%Q) /\
  o_step op = Fin (7 # 10)%Q /\ lower_bound cfg = Fin (2 # 5)%Q /\ upper_bound cfg = PInf /\
  tol cfg = Fin (1 # 20)%Q /\ safety_factor cfg = Fin (9 # 10)%Q /\ time_initial i = Fin 0%Q /\
  (5 <= loop_limit op)%nat /\
  forall n, exists w', compute (with_retry_limit op n) i (setup op c) = (w', Err OutOfFuel).
Proof.
  exists (qcfg (1 # 20) (2 # 5)), closing, qctl, qin.
  do 9 (split; [reflexivity|]); split; [cbn; lia|]; exact closing_stuck.
Qed.
Print Assumptions C19_refuted.

(** ** C49: a trial whose error measure is nan is reported when it does not
    reach the final time (unless the acceptance rule takes it) ... *)
Theorem C49_nan_reported :
  forall op cfg tf lb, controlled op cfg tf lb ->
  forall n c st tmp t h, outermost c -> Forall reacts (members c) -> trial op st tmp NaN ->
  about_to st t h -> ~ accept_rule cfg (question op st tmp NaN) -> t + h < tf -> xlt (Fin h) (upper_bound cfg) ->
  exists c' e, iterate_on_step op (S n) c st = (c', st, Err e) /\
    (e = OuterErrorControllerError \/ e = InnerErrorControllerError).
Proof. exact nan_reported. Qed.
Print Assumptions C49_nan_reported.

Example C49_nan_reported_applies : exists op cfg c, controlled op cfg 1 (1/10) /\
  outermost c /\ Forall reacts (members c) /\ exists st tmp, trial op st tmp NaN /\ about_to st 0 (1/4) /\
  ~ accept_rule cfg (question op st tmp NaN) /\ xlt (Fin (1/4)) (upper_bound cfg).
Proof. exact nan_mid. Qed.

(** ... but on a step to the final time it is repeated without end, *)
Theorem C49_nan_closing_step_forever :
  forall op cfg tf lb, controlled op cfg tf lb ->
  forall c st tmp t h, Forall reacts (members c) -> trial op st tmp NaN -> about_to st t h -> t + h = tf ->
  / 10 ^ 10 <= h -> / 10 ^ 10 <= Rabs (h - lb) -> xle (Fin h) (upper_bound cfg) ->
  forall n, exists c', iterate_on_step op n c st = (c', st, Err OutOfFuel).
Proof.
  intros op cfg tf lb K c st tmp t h Hx Ht A E H1 H2 H3 n.
  exact (hopeless_forever op cfg tf lb K n c st (nan_hopeless op cfg tf lb K _ st tmp t h Hx Ht A E H1 H2 H3)).
Qed.
Print Assumptions C49_nan_closing_step_forever.

Example C49_nan_closing_step_applies : exists op cfg c, controlled op cfg 1 (1/10) /\
  Forall reacts (members c) /\ exists st tmp, trial op st tmp NaN /\ about_to st 0 1 /\
  xle (Fin 1) (upper_bound cfg).
Proof. exact nan_last. Qed.

(** as in this run, for every bound on the number of trials. *)
Theorem C49_refuted :
  exists (cfg : config (ext Q)) (op : options (ext Q) (controller (ext Q))) c i,
  o_ctl op = ctl_call cfg /\ o_adaptive op = true /\ o_crit op = PredefinedFinalTime (Fin 1%Q) /\
  o_step op = Fin 1%Q /\ lower_bound cfg = Fin (1 # 100)%Q /\ upper_bound cfg = PInf /\
  tol cfg = Fin (1 # 100)%Q /\ time_initial i = Fin 0%Q /\
  (exists st tmp, starts_at op i st /\ trial op st tmp NaN) /\
  forall n, exists w', compute (with_retry_limit op n) i (setup op c) = (w', Err OutOfFuel).
Proof.
  exists (qcfg (1 # 100) (1 # 100)), nan_closing, qctl, qin.
  do 8 (split; [reflexivity|]); split; [exact nan_first|exact nan_stuck].
Qed.
Print Assumptions C49_refuted.
