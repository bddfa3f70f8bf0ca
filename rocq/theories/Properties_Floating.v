(** Runs in floating point. *)
From Coq Require Import String.
From Coq Require Import ZArith QArith Qreals List Reals Lia Lra Bool Arith SpecFloat.
From Verif Require Import Base Ext Float64 M_Tableau M_Tableaux M_TableauxInit M_State M_ODE M_Step M_Integrator
  SpecRK SpecShape SpecRun SpecRevolve SpecTree SpecOrder SpecNodes SpecConvergence SpecSmooth SpecLocal SpecFloating
  L_Order L_RunProps L_Floating5 WitnessFloating.
Import ListNotations.
Open Scope nat_scope.
Open Scope R_scope.

(** ** C80: rounding errors *)
(** Binary floating point numbers are such an arithmetic, with the relative
    error 2^-prec as long as no result exceeds 2^(emax-1); binary64 is the
    format with 53 digits. *)
Theorem C80_binary : (forall prec emax, (2 <= prec < emax)%Z ->
    rounded (binary prec emax) float_value (float_finite prec emax) (powerRZ 2 (- prec)) (powerRZ 2 (emax - 1))) /\
  binary 53 1024 = F64.
Proof. exact (conj binary_rounded binary64). Qed.
Print Assumptions C80_binary.
Example C80_binary_met : (2 <= 53 < 1024)%Z.
Proof. lia. Qed.

Theorem C80_any_steps : forall n p f X L rho t0 t1 Y s a b c eps nu,
  (0 < p)%nat -> 0 <= L -> lipschitz_in n X L f -> 0 < rho <= 1 -> t0 <= t1 -> solution n f t0 t1 Y ->
  (forall t, t0 <= t <= t1 -> inside n X (3 * rho) t (Y t)) -> smooth_close rho n p f t0 t1 Y ->
  order_conditions s a b p eps -> row_conditions s a c nu -> 0 <= nu -> (forall i j, (i < j < s)%nat -> a i j = 0) ->
  exists K H, 1 <= K /\ 0 < H /\
  forall T (N : Num T) value regular u big, rounded N value regular u big -> 0 <= u -> K <= big ->
  forall A (op : options T A) x w i w' out d dl, tableau_wf (o_bt op) ->
  holds_values value regular dl (o_bt op) s a b c -> 0 <= dl -> u + dl <= 1 ->
  state_size (o_ode op) = n -> sized_ode (o_ode op) -> loops op -> reachable op x w ->
  inputs_sized (o_ode op) i -> Forall regular (initial i) -> regular (time_initial i) -> value (time_initial i) = t0 ->
  0 <= d -> within n d (map value (initial i)) (Y t0) ->
  compute op i w = (w', Ok out) ->
  exists st l, starts_at op i st /\ trajectory op st l /\ stops op st l /\
    log w' = (log w ++ bracketed Compute (length (o_callbacks op Compute)) 1 st l)%list /\
    (o_adaptive op = false -> Forall (fun x => step_size (disc x) = o_step op) l) /\
    let t := t0 + covered (map (fun x => value (step_size (disc x))) l) in
    forall hmin hmax tol,
    Forall (fun x => regular (step_size (disc x)) /\ hmin <= value (step_size (disc x)) <= hmax) l ->
    0 < hmin <= hmax -> hmax <= H -> t <= t1 -> 0 <= tol ->
    (forall k, (k < s)%nat ->
       nearly_solves_rounded value regular (o_ode op) n f (independent i) X rho hmax tol (entry (t_A (o_bt op)) k k)) ->
    K * (d + hmax ^ p + nu + eps + tol + (u + dl) / hmin) <= rho ->
    Forall regular (final out) /\ regular (time_final out) /\
    Rabs (value (time_final out) - t) <= K * ((u + dl) / hmin) /\
    within n (K * (d + hmax ^ p + nu + eps + tol + (u + dl) / hmin)) (map value (final out)) (Y t).
Proof. exact rounded_calls. Qed.
Print Assumptions C80_any_steps.

Theorem C80_fixed_steps : forall n p f X L rho t0 t1 Y s a b c eps nu,
  (0 < p)%nat -> 0 <= L -> lipschitz_in n X L f -> 0 < rho <= 1 -> t0 <= t1 -> solution n f t0 t1 Y ->
  (forall t, t0 <= t <= t1 -> inside n X (3 * rho) t (Y t)) -> smooth_close rho n p f t0 t1 Y ->
  order_conditions s a b p eps -> row_conditions s a c nu -> 0 <= nu -> (forall i j, (i < j < s)%nat -> a i j = 0) ->
  exists K H, 1 <= K /\ 0 < H /\
  forall T (N : Num T) value regular u big, rounded N value regular u big -> 0 <= u -> K <= big ->
  forall A (op : options T A) x w i w' out d dl M tol, tableau_wf (o_bt op) ->
  holds_values value regular dl (o_bt op) s a b c -> 0 <= dl -> u + dl <= 1 ->
  state_size (o_ode op) = n -> sized_ode (o_ode op) -> loops op -> reachable op x w ->
  o_adaptive op = false -> o_crit op = PredefinedNumberOfSteps M ->
  let h := value (o_step op) in
  regular (o_step op) -> 0 < h <= H -> t0 + INR M * h <= t1 ->
  inputs_sized (o_ode op) i -> Forall regular (initial i) -> regular (time_initial i) -> value (time_initial i) = t0 ->
  0 <= d -> within n d (map value (initial i)) (Y t0) -> 0 <= tol ->
  (forall k, (k < s)%nat ->
     nearly_solves_rounded value regular (o_ode op) n f (independent i) X rho h tol (entry (t_A (o_bt op)) k k)) ->
  K * (d + h ^ p + nu + eps + tol + (u + dl) / h) <= rho ->
  compute op i w = (w', Ok out) ->
  Forall regular (final out) /\ regular (time_final out) /\
  Rabs (value (time_final out) - (t0 + INR M * h)) <= K * ((u + dl) / h) /\
  within n (K * (d + h ^ p + nu + eps + tol + (u + dl) / h)) (map value (final out)) (Y (t0 + INR M * h)).
Proof. exact rounded_fixed. Qed.
Print Assumptions C80_fixed_steps.

Theorem C80_shipped : forall x e eh nu (bt : tableau R) n f X L rho t0 t1 Y,
  In (x, (e, eh)) precision -> In (x, nu) node_precision -> shipped_init x = Ok (bt, []) ->
  0 <= L -> lipschitz_in n X L f -> 0 < rho <= 1 -> t0 <= t1 -> solution n f t0 t1 Y ->
  (forall t, t0 <= t <= t1 -> inside n X (3 * rho) t (Y t)) -> smooth_close rho n (s_p x) f t0 t1 Y ->
  exists K H, 1 <= K /\ 0 < H /\
  forall prec emax, (2 <= prec < emax)%Z -> K <= powerRZ 2 (emax - 1) ->
  let N := binary prec emax in let value := float_value in let regular := float_finite prec emax in let u := powerRZ 2 (- prec) in
  forall A (op : options spec_float A) z w i w' out d dl M tol, tableau_wf (o_bt op) ->
  holds_values value regular dl (o_bt op) (t_stages bt) (entry (t_A bt)) (fun k => vnth k (t_b bt)) (fun k => vnth k (t_c bt)) ->
  0 <= dl -> u + dl <= 1 ->
  state_size (o_ode op) = n -> sized_ode (o_ode op) -> loops op -> reachable op z w ->
  o_adaptive op = false -> o_crit op = PredefinedNumberOfSteps M ->
  let h := value (o_step op) in
  regular (o_step op) -> 0 < h <= H -> t0 + INR M * h <= t1 ->
  inputs_sized (o_ode op) i -> Forall regular (initial i) -> regular (time_initial i) -> value (time_initial i) = t0 ->
  0 <= d -> within n d (map value (initial i)) (Y t0) -> 0 <= tol ->
  (forall k, (k < t_stages bt)%nat ->
     nearly_solves_rounded value regular (o_ode op) n f (independent i) X rho h tol (entry (t_A (o_bt op)) k k)) ->
  K * (d + h ^ s_p x + Q2R nu + Q2R e + tol + (u + dl) / h) <= rho ->
  compute op i w = (w', Ok out) ->
  Forall regular (final out) /\ regular (time_final out) /\
  Rabs (value (time_final out) - (t0 + INR M * h)) <= K * ((u + dl) / h) /\
  within n (K * (d + h ^ s_p x + Q2R nu + Q2R e + tol + (u + dl) / h)) (map value (final out)) (Y (t0 + INR M * h)).
Proof. exact rounded_shipped. Qed.
Print Assumptions C80_shipped.

(** y' = -y with Heun's method: for any [K] and [H] there are a format, a step
    size and rounded coefficients for which everything asked for holds and the
    call returns. *)
Example C80_hypotheses_met : In (embedded_heun_euler, (0%Q, 0%Q)) precision /\ In (embedded_heun_euler, 0%Q) node_precision /\
  lipschitz_in 1 decay_box 1 decay /\ solution 1 decay 0 1 decay_exact /\
  (forall t, 0 <= t <= 1 -> inside 1 decay_box (3 * (1 / 3)) t (decay_exact t)) /\
  smooth_close (1 / 3) 1 2 decay 0 1 decay_exact /\
  exists bt, shipped_init embedded_heun_euler = Ok (bt, []) /\ is_implicit bt = false /\
  forall K H, 1 <= K -> 0 < H ->
  exists prec emax, (2 <= prec < emax)%Z /\ K <= powerRZ 2 (emax - 1) /\
  let N := binary prec emax in let value := float_value in let regular := float_finite prec emax in let u := powerRZ 2 (- prec) in
  exists (op : options spec_float Datatypes.unit) i w' out d dl M tol, tableau_wf (o_bt op) /\
  holds_values value regular dl (o_bt op) (t_stages bt) (entry (t_A bt)) (fun k => vnth k (t_b bt)) (fun k => vnth k (t_c bt)) /\
  0 <= dl /\ u + dl <= 1 /\
  state_size (o_ode op) = 1%nat /\ sized_ode (o_ode op) /\ loops op /\ reachable op tt (setup op tt) /\
  o_adaptive op = false /\ o_crit op = PredefinedNumberOfSteps M /\ (0 < M)%nat /\
  let h := value (o_step op) in
  regular (o_step op) /\ 0 < h <= H /\ 0 + INR M * h <= 1 /\
  inputs_sized (o_ode op) i /\ Forall regular (initial i) /\ regular (time_initial i) /\ value (time_initial i) = 0 /\
  0 <= d /\ within 1 d (map value (initial i)) (decay_exact 0) /\ 0 <= tol /\
  (forall k, (k < t_stages bt)%nat ->
     nearly_solves_rounded value regular (o_ode op) 1 decay (independent i) decay_box (1 / 3) h tol (entry (t_A (o_bt op)) k k)) /\
  K * (d + h ^ s_p embedded_heun_euler + Q2R 0 + Q2R 0 + tol + (u + dl) / h) <= 1 / 3 /\
  compute op i (setup op tt) = (w', Ok out).
Proof.
  assert (P : In (embedded_heun_euler, (0%Q, 0%Q)) precision) by (apply (nth_error_In _ 6); reflexivity).
  split; [exact P|]; split; [apply (nth_error_In _ 6); reflexivity|].
  split; [exact decay_lipschitz|]; split; [exact decay_solution|]; split; [exact decay_inside|]; split; [apply decay_smooth|].
  destruct (shipped_constructed _ _ _ P) as (bt & E & W & Hst & Im & _ & _ & EA & Eb & Ec & _).
  exists bt; split; [exact E|]; split; [exact Im|]; intros K H HK HH.
  destruct (fine_format K H HK HH) as (prec & emax & e & M & Hf' & HB & Hu & F1 & F2 & F3 & F4 & F5).
  assert (Hf : (2 <= prec < emax)%Z) by lia.
  exists prec, emax; split; [exact Hf|]; split; [lra|]; intros N value regular u.
  destruct (fop_returns prec emax (fl prec emax 1 e) M) as (w' & out & Ec').
  pose proof (u_small prec emax Hf) as U.
  exists (fop prec emax (fl prec emax 1 e) M), (fin prec emax), w', out, (2 * u), (2 * u), M, (13 * u).
  split; [apply fheun_wf|]; split; [apply fheun_values; assumption|].
  split; [unfold u; lra|]; split; [unfold u; lra|].
  split; [reflexivity|]; split; [apply fdecay_sized|]; split; [exact I|]; split; [exists []; split; [constructor|reflexivity]|].
  split; [reflexivity|]; split; [reflexivity|]; split; [exact F3|]; intros h.
  split; [exact F1|]; split; [exact F2|]; split; [exact F4|]; split; [split; reflexivity|].
  destruct (one_near prec emax Hf) as [O1 O2].
  split; [constructor; [exact O1|constructor]|]; split; [exact I|]; split; [reflexivity|]; split; [unfold u; lra|].
  split.
  { intros m Hm; destruct m as [|m]; [|lia]; unfold decay_exact, vnth; cbn [nth map fin initial]; rewrite Ropp_0, exp_0; exact O2. }
  split; [unfold u; lra|]; split; [|split; [|exact Ec']].
  2:{ eapply Rle_trans; [|exact F5]; apply Rmult_le_compat_l; [lra|]; apply Rplus_le_compat_l; unfold Rdiv; apply Rmult_le_compat_r; [left; apply Rinv_0_lt_compat; apply F2|unfold u; lra]. }
  intros k Hk; apply fdecay_solves; [exact Hf| |lra].
  assert (S : t_stages bt = 2%nat) by (rewrite <- (tw_b _ W), Eb; reflexivity); rewrite S in Hk.
  destruct k as [|[|]]; [reflexivity|reflexivity|lia].
Qed.
