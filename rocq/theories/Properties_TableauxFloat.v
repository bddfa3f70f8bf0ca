(** The shipped tableaux as they are computed in floating point. *)
From Coq Require Import String.
From Coq Require Import ZArith QArith Qreals List Reals Lia Lra Bool Arith SpecFloat.
From Verif Require Import Base Ext M_Tableau M_Tableaux M_TableauxInit M_TableauxFloat M_State M_ODE M_Step M_Integrator
  SpecRK SpecShape SpecRun SpecRevolve SpecTree SpecOrder SpecNodes SpecConvergence SpecSmooth SpecLocal SpecFloating SpecTableauxFloat
  L_Order L_RunProps L_Float L_FloatOps L_TableauxFloat2 WitnessFloating WitnessTableauxFloat.
Import ListNotations.
Open Scope nat_scope.
Open Scope R_scope.

(** ** C81: the shipped tableaux in floating point *)
(** In every format with at least 53 digits the constructors succeed without
    warnings, and all coefficients are close to the exact ones. *)
Theorem C81_coefficients : map fst float_precision = all_tableaux /\
  forall prec emax pow x k e eh, (53 <= prec < emax)%Z -> faithful_power prec emax pow -> In (x, (k, (e, eh))) float_precision ->
  let N := binary prec emax in let fin := float_finite prec emax in let dl := IZR (Zpos k) * powerRZ 2 (- prec) in
  exists bt bf, shipped_init x = Ok (bt, []) /\ shipped_init_float prec emax pow x = Ok (bf, []) /\
    tableau_wf bf /\
    holds_values float_value fin dl bf (t_stages bt) (entry (t_A bt)) (fun i => vnth i (t_b bt)) (fun i => vnth i (t_c bt)) /\
    t_p bf = t_p bt /\ t_name bf = t_name bt /\
    is_explicit bf = is_explicit bt /\ is_diagonally_implicit bf = is_diagonally_implicit bt /\ is_implicit bf = is_implicit bt /\
    match t_hat bt, t_hat bf with
    | None, None => True
    | Some (h, p), Some (hf, pf) => pf = p /\
        forall i, (i < t_stages bt)%nat -> fin (nth i hf n0) /\ Rabs (float_value (nth i hf n0) - vnth i h) <= dl
    | _, _ => False
    end.
Proof. exact (conj float_complete float_coefficients). Qed.
Print Assumptions C81_coefficients.

(** The computed coefficients have the claimed orders and no higher ones. *)
Theorem C81_order : forall prec emax pow x k e eh, (53 <= prec < emax)%Z -> faithful_power prec emax pow ->
  In (x, (k, (e, eh))) float_precision -> let N := binary prec emax in
  exists bf, shipped_init_float prec emax pow x = Ok (bf, []) /\ t_p bf = Some (s_p x) /\
    computed_order bf (t_b bf) (s_p x) (Q2R (roundings e)) /\
    (forall bh ph, s_hat x = Some (bh, ph) ->
       exists hf, t_hat bf = Some (hf, Some ph) /\ computed_order bf hf ph (Q2R (roundings eh))).
Proof. exact float_order. Qed.
Print Assumptions C81_order.

(** A power function as asked for exists, and binary64 is such a format. *)
Example C81_hypotheses_met : (53 <= 53 < 1024)%Z /\ faithful_power 53 1024 (rounded_power 53 1024) /\
  exists x q, In (x, q) float_precision /\ s_hat x <> None.
Proof.
  split; [lia|]; split; [apply rounded_power_faithful; lia|].
  eexists; eexists; split; [apply (nth_error_In _ 23); reflexivity|discriminate].
Qed.

(** Runs with the shipped tableaux in floating point. *)
Theorem C81_runs : forall x k e eh q qh nu (bt : tableau R) n f X L rho t0 t1 Y,
  In (x, (k, (q, qh))) float_precision -> In (x, (e, eh)) precision -> In (x, nu) node_precision -> shipped_init x = Ok (bt, []) ->
  0 <= L -> lipschitz_in n X L f -> 0 < rho <= 1 -> t0 <= t1 -> solution n f t0 t1 Y ->
  (forall t, t0 <= t <= t1 -> inside n X (3 * rho) t (Y t)) -> smooth_close rho n (s_p x) f t0 t1 Y ->
  exists K H, 1 <= K /\ 0 < H /\
  forall prec emax pow, (53 <= prec < emax)%Z -> K <= powerRZ 2 (emax - 1) -> faithful_power prec emax pow ->
  let N := binary prec emax in let value := float_value in let regular := float_finite prec emax in let u := powerRZ 2 (- prec) in
  forall A (op : options spec_float A) z w i w' out d M tol,
  shipped_init_float prec emax pow x = Ok (o_bt op, []) ->
  state_size (o_ode op) = n -> sized_ode (o_ode op) -> loops op -> reachable op z w ->
  o_adaptive op = false -> o_crit op = PredefinedNumberOfSteps M ->
  let h := value (o_step op) in
  regular (o_step op) -> 0 < h <= H -> t0 + INR M * h <= t1 ->
  inputs_sized (o_ode op) i -> Forall regular (initial i) -> regular (time_initial i) -> value (time_initial i) = t0 ->
  0 <= d -> within n d (map value (initial i)) (Y t0) -> 0 <= tol ->
  (forall j, (j < t_stages bt)%nat ->
     nearly_solves_rounded value regular (o_ode op) n f (independent i) X rho h tol (entry (t_A (o_bt op)) j j)) ->
  K * (d + h ^ s_p x + Q2R nu + Q2R e + tol + (1 + IZR (Zpos k)) * u / h) <= rho ->
  compute op i w = (w', Ok out) ->
  Forall regular (final out) /\ regular (time_final out) /\
  Rabs (value (time_final out) - (t0 + INR M * h)) <= K * ((1 + IZR (Zpos k)) * u / h) /\
  within n (K * (d + h ^ s_p x + Q2R nu + Q2R e + tol + (1 + IZR (Zpos k)) * u / h)) (map value (final out)) (Y (t0 + INR M * h)).
Proof. exact float_runs. Qed.
Print Assumptions C81_runs.

(** y' = -y with Heun's method, as in C80. *)
Example C81_runs_met : In (embedded_heun_euler, (3%positive, (6%positive, 5%positive))) float_precision /\
  In (embedded_heun_euler, (0%Q, 0%Q)) precision /\ In (embedded_heun_euler, 0%Q) node_precision /\
  lipschitz_in 1 decay_box 1 decay /\ solution 1 decay 0 1 decay_exact /\
  (forall t, 0 <= t <= 1 -> inside 1 decay_box (3 * (1 / 3)) t (decay_exact t)) /\
  smooth_close (1 / 3) 1 2 decay 0 1 decay_exact /\
  exists bt, shipped_init embedded_heun_euler = Ok (bt, []) /\
  forall K H, 1 <= K -> 0 < H ->
  exists prec emax pow, (53 <= prec < emax)%Z /\ K <= powerRZ 2 (emax - 1) /\ faithful_power prec emax pow /\
  let N := binary prec emax in let value := float_value in let regular := float_finite prec emax in let u := powerRZ 2 (- prec) in
  exists (op : options spec_float Datatypes.unit) i w' out d M tol,
  shipped_init_float prec emax pow embedded_heun_euler = Ok (o_bt op, []) /\
  state_size (o_ode op) = 1%nat /\ sized_ode (o_ode op) /\ loops op /\ reachable op tt (setup op tt) /\
  o_adaptive op = false /\ o_crit op = PredefinedNumberOfSteps M /\ (0 < M)%nat /\
  let h := value (o_step op) in
  regular (o_step op) /\ 0 < h <= H /\ 0 + INR M * h <= 1 /\
  inputs_sized (o_ode op) i /\ Forall regular (initial i) /\ regular (time_initial i) /\ value (time_initial i) = 0 /\
  0 <= d /\ within 1 d (map value (initial i)) (decay_exact 0) /\ 0 <= tol /\
  (forall j, (j < t_stages bt)%nat ->
     nearly_solves_rounded value regular (o_ode op) 1 decay (independent i) decay_box (1 / 3) h tol (entry (t_A (o_bt op)) j j)) /\
  K * (d + h ^ s_p embedded_heun_euler + Q2R 0 + Q2R 0 + tol + (1 + IZR 3) * u / h) <= 1 / 3 /\
  compute op i (setup op tt) = (w', Ok out).
Proof.
  assert (P : In (embedded_heun_euler, (3%positive, (6%positive, 5%positive))) float_precision) by (apply (nth_error_In _ 6); reflexivity).
  assert (P' : In (embedded_heun_euler, (0%Q, 0%Q)) precision) by (apply (nth_error_In _ 6); reflexivity).
  split; [exact P|]; split; [exact P'|]; split; [apply (nth_error_In _ 6); reflexivity|].
  split; [exact decay_lipschitz|]; split; [exact decay_solution|]; split; [exact decay_inside|]; split; [apply decay_smooth|].
  destruct (shipped_constructed _ _ _ P') as (bt & E & W & Hst & _ & _ & _ & EA & Eb & _).
  exists bt; split; [exact E|]; intros K H HK HH.
  destruct (fine_format K H HK HH) as (prec & emax & e & M & Hf & HB & Hu & F1 & F2 & F3 & F4 & F5).
  assert (Hf2 : (2 <= prec < emax)%Z) by lia.
  pose proof (rounded_power_faithful prec emax Hf2) as HP.
  exists prec, emax, (rounded_power prec emax); split; [exact Hf|]; split; [lra|]; split; [exact HP|]; intros N value regular u.
  destruct (float_tableaux prec emax _ _ _ _ _ Hf HP P) as (bt' & bf & E1 & E2 & Wf & HV & _ & _ & Ex & _).
  rewrite E in E1; injection E1 as <-.
  assert (Sf : t_stages bf = t_stages bt) by exact (hv_stages _ _ _ _ _ _ _ _ HV).
  destruct (sop_returns prec emax bf (fl prec emax 1 e) M ltac:(lia)) as (w' & out & Ec').
  pose proof (u_small prec emax Hf2) as U.
  exists (sop prec emax bf (fl prec emax 1 e) M), (fin prec emax), w', out, (2 * u), M, (13 * u).
  split; [exact E2|].
  split; [reflexivity|]; split; [apply fdecay_sized|]; split; [exact I|]; split; [exists []; split; [constructor|reflexivity]|].
  split; [reflexivity|]; split; [reflexivity|]; split; [exact F3|]; intros h.
  split; [exact F1|]; split; [exact F2|]; split; [exact F4|]; split; [split; reflexivity|].
  destruct (one_near prec emax Hf2) as [O1 O2].
  split; [constructor; [exact O1|constructor]|]; split; [exact I|]; split; [reflexivity|]; split; [unfold u; lra|].
  split.
  { intros m Hm; destruct m as [|m]; [|lia]; unfold decay_exact, vnth; cbn [nth map fin initial]; rewrite Ropp_0, exp_0; exact O2. }
  split; [unfold u; lra|]; split; [|split; [|exact Ec']].
  - intros j Hj; apply fdecay_solves; [exact Hf2| |lra].
    apply explicit_diagonal; [exact Wf| |cbn; lia|].
    + refine (eq_trans Ex _). unfold is_explicit. rewrite EA. rewrite <- (tw_b _ W), Eb. cbn.
      repeat (rewrite (proj2 (L_Step.Reqb_true _ _)) by (unfold Q2R; cbn; lra)). reflexivity.
    + apply (hv_A _ _ _ _ _ _ _ _ HV j j); assumption.
  - replace ((1 + 3) * u / h) with ((u + 3 * u) / h) by (unfold Rdiv; ring). exact F5.
Qed.
