(** Convergence where the right hand side is smooth only near the solution and
    stages are solved up to a tolerance, and Kaps' problem with the solvers of
    OpenMDAO. *)
From Coq Require Import String.
From Coq Require Import List Bool Arith Reals Lia Lra QArith Qreals.
From Verif Require Import Base Ext M_Tableau M_Tableaux M_TableauxInit M_State M_ODE M_Step M_Integrator M_Metadata M_Components
  SpecRK SpecShape SpecRun SpecTree SpecOrder SpecNodes SpecConvergence SpecSmooth SpecLocal SpecTotal M_Packing SpecPacking M_Component SpecComponent
  SpecStage M_Kaps SpecKaps L_Order L_RunProps L_RunOrder L_Component3 L_Local3 L_Kaps L_Kaps2 L_Kaps3 L_Kaps4 L_Kaps8
  WitnessRun WitnessOrder WitnessStage WitnessKaps WitnessKaps2.
Import ListNotations.
Local Open Scope string_scope.
Open Scope nat_scope.
Open Scope R_scope.
Local Open Scope list_scope.

(** ** C75: the order of the scheme near the solution, with inexact stage solves *)
Theorem C75_any_steps : forall (bt : tableau R) n f X p eps nu L rho t0 t1 (xi : list R) Y,
  tableau_wf bt -> is_implicit bt = false -> (0 < p)%nat ->
  order_conditions (t_stages bt) (entry (t_A bt)) (fun k => vnth k (t_b bt)) p eps ->
  0 <= nu -> row_conditions (t_stages bt) (entry (t_A bt)) (fun k => vnth k (t_c bt)) nu ->
  0 <= L -> lipschitz_in n X L f -> 0 < rho <= 1 -> t0 <= t1 -> solution n f t0 t1 Y ->
  (forall t, t0 <= t <= t1 -> inside n X (3 * rho) t (Y t)) -> smooth_close rho n p f t0 t1 Y ->
  exists K H, 1 <= K /\ 0 < H /\
  forall C (op : options R C) c w i w' out d, o_bt op = bt -> state_size (o_ode op) = n -> sized_ode (o_ode op) ->
  loops op -> reachable op c w ->
  inputs_sized (o_ode op) i -> independent i = xi -> time_initial i = t0 ->
  0 <= d -> within n d (initial i) (Y t0) ->
  compute op i w = (w', Ok out) -> time_final out <= t1 ->
  exists a l, starts_at op i a /\ trajectory op a l /\
    log w' = (log w ++ bracketed Compute (length (o_callbacks op Compute)) 1 a l)%list /\
    forall hm tol, Forall (fun x => 0 < step_size (disc x) <= hm) l -> 0 <= hm <= H -> 0 <= tol ->
    (forall k, (k < t_stages bt)%nat -> nearly_solves (o_ode op) n f xi X rho hm tol (entry (t_A bt) k k)) ->
    K * (d + hm ^ p + nu + eps + tol) <= rho ->
    within n (K * (d + hm ^ p + nu + eps + tol)) (final out) (Y (time_final out)).
Proof. exact local_order. Qed.
Print Assumptions C75_any_steps.

Theorem C75_fixed_steps : forall (bt : tableau R) n f X p eps nu L rho t0 t1 (xi : list R) Y,
  tableau_wf bt -> is_implicit bt = false -> (0 < p)%nat ->
  order_conditions (t_stages bt) (entry (t_A bt)) (fun k => vnth k (t_b bt)) p eps ->
  0 <= nu -> row_conditions (t_stages bt) (entry (t_A bt)) (fun k => vnth k (t_c bt)) nu ->
  0 <= L -> lipschitz_in n X L f -> 0 < rho <= 1 -> t0 <= t1 -> solution n f t0 t1 Y ->
  (forall t, t0 <= t <= t1 -> inside n X (3 * rho) t (Y t)) -> smooth_close rho n p f t0 t1 Y ->
  t0 < t1 ->
  exists K H, 1 <= K /\ 0 < H /\
  forall C (op : options R C) c w i w' out N tol, o_bt op = bt -> state_size (o_ode op) = n -> sized_ode (o_ode op) ->
  o_adaptive op = false -> loops op ->
  (0 < N)%nat -> o_crit op = PredefinedNumberOfSteps N -> o_step op = (t1 - t0) / INR N -> o_step op <= H ->
  reachable op c w -> inputs_sized (o_ode op) i -> independent i = xi -> time_initial i = t0 -> initial i = Y t0 ->
  0 <= tol -> (forall k, (k < t_stages bt)%nat -> nearly_solves (o_ode op) n f xi X rho (o_step op) tol (entry (t_A bt) k k)) ->
  K * (o_step op ^ p + nu + eps + tol) <= rho ->
  compute op i w = (w', Ok out) ->
  time_final out = t1 /\ within n (K * (o_step op ^ p + nu + eps + tol)) (final out) (Y t1).
Proof. exact local_fixed. Qed.
Print Assumptions C75_fixed_steps.

Theorem C75_shipped : forall x e eh nu (bt : tableau R) n f X L rho t0 t1 (xi : list R) Y,
  In (x, (e, eh)) precision -> In (x, nu) node_precision -> shipped_init x = Ok (bt, []) ->
  0 <= L -> lipschitz_in n X L f -> 0 < rho <= 1 -> t0 < t1 -> solution n f t0 t1 Y ->
  (forall t, t0 <= t <= t1 -> inside n X (3 * rho) t (Y t)) ->
  smooth_close rho n (s_p x) f t0 t1 Y ->
  exists K H, 1 <= K /\ 0 < H /\
  forall C (op : options R C) c w i w' out N tol, o_bt op = bt -> state_size (o_ode op) = n -> sized_ode (o_ode op) ->
  o_adaptive op = false -> loops op ->
  (0 < N)%nat -> o_crit op = PredefinedNumberOfSteps N -> o_step op = (t1 - t0) / INR N -> o_step op <= H ->
  reachable op c w -> inputs_sized (o_ode op) i -> independent i = xi -> time_initial i = t0 -> initial i = Y t0 ->
  0 <= tol -> (forall k, (k < t_stages bt)%nat -> nearly_solves (o_ode op) n f xi X rho (o_step op) tol (entry (t_A bt) k k)) ->
  K * (o_step op ^ s_p x + Q2R nu + Q2R e + tol) <= rho ->
  compute op i w = (w', Ok out) ->
  time_final out = t1 /\ within n (K * (o_step op ^ s_p x + Q2R nu + Q2R e + tol)) (final out) (Y t1).
Proof. exact shipped_local. Qed.
Print Assumptions C75_shipped.

(** Kaps' problem, the classical method, and a nonlinear solver that leaves an
    error: for any [K] and [H] there are steps and an error for which everything
    asked for holds and the call returns. *)
Example C75_hypotheses_met : forall eps t1, 0 < eps -> 0 < t1 ->
  0 <= (5 + 2 * eps) / eps + 6 /\ lipschitz_in 2 (kaps_box t1) ((5 + 2 * eps) / eps + 6) (kaps_rhs eps) /\
  solution 2 (kaps_rhs eps) 0 t1 kaps_exact /\
  (forall t, 0 <= t <= t1 -> inside 2 (kaps_box t1) (3 * (1 / 3)) t (kaps_exact t)) /\
  smooth_close (1 / 3) 2 4 (kaps_rhs eps) 0 t1 kaps_exact /\
  exists bt, shipped_init runge_kutta_four = Ok (bt, []) /\ tableau_wf bt /\ is_implicit bt = false /\
    order_conditions (t_stages bt) (entry (t_A bt)) (fun k => vnth k (t_b bt)) 4 (Q2R 0) /\
    row_conditions (t_stages bt) (entry (t_A bt)) (fun k => vnth k (t_c bt)) (Q2R 0) /\
    forall K H, 1 <= K -> 0 < H -> exists N tol (op : options R Datatypes.unit) w' out, o_bt op = bt /\
      state_size (o_ode op) = 2%nat /\ sized_ode (o_ode op) /\ o_adaptive op = false /\ loops op /\
      (0 < N)%nat /\ o_crit op = PredefinedNumberOfSteps N /\ o_step op = (t1 - 0) / INR N /\ o_step op <= H /\ 0 < tol /\
      reachable op tt (setup op tt) /\ inputs_sized (o_ode op) {| time_initial := 0; initial := kaps_exact 0; independent := [] |} /\
      (forall k, (k < t_stages bt)%nat -> nearly_solves (o_ode op) 2 (kaps_rhs eps) [] (kaps_box t1) (1 / 3) (o_step op) tol (entry (t_A bt) k k)) /\
      K * (o_step op ^ 4 + Q2R 0 + Q2R 0 + tol) <= 1 / 3 /\
      compute op {| time_initial := 0; initial := kaps_exact 0; independent := [] |} (setup op tt) = (w', Ok out).
Proof.
  intros eps t1 He Ht. split; [apply L_pos, He|]. split; [now apply kaps_lipschitz|]. split; [now apply kaps_solution_exact|].
  split; [apply kaps_inside|]. split; [now apply kaps_smooth|].
  destruct rk4_amplification as (bt & E & W & P & I & D & _). exists bt. split; [exact E|]. split; [exact W|]. split; [exact I|].
  destruct (shipped_facts _ _ _ _ bt rk4_precise rk4_nodes_precise E) as (_ & _ & _ & O & Ro & _). split; [exact O|]. split; [exact Ro|].
  intros K H HK HH. pose proof (kaps_C_pos eps He) as HC. set (c := kaps_C eps) in *.
  destruct (fine_steps t1 (3 * K) H Ht ltac:(lra) HH) as (N & N0 & NH & NK).
  assert (Q : 0 < 12 * K * c * (1 + eps)) by (repeat apply Rmult_lt_0_compat; lra).
  set (dl := / (12 * K * c * (1 + eps))). assert (D0 : 0 < dl) by (now apply Rinv_0_lt_compat).
  assert (Tl : (1 + eps) * Rabs dl = / (12 * K * c)) by (rewrite Rabs_pos_eq by lra; unfold dl; field; lra).
  set (op := kaps_study eps dl bt (t1 / INR N) N).
  destruct (study_size eps dl (t1 / INR N) bt N) as (S1 & S2 & S3).
  destruct (study_computes eps dl (t1 / INR N) bt N He P D tt (setup op tt) 0 1 1) as (w' & out & Ec); [apply study_in_use|].
  assert (X0 : kaps_exact 0 = [1; 1]) by (unfold kaps_exact; rewrite Rmult_0_r, Ropp_0, exp_0; reflexivity).
  exists N, (c * ((1 + eps) * Rabs dl)), op, w', out. rewrite X0, !RMicromega.Q2R_0.
  split; [reflexivity|]. split; [exact S1|]. split; [exact S3|]. split; [reflexivity|].
  split; [apply study_loops|]. split; [exact N0|]. split; [reflexivity|]. split; [change (o_step op) with (t1 / INR N); now rewrite Rminus_0_r|].
  split; [exact NH|]. rewrite Tl. split; [apply Rmult_lt_0_compat; [lra|apply Rinv_0_lt_compat]; nra|].
  split; [exists []; split; [constructor|reflexivity]|]. split; [split; reflexivity|].
  split; [|split; [|exact Ec]].
  - intros k Hk. rewrite D by exact Hk. apply kaps_nearly with (M := large eps dl); auto.
    + rewrite <- Tl. now apply direct_converged.
    + now apply direct_moderate.
    + split; [left; apply Rinv_0_lt_compat; nra|]. rewrite <- Rinv_1. apply Rinv_le_contravar; nra.
    + rewrite Rabs_R0, Rmult_0_l, Rmult_0_r. lra.
  - change (o_step op) with (t1 / INR N).
    set (r := (t1 / INR N) ^ 4) in *.
    replace (K * (r + 0 + 0 + c * / (12 * K * c))) with (3 * K * r / 3 + 1 / 12) by (field; lra). lra.
Qed.

(** ** C76: runs with Kaps' problem converge to its solution *)
Theorem C76_fixed_steps : forall x e eh nu (bt : tableau R) md eps t1 M Hm,
  In (x, (e, eh)) precision -> In (x, nu) node_precision -> shipped_init x = Ok (bt, []) ->
  metadata_of 1 kaps_variables ["y_1"; "y_2"] [] = Ok [md] -> 0 < eps -> 0 < t1 -> 0 <= M -> 0 < Hm ->
  exists K H, 1 <= K /\ 0 < H /\
  forall newton kf kr v norm C (op : options R C) c w n tol w' vout outp, (0 < n)%nat -> t1 / INR n <= H ->
  fixed_steps op bt (openmdao_ode (kaps_problem eps newton kf kr) md (kaps_vectors v) norm) (t1 / INR n) n ->
  in_use op md kaps_io c w -> layout outp = snd kaps_io ->
  (forall k, (k < t_stages bt)%nat -> moderate Hm (entry (t_A bt) k k) M newton) -> 0 <= tol -> converged eps tol newton ->
  K * ((t1 / INR n) ^ s_p x + Q2R nu + Q2R e + tol) <= 1 ->
  component_compute op md (kaps_vec_in 0 1 1) outp w = (w', Ok vout) ->
  exists y1 y2, vout = kaps_vec_out t1 y1 y2 /\
    Rabs (y1 - exp (- 2 * t1)) <= K * ((t1 / INR n) ^ s_p x + Q2R nu + Q2R e + tol) /\
    Rabs (y2 - exp (- t1)) <= K * ((t1 / INR n) ^ s_p x + Q2R nu + Q2R e + tol).
Proof. exact c76_steps. Qed.
Print Assumptions C76_fixed_steps.

Theorem C76_any_steps : forall x e eh nu (bt : tableau R) md eps t1 M Hm,
  In (x, (e, eh)) precision -> In (x, nu) node_precision -> shipped_init x = Ok (bt, []) ->
  metadata_of 1 kaps_variables ["y_1"; "y_2"] [] = Ok [md] -> 0 < eps -> 0 < t1 -> 0 <= M -> 0 < Hm ->
  exists K H, 1 <= K /\ 0 < H /\
  forall newton kf kr v norm C (op : options R C) c w w' out,
  o_bt op = bt -> o_ode op = openmdao_ode (kaps_problem eps newton kf kr) md (kaps_vectors v) norm -> loops op ->
  reachable op c w ->
  (forall k, (k < t_stages bt)%nat -> moderate Hm (entry (t_A bt) k k) M newton) ->
  compute op {| time_initial := 0; initial := [1; 1]; independent := [] |} w = (w', Ok out) -> time_final out <= t1 ->
  exists a l, starts_at op {| time_initial := 0; initial := [1; 1]; independent := [] |} a /\ trajectory op a l /\
    log w' = (log w ++ bracketed Compute (length (o_callbacks op Compute)) 1 a l)%list /\
    forall hm tol, Forall (fun x => 0 < step_size (disc x) <= hm) l -> 0 <= hm <= H -> 0 <= tol -> converged eps tol newton ->
    K * (hm ^ s_p x + Q2R nu + Q2R e + tol) <= 1 ->
    within 2 (K * (hm ^ s_p x + Q2R nu + Q2R e + tol)) (final out) (kaps_exact (time_final out)).
Proof. exact c76_any_steps. Qed.
Print Assumptions C76_any_steps.

(** The classical method and a nonlinear solver that leaves an error; its updates
    are moderate for every stage factor. *)
Example C76_hypotheses_met : forall eps t1 Hm, 0 < eps -> 0 < t1 -> 0 < Hm ->
  metadata_of 1 kaps_variables ["y_1"; "y_2"] [] = Ok [kaps_md] /\ 0 <= large eps 1 /\
  (forall dl a, Rabs dl <= 1 -> moderate Hm a (large eps 1) (direct_newton eps dl)) /\
  (forall dl, converged eps ((1 + eps) * Rabs dl) (direct_newton eps dl)) /\
  exists bt, shipped_init runge_kutta_four = Ok (bt, []) /\
    forall K H, 1 <= K -> 0 < H -> exists n dl, (0 < n)%nat /\ t1 / INR n <= H /\ 0 < Rabs dl <= 1 /\
      K * ((t1 / INR n) ^ 4 + Q2R 0 + Q2R 0 + (1 + eps) * Rabs dl) <= 1 /\
      exists w' vout, in_use (kaps_study eps dl bt (t1 / INR n) n) kaps_md kaps_io tt (setup (kaps_study eps dl bt (t1 / INR n) n) tt) /\
        fixed_steps (kaps_study eps dl bt (t1 / INR n) n) bt
          (openmdao_ode (kaps_problem eps (direct_newton eps dl) (direct_fwd eps) (direct_rev eps)) kaps_md (kaps_vectors 1) (fun _ => 0)) (t1 / INR n) n /\
        component_compute (kaps_study eps dl bt (t1 / INR n) n) kaps_md (kaps_vec_in 0 1 1) (kaps_vec_out 0 0 0)
          (setup (kaps_study eps dl bt (t1 / INR n) n) tt) = (w', Ok vout).
Proof.
  intros eps t1 Hm He Ht HHm. assert (F0 : 0 <= (52 + 54 * eps) / eps) by (unfold Rdiv; apply Rmult_le_pos; [lra|left; now apply Rinv_0_lt_compat]).
  split; [exact kaps_metadata|]. split; [unfold large; rewrite Rabs_R1; lra|]. split; [|split].
  - intros dl a Hd h xs g z H1 H2 H3 H4 H5. destruct (direct_moderate eps dl He Hm a h xs g z H1 H2 H3 H4 H5).
    assert (large eps dl <= large eps 1) by (unfold large; rewrite Rabs_R1; lra). lra.
  - intros dl. now apply direct_converged.
  - destruct rk4_amplification as (bt & E & W & P & I & D & _). exists bt. split; [exact E|]. intros K H HK HH.
    destruct (fine_steps t1 K H Ht HK HH) as (n & N0 & NH & NK).
    assert (Q : 1 <= 2 * K * (1 + eps)) by nra.
    set (dl := / (2 * K * (1 + eps))). assert (D0 : 0 < dl) by (apply Rinv_0_lt_compat; lra).
    assert (D1 : dl <= 1) by (unfold dl; rewrite <- Rinv_1; apply Rinv_le_contravar; lra).
    exists n, dl. rewrite (Rabs_pos_eq dl), !RMicromega.Q2R_0 by lra. split; [exact N0|]. split; [exact NH|]. split; [lra|]. split.
    + set (r := (t1 / INR n) ^ 4) in *. replace (K * (r + 0 + 0 + (1 + eps) * dl)) with (K * r + 1 / 2) by (unfold dl; field; lra). lra.
    + destruct (study_compute eps dl (t1 / INR n) bt n He P D tt (setup (kaps_study eps dl bt (t1 / INR n) n) tt) 0 1 1 (kaps_vec_out 0 0 0)) as (w' & t' & z1 & z2 & Ec);
        [apply study_in_use|reflexivity|].
      exists w', (kaps_vec_out t' z1 z2). split; [apply study_in_use|]. split; [apply study_fixed|exact Ec].
Qed.

(** ** C77: derivatives of runs with Kaps' problem *)
Theorem C77_forward : forall C (op : options R C) md eps newton kf kr v norm n c w,
  metadata_of 1 kaps_variables ["y_1"; "y_2"] [] = Ok [md] -> 0 < eps ->
  o_ode op = openmdao_ode (kaps_problem eps newton kf kr) md (kaps_vectors v) norm ->
  tableau_wf (o_bt op) -> o_adaptive op = false -> o_crit op = PredefinedNumberOfSteps n -> loops op ->
  converged eps 0 newton -> follows_branch newton -> solves_group eps kf kr -> solves_regular eps kf ->
  in_use op md kaps_io c w ->
  forall (T A B T' A' B' : R -> R) dT dA dB dT' dA' dB' del w' w1 outp, 0 < del -> layout outp = snd kaps_io ->
  (forall e, Rabs e < del -> component_compute op md (kaps_vec_in (T e) (A e) (B e)) outp w = (w' e, Ok (kaps_vec_out (T' e) (A' e) (B' e)))) ->
  derivable_pt_lim T 0 dT -> derivable_pt_lim A 0 dA -> derivable_pt_lim B 0 dB ->
  component_fwd op md (kaps_vec_in (T 0) (A 0) (B 0)) (kaps_vec_in dT dA dB) (kaps_vec_out 0 0 0) w = (w1, Ok (kaps_vec_out dT' dA' dB')) ->
  derivable_pt_lim T' 0 dT' /\ derivable_pt_lim A' 0 dA' /\ derivable_pt_lim B' 0 dB'.
Proof. exact c77_forward. Qed.
Print Assumptions C77_forward.

Theorem C77_transposed : forall C (op : options R C) md eps newton kf kr v norm c w,
  metadata_of 1 kaps_variables ["y_1"; "y_2"] [] = Ok [md] ->
  o_ode op = openmdao_ode (kaps_problem eps newton kf kr) md (kaps_vectors v) norm ->
  tableau_wf (o_bt op) -> o_ckpt op = AllCheckpointer -> solves_group eps kf kr ->
  in_use op md kaps_io c w ->
  forall t y1 y2 dt d1 d2 dt' d1' d2' wt u1 u2 wt' u1' u2' outp va wa wb wc, layout outp = snd kaps_io ->
  component_fwd op md (kaps_vec_in t y1 y2) (kaps_vec_in dt d1 d2) (kaps_vec_out 0 0 0) w = (wa, Ok (kaps_vec_out dt' d1' d2')) ->
  component_compute op md (kaps_vec_in t y1 y2) outp w = (wb, Ok va) ->
  component_rev op md (kaps_vec_in t y1 y2) (kaps_vec_in 0 0 0) (kaps_vec_out wt u1 u2) wb = (wc, Ok (kaps_vec_in wt' u1' u2')) ->
  wt * dt' + u1 * d1' + u2 * d2' = wt' * dt + u1' * d1 + u2' * d2.
Proof. exact c77_transposed. Qed.
Print Assumptions C77_transposed.

(** The direct solvers without error: every call with the classical method
    returns, so all three products exist at every point. *)
Example C77_hypotheses_met : forall eps h n, 0 < eps ->
  metadata_of 1 kaps_variables ["y_1"; "y_2"] [] = Ok [kaps_md] /\
  converged eps 0 (direct_newton eps 0) /\ follows_branch (direct_newton eps 0) /\
  solves_group eps (direct_fwd eps) (direct_rev eps) /\ solves_regular eps (direct_fwd eps) /\
  exists bt, shipped_init runge_kutta_four = Ok (bt, []) /\ tableau_wf bt /\
    let op := kaps_study eps 0 bt h n in
    fixed_steps op bt (openmdao_ode (kaps_problem eps (direct_newton eps 0) (direct_fwd eps) (direct_rev eps)) kaps_md (kaps_vectors 1) (fun _ => 0)) h n /\
    o_ckpt op = AllCheckpointer /\ in_use op kaps_md kaps_io tt (setup op tt) /\
    forall t y1 y2, (exists wb va, component_compute op kaps_md (kaps_vec_in t y1 y2) (kaps_vec_out 0 0 0) (setup op tt) = (wb, Ok va) /\
        (exists t' z1 z2, va = kaps_vec_out t' z1 z2) /\
        forall wt u1 u2, exists wc wt' u1' u2', component_rev op kaps_md (kaps_vec_in t y1 y2) (kaps_vec_in 0 0 0) (kaps_vec_out wt u1 u2) wb
          = (wc, Ok (kaps_vec_in wt' u1' u2'))) /\
      forall dt d1 d2, exists wa dt' d1' d2', component_fwd op kaps_md (kaps_vec_in t y1 y2) (kaps_vec_in dt d1 d2) (kaps_vec_out 0 0 0) (setup op tt)
        = (wa, Ok (kaps_vec_out dt' d1' d2')).
Proof.
  intros eps h n He. split; [exact kaps_metadata|].
  split; [replace 0 with ((1 + eps) * Rabs 0) at 1 by (rewrite Rabs_R0; ring); now apply direct_converged|].
  split; [now apply direct_follows|]. split; [now apply direct_group|]. split; [now apply direct_regular|].
  destruct rk4_amplification as (bt & E & W & P & I & D & _). exists bt. split; [exact E|]. split; [exact W|]. intros op.
  split; [apply study_fixed|]. split; [reflexivity|]. assert (U : in_use op kaps_md kaps_io tt (setup op tt)) by apply study_in_use.
  split; [exact U|]. intros t y1 y2. split.
  - destruct (study_compute eps 0 h bt n He P D tt (setup op tt) t y1 y2 (kaps_vec_out 0 0 0) U eq_refl) as (wb & t' & z1 & z2 & Ec).
    exists wb, (kaps_vec_out t' z1 z2). split; [exact Ec|]. split; [eauto|]. intros wt u1 u2.
    exact (study_rev eps 0 h bt n He P D tt (setup op tt) t y1 y2 wt u1 u2 (kaps_vec_out 0 0 0) wb _ U eq_refl Ec).
  - intros dt d1 d2. exact (study_fwd eps 0 h bt n He P D tt (setup op tt) t y1 y2 dt d1 d2 U).
Qed.
