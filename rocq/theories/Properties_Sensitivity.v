(** Derivative products converge to the changes of the solution. *)
From Coq Require Import String.
From Coq Require Import List Bool Arith Reals Lia Lra QArith Qreals.
From Verif Require Import Base Ext M_Tableau M_Tableaux M_TableauxInit M_State M_ODE M_Step M_Integrator M_Metadata M_Components
  SpecRK SpecDeriv SpecShape SpecRun SpecTree SpecOrder SpecNodes SpecConvergence SpecSmooth SpecLocal SpecSensitivity SpecTotal M_Packing SpecPacking M_Component SpecComponent
  SpecStage M_Kaps SpecKaps SpecKapsChange L_Order L_RunProps L_RunOrder L_Component3 L_Total L_Local3 L_Kaps L_Kaps2 L_Kaps3 L_Kaps4 L_Kaps8
  L_Sensitivity2 L_Sensitivity3 L_KapsChange L_KapsChange2
  WitnessRun WitnessOrder WitnessStage WitnessKaps WitnessKaps2 WitnessKapsChange.
Import ListNotations.
Local Open Scope string_scope.
Open Scope nat_scope.
Open Scope R_scope.
Local Open Scope list_scope.

(** ** C78: forward and reverse products have the order of the scheme *)
Theorem C78_any_steps : forall (bt : tableau R) n f g X p eps nu L rho t0 t1 (xi : list R) dt (dxi : list R) (Y D : R -> list R),
  tableau_wf bt -> is_implicit bt = false -> (0 < p)%nat ->
  order_conditions (t_stages bt) (entry (t_A bt)) (fun k => vnth k (t_b bt)) p eps ->
  0 <= nu -> row_conditions (t_stages bt) (entry (t_A bt)) (fun k => vnth k (t_c bt)) nu ->
  0 <= L -> lipschitz_in (n + n) X L (paired n f g) -> 0 < rho <= 1 -> t0 <= t1 ->
  (forall t, length (Y t) = n) -> solution (n + n) (paired n f g) t0 t1 (fun t => Y t ++ D t) ->
  (forall t, t0 <= t <= t1 -> inside (n + n) X (3 * rho) t (Y t ++ D t)) ->
  smooth_close rho (n + n) p (paired n f g) t0 t1 (fun t => Y t ++ D t) ->
  exists K H, 1 <= K /\ 0 < H /\
  forall C (op : options R C) c w i d w' out e, o_bt op = bt -> state_size (o_ode op) = n -> sized_ode (o_ode op) ->
  reachable op c w ->
  inputs_sized (o_ode op) i -> independent i = xi -> time_initial i = t0 ->
  inputs_sized (o_ode op) d -> independent d = dxi -> time_initial d = dt ->
  0 <= e -> within n e (initial i) (Y t0) -> within n e (initial d) (D t0) ->
  compute_jacvec_product_fwd op i d w = (w', Ok out) ->
  exists a l, starts_at op i a /\ trajectory op a l /\
    log w' = (log w ++ bracketed Fwd (length (o_callbacks op Fwd)) 1 a l)%list /\ time_final out = dt /\
    forall hm tol, final_time (disc (last l a)) <= t1 ->
    Forall (fun x => 0 < step_size (disc x) <= hm) l -> 0 <= hm <= H -> 0 <= tol ->
    (forall k, (k < t_stages bt)%nat -> nearly_differentiates (o_ode op) n f g xi dt dxi X rho hm tol (entry (t_A bt) k k)) ->
    K * (e + hm ^ p + nu + eps + tol) <= rho ->
    within n (K * (e + hm ^ p + nu + eps + tol)) (final out) (D (final_time (disc (last l a)))).
Proof. exact sensitivity_order. Qed.
Print Assumptions C78_any_steps.

Theorem C78_fixed_steps : forall (bt : tableau R) n f g X p eps nu L rho t0 t1 (xi : list R) dt (dxi : list R) (Y D : R -> list R),
  tableau_wf bt -> is_implicit bt = false -> (0 < p)%nat ->
  order_conditions (t_stages bt) (entry (t_A bt)) (fun k => vnth k (t_b bt)) p eps ->
  0 <= nu -> row_conditions (t_stages bt) (entry (t_A bt)) (fun k => vnth k (t_c bt)) nu ->
  0 <= L -> lipschitz_in (n + n) X L (paired n f g) -> 0 < rho <= 1 -> t0 <= t1 ->
  (forall t, length (Y t) = n) -> solution (n + n) (paired n f g) t0 t1 (fun t => Y t ++ D t) ->
  (forall t, t0 <= t <= t1 -> inside (n + n) X (3 * rho) t (Y t ++ D t)) ->
  smooth_close rho (n + n) p (paired n f g) t0 t1 (fun t => Y t ++ D t) ->
  t0 < t1 ->
  exists K H, 1 <= K /\ 0 < H /\
  forall C (op : options R C) c w i d w' out N tol, o_bt op = bt -> state_size (o_ode op) = n -> sized_ode (o_ode op) ->
  o_adaptive op = false ->
  (0 < N)%nat -> o_crit op = PredefinedNumberOfSteps N -> o_step op = (t1 - t0) / INR N -> o_step op <= H ->
  reachable op c w ->
  inputs_sized (o_ode op) i -> independent i = xi -> time_initial i = t0 -> initial i = Y t0 ->
  inputs_sized (o_ode op) d -> independent d = dxi -> time_initial d = dt -> initial d = D t0 ->
  0 <= tol ->
  (forall k, (k < t_stages bt)%nat -> nearly_differentiates (o_ode op) n f g xi dt dxi X rho (o_step op) tol (entry (t_A bt) k k)) ->
  K * (o_step op ^ p + nu + eps + tol) <= rho ->
  compute_jacvec_product_fwd op i d w = (w', Ok out) ->
  time_final out = dt /\ within n (K * (o_step op ^ p + nu + eps + tol)) (final out) (D t1).
Proof. exact sensitivity_fixed. Qed.
Print Assumptions C78_fixed_steps.

Theorem C78_reverse : forall (bt : tableau R) n f g X p eps nu L rho t0 t1 (xi : list R) dt (dxi : list R) (Y D : R -> list R),
  tableau_wf bt -> is_implicit bt = false -> (0 < p)%nat ->
  order_conditions (t_stages bt) (entry (t_A bt)) (fun k => vnth k (t_b bt)) p eps ->
  0 <= nu -> row_conditions (t_stages bt) (entry (t_A bt)) (fun k => vnth k (t_c bt)) nu ->
  0 <= L -> lipschitz_in (n + n) X L (paired n f g) -> 0 < rho <= 1 -> t0 <= t1 ->
  (forall t, length (Y t) = n) -> solution (n + n) (paired n f g) t0 t1 (fun t => Y t ++ D t) ->
  (forall t, t0 <= t <= t1 -> inside (n + n) X (3 * rho) t (Y t ++ D t)) ->
  smooth_close rho (n + n) p (paired n f g) t0 t1 (fun t => Y t ++ D t) ->
  t0 < t1 ->
  exists K H, 1 <= K /\ 0 < H /\
  forall C (op : options R C) c1 c2 h1 h2 i d u w1 dout w2 out w3 gr N tol,
  o_bt op = bt -> state_size (o_ode op) = n -> sized_ode (o_ode op) ->
  ode_transposed (o_ode op) -> ignores_stage_state_weights (o_ode op) -> o_ckpt op = AllCheckpointer -> o_adaptive op = false ->
  (0 < N)%nat -> o_crit op = PredefinedNumberOfSteps N -> o_step op = (t1 - t0) / INR N -> o_step op <= H ->
  Forall (call_sized (o_ode op)) h1 -> Forall (call_sized (o_ode op)) h2 ->
  ctl (run_calls op h1 (setup op c1)) = ctl (run_calls op h2 (setup op c2)) ->
  inputs_sized (o_ode op) i -> independent i = xi -> time_initial i = t0 -> initial i = Y t0 ->
  inputs_sized (o_ode op) d -> independent d = dxi -> time_initial d = dt -> initial d = D t0 ->
  outputs_sized (o_ode op) u -> 0 <= tol ->
  (forall k, (k < t_stages bt)%nat -> nearly_differentiates (o_ode op) n f g xi dt dxi X rho (o_step op) tol (entry (t_A bt) k k)) ->
  K * (o_step op ^ p + nu + eps + tol) <= rho ->
  compute_jacvec_product_fwd op i d (run_calls op h1 (setup op c1)) = (w1, Ok dout) ->
  compute op i (run_calls op h2 (setup op c2)) = (w2, Ok out) ->
  compute_jacvec_product_rev op i u w2 = (w3, Ok gr) ->
  Rabs (dot_inputs gr d - (time_final u * dt + dot (final u) (D t1)))
    <= K * (o_step op ^ p + nu + eps + tol) * rsum n (fun m => Rabs (vnth m (final u))).
Proof. exact sensitivity_reverse. Qed.
Print Assumptions C78_reverse.

Theorem C78_shipped : forall x e eh nu (bt : tableau R) n f g X L rho t0 t1 (xi : list R) dt (dxi : list R) (Y D : R -> list R),
  In (x, (e, eh)) precision -> In (x, nu) node_precision -> shipped_init x = Ok (bt, []) ->
  0 <= L -> lipschitz_in (n + n) X L (paired n f g) -> 0 < rho <= 1 -> t0 < t1 ->
  (forall t, length (Y t) = n) -> solution (n + n) (paired n f g) t0 t1 (fun t => Y t ++ D t) ->
  (forall t, t0 <= t <= t1 -> inside (n + n) X (3 * rho) t (Y t ++ D t)) ->
  smooth_close rho (n + n) (s_p x) (paired n f g) t0 t1 (fun t => Y t ++ D t) ->
  exists K H, 1 <= K /\ 0 < H /\
  forall C (op : options R C) c w i d w' out N tol, o_bt op = bt -> state_size (o_ode op) = n -> sized_ode (o_ode op) ->
  o_adaptive op = false ->
  (0 < N)%nat -> o_crit op = PredefinedNumberOfSteps N -> o_step op = (t1 - t0) / INR N -> o_step op <= H ->
  reachable op c w ->
  inputs_sized (o_ode op) i -> independent i = xi -> time_initial i = t0 -> initial i = Y t0 ->
  inputs_sized (o_ode op) d -> independent d = dxi -> time_initial d = dt -> initial d = D t0 ->
  0 <= tol ->
  (forall k, (k < t_stages bt)%nat -> nearly_differentiates (o_ode op) n f g xi dt dxi X rho (o_step op) tol (entry (t_A bt) k k)) ->
  K * (o_step op ^ s_p x + Q2R nu + Q2R e + tol) <= rho ->
  compute_jacvec_product_fwd op i d w = (w', Ok out) ->
  time_final out = dt /\ within n (K * (o_step op ^ s_p x + Q2R nu + Q2R e + tol)) (final out) (D t1).
Proof. exact shipped_sensitivity. Qed.
Print Assumptions C78_shipped.

(** Kaps' problem, the classical method, a nonlinear solver that leaves an error,
    and the change of the solution with a shift of the time. *)
Example C78_hypotheses_met : forall eps t1, 0 < eps -> 0 < t1 ->
  0 <= pair_L eps 2 /\ lipschitz_in 4 (pair_box t1 2) (pair_L eps 2) (paired 2 (kaps_rhs eps) (kaps_change eps)) /\
  (forall t, length (kaps_exact t) = 2%nat) /\
  solution 4 (paired 2 (kaps_rhs eps) (kaps_change eps)) 0 t1 (fun t => kaps_exact t ++ shift_change t) /\
  (forall t, 0 <= t <= t1 -> inside 4 (pair_box t1 2) (3 * (1 / 3)) t (kaps_exact t ++ shift_change t)) /\
  smooth_close (1 / 3) 4 4 (paired 2 (kaps_rhs eps) (kaps_change eps)) 0 t1 (fun t => kaps_exact t ++ shift_change t) /\
  exists bt, shipped_init runge_kutta_four = Ok (bt, []) /\
    forall K H, 1 <= K -> 0 < H -> exists N tol (op : options R Datatypes.unit) w' out, o_bt op = bt /\
      state_size (o_ode op) = 2%nat /\ sized_ode (o_ode op) /\ o_adaptive op = false /\
      (0 < N)%nat /\ o_crit op = PredefinedNumberOfSteps N /\ o_step op = (t1 - 0) / INR N /\ o_step op <= H /\ 0 < tol /\
      reachable op tt (setup op tt) /\ inputs_sized (o_ode op) {| time_initial := 0; initial := kaps_exact 0; independent := [] |} /\
      inputs_sized (o_ode op) {| time_initial := 0; initial := shift_change 0; independent := [] |} /\
      (forall k, (k < t_stages bt)%nat ->
         nearly_differentiates (o_ode op) 2 (kaps_rhs eps) (kaps_change eps) [] 0 [] (pair_box t1 2) (1 / 3) (o_step op) tol (entry (t_A bt) k k)) /\
      K * (o_step op ^ 4 + Q2R 0 + Q2R 0 + tol) <= 1 / 3 /\
      compute_jacvec_product_fwd op {| time_initial := 0; initial := kaps_exact 0; independent := [] |}
        {| time_initial := 0; initial := shift_change 0; independent := [] |} (setup op tt) = (w', Ok out).
Proof.
  intros eps t1 He Ht.
  assert (BD : forall t m, 0 <= t <= t1 -> (m < 2)%nat -> Rabs (vnth m (shift_change t)) <= 2).
  { intros t m Bt Hm. pose proof (exp_range t ltac:(lra)). pose proof (exp_range (2 * t) ltac:(lra)).
    apply two in Hm as [-> | ->]; cbn [shift_change vnth nth]; [replace (- 2 * t) with (- (2 * t)) by ring|]; apply Rabs_bound; lra. }
  assert (H2 : 0 <= 2) by lra.
  split; [now apply pair_L_pos|]. split; [now apply pair_lipschitz|]. split; [reflexivity|].
  split; [apply pair_solution; [exact He|reflexivity|now apply shift_solution]|].
  split; [now apply pair_inside|]. split; [now apply pair_smooth with (b := 2)|].
  destruct rk4_amplification as (bt & E & W & P & I & D & _). exists bt. split; [exact E|].
  intros K H HK HH. destruct (pair_C_big eps He 2 H2) as (_ & CC). pose proof (kaps_C_pos eps He) as HC. set (c := pair_C eps 2) in *.
  destruct (fine_steps t1 (3 * K) H Ht ltac:(lra) HH) as (N & N0 & NH & NK).
  assert (Q : 0 < 12 * K * c * (1 + eps)) by (repeat apply Rmult_lt_0_compat; lra).
  set (dl := / (12 * K * c * (1 + eps))). assert (D0 : 0 < dl) by (now apply Rinv_0_lt_compat).
  assert (Tl : (1 + eps) * Rabs dl = / (12 * K * c)) by (rewrite Rabs_pos_eq by lra; unfold dl; field; lra).
  set (op := kaps_study eps dl bt (t1 / INR N) N).
  destruct (study_size eps dl (t1 / INR N) bt N) as (S1 & S2 & S3).
  assert (X0 : kaps_exact 0 = [1; 1]) by (unfold kaps_exact; rewrite Rmult_0_r, Ropp_0, exp_0; reflexivity).
  assert (HR : reachable op tt (setup op tt)) by (exists []; split; [constructor|reflexivity]).
  destruct (fwd_total op P) with (c := tt) (w := setup op tt) (i := {| time_initial := 0; initial := kaps_exact 0; independent := [] |})
    (d := {| time_initial := 0; initial := shift_change 0; independent := [] |}) as (w' & out & Ef); try (split; reflexivity); auto.
  { intros k Hk. now apply (study_answers eps dl (t1 / INR N) bt N). }
  { apply study_quiet. }
  { unfold enough_steps. cbn. lia. }
  exists N, (c * ((1 + eps) * Rabs dl)), op, w', out. rewrite !RMicromega.Q2R_0.
  split; [reflexivity|]. split; [exact S1|]. split; [exact S3|]. split; [reflexivity|].
  split; [exact N0|]. split; [reflexivity|]. split; [change (o_step op) with (t1 / INR N); now rewrite Rminus_0_r|].
  split; [exact NH|]. rewrite Tl. split; [apply Rmult_lt_0_compat; [lra|apply Rinv_0_lt_compat]; nra|].
  split; [exact HR|]. split; [split; reflexivity|]. split; [split; reflexivity|]. split; [|split; [|exact Ef]].
  - intros k Hk. rewrite D by exact Hk. destruct (direct_both eps He (t1 / INR N) dl (Rabs dl) (Rle_refl _)) as [M1 M2].
    assert (T0 : 0 <= / (12 * K * c)) by (left; apply Rinv_0_lt_compat; nra).
    apply kaps_nearly_differentiates with (M := both eps (Rabs dl)); auto.
    + rewrite <- Tl. now apply direct_converged.
    + eapply exact_group; [now apply direct_group|exact T0].
    + split; [exact T0|]. rewrite <- Rinv_1. apply Rinv_le_contravar; nra.
    + now apply both_pos.
    + rewrite Rabs_R0, Rmult_0_l, Rmult_0_r. lra.
  - change (o_step op) with (t1 / INR N).
    set (r := (t1 / INR N) ^ 4) in *.
    replace (K * (r + 0 + 0 + c * / (12 * K * c))) with (3 * K * r / 3 + 1 / 12) by (field; lra). lra.
Qed.

(** ** C79: derivative products with Kaps' problem converge to the changes of its solution *)
Theorem C79_forward : forall x e eh nu (bt : tableau R) md eps t1 M Hm D dt,
  In (x, (e, eh)) precision -> In (x, nu) node_precision -> shipped_init x = Ok (bt, []) ->
  metadata_of 1 kaps_variables ["y_1"; "y_2"] [] = Ok [md] -> 0 < eps -> 0 < t1 -> 0 <= M -> 0 < Hm ->
  solution 2 (fun t => kaps_change eps t (kaps_exact t)) 0 t1 D ->
  exists K H, 1 <= K /\ 0 < H /\
  forall newton kf kr v norm C (op : options R C) c w n tol d1 d2 w' dv, (0 < n)%nat -> t1 / INR n <= H ->
  fixed_steps op bt (openmdao_ode (kaps_problem eps newton kf kr) md (kaps_vectors v) norm) (t1 / INR n) n ->
  in_use op md kaps_io c w ->
  (forall k, (k < t_stages bt)%nat -> moderate Hm (entry (t_A bt) k k) M newton /\ moderate_change Hm (entry (t_A bt) k k) M kf) ->
  0 <= tol -> converged eps tol newton -> nearly_group eps tol kf ->
  K * ((t1 / INR n) ^ s_p x + Q2R nu + Q2R e + tol) <= 1 -> D 0 = [d1; d2] ->
  component_fwd op md (kaps_vec_in 0 1 1) (kaps_vec_in dt d1 d2) (kaps_vec_out 0 0 0) w = (w', Ok dv) ->
  exists z1 z2, dv = kaps_vec_out dt z1 z2 /\
    Rabs (z1 - vnth 0 (D t1)) <= K * ((t1 / INR n) ^ s_p x + Q2R nu + Q2R e + tol) /\
    Rabs (z2 - vnth 1 (D t1)) <= K * ((t1 / INR n) ^ s_p x + Q2R nu + Q2R e + tol).
Proof. exact kaps_products. Qed.
Print Assumptions C79_forward.

Theorem C79_reverse : forall x e eh nu (bt : tableau R) md eps t1 M Hm D dt,
  In (x, (e, eh)) precision -> In (x, nu) node_precision -> shipped_init x = Ok (bt, []) ->
  metadata_of 1 kaps_variables ["y_1"; "y_2"] [] = Ok [md] -> 0 < eps -> 0 < t1 -> 0 <= M -> 0 < Hm ->
  solution 2 (fun t => kaps_change eps t (kaps_exact t)) 0 t1 D ->
  exists K H, 1 <= K /\ 0 < H /\
  forall newton kf kr v norm C (op : options R C) c w n tol d1 d2 wt u1 u2 wt' u1' u2' outp wa da wb va wc, (0 < n)%nat -> t1 / INR n <= H ->
  fixed_steps op bt (openmdao_ode (kaps_problem eps newton kf kr) md (kaps_vectors v) norm) (t1 / INR n) n -> o_ckpt op = AllCheckpointer ->
  in_use op md kaps_io c w -> layout outp = snd kaps_io ->
  (forall k, (k < t_stages bt)%nat -> moderate Hm (entry (t_A bt) k k) M newton /\ moderate_change Hm (entry (t_A bt) k k) M kf) ->
  0 <= tol -> converged eps tol newton -> solves_group eps kf kr ->
  K * ((t1 / INR n) ^ s_p x + Q2R nu + Q2R e + tol) <= 1 -> D 0 = [d1; d2] ->
  component_fwd op md (kaps_vec_in 0 1 1) (kaps_vec_in dt d1 d2) (kaps_vec_out 0 0 0) w = (wa, Ok da) ->
  component_compute op md (kaps_vec_in 0 1 1) outp w = (wb, Ok va) ->
  component_rev op md (kaps_vec_in 0 1 1) (kaps_vec_in 0 0 0) (kaps_vec_out wt u1 u2) wb = (wc, Ok (kaps_vec_in wt' u1' u2')) ->
  Rabs ((wt' * dt + u1' * d1 + u2' * d2) - (wt * dt + u1 * vnth 0 (D t1) + u2 * vnth 1 (D t1)))
    <= K * ((t1 / INR n) ^ s_p x + Q2R nu + Q2R e + tol) * (Rabs u1 + Rabs u2).
Proof. exact kaps_gradients. Qed.
Print Assumptions C79_reverse.

(** As for C76 and C77; the change of the solution with a shift of the time starts
    with (-2, -1). *)
Example C79_hypotheses_met : forall eps t1 Hm, 0 < eps -> 0 < t1 -> 0 < Hm ->
  metadata_of 1 kaps_variables ["y_1"; "y_2"] [] = Ok [kaps_md] /\ 0 <= both eps 1 /\
  solution 2 (fun t => kaps_change eps t (kaps_exact t)) 0 t1 shift_change /\ shift_change 0 = [- 2; - (1)] /\
  solves_group eps (direct_fwd eps) (direct_rev eps) /\
  exists bt, shipped_init runge_kutta_four = Ok (bt, []) /\
    (forall dl k, Rabs dl <= 1 -> (k < t_stages bt)%nat ->
       moderate Hm (entry (t_A bt) k k) (both eps 1) (direct_newton eps dl) /\ moderate_change Hm (entry (t_A bt) k k) (both eps 1) (direct_fwd eps)) /\
    forall K H, 1 <= K -> 0 < H -> exists n dl, (0 < n)%nat /\ t1 / INR n <= H /\ 0 < Rabs dl <= 1 /\
      converged eps ((1 + eps) * Rabs dl) (direct_newton eps dl) /\ nearly_group eps ((1 + eps) * Rabs dl) (direct_fwd eps) /\
      K * ((t1 / INR n) ^ 4 + Q2R 0 + Q2R 0 + (1 + eps) * Rabs dl) <= 1 /\
      let op := kaps_study eps dl bt (t1 / INR n) n in
      in_use op kaps_md kaps_io tt (setup op tt) /\ o_ckpt op = AllCheckpointer /\
      fixed_steps op bt (openmdao_ode (kaps_problem eps (direct_newton eps dl) (direct_fwd eps) (direct_rev eps)) kaps_md (kaps_vectors 1) (fun _ => 0)) (t1 / INR n) n /\
      (exists wa da, component_fwd op kaps_md (kaps_vec_in 0 1 1) (kaps_vec_in 0 (- 2) (- (1))) (kaps_vec_out 0 0 0) (setup op tt) = (wa, Ok da)) /\
      exists wb va, component_compute op kaps_md (kaps_vec_in 0 1 1) (kaps_vec_out 0 0 0) (setup op tt) = (wb, Ok va) /\
        forall wt u1 u2, exists wc wt' u1' u2',
          component_rev op kaps_md (kaps_vec_in 0 1 1) (kaps_vec_in 0 0 0) (kaps_vec_out wt u1 u2) wb = (wc, Ok (kaps_vec_in wt' u1' u2')).
Proof.
  intros eps t1 Hm He Ht HHm. split; [exact kaps_metadata|]. split; [now apply both_pos|]. split; [now apply shift_solution|].
  split; [exact shift_0|]. split; [now apply direct_group|].
  destruct rk4_amplification as (bt & E & W & P & I & D & _). exists bt. split; [exact E|]. split.
  { intros dl k Hd Hk. rewrite D by exact Hk. now apply direct_both. }
  intros K H HK HH. destruct (fine_steps t1 K H Ht HK HH) as (n & N0 & NH & NK).
  assert (Q : 1 <= 2 * K * (1 + eps)) by nra.
  set (dl := / (2 * K * (1 + eps))). assert (D0 : 0 < dl) by (apply Rinv_0_lt_compat; lra).
  assert (D1 : dl <= 1) by (unfold dl; rewrite <- Rinv_1; apply Rinv_le_contravar; lra).
  exists n, dl. split; [exact N0|]. split; [exact NH|]. split; [rewrite Rabs_pos_eq; lra|].
  split; [now apply direct_converged|]. split; [eapply exact_group; [now apply direct_group|apply Rmult_le_pos; [lra|apply Rabs_pos]]|].
  split.
  { rewrite (Rabs_pos_eq dl), !RMicromega.Q2R_0 by lra. set (r := (t1 / INR n) ^ 4) in *.
    replace (K * (r + 0 + 0 + (1 + eps) * dl)) with (K * r + 1 / 2) by (unfold dl; field; lra). lra. }
  intros op. assert (U : in_use op kaps_md kaps_io tt (setup op tt)) by apply study_in_use.
  split; [exact U|]. split; [reflexivity|]. split; [apply study_fixed|]. split.
  - destruct (study_fwd eps dl (t1 / INR n) bt n He P D tt (setup op tt) 0 1 1 0 (- 2) (- (1)) U) as (wa & a0 & a1 & a2 & Ea). eauto.
  - destruct (study_compute eps dl (t1 / INR n) bt n He P D tt (setup op tt) 0 1 1 (kaps_vec_out 0 0 0) U eq_refl) as (wb & t' & z1 & z2 & Ec).
    exists wb, (kaps_vec_out t' z1 z2). split; [exact Ec|]. intros wt u1 u2.
    exact (study_rev eps dl (t1 / INR n) bt n He P D tt (setup op tt) 0 1 1 wt u1 u2 (kaps_vec_out 0 0 0) wb _ U eq_refl Ec).
Qed.
