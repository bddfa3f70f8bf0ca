(** Runs of the integrator component with the shipped explicit components as
    stage problems, and when calls return. *)
From Coq Require Import String.
From Coq Require Import List Bool Arith Reals Lia Lra QArith Qreals.
From Verif Require Import Base Ext M_Tableau M_Tableaux M_TableauxInit M_State M_ODE M_Step M_Integrator M_Metadata M_Components
  M_Packing M_Component M_Stage SpecRK SpecDeriv SpecShape SpecRun SpecTree SpecOrder SpecNodes SpecPacking SpecComponent SpecTotal SpecStage
  L_Order L_RunProps L_Component3 L_Total L_Stage2 L_Stage5 L_Stage6 L_Stage7 L_Stage8 WitnessRun WitnessOrder WitnessStage.
Import ListNotations.
Local Open Scope string_scope.
Open Scope nat_scope.
Open Scope R_scope.
Local Open Scope list_scope.

(** ** C66: y' = -y is multiplied by the stability function in every step *)
Theorem C66_factor : forall (bt : tableau R) h,
  tableau_wf bt -> is_implicit bt = false -> (forall i, (i < t_stages bt)%nat -> 1 + h * entry (t_A bt) i i <> 0) ->
  exists rho, amplification (t_stages bt) (entry (t_A bt)) (fun k => vnth k (t_b bt)) (- h) rho /\
    forall rho', amplification (t_stages bt) (entry (t_A bt)) (fun k => vnth k (t_b bt)) (- h) rho' -> rho' = rho.
Proof. exact c66_factor. Qed.
Print Assumptions C66_factor.

Theorem C66_compute : forall C (op : options R C) (bt : tableau R) md x h norm n rho c w t y outp,
  metadata_of 1 simple_variables ["y"] [] = Ok [md] ->
  fixed_steps op bt (openmdao_ode (stage_problem simple_component) md (stage_vectors simple_component x) norm) h n ->
  tableau_wf bt -> is_implicit bt = false -> (0 < t_stages bt)%nat ->
  (forall i, (i < t_stages bt)%nat -> 1 + h * entry (t_A bt) i i <> 0) ->
  amplification (t_stages bt) (entry (t_A bt)) (fun k => vnth k (t_b bt)) (- h) rho ->
  in_use op md (scalar_io "y") c w -> layout outp = snd (scalar_io "y") ->
  exists w', component_compute op md (vec_in "y" t y) outp w = (w', Ok (vec_out "y" (t + INR n * h) (rho ^ n * y))).
Proof. exact c66_compute. Qed.
Print Assumptions C66_compute.

Theorem C66_forward : forall C (op : options R C) (bt : tableau R) md x h norm n rho c w t y dt dy zo,
  metadata_of 1 simple_variables ["y"] [] = Ok [md] ->
  fixed_steps op bt (openmdao_ode (stage_problem simple_component) md (stage_vectors simple_component x) norm) h n ->
  tableau_wf bt -> is_implicit bt = false -> (0 < t_stages bt)%nat ->
  (forall i, (i < t_stages bt)%nat -> 1 + h * entry (t_A bt) i i <> 0) ->
  amplification (t_stages bt) (entry (t_A bt)) (fun k => vnth k (t_b bt)) (- h) rho ->
  in_use op md (scalar_io "y") c w -> layout zo = snd (scalar_io "y") -> zeros zo ->
  exists w', component_fwd op md (vec_in "y" t y) (vec_in "y" dt dy) zo w = (w', Ok (vec_out "y" dt (rho ^ n * dy))).
Proof. exact c66_forward. Qed.
Print Assumptions C66_forward.

Theorem C66_reverse : forall C (op : options R C) (bt : tableau R) md x h norm n rho c w t y wt wy outp zi w1 v,
  metadata_of 1 simple_variables ["y"] [] = Ok [md] ->
  fixed_steps op bt (openmdao_ode (stage_problem simple_component) md (stage_vectors simple_component x) norm) h n ->
  tableau_wf bt -> is_implicit bt = false -> (0 < t_stages bt)%nat ->
  (forall i, (i < t_stages bt)%nat -> 1 + h * entry (t_A bt) i i <> 0) ->
  amplification (t_stages bt) (entry (t_A bt)) (fun k => vnth k (t_b bt)) (- h) rho ->
  o_ckpt op = AllCheckpointer -> in_use op md (scalar_io "y") c w ->
  layout outp = snd (scalar_io "y") -> layout zi = fst (scalar_io "y") -> zeros zi ->
  component_compute op md (vec_in "y" t y) outp w = (w1, Ok v) ->
  exists w', component_rev op md (vec_in "y" t y) zi (vec_out "y" wt wy) w1 = (w', Ok (vec_in "y" wt (rho ^ n * wy))).
Proof. exact c66_reverse. Qed.
Print Assumptions C66_reverse.

(** The component of the metadata is the one the model finds; the vectors are
    those the integrator component declares. *)
Example C66_declared : exists md, metadata_of 1 simple_variables ["y"] [] = Ok [md] /\
  declare_all (fun _ => 1%nat) md = Ok (scalar_io "y").
Proof. exists simple_md. split; [exact simple_metadata|reflexivity]. Qed.

(** The classical method with any step size and any number of steps. *)
Example C66_rk4 : forall h n t y, exists bt md (op : options R Datatypes.unit) c w w', metadata_of 1 simple_variables ["y"] [] = Ok [md] /\
  shipped_init runge_kutta_four = Ok (bt, []) /\
  fixed_steps op bt (openmdao_ode (stage_problem simple_component) md (stage_vectors simple_component 1) (fun _ => 0)) h n /\
  in_use op md (scalar_io "y") c w /\
  component_compute op md (vec_in "y" t y) (vec_out "y" 0 0) w
  = (w', Ok (vec_out "y" (t + INR n * h) ((1 - h + h ^ 2 / 2 - h ^ 3 / 6 + h ^ 4 / 24) ^ n * y))).
Proof.
  intros h n t y. destruct rk4_amplification as (bt & E & W & P & I & D & A).
  set (op := study_op bt (openmdao_ode (stage_problem simple_component) simple_md (stage_vectors simple_component 1) (fun _ => 0)) h n).
  assert (Hr : forall i, (i < t_stages bt)%nat -> 1 + h * entry (t_A bt) i i <> 0) by (intros i Hi; rewrite (D i Hi); lra).
  destruct (C66_compute Datatypes.unit op bt simple_md 1 h (fun _ => 0) n _ tt (setup op tt) t y (vec_out "y" 0 0) simple_metadata
    (study_fixed _ _ _ _) W I P Hr (A (- h)) (study_in_use _ _ _ _ _ _) eq_refl) as (w' & R).
  exists bt, simple_md, op, tt, (setup op tt), w'. split; [exact simple_metadata|]. split; [exact E|].
  split; [apply study_fixed|]. split; [apply study_in_use|]. rewrite R.
  replace (1 - h + h ^ 2 / 2 - h ^ 3 / 6 + h ^ 4 / 24) with (1 + - h + (- h) ^ 2 / 2 + (- h) ^ 3 / 6 + (- h) ^ 4 / 24) by field.
  reflexivity.
Qed.
(** The implicit Euler method: compute, then the reverse product. *)
Example C66_implicit_euler : forall h n t y wt wy, 1 + h <> 0 -> exists bt md (op : options R Datatypes.unit) c w w1 w2, metadata_of 1 simple_variables ["y"] [] = Ok [md] /\
  shipped_init implicit_euler = Ok (bt, []) /\
  fixed_steps op bt (openmdao_ode (stage_problem simple_component) md (stage_vectors simple_component 1) (fun _ => 0)) h n /\
  o_ckpt op = AllCheckpointer /\ in_use op md (scalar_io "y") c w /\
  component_compute op md (vec_in "y" t y) (vec_out "y" 0 0) w = (w1, Ok (vec_out "y" (t + INR n * h) ((/ (1 + h)) ^ n * y))) /\
  component_rev op md (vec_in "y" t y) (vec_in "y" 0 0) (vec_out "y" wt wy) w1 = (w2, Ok (vec_in "y" wt ((/ (1 + h)) ^ n * wy))).
Proof.
  intros h n t y wt wy H. destruct ie_amplification as (bt & E & W & P & I & D & A).
  set (op := study_op bt (openmdao_ode (stage_problem simple_component) simple_md (stage_vectors simple_component 1) (fun _ => 0)) h n).
  assert (Hr : forall i, (i < t_stages bt)%nat -> 1 + h * entry (t_A bt) i i <> 0) by (intros i Hi; rewrite (D i Hi); lra).
  pose proof (A (- h) ltac:(lra)) as Ah. replace (1 - - h) with (1 + h) in Ah by ring.
  destruct (C66_compute Datatypes.unit op bt simple_md 1 h (fun _ => 0) n _ tt (setup op tt) t y (vec_out "y" 0 0) simple_metadata
    (study_fixed _ _ _ _) W I P Hr Ah (study_in_use _ _ _ _ _ _) eq_refl) as (w1 & R1).
  destruct (C66_reverse Datatypes.unit op bt simple_md 1 h (fun _ => 0) n _ tt (setup op tt) t y wt wy (vec_out "y" 0 0) (vec_in "y" 0 0) _ _ simple_metadata
    (study_fixed _ _ _ _) W I P Hr Ah eq_refl (study_in_use _ _ _ _ _ _) eq_refl eq_refl ltac:(repeat constructor) R1) as (w2 & R2).
  exists bt, simple_md, op, tt, (setup op tt), w1, w2. split; [exact simple_metadata|]. split; [exact E|].
  split; [apply study_fixed|]. split; [reflexivity|]. split; [apply study_in_use|]. split; [exact R1|exact R2].
Qed.

(** ** C67: the shipped test problems are solved with the order of the scheme *)
Theorem C67_decay : forall x e eh nu (bt : tableau R) md t0 t1 v norm y0,
  In (x, (e, eh)) precision -> In (x, nu) node_precision -> shipped_init x = Ok (bt, []) ->
  metadata_of 1 simple_variables ["y"] [] = Ok [md] -> t0 < t1 ->
  exists K N, 0 <= K /\ forall n, (N <= n)%nat ->
  forall C (op : options R C) c w outp,
  fixed_steps op bt (openmdao_ode (stage_problem simple_component) md (stage_vectors simple_component v) norm) ((t1 - t0) / INR n) n ->
  in_use op md (scalar_io "y") c w -> layout outp = snd (scalar_io "y") ->
  exists w' y1, component_compute op md (vec_in "y" t0 y0) outp w = (w', Ok (vec_out "y" t1 y1)) /\
    Rabs (y1 - decay_exact t0 y0 t1) <= K * (((t1 - t0) / INR n) ^ s_p x + Q2R nu + Q2R e).
Proof. exact c67_decay. Qed.
Print Assumptions C67_decay.

Theorem C67_prothero_robinson : forall x e eh nu (bt : tableau R) md t0 t1 v norm lam x0,
  In (x, (e, eh)) precision -> In (x, nu) node_precision -> shipped_init x = Ok (bt, []) ->
  metadata_of 1 prothero_variables ["x"] [] = Ok [md] -> t0 < t1 ->
  exists K N, 0 <= K /\ forall n, (N <= n)%nat ->
  forall C (op : options R C) c w outp,
  fixed_steps op bt (openmdao_ode (stage_problem (prothero_component lam)) md (stage_vectors (prothero_component lam) v) norm)
    ((t1 - t0) / INR n) n ->
  in_use op md (scalar_io "x") c w -> layout outp = snd (scalar_io "x") ->
  exists w' x1, component_compute op md (vec_in "x" t0 x0) outp w = (w', Ok (vec_out "x" t1 x1)) /\
    Rabs (x1 - prothero_exact lam t0 x0 t1) <= K * (((t1 - t0) / INR n) ^ s_p x + Q2R nu + Q2R e).
Proof. exact c67_prothero. Qed.
Print Assumptions C67_prothero_robinson.

(** The references are solutions. *)
Theorem C67_exact : forall lam ts z t,
  decay_exact ts z ts = z /\ derivable_pt_lim (decay_exact ts z) t (- decay_exact ts z t) /\
  prothero_exact lam ts z ts = z /\
  derivable_pt_lim (prothero_exact lam ts z) t (lam * (prothero_exact lam ts z t - sin (t + PI / 4)) + cos (t + PI / 4)).
Proof. exact c67_exact. Qed.
Print Assumptions C67_exact.

(** The Prothero-Robinson problem with lambda = -100 from time 0 to time 10, as
    in the shipped study, with the classical method. *)
Example C67_hypotheses_met : exists bt md, In (runge_kutta_four, (0%Q, 0%Q)) precision /\ In (runge_kutta_four, 0%Q) node_precision /\
  shipped_init runge_kutta_four = Ok (bt, []) /\ metadata_of 1 prothero_variables ["x"] [] = Ok [md] /\ 0 < 10 /\
  declare_all (fun _ => 1%nat) md = Ok (scalar_io "x") /\
  forall n, exists (op : options R Datatypes.unit) c w,
  fixed_steps op bt (openmdao_ode (stage_problem (prothero_component (- 100))) md (stage_vectors (prothero_component (- 100)) 1) (fun _ => 0))
    ((10 - 0) / INR n) n /\
  in_use op md (scalar_io "x") c w.
Proof.
  destruct rk4_amplification as (bt & E & _). exists bt, prothero_md.
  split; [exact rk4_precise|]. split; [exact rk4_nodes_precise|]. split; [exact E|]. split; [exact prothero_metadata|].
  split; [lra|]. split; [reflexivity|]. intros n.
  set (op := study_op bt (openmdao_ode (stage_problem (prothero_component (- 100))) prothero_md
    (stage_vectors (prothero_component (- 100)) 1) (fun _ => 0)) ((10 - 0) / INR n) n).
  exists op, tt, (setup op tt). split; [apply study_fixed|apply study_in_use].
Qed.
(** so with n steps the error at time 10 is at most K (10/n)^4. *)
Example C67_study : exists bt md K N, shipped_init runge_kutta_four = Ok (bt, []) /\
  metadata_of 1 prothero_variables ["x"] [] = Ok [md] /\ forall n, (N <= n)%nat -> exists w' x1,
  let op := study_op bt (openmdao_ode (stage_problem (prothero_component (- 100))) md
    (stage_vectors (prothero_component (- 100)) 1) (fun _ => 0)) ((10 - 0) / INR n) n in
  component_compute op md (vec_in "x" 0 (sin (PI / 4))) (vec_out "x" 0 0) (setup op tt) = (w', Ok (vec_out "x" 10 x1)) /\
  Rabs (x1 - sin (10 + PI / 4)) <= K * ((10 - 0) / INR n) ^ 4.
Proof.
  destruct rk4_amplification as (bt & E & _).
  destruct (C67_prothero_robinson runge_kutta_four 0%Q 0%Q 0%Q bt prothero_md 0 10 1 (fun _ => 0) (- 100) (sin (PI / 4))
    rk4_precise rk4_nodes_precise E prothero_metadata ltac:(lra)) as (K & N & K0 & G).
  exists bt, prothero_md, K, N. split; [exact E|]. split; [exact prothero_metadata|]. intros n Hn.
  destruct (G n Hn Datatypes.unit _ tt _ (vec_out "x" 0 0) (study_fixed _ _ _ _) (study_in_use _ _ _ _ _ _) eq_refl) as (w' & x1 & R & B).
  exists w', x1. split; [exact R|].
  unfold prothero_exact in B. rewrite Rplus_0_l in B. replace (sin (PI / 4) - sin (PI / 4)) with 0 in B by ring.
  rewrite Rmult_0_l, Rplus_0_r in B. replace (Q2R 0) with 0 in B by (unfold Q2R; cbn; ring). rewrite !Rplus_0_r in B. exact B.
Qed.

(** ** C68: derivative products for the Prothero-Robinson problem *)

(** The products are those of the identity, in both modes, while the outputs
    move with the power of the stability function. *)
Theorem C68_products_partial : forall C (op : options R C) (bt : tableau R) md lam x h norm n rho c w t y dt dy zo,
  metadata_of 1 prothero_variables ["x"] [] = Ok [md] ->
  fixed_steps op bt (openmdao_ode (stage_problem (prothero_component lam)) md (stage_vectors (prothero_component lam) x) norm) h n ->
  tableau_wf bt -> is_implicit bt = false -> (0 < t_stages bt)%nat ->
  (forall i, (i < t_stages bt)%nat -> 1 - lam * h * entry (t_A bt) i i <> 0) ->
  amplification (t_stages bt) (entry (t_A bt)) (fun k => vnth k (t_b bt)) (h * lam) rho ->
  in_use op md (scalar_io "x") c w -> layout zo = snd (scalar_io "x") -> zeros zo ->
  (exists w', component_fwd op md (vec_in "x" t y) (vec_in "x" dt dy) zo w = (w', Ok (vec_out "x" dt dy))) /\
  (exists F, (forall u, exists w', component_compute op md (vec_in "x" t u) zo w = (w', Ok (vec_out "x" (t + INR n * h) (F u)))) /\
     derivable_pt_lim F y (rho ^ n)).
Proof. exact c68_products. Qed.
Print Assumptions C68_products_partial.

Theorem C68_reverse_partial : forall C (op : options R C) (bt : tableau R) md lam x h norm n c w t y wt wy outp zi w1 v,
  metadata_of 1 prothero_variables ["x"] [] = Ok [md] ->
  fixed_steps op bt (openmdao_ode (stage_problem (prothero_component lam)) md (stage_vectors (prothero_component lam) x) norm) h n ->
  tableau_wf bt -> is_implicit bt = false -> (0 < t_stages bt)%nat ->
  (forall i, (i < t_stages bt)%nat -> 1 - lam * h * entry (t_A bt) i i <> 0) ->
  o_ckpt op = AllCheckpointer -> in_use op md (scalar_io "x") c w ->
  layout outp = snd (scalar_io "x") -> layout zi = fst (scalar_io "x") -> zeros zi ->
  component_compute op md (vec_in "x" t y) outp w = (w1, Ok v) ->
  exists w', component_rev op md (vec_in "x" t y) zi (vec_out "x" wt wy) w1 = (w', Ok (vec_in "x" wt wy)).
Proof. exact c68_reverse. Qed.
Print Assumptions C68_reverse_partial.

(** Hence the products are not the derivatives, unless that power is 1: one
    step of size 1 of the implicit Euler method with lambda = -100 has the
    derivative 1/101 and the forward product 1. *)
Theorem C68_refuted :
  ~ (forall (op : options R Datatypes.unit) md lam x norm c w t y zo tf F dF w' xf,
     metadata_of 1 prothero_variables ["x"] [] = Ok [md] ->
     o_ode op = openmdao_ode (stage_problem (prothero_component lam)) md (stage_vectors (prothero_component lam) x) norm ->
     in_use op md (scalar_io "x") c w -> layout zo = snd (scalar_io "x") -> zeros zo ->
     (forall u, exists w1, component_compute op md (vec_in "x" t u) zo w = (w1, Ok (vec_out "x" tf (F u)))) ->
     derivable_pt_lim F y dF ->
     component_fwd op md (vec_in "x" t y) (vec_in "x" 0 1) zo w = (w', Ok (vec_out "x" 0 xf)) -> xf = dF).
Proof. exact c68_refuted. Qed.
Print Assumptions C68_refuted.

Example C68_hypotheses_met : exists bt md (op : options R Datatypes.unit) c w, metadata_of 1 prothero_variables ["x"] [] = Ok [md] /\
  shipped_init implicit_euler = Ok (bt, []) /\
  fixed_steps op bt (openmdao_ode (stage_problem (prothero_component (- 100))) md (stage_vectors (prothero_component (- 100)) 1) (fun _ => 0)) 1 1 /\
  tableau_wf bt /\ is_implicit bt = false /\ (0 < t_stages bt)%nat /\
  (forall i, (i < t_stages bt)%nat -> 1 - (- 100) * 1 * entry (t_A bt) i i <> 0) /\
  amplification (t_stages bt) (entry (t_A bt)) (fun k => vnth k (t_b bt)) (1 * - 100) (/ 101) /\
  o_ckpt op = AllCheckpointer /\ in_use op md (scalar_io "x") c w /\
  layout (vec_out "x" 0 0) = snd (scalar_io "x") /\ zeros (vec_out "x" 0 0) /\
  exists w1 v, component_compute op md (vec_in "x" 0 0) (vec_out "x" 0 0) w = (w1, Ok v).
Proof.
  destruct ie_amplification as (bt & E & W & P & I & D & A).
  set (op := study_op bt (openmdao_ode (stage_problem (prothero_component (- 100))) prothero_md
    (stage_vectors (prothero_component (- 100)) 1) (fun _ => 0)) 1 1).
  assert (Hr : forall i, (i < t_stages bt)%nat -> 1 - (- 100) * 1 * entry (t_A bt) i i <> 0) by (intros i Hi; rewrite (D i Hi); lra).
  assert (Ah : amplification (t_stages bt) (entry (t_A bt)) (fun k => vnth k (t_b bt)) (1 * - 100) (/ 101)).
  { pose proof (A (1 * - 100) ltac:(lra)) as Ah. now replace (1 - 1 * - 100) with 101 in Ah by ring. }
  exists bt, prothero_md, op, tt, (setup op tt). split; [exact prothero_metadata|]. split; [exact E|].
  split; [apply study_fixed|]. split; [exact W|]. split; [exact I|]. split; [exact P|]. split; [exact Hr|]. split; [exact Ah|].
  split; [reflexivity|]. split; [apply study_in_use|]. split; [reflexivity|]. split; [repeat constructor|].
  destruct (C68_products_partial Datatypes.unit op bt prothero_md (- 100) 1 1 (fun _ => 0) 1 (/ 101) tt (setup op tt) 0 0 0 0 (vec_out "x" 0 0)
    prothero_metadata (study_fixed _ _ _ _) W I P Hr Ah (study_in_use _ _ _ _ _ _) eq_refl ltac:(repeat constructor)) as (_ & F & G & _).
  destruct (G 0) as (w' & R). eauto.
Qed.

(** ** C69: calls return whenever the stage solves do *)
Theorem C69 : forall C (op : options R C),
  (0 < t_stages (o_bt op))%nat ->
  (forall i, (i < t_stages (o_bt op))%nat -> answers (o_ode op) (o_step op) (entry (t_A (o_bt op)) i i)) ->
  sized_ode (o_ode op) -> o_adaptive op = false -> loops op -> quiet op -> (0 < retry_limit op)%nat ->
  forall c w i, reachable op c w -> inputs_sized (o_ode op) i -> enough_steps op i ->
  (exists w' out, compute op i w = (w', Ok out)) /\
  (forall d, inputs_sized (o_ode op) d -> exists w' out, compute_jacvec_product_fwd op i d w = (w', Ok out)) /\
  (o_ckpt op = AllCheckpointer -> forall d w1 out, outputs_sized (o_ode op) d -> compute op i w = (w1, Ok out) ->
     exists w' g, compute_jacvec_product_rev op i d w1 = (w', Ok g)).
Proof. exact c69. Qed.
Print Assumptions C69.

(** The implicit Euler method for y' = - y: the stage solves return unless the
    step size is -1, where the pivot 1 + h of the solve vanishes. *)
Example C69_hypotheses_met : forall h n, 1 + h <> 0 -> exists bt (op : options R Datatypes.unit), shipped_init implicit_euler = Ok (bt, []) /\
  fixed_steps op bt (openmdao_ode (stage_problem simple_component) simple_md (stage_vectors simple_component 1) (fun _ => 0)) h n /\
  (0 < t_stages (o_bt op))%nat /\
  (forall i, (i < t_stages (o_bt op))%nat -> answers (o_ode op) (o_step op) (entry (t_A (o_bt op)) i i)) /\
  sized_ode (o_ode op) /\ reachable op tt (setup op tt) /\ o_ckpt op = AllCheckpointer /\
  forall i, enough_steps op i.
Proof.
  intros h n H. destruct ie_amplification as (bt & E & W & P & I & D & A).
  set (op := study_op bt (openmdao_ode (stage_problem simple_component) simple_md (stage_vectors simple_component 1) (fun _ => 0)) h n).
  exists bt, op. split; [exact E|]. split; [apply study_fixed|]. split; [exact P|].
  split; [intros i Hi; apply simple_answers; change (o_bt op) with bt; rewrite (D i Hi); change (o_step op) with h; lra|].
  split; [exact (om_sized 1 0 _ _ _ _ _ simple_metadata eq_refl _ _ _ (simple_keeps) op eq_refl)|]. split; [exists []; split; [constructor|reflexivity]|]. split; [reflexivity|].
  intros i. unfold enough_steps. cbn. lia.
Qed.
