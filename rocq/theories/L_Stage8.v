(** Lemmas in the form of the property theorems about stage problems. *)
From Coq Require Import String.
From Coq Require Import List Bool Arith Reals Lia Lra QArith Qreals.
From Verif Require Import Base Ext M_Tableau M_Tableaux M_TableauxInit M_State M_ODE M_Step M_Integrator M_Metadata M_Components SpecMetadata SpecRK SpecDeriv
  SpecRun SpecShape SpecTree SpecOrder SpecNodes SpecComponents SpecConvergence M_Packing SpecPacking M_Component SpecComponent SpecTotal M_Stage SpecStage
  L_Total L_Stage L_Stage2 L_Stage3 L_Stage4 L_Stage5 L_Stage6 L_Stage7 WitnessStage.
Import ListNotations.
Local Open Scope string_scope.
Open Scope nat_scope.
Open Scope R_scope.
Local Open Scope list_scope.

Lemma c66_factor (bt : tableau R) h :
  tableau_wf bt -> is_implicit bt = false -> (forall i, (i < t_stages bt)%nat -> 1 + h * entry (t_A bt) i i <> 0) ->
  exists rho, amplification (t_stages bt) (entry (t_A bt)) (fun k => vnth k (t_b bt)) (- h) rho /\
    forall rho', amplification (t_stages bt) (entry (t_A bt)) (fun k => vnth k (t_b bt)) (- h) rho' -> rho' = rho.
Proof. intros W I H. now apply simple_factor. Qed.
Lemma c66_compute C (op : options R C) (bt : tableau R) md x h norm n rho c w t y outp :
  metadata_of 1 simple_variables ["y"] [] = Ok [md] ->
  fixed_steps op bt (openmdao_ode simple md (stage_vectors simple_component x) norm) h n ->
  tableau_wf bt -> is_implicit bt = false -> (0 < t_stages bt)%nat ->
  (forall i, (i < t_stages bt)%nat -> 1 + h * entry (t_A bt) i i <> 0) ->
  amplification (t_stages bt) (entry (t_A bt)) (fun k => vnth k (t_b bt)) (- h) rho ->
  in_use op md (scalar_io "y") c w -> layout outp = snd (scalar_io "y") ->
  exists w', component_compute op md (vec_in "y" t y) outp w = (w', Ok (vec_out "y" (t + INR n * h) (rho ^ n * y))).
Proof. intros M. apply simple_md_unique in M as ->. intros F W I P Hr A U L. eapply simple_compute_run; eauto. Qed.
Lemma c66_forward C (op : options R C) (bt : tableau R) md x h norm n rho c w t y dt dy zo :
  metadata_of 1 simple_variables ["y"] [] = Ok [md] ->
  fixed_steps op bt (openmdao_ode simple md (stage_vectors simple_component x) norm) h n ->
  tableau_wf bt -> is_implicit bt = false -> (0 < t_stages bt)%nat ->
  (forall i, (i < t_stages bt)%nat -> 1 + h * entry (t_A bt) i i <> 0) ->
  amplification (t_stages bt) (entry (t_A bt)) (fun k => vnth k (t_b bt)) (- h) rho ->
  in_use op md (scalar_io "y") c w -> layout zo = snd (scalar_io "y") -> zeros zo ->
  exists w', component_fwd op md (vec_in "y" t y) (vec_in "y" dt dy) zo w = (w', Ok (vec_out "y" dt (rho ^ n * dy))).
Proof. intros M. apply simple_md_unique in M as ->. intros F W I P Hr A U L Z. eapply simple_fwd_run; eauto. Qed.
Lemma c66_reverse C (op : options R C) (bt : tableau R) md x h norm n rho c w t y wt wy outp zi w1 v :
  metadata_of 1 simple_variables ["y"] [] = Ok [md] ->
  fixed_steps op bt (openmdao_ode simple md (stage_vectors simple_component x) norm) h n ->
  tableau_wf bt -> is_implicit bt = false -> (0 < t_stages bt)%nat ->
  (forall i, (i < t_stages bt)%nat -> 1 + h * entry (t_A bt) i i <> 0) ->
  amplification (t_stages bt) (entry (t_A bt)) (fun k => vnth k (t_b bt)) (- h) rho ->
  o_ckpt op = AllCheckpointer -> in_use op md (scalar_io "y") c w ->
  layout outp = snd (scalar_io "y") -> layout zi = fst (scalar_io "y") -> zeros zi ->
  component_compute op md (vec_in "y" t y) outp w = (w1, Ok v) ->
  exists w', component_rev op md (vec_in "y" t y) zi (vec_out "y" wt wy) w1 = (w', Ok (vec_in "y" wt (rho ^ n * wy))).
Proof. intros M. apply simple_md_unique in M as ->. intros. eapply simple_rev_run; eauto. Qed.

Lemma c67_decay x e eh nu (bt : tableau R) md t0 t1 v norm y0 :
  In (x, (e, eh)) precision -> In (x, nu) node_precision -> shipped_init x = Ok (bt, []) ->
  metadata_of 1 simple_variables ["y"] [] = Ok [md] -> t0 < t1 ->
  exists K N, 0 <= K /\ forall n, (N <= n)%nat ->
  forall C (op : options R C) c w outp,
  fixed_steps op bt (openmdao_ode simple md (stage_vectors simple_component v) norm) ((t1 - t0) / INR n) n ->
  in_use op md (scalar_io "y") c w -> layout outp = snd (scalar_io "y") ->
  exists w' y1, component_compute op md (vec_in "y" t0 y0) outp w = (w', Ok (vec_out "y" t1 y1)) /\
    Rabs (y1 - decay_exact t0 y0 t1) <= K * (((t1 - t0) / INR n) ^ s_p x + Q2R nu + Q2R e).
Proof. intros Hx Hn Hi M Ht. apply simple_md_unique in M as ->. eapply simple_order; eauto. Qed.
Lemma c67_prothero x e eh nu (bt : tableau R) md t0 t1 v norm lam x0 :
  In (x, (e, eh)) precision -> In (x, nu) node_precision -> shipped_init x = Ok (bt, []) ->
  metadata_of 1 prothero_variables ["x"] [] = Ok [md] -> t0 < t1 ->
  exists K N, 0 <= K /\ forall n, (N <= n)%nat ->
  forall C (op : options R C) c w outp,
  fixed_steps op bt (openmdao_ode (prothero lam) md (stage_vectors (prothero_component lam) v) norm) ((t1 - t0) / INR n) n ->
  in_use op md (scalar_io "x") c w -> layout outp = snd (scalar_io "x") ->
  exists w' x1, component_compute op md (vec_in "x" t0 x0) outp w = (w', Ok (vec_out "x" t1 x1)) /\
    Rabs (x1 - prothero_exact lam t0 x0 t1) <= K * (((t1 - t0) / INR n) ^ s_p x + Q2R nu + Q2R e).
Proof. intros Hx Hn Hi M Ht. apply prothero_md_unique in M as ->. eapply prothero_order; eauto. Qed.
Lemma c67_exact lam ts z t :
  decay_exact ts z ts = z /\ derivable_pt_lim (decay_exact ts z) t (- decay_exact ts z t) /\
  prothero_exact lam ts z ts = z /\
  derivable_pt_lim (prothero_exact lam ts z) t (lam * (prothero_exact lam ts z t - sin (t + PI / 4)) + cos (t + PI / 4)).
Proof.
  unfold decay_exact, prothero_exact. repeat split.
  - replace (- (ts - ts)) with 0 by ring. rewrite exp_0. ring.
  - apply (derivable_pt_lim_value _ _ (z * (exp (- (t - ts)) * - (1 - 0)))); [|ring].
    apply (derivable_pt_lim_scal (fun u => exp (- (u - ts)))).
    apply (derivable_pt_lim_comp (fun u => - (u - ts)) exp); [|apply derivable_pt_lim_exp].
    apply (derivable_pt_lim_opp (fun u => u - ts)).
    apply (derivable_pt_lim_minus (fun u => u) (fun _ => ts)); [apply derivable_pt_lim_id|apply derivable_pt_lim_const].
  - replace (lam * (ts - ts)) with 0 by ring. rewrite exp_0. ring.
  - apply (derivable_pt_lim_value _ _ (d_phi t + (z - phi ts) * (exp (lam * (t - ts)) * lam))); [|unfold d_phi, phi; ring].
    apply (derivable_pt_lim_plus phi (fun u => (z - phi ts) * exp (lam * (u - ts)))); [apply phi_derive|].
    apply (derivable_pt_lim_scal (fun u => exp (lam * (u - ts)))), exp_line.
Qed.

Lemma c68_products C (op : options R C) (bt : tableau R) md lam x h norm n rho c w t y dt dy zo :
  metadata_of 1 prothero_variables ["x"] [] = Ok [md] ->
  fixed_steps op bt (openmdao_ode (prothero lam) md (stage_vectors (prothero_component lam) x) norm) h n ->
  tableau_wf bt -> is_implicit bt = false -> (0 < t_stages bt)%nat ->
  (forall i, (i < t_stages bt)%nat -> 1 - lam * h * entry (t_A bt) i i <> 0) ->
  amplification (t_stages bt) (entry (t_A bt)) (fun k => vnth k (t_b bt)) (h * lam) rho ->
  in_use op md (scalar_io "x") c w -> layout zo = snd (scalar_io "x") -> zeros zo ->
  (exists w', component_fwd op md (vec_in "x" t y) (vec_in "x" dt dy) zo w = (w', Ok (vec_out "x" dt dy))) /\
  (exists F, (forall u, exists w', component_compute op md (vec_in "x" t u) zo w = (w', Ok (vec_out "x" (t + INR n * h) (F u)))) /\
     derivable_pt_lim F y (rho ^ n)).
Proof.
  intros M. apply prothero_md_unique in M as ->. intros F W I P Hr A U L Z. split; [eapply prothero_fwd_run; eauto|].
  destruct (prothero_compute_run op bt lam x h norm n F P W I Hr c w t y zo U L) as (w0 & z0 & E0 & S0 & _).
  exists (fun u => z0 + rho ^ n * (u - y)). split.
  - intros u. destruct (prothero_compute_run op bt lam x h norm n F P W I Hr c w t u zo U L) as (w1 & z1 & E1 & S1 & _).
    pose proof (prothero_differ bt lam h n I Hr rho t u z1 y z0 A S1 S0) as D.
    exists w1. rewrite E1. replace (z0 + rho ^ n * (u - y)) with z1 by lra. reflexivity.
  - apply (derivable_pt_lim_value _ _ (0 + rho ^ n * (1 - 0))); [|ring].
    apply (derivable_pt_lim_plus (fun _ => z0) (fun u => rho ^ n * (u - y))); [apply derivable_pt_lim_const|].
    apply (derivable_pt_lim_scal (fun u => u - y)).
    apply (derivable_pt_lim_minus (fun u => u) (fun _ => y)); [apply derivable_pt_lim_id|apply derivable_pt_lim_const].
Qed.
Lemma c68_reverse C (op : options R C) (bt : tableau R) md lam x h norm n c w t y wt wy outp zi w1 v :
  metadata_of 1 prothero_variables ["x"] [] = Ok [md] ->
  fixed_steps op bt (openmdao_ode (prothero lam) md (stage_vectors (prothero_component lam) x) norm) h n ->
  tableau_wf bt -> is_implicit bt = false -> (0 < t_stages bt)%nat ->
  (forall i, (i < t_stages bt)%nat -> 1 - lam * h * entry (t_A bt) i i <> 0) ->
  o_ckpt op = AllCheckpointer -> in_use op md (scalar_io "x") c w ->
  layout outp = snd (scalar_io "x") -> layout zi = fst (scalar_io "x") -> zeros zi ->
  component_compute op md (vec_in "x" t y) outp w = (w1, Ok v) ->
  exists w', component_rev op md (vec_in "x" t y) zi (vec_out "x" wt wy) w1 = (w', Ok (vec_in "x" wt wy)).
Proof. intros M. apply prothero_md_unique in M as ->. intros. eapply prothero_rev_run; eauto. Qed.
Lemma c68_refuted :
  ~ (forall (op : options R Datatypes.unit) md lam x norm c w t y zo tf F dF w' xf,
     metadata_of 1 prothero_variables ["x"] [] = Ok [md] ->
     o_ode op = openmdao_ode (prothero lam) md (stage_vectors (prothero_component lam) x) norm ->
     in_use op md (scalar_io "x") c w -> layout zo = snd (scalar_io "x") -> zeros zo ->
     (forall u, exists w1, component_compute op md (vec_in "x" t u) zo w = (w1, Ok (vec_out "x" tf (F u)))) ->
     derivable_pt_lim F y dF ->
     component_fwd op md (vec_in "x" t y) (vec_in "x" 0 1) zo w = (w', Ok (vec_out "x" 0 xf)) -> xf = dF).
Proof.
  intros Hall. destruct ie_amplification as (bt & E & W & P & I & D & A).
  set (op := study_op bt (openmdao_ode (prothero (- 100)) prothero_md
    (stage_vectors (prothero_component (- 100)) 1) (fun _ => 0)) 1 1).
  assert (Hr : forall i, (i < t_stages bt)%nat -> 1 - (- 100) * 1 * entry (t_A bt) i i <> 0) by (intros i Hi; rewrite (D i Hi); lra).
  assert (Ah : amplification (t_stages bt) (entry (t_A bt)) (fun k => vnth k (t_b bt)) (1 * - 100) (/ 101)).
  { pose proof (A (1 * - 100) ltac:(lra)) as Ah. now replace (1 - 1 * - 100) with 101 in Ah by ring. }
  assert (Z : zeros (vec_out "x" 0 0)) by repeat constructor.
  destruct (c68_products Datatypes.unit op bt prothero_md (- 100) 1 1 (fun _ => 0) 1 (/ 101) tt (setup op tt) 0 0 0 1 (vec_out "x" 0 0)
    prothero_metadata (study_fixed _ _ _ _) W I P Hr Ah (study_in_use _ _ _ _ _ _) eq_refl Z) as ((w' & R) & F & G & L).
  pose proof (Hall op prothero_md (- 100) 1 (fun _ => 0) tt (setup op tt) 0 0 (vec_out "x" 0 0) _ F _ w' 1
    prothero_metadata eq_refl (study_in_use _ _ _ _ _ _) eq_refl Z G L R) as B.
  simpl in B. lra.
Qed.
Lemma c69 C (op : options R C) :
  (0 < t_stages (o_bt op))%nat ->
  (forall i, (i < t_stages (o_bt op))%nat -> answers (o_ode op) (o_step op) (entry (t_A (o_bt op)) i i)) ->
  sized_ode (o_ode op) -> o_adaptive op = false -> loops op -> quiet op -> (0 < retry_limit op)%nat ->
  forall c w i, reachable op c w -> inputs_sized (o_ode op) i -> enough_steps op i ->
  (exists w' out, compute op i w = (w', Ok out)) /\
  (forall d, inputs_sized (o_ode op) d -> exists w' out, compute_jacvec_product_fwd op i d w = (w', Ok out)) /\
  (o_ckpt op = AllCheckpointer -> forall d w1 out, outputs_sized (o_ode op) d -> compute op i w = (w1, Ok out) ->
     exists w' g, compute_jacvec_product_rev op i d w1 = (w', Ok g)).
Proof.
  intros P A Z F L Q R c w i Hr Hi En. split; [eapply compute_total; eauto|]. split.
  - intros d Hd. eapply fwd_total; eauto.
  - intros Ck d w1 out Hd Ec. eapply rev_total; eauto.
Qed.
