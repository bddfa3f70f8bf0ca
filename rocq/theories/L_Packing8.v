(** The integrator over an OpenMDAO-backed ODE (C39 with C06). *)
From Coq Require Import String.
From Coq Require Import List Reals.
From Verif Require Import Base M_Tableau M_State M_ODE M_Step M_Integrator M_Metadata SpecRK SpecDeriv SpecRun SpecShape
  M_Packing SpecPacking L_Whole L_WholeR L_Packing5 Properties_Run.
Local Open Scope R_scope.

Lemma c39_integrator : forall (procs rank : nat) (vs : list variable) (qs is : list string) (mds : list metadata) (md : metadata) (pb : problem R)
    (st : om_state R) (norm : ode_out R -> R),
  metadata_of procs vs qs is = Ok mds -> nth_error mds rank = Some md ->
  keeps_layout pb -> solves_transposed pb -> well_formed st ->
  distinct_sources pb md -> distinct_outputs md -> scalar_time pb md st ->
  forall (C : Type) (op : options R C) c1 c2 h1 h2 i din d w1 dout w2 out w3 g,
  o_ode op = openmdao_ode pb md st norm -> tableau_wf (o_bt op) -> o_ckpt op = AllCheckpointer ->
  Forall (call_sized (o_ode op)) h1 -> Forall (call_sized (o_ode op)) h2 ->
  inputs_sized (o_ode op) i -> inputs_sized (o_ode op) din -> outputs_sized (o_ode op) d ->
  ctl (run_calls op h1 (setup op c1)) = ctl (run_calls op h2 (setup op c2)) ->
  compute_jacvec_product_fwd op i din (run_calls op h1 (setup op c1)) = (w1, Ok dout) ->
  compute op i (run_calls op h2 (setup op c2)) = (w2, Ok out) ->
  compute_jacvec_product_rev op i d w2 = (w3, Ok g) ->
  dot_outputs d dout = dot_inputs g din.
Proof.
  intros procs rank vs qs is mds md pb st norm Hmd Hr K Tr W Ds Do Sc C op c1 c2 h1 h2 i din d w1 dout w2 out w3 g E
    Wt Ck F1 F2 S1 S2 S3 Ec H1 H2 H3.
  assert (Z1 : result_sizes (o_ode op)) by (rewrite E; eapply c39_result_sizes; eauto).
  assert (Z2 : derivative_sizes (o_ode op)) by (rewrite E; eapply c39_derivative_sizes; eauto).
  assert (Z3 : adjoint_sizes (o_ode op)) by (rewrite E; eapply c39_adjoint_sizes; eauto).
  assert (Z4 : ode_transposed (o_ode op)) by (rewrite E; eapply c39_transposed; eauto).
  assert (Z5 : ignores_stage_state_weights (o_ode op)) by (rewrite E; apply c39_ignores).
  exact (C06_products_transposed C op Wt Z1 Z2 Z3 _ _ _ _ _ _ _ _ _ _ _ _ _ Z4 Z5 Ck F1 F2 S1 S2 S3 Ec H1 H2 H3).
Qed.
