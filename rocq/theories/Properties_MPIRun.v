(** Property theorems about histories of calls on several processes (C86). *)
From Coq Require Import String.
From Coq Require Import List Bool Arith QArith.
From Verif Require Import Base M_Tableau M_State M_ODE M_Step M_Controller M_Measure M_Integrator M_Metadata M_MPI M_MPIRun
  SpecMetadata SpecMPI SpecMPIRun L_MPI5 L_MPI6 L_MPI7 Witness WitnessRun WitnessMPI WitnessMPIRun.
Import ListNotations.
Local Open Scope string_scope.
Local Open Scope nat_scope.
Local Open Scope list_scope.

(** ** C86: derivative products on several processes *)

(** One process alone does what the integrator model of the other theorems
    does, in every public method and every history of calls. *)
Theorem C86_one_process_is_the_integrator :
  forall (T : Type) (N : Num T) (C : Type) (op : options T C) (ord : order T) (excl : list string) (md : metadata),
  (forall x, compute_state_norms ord excl [(md, x)] =
     Ok [compute_state_norm (o_ode op) {| stage_update := []; stage_state := x; independent_output := [] |}]) ->
  (forall i w, alone (o_ode op) (p_compute op ord excl md i w) = compute op i w) /\
  (forall i d w, alone (o_ode op) (p_product_fwd op ord excl md i d w) = compute_jacvec_product_fwd op i d w) /\
  (forall i d w, alone (o_ode op) (p_product_rev op ord excl md i d w) = compute_jacvec_product_rev op i d w) /\
  (forall l w, fst (alone (o_ode op) (p_calls op ord excl md l w)) = run_calls op l w).
Proof. exact (@c86_alone). Qed.
Print Assumptions C86_one_process_is_the_integrator.

Example C86_one_process_meets_hypotheses : exists (md : metadata) (o : ode Q),
  metadata_of 1 [out "xs" "x" [Some [2]] [2]] ["x"] [] = Ok [md] /\
  forall x, compute_state_norms (Ord 1%Q) [] [(md, x)] =
    Ok [compute_state_norm o {| stage_update := []; stage_state := x; independent_output := [] |}].
Proof.
  eexists; exists {| compute_update := compute_update (gode never never);
    compute_update_derivative := compute_update_derivative (gode never never);
    compute_update_adjoint_derivative := compute_update_adjoint_derivative (gode never never);
    compute_state_norm := fun r => 
      let n := nadd 0%Q (power (vsum (map nabs (slice 0 2 (stage_state r)))) 1%Q) in power (nadd 0%Q n) (ndiv 1%Q 1%Q);
    state_size := 2; independent_input_size := 1; independent_output_size := 0; linearization_point_size := 2 |}.
  split; [vm_compute; reflexivity|]; intros x; reflexivity.
Qed.

(** In every history of compute calls, forward and reverse products, whatever
    the checkpointing, all processes are at every moment at the same operation
    (the same stage or linear solve with the same step size, the same
    reduction, the same callback of the same step), or all have ended with the
    same exceptions; provided that a change of the inputs between calls shows on
    all processes or on none. *)
Theorem C86_histories_stay_in_step_partial :
  forall (T : Type) (N : Num T) (C : Type) (op : options T C) (ord : order T) (excl : list string)
    (procs : nat) (vs : list variable) (qs is : list string) (mds : list metadata)
    (o : nat -> ode T) (c : C) (js : list (joint_call T)) ps,
  metadata_of procs vs qs is = Ok mds -> well_tagged vs qs -> norm_defined ord excl mds -> uniform_callbacks op ->
  (forall j, In j js -> inputs_fit excl mds (inputs_of j)) ->
  (forall i j, In i (flat_map cacheable js) -> In j (flat_map cacheable js) -> seen_by_all mds i j) ->
  (forall r md, nth_error mds r = Some md -> state_size (o r) = time_integration_array_size md) ->
  moves ord excl mds (processes op ord excl o c mds js) ps -> abreast same_ending ps.
Proof.
  intros T N C op ord excl procs vs qs is mds o c js ps M W Nd Un Fi Se Sz.
  exact (c86 op ord excl procs vs qs is mds M W Nd Un js Fi Se o c Sz ps).
Qed.
Print Assumptions C86_histories_stay_in_step_partial.

(** So nobody waits for a process that does something else. *)
Theorem C86_no_deadlock_partial :
  forall (T : Type) (N : Num T) (C : Type) (op : options T C) (ord : order T) (excl : list string)
    (procs : nat) (vs : list variable) (qs is : list string) (mds : list metadata)
    (o : nat -> ode T) (c : C) (js : list (joint_call T)) ps,
  metadata_of procs vs qs is = Ok mds -> well_tagged vs qs -> norm_defined ord excl mds -> uniform_callbacks op ->
  (forall j, In j js -> inputs_fit excl mds (inputs_of j)) ->
  (forall i j, In i (flat_map cacheable js) -> In j (flat_map cacheable js) -> seen_by_all mds i j) ->
  (forall r md, nth_error mds r = Some md -> state_size (o r) = time_integration_array_size md) ->
  moves ord excl mds (processes op ord excl o c mds js) ps ->
  (exists rs, ps = map (Done _) rs) \/ (exists ps', move ord excl mds ps ps').
Proof.
  intros T N C op ord excl procs vs qs is mds o c js ps M W Nd Un Fi Se Sz Mv.
  exact (abreast_goes_on ord excl mds same_ending ps (c86 op ord excl procs vs qs is mds M W Nd Un js Fi Se o c Sz ps Mv)).
Qed.
Print Assumptions C86_no_deadlock_partial.

(** Two processes compute and go on to the adjoint of the step. *)
Example C86_meets_hypotheses : metadata_of 2 two ["x"; "y"] [] = Ok two_mds /\ well_tagged two ["x"; "y"] /\
  norm_defined (Ord 1%Q) [] two_mds /\ uniform_callbacks rop /\
  (forall j, In j same_inputs -> inputs_fit [] two_mds (inputs_of j)) /\
  (forall i j, In i (flat_map cacheable same_inputs) -> In j (flat_map cacheable same_inputs) -> seen_by_all two_mds i j) /\
  (forall r md, nth_error two_mds r = Some md -> state_size (rodes r) = time_integration_array_size md) /\
  exists ps, moves (Ord 1%Q) [] two_mds (processes rop (Ord 1%Q) [] rodes tt two_mds same_inputs) ps /\
  exists lp r h a k lp' r' h' a' k', ps = [Vjp _ lp r h a k; Vjp _ lp' r' h' a' k'].
Proof.
  exact (conj two_ok (conj two_tagged (conj (or_introl (ex_intro _ _ eq_refl)) (conj rop_uniform
    (conj same_inputs_fit (conj same_inputs_seen (conj rodes_size same_inputs_run))))))).
Qed.

(** When the inputs have changed on the second process only, the first goes on
    to the adjoint of the stored steps while the second computes anew: both
    wait for ever. *)
Theorem C86_local_cache_decision_deadlock_refuted : exists ps,
  (forall j, In j changed_inputs -> inputs_fit [] two_mds (inputs_of j)) /\
  moves (Ord 1%Q) [] two_mds (processes rop (Ord 1%Q) [] rodes tt two_mds changed_inputs) ps /\
  (exists lp r h a k i h' a' k', ps = [Vjp _ lp r h a k; Solve _ i h' a' k']) /\
  forall ps', ~ move (Ord 1%Q) [] two_mds ps ps'.
Proof. exact c86_cache_refuted. Qed.
Print Assumptions C86_local_cache_decision_deadlock_refuted.
