(** Property theorems about the callbacks of several processes (C86), and about
    time-independent inputs (C25). *)
From Coq Require Import String.
From Coq Require Import List Bool Arith QArith.
From Verif Require Import Base M_Tableau M_State M_ODE M_Step M_Controller M_Measure M_Integrator M_Metadata M_Packing M_MPI M_MPIRun
  SpecMetadata SpecMPI SpecMPIRun SpecMeet L_Meet Witness WitnessRun WitnessMPI WitnessMPIRun WitnessPacking.
Import ListNotations.
Local Open Scope string_scope.
Local Open Scope nat_scope.
Local Open Scope list_scope.

(** ** C86 *)
(** The processes meet at callbacks exactly where the first callback of the list
    is called, in the same order, in every history of calls, also when something
    raises. *)
Theorem C86_callbacks_are_met :
  forall (T : Type) (N : Num T) (C : Type) (op : options T C) (ord : order T) (excl : list string) (md : metadata) (o : ode T)
    (l : list (call T)) (w : component T C),
  first_calls (log (fst (alone o (p_calls op ord excl md l w)))) = first_calls (log w) ++ met o (p_calls op ord excl md l w).
Proof. exact (@tracks_calls). Qed.
Print Assumptions C86_callbacks_are_met.

(** One call with one callback: met before and after its only step. *)
Example C86_callbacks_met_once : exists md i, nth_error two_mds 0 = Some md /\
  met (rodes 0) (p_calls {| o_bt := o_bt rop; o_ode := o_ode rop; o_ckpt := o_ckpt rop; o_adaptive := o_adaptive rop; o_step := o_step rop;
    o_crit := PredefinedNumberOfSteps 1; o_inf := o_inf rop; o_meas := o_meas rop; o_tol := o_tol rop; o_ctl := o_ctl rop;
    o_callbacks := fun _ => [{| before_iteration := fun _ _ => Ok tt; after_iteration := fun _ _ => Ok tt |}];
    retry_limit := retry_limit rop; loop_limit := loop_limit rop |} (Ord 1%Q) [] md [CallCompute i] (setup (with_ode rop (rodes 0)) tt)) =
  [(Compute, true, 1); (Compute, false, 1)].
Proof.
  eexists. exists {| time_initial := 0%Q; initial := [1%Q; 2%Q; 3%Q]; independent := [] |}.
  split; [reflexivity|]. vm_compute. reflexivity.
Qed.

(** ** C25 *)
(** Time-independent inputs are added behind those already known, one for each
    tagged input; the time-integration part stays as it is. *)
Theorem C25_independent_inputs_appended :
  forall (rank : nat) (vs : list variable) (qs : list string) (md md' : metadata),
  add_time_independent_input_metadata rank vs qs md = Ok md' ->
  time_variable md' = time_variable md /\ time_integration_array_size md' = time_integration_array_size md /\
  time_integration_quantities md' = time_integration_quantities md /\
  exists new, time_independent_quantities md' = time_independent_quantities md ++ new /\ length new = length (with_tags qs (M_Metadata.inputs_of vs)).
Proof. exact c25_appended. Qed.
Print Assumptions C25_independent_inputs_appended.
Example C25_appended_twice : exists md, add_time_independent_input_metadata 0 demo_variables ["p"] demo_md = Ok md /\
  map q_name (time_independent_quantities demo_md) = ["p"] /\ map q_name (time_independent_quantities md) = ["p"; "p"].
Proof. eexists. split; [vm_compute; reflexivity|]. split; reflexivity. Qed.

(** Vectors of outputs hold no time-independent inputs: reading and writing them
    is refused. *)
Theorem C25_no_independent_outputs : forall (T : Type) (md : metadata) (v : vec T) (arr : list T),
  to_numpy_ind md output_kind v arr = Err TypeError /\ from_numpy_ind md output_kind arr v = Err TypeError.
Proof. split; reflexivity. Qed.
Print Assumptions C25_no_independent_outputs.
