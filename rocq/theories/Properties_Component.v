(** Property theorems about the integrator component as OpenMDAO calls it, on
    named vectors (C59 to C63). *)
From Coq Require Import String.
From Coq Require Import List Bool Arith Reals Lia Lra QArith.
From Verif Require Import Base Ext M_Tableau M_State M_ODE M_Step M_Integrator M_Metadata M_Components SpecMetadata SpecRK SpecDeriv SpecRun SpecShape SpecComponents
  SpecConvergence M_Packing SpecPacking M_Component SpecComponent L_Vec L_Step L_Deriv L_Whole L_WholeR L_Packing L_Packing2 L_Packing3 L_Packing4 L_Packing5 L_Packing6
  L_RunProps L_Component L_Component2 L_Component3 L_Component4 Witness WitnessRun WitnessPacking WitnessComponent.
Import ListNotations.
Local Open Scope string_scope.
Local Open Scope R_scope.
Local Open Scope list_scope.

(** ** C59: the component computes by name *)

(** A vector with the declared inputs holds exactly one set of inputs of a run,
    a vector with the declared outputs exactly one set of outputs. *)
Theorem C59_vectors_hold_inputs :
  forall (T : Type) (N : Num T) (C : Type) procs rank vs qs is mds md sz io,
  metadata_of procs vs qs is = Ok mds -> nth_error mds rank = Some md -> declare_all sz md = Ok io ->
  forall op : options T C, state_size (o_ode op) = time_integration_array_size md ->
  independent_input_size (o_ode op) = time_independent_input_size md ->
  forall inp : vec T, layout inp = declared input_kind io ->
  exists i, inputs_sized (o_ode op) i /\ holds_inputs md inp i /\
    forall j, inputs_sized (o_ode op) j -> holds_inputs md inp j -> j = i.
Proof. exact (@vector_inputs). Qed.
Print Assumptions C59_vectors_hold_inputs.

Theorem C59_vectors_hold_outputs :
  forall (T : Type) (N : Num T) (C : Type) procs rank vs qs is mds md sz io,
  metadata_of procs vs qs is = Ok mds -> nth_error mds rank = Some md -> declare_all sz md = Ok io ->
  forall op : options T C, state_size (o_ode op) = time_integration_array_size md ->
  forall outp : vec T, layout outp = declared output_kind io ->
  exists d, outputs_sized (o_ode op) d /\ holds_outputs md outp d /\
    forall j, outputs_sized (o_ode op) j -> holds_outputs md outp j -> j = d.
Proof. exact (@vector_outputs). Qed.
Print Assumptions C59_vectors_hold_outputs.

(** [compute] is the run for the inputs held by name; its result is held by name
    in the outputs, whatever they held before, and nothing else is written. *)
Theorem C59_compute_by_name :
  forall (T : Type) (N : Num T) (C : Type) procs rank vs qs is mds md sz io,
  metadata_of procs vs qs is = Ok mds -> nth_error mds rank = Some md -> declare_all sz md = Ok io ->
  forall op : options T C, state_size (o_ode op) = time_integration_array_size md ->
  independent_input_size (o_ode op) = time_independent_input_size md -> sized_ode (o_ode op) ->
  forall c w inp outp i, in_use op md io c w ->
  layout inp = declared input_kind io -> layout outp = declared output_kind io ->
  inputs_sized (o_ode op) i -> holds_inputs md inp i ->
  let (w', r) := compute op i w in
  match r with
  | Ok out => exists v, component_compute op md inp outp w = (w', Ok v) /\
                layout v = declared output_kind io /\ holds_outputs md v out
  | Err e => component_compute op md inp outp w = (w', Err e)
  end.
Proof. exact (@by_name_compute). Qed.
Print Assumptions C59_compute_by_name.

(** The forward product writes the product for the held inputs and seeds; the
    time entry is added to what is there. *)
Theorem C59_forward_by_name :
  forall (T : Type) (N : Num T) (C : Type) procs rank vs qs is mds md sz io,
  metadata_of procs vs qs is = Ok mds -> nth_error mds rank = Some md -> declare_all sz md = Ok io ->
  forall op : options T C, state_size (o_ode op) = time_integration_array_size md ->
  independent_input_size (o_ode op) = time_independent_input_size md -> sized_ode (o_ode op) ->
  forall c w inp dinp doutp i d t, in_use op md io c w ->
  layout inp = declared input_kind io -> layout dinp = declared input_kind io ->
  layout doutp = declared output_kind io ->
  inputs_sized (o_ode op) i -> holds_inputs md inp i -> inputs_sized (o_ode op) d -> holds_inputs md dinp d ->
  get "time_final" doutp = Ok [t] ->
  let (w', r) := compute_jacvec_product_fwd op i d w in
  match r with
  | Ok out => exists v, component_fwd op md inp dinp doutp w = (w', Ok v) /\
                layout v = declared output_kind io /\
                holds_outputs md v {| time_final := nadd t (time_final out); final := final out |}
  | Err e => component_fwd op md inp dinp doutp w = (w', Err e)
  end.
Proof. exact (@by_name_fwd). Qed.
Print Assumptions C59_forward_by_name.

(** Likewise the reverse product. *)
Theorem C59_reverse_by_name :
  forall (T : Type) (N : Num T) (C : Type) procs rank vs qs is mds md sz io,
  metadata_of procs vs qs is = Ok mds -> nth_error mds rank = Some md -> declare_all sz md = Ok io ->
  forall op : options T C, state_size (o_ode op) = time_integration_array_size md ->
  independent_input_size (o_ode op) = time_independent_input_size md -> sized_ode (o_ode op) ->
  forall c w inp dinp doutp i d t, in_use op md io c w ->
  layout inp = declared input_kind io -> layout dinp = declared input_kind io ->
  layout doutp = declared output_kind io ->
  inputs_sized (o_ode op) i -> holds_inputs md inp i -> outputs_sized (o_ode op) d -> holds_outputs md doutp d ->
  get "time_initial" dinp = Ok [t] ->
  let (w', r) := compute_jacvec_product_rev op i d w in
  match r with
  | Ok g => exists v, component_rev op md inp dinp doutp w = (w', Ok v) /\
              layout v = declared input_kind io /\
              holds_inputs md v {| time_initial := nadd t (time_initial g); initial := initial g; independent := independent g |}
  | Err e => component_rev op md inp dinp doutp w = (w', Err e)
  end.
Proof. exact (@by_name_rev). Qed.
Print Assumptions C59_reverse_by_name.

(** If the stage problem implements y' = f(t, p, y) by name, then what [compute]
    puts into the outputs is, by name, the result of Runge-Kutta steps for f with
    the given tableau from the named initial values. *)
Theorem C59_component_takes_steps :
  forall (C : Type) procs rank vs qs is mds md sz io,
  metadata_of procs vs qs is = Ok mds -> nth_error mds rank = Some md -> declare_all sz md = Ok io ->
  forall (pb : problem R) (st : om_state R) norm, keeps_layout pb ->
  forall op : options R C, o_ode op = openmdao_ode pb md st norm ->
  forall f c w inp outp w' v,
  implements pb md f -> distinct_sources pb md -> scalar_time pb md st ->
  tableau_wf (o_bt op) -> is_implicit (o_bt op) = false -> loops op -> in_use op md io c w ->
  layout inp = declared input_kind io -> layout outp = declared output_kind io ->
  component_compute op md inp outp w = (w', Ok v) ->
  exists i out hs, inputs_sized (o_ode op) i /\ holds_inputs md inp i /\
    outputs_sized (o_ode op) out /\ holds_outputs md v out /\ layout v = declared output_kind io /\
    rk_steps (t_stages (o_bt op)) (state_size (o_ode op)) (entry (t_A (o_bt op)))
      (fun k => vnth k (t_b (o_bt op))) (fun k => vnth k (t_c (o_bt op)))
      (fun t y => f t (independent i) y) (time_initial i) (initial i) hs (final out) /\
    time_final out = time_initial i + covered hs /\
    (o_adaptive op = false -> hs = repeat (o_step op) (length hs)).
Proof. exact (@by_name_steps). Qed.
Print Assumptions C59_component_takes_steps.

Example C59_hypotheses_met : exists w1 v w2 dv,
  metadata_of 1 demo_variables ["x"] ["p"] = Ok [demo_md] /\ declare_all demo_size demo_md = Ok demo_io /\
  state_size (o_ode (cop 2)) = time_integration_array_size demo_md /\
  independent_input_size (o_ode (cop 2)) = time_independent_input_size demo_md /\ sized_ode (o_ode (cop 2)) /\
  in_use (cop 2) demo_md demo_io tt (used (cop 2)) /\
  layout (cin 0 1 2 3) = declared input_kind demo_io /\ layout (cout 7 8 9) = declared output_kind demo_io /\
  inputs_sized (o_ode (cop 2)) (carr 0 1 2 3) /\ holds_inputs demo_md (cin 0 1 2 3) (carr 0 1 2 3) /\
  component_compute (cop 2) demo_md (cin 0 1 2 3) (cout 7 8 9) (used (cop 2)) = (w1, Ok v) /\
  component_fwd (cop 2) demo_md (cin 0 1 2 3) (cin 1 1 0 1) (cout 7 8 9) (used (cop 2)) = (w2, Ok dv) /\
  look "time_final" 0 v = 1 /\ look "time_final" 0 dv = 8.
Proof.
  destruct (returns_with (component_compute (N := RNum) (cop 2) demo_md (cin 0 1 2 3) (cout 7 8 9) (used (cop 2)))
    (fun v => look "time_final" 0 v = 0 + 1/2 + 1/2) ltac:(vm_compute; reflexivity)) as (w1 & v & E1 & F1).
  destruct (returns_with (component_fwd (N := RNum) (cop 2) demo_md (cin 0 1 2 3) (cin 1 1 0 1) (cout 7 8 9) (used (cop 2)))
    (fun v => look "time_final" 0 v = 7 + 1) ltac:(vm_compute; reflexivity)) as (w2 & dv & E2 & F2).
  exists w1, v, w2, dv. split; [reflexivity|]. split; [reflexivity|]. split; [reflexivity|]. split; [reflexivity|].
  split; [apply cop_sized|]. split; [apply used_in_use|]. split; [reflexivity|]. split; [reflexivity|].
  split; [split; reflexivity|]. split; [apply cin_holds|]. split; [exact E1|]. split; [exact E2|].
  split; lra.
Qed.

Example C59_steps_hypotheses_met : exists w1 v,
  keeps_layout chain /\ o_ode sop = openmdao_ode chain demo_md (demo_state 1) (fun _ => 0) /\
  implements chain demo_md chain_rhs /\
  distinct_sources chain demo_md /\ scalar_time chain demo_md (demo_state 1) /\
  tableau_wf (o_bt sop) /\ is_implicit (o_bt sop) = false /\ loops sop /\
  in_use sop demo_md demo_io tt (used sop) /\
  layout (cin 0 1 2 3) = declared input_kind demo_io /\ layout (cout 7 8 9) = declared output_kind demo_io /\
  component_compute sop demo_md (cin 0 1 2 3) (cout 7 8 9) (used sop) = (w1, Ok v) /\
  look "x_final" 0 v = 9/2 /\ look "x_final" 1 v = 37/8.
Proof.
  destruct (returns_with (component_compute (N := RNum) sop demo_md (cin 0 1 2 3) (cout 7 8 9) (used sop))
    (fun v => look "x_final" 0 v = 9/2 /\ look "x_final" 1 v = 37/8)
    ltac:(vm_compute; change R1 with 1; change R0 with 0; split; field)) as (w1 & v & E1 & F).
  exists w1, v. split; [apply chain_keeps|]. split; [reflexivity|]. split; [apply chain_implements|].
  split; [apply (demo_distinct 2)|]. split; [apply (demo_scalar 2)|]. split; [apply heun_wf|].
  split; [vm_compute; destruct (Req_EM_T R0 R0); [|congruence]; destruct (Req_EM_T R1 R0); reflexivity|]. split; [exact I|]. split; [apply used_in_use|].
  split; [reflexivity|]. split; [reflexivity|]. split; [exact E1|exact F].
Qed.

(** ** C60: the products by name are transposes *)

(** For vectors with the declared variables and products into vectors of zeros:
    the weights times the forward product of the seeds is the reverse product of
    the weights, after [compute] at the same inputs, times the seeds. *)
Theorem C60_products_transposed_by_name :
  forall (C : Type) procs rank vs qs is mds md sz io,
  metadata_of procs vs qs is = Ok mds -> nth_error mds rank = Some md -> declare_all sz md = Ok io ->
  forall (pb : problem R) (st : om_state R) norm, keeps_layout pb ->
  forall op : options R C, o_ode op = openmdao_ode pb md st norm ->
  forall c1 c2 w1 w2 inp dinp doutp zo zi outp w1' dout w2' v w3 din,
  solves_transposed pb -> well_formed st -> distinct_sources pb md -> distinct_outputs md -> scalar_time pb md st ->
  tableau_wf (o_bt op) -> o_ckpt op = AllCheckpointer ->
  in_use op md io c1 w1 -> in_use op md io c2 w2 -> ctl w1 = ctl w2 ->
  layout inp = declared input_kind io -> layout dinp = declared input_kind io ->
  layout doutp = declared output_kind io -> layout outp = declared output_kind io ->
  layout zo = declared output_kind io -> layout zi = declared input_kind io -> zeros zo -> zeros zi ->
  component_fwd op md inp dinp zo w1 = (w1', Ok dout) ->
  component_compute op md inp outp w2 = (w2', Ok v) ->
  component_rev op md inp zi doutp w2' = (w3, Ok din) ->
  vinner doutp dout = vinner din dinp.
Proof. exact (@by_name_transposed). Qed.
Print Assumptions C60_products_transposed_by_name.

Example C60_hypotheses_met : exists w1 dout w2 v w3 din,
  keeps_layout (demo 2 demo_source) /\
  o_ode (cop 2) = openmdao_ode (demo 2 demo_source) demo_md (demo_state 1) (fun _ => 0) /\
  solves_transposed (demo 2 demo_source) /\ well_formed (demo_state 1) /\
  distinct_sources (T := R) (demo 2 demo_source) demo_md /\ distinct_outputs demo_md /\
  scalar_time (demo 2 demo_source) demo_md (demo_state 1) /\
  tableau_wf (o_bt (cop 2)) /\ o_ckpt (cop 2) = AllCheckpointer /\
  in_use (cop 2) demo_md demo_io tt (used (cop 2)) /\ in_use (cop 2) demo_md demo_io tt (setup (cop 2) tt) /\
  ctl (used (cop 2)) = ctl (setup (cop 2) tt) /\ zeros (cout 0 0 0) /\ zeros (cin 0 0 0 0) /\
  component_fwd (cop 2) demo_md (cin 0 1 2 3) (cin 1 1 0 1) (cout 0 0 0) (used (cop 2)) = (w1, Ok dout) /\
  component_compute (cop 2) demo_md (cin 0 1 2 3) (cout 7 8 9) (setup (cop 2) tt) = (w2, Ok v) /\
  component_rev (cop 2) demo_md (cin 0 1 2 3) (cin 0 0 0 0) (cout 1 2 3) w2 = (w3, Ok din).
Proof.
  destruct (returns (component_fwd (N := RNum) (cop 2) demo_md (cin 0 1 2 3) (cin 1 1 0 1) (cout 0 0 0) (used (cop 2)))
    ltac:(vm_compute; reflexivity)) as (w1 & dout & E1).
  destruct (demo_reverse (cin 0 0 0 0) eq_refl) as (w2 & v & w3 & din & E2 & E3).
  exists w1, dout, w2, v, w3, din. split; [apply demo_keeps|]. split; [reflexivity|]. split; [apply demo_transposed|].
  split; [apply demo_formed|]. split; [apply demo_distinct|]. split; [apply demo_outputs|]. split; [apply demo_scalar|].
  split; [apply heun_wf|]. split; [reflexivity|]. split; [apply used_in_use|].
  split; [exists []; split; [constructor|reflexivity]|]. split; [reflexivity|].
  split; [repeat constructor|]. split; [repeat constructor|]. auto.
Qed.

(** ** C61: the forward product by name is the derivative *)

(** When the named inputs move with the velocity held in the seeds, the named
    outputs of [compute] move with the velocity the forward product puts into a
    vector of zeros. *)
Theorem C61_forward_is_derivative_by_name :
  forall (C : Type) procs rank vs qs is mds md sz io,
  metadata_of procs vs qs is = Ok mds -> nth_error mds rank = Some md -> declare_all sz md = Ok io ->
  forall (pb : problem R) (st : om_state R) norm, keeps_layout pb ->
  forall op : options R C, o_ode op = openmdao_ode pb md st norm ->
  forall n del I dinp c w w' out outp zo w0 w0' dout,
  problem_differentiable (source_names pb md) pb -> well_formed st -> distinct_sources pb md -> scalar_time pb md st ->
  tableau_wf (o_bt op) -> o_adaptive op = false -> o_crit op = PredefinedNumberOfSteps n -> loops op -> 0 < del ->
  (forall e, Rabs e < del -> in_use op md io c (w e) /\ layout (I e) = declared input_kind io /\
     layout (outp e) = declared output_kind io /\
     component_compute op md (I e) (outp e) (w e) = (w' e, Ok (out e))) ->
  in_use op md io c w0 -> layout dinp = declared input_kind io -> vec_curve I dinp ->
  layout zo = declared output_kind io -> zeros zo ->
  component_fwd op md (I 0) dinp zo w0 = (w0', Ok dout) ->
  vec_curve out dout.
Proof. exact (@by_name_derivative). Qed.
Print Assumptions C61_forward_is_derivative_by_name.

Example C61_hypotheses_met : exists w' out w0' dout,
  problem_differentiable (source_names (T := R) (demo 2 demo_source) demo_md) (demo 2 demo_source) /\
  o_adaptive (cop 2) = false /\ o_crit (cop 2) = PredefinedNumberOfSteps 2 /\ loops (cop 2) /\ 0 < 1 /\
  (forall e, Rabs e < 1 -> in_use (cop 2) demo_md demo_io tt (used (cop 2)) /\
     layout (moving e) = declared input_kind demo_io /\ layout (cout e e e) = declared output_kind demo_io /\
     component_compute (cop 2) demo_md (moving e) (cout e e e) (used (cop 2)) = (w' e, Ok (out e))) /\
  layout (cin 2 1 0 5) = declared input_kind demo_io /\ vec_curve moving (cin 2 1 0 5) /\ zeros (cout 0 0 0) /\
  component_fwd (cop 2) demo_md (moving 0) (cin 2 1 0 5) (cout 0 0 0) (used (cop 2)) = (w0', Ok dout).
Proof.
  destruct (returns (component_fwd (N := RNum) (cop 2) demo_md (moving 0) (cin 2 1 0 5) (cout 0 0 0) (used (cop 2)))
    ltac:(vm_compute; reflexivity)) as (w0' & dout & E0).
  exists (fun e => fst (component_compute (cop 2) demo_md (moving e) (cout e e e) (used (cop 2)))).
  exists (fun e => match snd (component_compute (cop 2) demo_md (moving e) (cout e e e) (used (cop 2))) with Ok x => x | Err _ => [] end).
  exists w0', dout. split; [rewrite demo_sources; apply demo_differentiable|]. split; [reflexivity|]. split; [reflexivity|].
  split; [exact I|]. split; [lra|]. split.
  { intros e _. split; [apply used_in_use|]. split; [reflexivity|]. split; [reflexivity|].
    destruct (returns (component_compute (N := RNum) (cop 2) demo_md (moving e) (cout e e e) (used (cop 2)))
      ltac:(vm_compute; reflexivity)) as (w & x & E). rewrite E; reflexivity. }
  split; [reflexivity|]. split; [apply moving_curve|]. split; [repeat constructor|exact E0].
Qed.

(** ** C62: products add to the given vectors *)

(** The property fails: OpenMDAO's convention is that a product is added to the
    vector passed in, but only the time entry is added, the quantities replace
    what was there.  Exactly: the result is the sum of the given vector and the
    product into zeros if and only if the given vector has zeros at all
    quantities. *)
Theorem C62_forward_adds_iff_partial :
  forall (C : Type) procs rank vs qs is mds md sz io,
  metadata_of procs vs qs is = Ok mds -> nth_error mds rank = Some md -> declare_all sz md = Ok io ->
  forall op : options R C, state_size (o_ode op) = time_integration_array_size md ->
  independent_input_size (o_ode op) = time_independent_input_size md -> sized_ode (o_ode op) ->
  forall c w inp dinp doutp zo w1 v w2 v0, in_use op md io c w ->
  layout inp = declared input_kind io -> layout dinp = declared input_kind io ->
  layout doutp = declared output_kind io -> layout zo = declared output_kind io -> zeros zo ->
  component_fwd op md inp dinp doutp w = (w1, Ok v) -> component_fwd op md inp dinp zo w = (w2, Ok v0) ->
  (sum_of doutp v0 v <->
   forall q m, In q (time_integration_quantities md) -> look (q_name q ++ "_final")%string m doutp = 0).
Proof. exact (@fwd_sum_iff). Qed.
Print Assumptions C62_forward_adds_iff_partial.

Theorem C62_reverse_adds_iff_partial :
  forall (C : Type) procs rank vs qs is mds md sz io,
  metadata_of procs vs qs is = Ok mds -> nth_error mds rank = Some md -> declare_all sz md = Ok io ->
  forall op : options R C, state_size (o_ode op) = time_integration_array_size md ->
  independent_input_size (o_ode op) = time_independent_input_size md -> sized_ode (o_ode op) ->
  forall c w inp dinp doutp zi w1 v w2 v0, in_use op md io c w ->
  layout inp = declared input_kind io -> layout dinp = declared input_kind io ->
  layout doutp = declared output_kind io -> layout zi = declared input_kind io -> zeros zi ->
  component_rev op md inp dinp doutp w = (w1, Ok v) -> component_rev op md inp zi doutp w = (w2, Ok v0) ->
  (sum_of dinp v0 v <->
   (forall q m, In q (time_integration_quantities md) -> look (q_name q ++ "_initial")%string m dinp = 0) /\
   (forall q m, In q (time_independent_quantities md) -> look (q_name q) m dinp = 0)).
Proof. exact (@rev_sum_iff). Qed.
Print Assumptions C62_reverse_adds_iff_partial.

(** A concrete component, inputs and vectors for which neither product adds. *)
Theorem C62_refuted : exists w w1 v w2 v0 w3 g w4 g0,
  in_use (cop 2) demo_md demo_io tt w /\
  component_fwd (cop 2) demo_md (cin 0 1 2 3) (cin 1 1 0 1) (cout 1 1 1) w = (w1, Ok v) /\
  component_fwd (cop 2) demo_md (cin 0 1 2 3) (cin 1 1 0 1) (cout 0 0 0) w = (w2, Ok v0) /\
  ~ sum_of (cout 1 1 1) v0 v /\
  component_rev (cop 2) demo_md (cin 0 1 2 3) (cin 1 1 1 1) (cout 1 2 3) w = (w3, Ok g) /\
  component_rev (cop 2) demo_md (cin 0 1 2 3) (cin 0 0 0 0) (cout 1 2 3) w = (w4, Ok g0) /\
  ~ sum_of (cin 1 1 1 1) g0 g.
Proof. exact c62_concrete. Qed.
Print Assumptions C62_refuted.

(** ** C63: vectors with only the relevant variables *)

(** The property fails: OpenMDAO passes vectors that have only the variables
    relevant for a derivative (the package's own components ask for each name
    first), but the integrator accesses every declared input.  The forward
    product then always raises a KeyError before it does anything. *)
Theorem C63_forward_refuted :
  forall (T : Type) (N : Num T) (C : Type) procs rank vs qs is mds md sz io,
  metadata_of procs vs qs is = Ok mds -> nth_error mds rank = Some md -> declare_all sz md = Ok io ->
  forall op : options T C, state_size (o_ode op) = time_integration_array_size md ->
  independent_input_size (o_ode op) = time_independent_input_size md -> sized_ode (o_ode op) ->
  forall c w inp dinp doutp, in_use op md io c w ->
  layout inp = declared input_kind io -> lacks_variables input_kind io dinp ->
  component_fwd op md inp dinp doutp w = (w, Err KeyError).
Proof. exact (@fwd_lacking). Qed.
Print Assumptions C63_forward_refuted.

(** The reverse product never returns either; where it would succeed, it raises a
    KeyError after all the work. *)
Theorem C63_reverse_refuted :
  forall (T : Type) (N : Num T) (C : Type) procs rank vs qs is mds md sz io,
  metadata_of procs vs qs is = Ok mds -> nth_error mds rank = Some md -> declare_all sz md = Ok io ->
  forall op : options T C, state_size (o_ode op) = time_integration_array_size md ->
  independent_input_size (o_ode op) = time_independent_input_size md -> sized_ode (o_ode op) ->
  forall c w inp dinp doutp i d, in_use op md io c w ->
  layout inp = declared input_kind io -> layout doutp = declared output_kind io ->
  inputs_sized (o_ode op) i -> holds_inputs md inp i -> outputs_sized (o_ode op) d -> holds_outputs md doutp d ->
  lacks_variables input_kind io dinp ->
  exists e, snd (component_rev op md inp dinp doutp w) = Err e /\
    (forall w' g, compute_jacvec_product_rev op i d w = (w', Ok g) -> e = KeyError).
Proof. exact (@rev_lacking). Qed.
Print Assumptions C63_reverse_refuted.

(** Without the parameter p in the vectors, the products of the example fail;
    with it, they return. *)
Example C63_hypotheses_met : exists w1 v w2 g,
  lacks_variables input_kind demo_io [("time_initial", [1]); ("x_initial", [1; 0])] /\
  component_fwd (cop 2) demo_md (cin 0 1 2 3) (cin 1 1 0 0) (cout 0 0 0) (used (cop 2)) = (w1, Ok v) /\
  component_rev (cop 2) demo_md (cin 0 1 2 3) (cin 0 0 0 0) (cout 1 2 3) (setup (cop 2) tt) = (w2, Ok g).
Proof.
  destruct (returns (component_fwd (N := RNum) (cop 2) demo_md (cin 0 1 2 3) (cin 1 1 0 0) (cout 0 0 0) (used (cop 2)))
    ltac:(vm_compute; reflexivity)) as (w1 & v & E1).
  destruct (returns (component_rev (N := RNum) (cop 2) demo_md (cin 0 1 2 3) (cin 0 0 0 0) (cout 1 2 3) (setup (cop 2) tt))
    ltac:(vm_compute; reflexivity)) as (w2 & g & E2).
  exists w1, v, w2, g. split; [|split; assumption].
  exists (fun p => negb (String.eqb (fst p) "p")). split; [reflexivity|]. exists ("p", 1%nat). split; [cbn; auto|reflexivity].
Qed.
