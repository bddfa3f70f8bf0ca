(** Property theorems about the transfers between arrays and OpenMDAO vectors
    and about the OpenMDAO-backed ODE (C25, C39, C40, C53). *)
From Coq Require Import String.
From Coq Require Import List Bool Arith Reals Lia Lra QArith.
From Verif Require Import Base Ext M_Tableau M_State M_ODE M_Step M_Integrator M_Metadata M_Components SpecMetadata SpecRK SpecDeriv SpecRun SpecShape SpecComponents
  M_Packing SpecPacking L_Vec L_Step L_Deriv L_Whole L_WholeR L_Packing L_Packing2 L_Packing3 L_Packing4 L_Packing5 L_Packing6 L_Packing7 L_Packing8 L_RunProps Witness WitnessRun WitnessPacking.
Import ListNotations.
Local Open Scope string_scope.
Local Open Scope R_scope.
Local Open Scope list_scope.

(** ** C25: packing of component data *)

(** Reading the component's variables into a state array always succeeds and
    puts every quantity into its range. *)
Theorem C25_reading_places_every_quantity :
  forall (T : Type) (procs rank : nat) (vs : list variable) (qs is : list string) (mds : list metadata)
    (md : metadata) (sz : string -> nat) (io : list (string * nat) * list (string * nat)),
  metadata_of procs vs qs is = Ok mds -> nth_error mds rank = Some md -> declare_all sz md = Ok io ->
  forall k (v : vec T) arr, layout v = declared k io -> length arr = time_integration_array_size md ->
  exists arr', to_numpy_ti md k v arr = Ok arr' /\ length arr' = time_integration_array_size md /\
    forall q, In q (time_integration_quantities md) -> get (io_name k q) v = Ok (part (q_array q) arr').
Proof. exact (@c25_read). Qed.
Print Assumptions C25_reading_places_every_quantity.

(** Writing a state array to the component's variables always succeeds; every
    quantity gets its range and no other variable changes. *)
Theorem C25_writing_places_every_quantity :
  forall (T : Type) (procs rank : nat) (vs : list variable) (qs is : list string) (mds : list metadata)
    (md : metadata) (sz : string -> nat) (io : list (string * nat) * list (string * nat)),
  metadata_of procs vs qs is = Ok mds -> nth_error mds rank = Some md -> declare_all sz md = Ok io ->
  forall k (v : vec T) arr, layout v = declared k io -> length arr = time_integration_array_size md ->
  exists v', from_numpy_ti md k arr v = Ok v' /\ layout v' = layout v /\
    (forall q, In q (time_integration_quantities md) -> get (io_name k q) v' = Ok (part (q_array q) arr)) /\
    (forall n, (forall q, In q (time_integration_quantities md) -> n <> io_name k q) -> get n v' = get n v).
Proof. exact (@c25_write). Qed.
Print Assumptions C25_writing_places_every_quantity.

(** A written array is read back unchanged ... *)
Theorem C25_array_round_trip :
  forall (T : Type) (procs rank : nat) (vs : list variable) (qs is : list string) (mds : list metadata)
    (md : metadata) (sz : string -> nat) (io : list (string * nat) * list (string * nat)),
  metadata_of procs vs qs is = Ok mds -> nth_error mds rank = Some md -> declare_all sz md = Ok io ->
  forall k (v v' : vec T) arr arr0, layout v = declared k io ->
  length arr = time_integration_array_size md -> length arr0 = time_integration_array_size md ->
  from_numpy_ti md k arr v = Ok v' -> to_numpy_ti md k v' arr0 = Ok arr.
Proof. exact (@c25_array_roundtrip). Qed.
Print Assumptions C25_array_round_trip.

(** ... and writing back what was read changes nothing. *)
Theorem C25_vector_round_trip :
  forall (T : Type) (procs rank : nat) (vs : list variable) (qs is : list string) (mds : list metadata)
    (md : metadata) (sz : string -> nat) (io : list (string * nat) * list (string * nat)),
  metadata_of procs vs qs is = Ok mds -> nth_error mds rank = Some md -> declare_all sz md = Ok io ->
  forall k (v : vec T) arr arr0, layout v = declared k io ->
  length arr0 = time_integration_array_size md ->
  to_numpy_ti md k v arr0 = Ok arr -> from_numpy_ti md k arr v = Ok v.
Proof. exact (@c25_vector_roundtrip). Qed.
Print Assumptions C25_vector_round_trip.

(** The same for the time-independent inputs. *)
Theorem C25_independent_inputs_placed :
  forall (T : Type) (procs rank : nat) (vs : list variable) (qs is : list string) (mds : list metadata)
    (md : metadata) (sz : string -> nat) (io : list (string * nat) * list (string * nat)),
  metadata_of procs vs qs is = Ok mds -> nth_error mds rank = Some md -> declare_all sz md = Ok io ->
  forall (v : vec T) arr, layout v = declared input_kind io -> length arr = time_independent_input_size md ->
  (exists arr', to_numpy_ind md input_kind v arr = Ok arr' /\ length arr' = time_independent_input_size md /\
    forall q, In q (time_independent_quantities md) -> get (q_name q) v = Ok (part (q_array q) arr')) /\
  (exists v', from_numpy_ind md input_kind arr v = Ok v' /\ layout v' = layout v /\
    (forall q, In q (time_independent_quantities md) -> get (q_name q) v' = Ok (part (q_array q) arr)) /\
    (forall n, (forall q, In q (time_independent_quantities md) -> n <> q_name q) -> get n v' = get n v)).
Proof. exact (fun T p r v q i m d s o A B C w a L La => conj (c25_read_inputs p r v q i m d s o A B C w a L La) (c25_write_inputs p r v q i m d s o A B C w a L La)). Qed.
Print Assumptions C25_independent_inputs_placed.

Theorem C25_independent_inputs_round_trip :
  forall (T : Type) (procs rank : nat) (vs : list variable) (qs is : list string) (mds : list metadata)
    (md : metadata) (sz : string -> nat) (io : list (string * nat) * list (string * nat)),
  metadata_of procs vs qs is = Ok mds -> nth_error mds rank = Some md -> declare_all sz md = Ok io ->
  forall (v v' : vec T) arr arr0, layout v = declared input_kind io ->
  length arr = time_independent_input_size md -> length arr0 = time_independent_input_size md ->
  from_numpy_ind md input_kind arr v = Ok v' -> to_numpy_ind md input_kind v' arr0 = Ok arr.
Proof. exact (@c25_inputs_roundtrip). Qed.
Print Assumptions C25_independent_inputs_round_trip.

Example C25_nonvacuous :
  exists io v arr, metadata_of 1 demo_variables ["x"] ["p"] = Ok [demo_md] /\ declare_all demo_size demo_md = Ok io /\
    layout v = declared input_kind io /\ length arr = time_integration_array_size demo_md /\
    v = [("time_initial", [7]); ("x_initial", [1; 2]); ("p", [5])] /\
    to_numpy_ti demo_md input_kind v arr = Ok [1; 2] /\ to_numpy_ind demo_md input_kind v [0] = Ok [5] /\
    from_numpy_ti demo_md input_kind [3; 4] v = Ok [("time_initial", [7]); ("x_initial", [3; 4]); ("p", [5])].
Proof. eexists _, _, [0; 0]. repeat split; reflexivity. Qed.

(** A quantity called "time" is refused when the component is set up. *)
Example C25_clash_refused :
  exists md, metadata_of 1 (map (fun v => {| v_name := v_name v; v_output := v_output v;
      v_tags := map (fun t => if String.eqb t "x" then "time" else t) (v_tags v); v_parts := v_parts v;
      v_global_shape := v_global_shape v |}) demo_variables) ["time"] ["p"] = Ok [md] /\
    map q_name (time_integration_quantities md) = ["time"] /\ declare_all demo_size md = Err ValueError.
Proof. eexists. split; [vm_compute; reflexivity|]. split; vm_compute; reflexivity. Qed.

(** The OpenMDAO-backed ODE writes every part of its input, times the factor, to
    the source of the right variable and touches nothing else. *)
Theorem C25_ode_input_placed :
  forall (procs rank : nat) (vs : list variable) (qs is : list string) (mds : list metadata) (md : metadata) (pb : problem R),
  metadata_of procs vs qs is = Ok mds -> nth_error mds rank = Some md ->
  forall inp f (v v' : vec R), distinct_sources pb md ->
  (forall tv s x, time_variable md = Some tv -> p_source pb tv = Ok s -> get s v = Ok x -> length x = 1%nat) ->
  length (M_ODE.step_input inp) = time_integration_array_size md ->
  length (stage_input inp) = time_integration_array_size md ->
  length (independent_input inp) = time_independent_input_size md ->
  input_state_to_om_vector pb md inp f v = Ok v' ->
  layout v' = layout v /\
  (forall tv, time_variable md = Some tv -> exists s, p_source pb tv = Ok s /\ get s v' = Ok [f * time inp]) /\
  (forall q sv, In q (time_integration_quantities md) -> local (q_array q) = true ->
     step_input_var (q_translation q) = Some sv ->
     exists s s', p_source pb sv = Ok s /\ get s v' = Ok (map (Rmult f) (part (q_array q) (M_ODE.step_input inp))) /\
       source_of pb (accumulated_stage_var (q_translation q)) = Ok s' /\
       get s' v' = Ok (map (Rmult f) (part (q_array q) (stage_input inp)))) /\
  (forall q, In q (time_independent_quantities md) -> local (q_array q) = true ->
     exists s, source_of pb (q_translation q) = Ok s /\
       get s v' = Ok (map (Rmult f) (part (q_array q) (independent_input inp)))) /\
  (forall n, ~ In n (source_names pb md) -> get n v' = get n v).
Proof. exact c25_ode_placed. Qed.
Print Assumptions C25_ode_input_placed.

(** It reads every quantity's update from its stage output. *)
Theorem C25_ode_update_read :
  forall (procs rank : nat) (vs : list variable) (qs is : list string) (mds : list metadata) (md : metadata),
  metadata_of procs vs qs is = Ok mds -> nth_error mds rank = Some md ->
  forall (v : vec R) upd,
  om_vector_to_output_state md v (vzeros (time_integration_array_size md)) = Ok upd ->
  length upd = time_integration_array_size md /\
  forall q, In q (time_integration_quantities md) -> local (q_array q) = true ->
    exists n, stage_output_var (q_translation q) = Some n /\ get n v = Ok (part (q_array q) upd).
Proof. exact c25_ode_read. Qed.
Print Assumptions C25_ode_update_read.

Example C25_ode_nonvacuous :
  exists v, input_state_to_om_vector (demo 2 demo_source) demo_md
    {| M_ODE.step_input := [1; 2]; stage_input := [3; 4]; independent_input := [5]; time := 6 |} (-1) (demo_vec 0 0 0 0 0 0 0 0) = Ok v /\
    v = demo_vec (6 * -1) (-1 * 1) (-1 * 2) (-1 * 3) (-1 * 4) (-1 * 5) 0 0 /\
    distinct_sources (T := R) (demo 2 demo_source) demo_md /\
    om_vector_to_output_state demo_md (demo_vec 0 0 0 0 0 0 8 9) (vzeros 2) = Ok [8; 9].
Proof. eexists. split; [reflexivity|]. split; [reflexivity|]. split; [apply demo_distinct|reflexivity]. Qed.

(** ** C40: linearization points *)
(** The point a call of compute_update exports restores the stage problem's
    inputs and outputs, whatever calls were made since. *)
Theorem C40_point_restores_the_problem :
  forall (T : Type) (N : Num T) pb md (st st1 st2 : om_state T) inp h a r lp, keeps_layout pb ->
  om_compute_update pb md st inp h a = Ok (st1, (r, lp)) -> history pb md st1 st2 ->
  exists st3, set_linearization_point lp st2 = Ok st3 /\ om_in st3 = om_in st1 /\ om_out st3 = om_out st1.
Proof. exact (@c40_restored_later). Qed.
Print Assumptions C40_point_restores_the_problem.

(** It does so from every state with the same variables, in particular after
    failed solves. *)
Theorem C40_point_restores_any_state :
  forall (T : Type) (N : Num T) pb md (st st1 st2 : om_state T) inp h a r lp,
  om_compute_update pb md st inp h a = Ok (st1, (r, lp)) -> same_layout st2 st1 ->
  exists st3, set_linearization_point lp st2 = Ok st3 /\ om_in st3 = om_in st1 /\ om_out st3 = om_out st1.
Proof. exact (@c40_restored). Qed.
Print Assumptions C40_point_restores_any_state.

(** The exported array has the announced size. *)
Theorem C40_point_size :
  forall (T : Type) (N : Num T) pb md (st st1 : om_state T) inp h a r lp norm, keeps_layout pb ->
  om_compute_update pb md st inp h a = Ok (st1, (r, lp)) ->
  length lp = linearization_point_size (openmdao_ode pb md st norm).
Proof. exact (@c40_size). Qed.
Print Assumptions C40_point_size.

Example C40_nonvacuous :
  let pb := demo (T := Q) 1%Q demo_source in
  let inp x := {| M_ODE.step_input := [x; 2%Q]; stage_input := [x; 4%Q]; independent_input := [5%Q]; time := 6%Q |} in
  exists st1 r lp st2, keeps_layout pb /\
    om_compute_update pb demo_md (demo_state 0%Q) (inp 1%Q) (1 # 2)%Q 1%Q = Ok (st1, (r, lp)) /\
    history pb demo_md st1 st2 /\ om_out st2 <> om_out st1.
Proof.
  cbv zeta. eexists _, _, _, _. split; [apply demo_keeps|]. split; [vm_compute; reflexivity|]. split.
  - refine (then_update _ _ _ _ _
      {| M_ODE.step_input := [3%Q; 2%Q]; stage_input := [1%Q; 4%Q]; independent_input := [5%Q]; time := 6%Q |}
      1%Q (1 # 2)%Q _ (no_calls _ _ _) _). vm_compute. reflexivity.
  - vm_compute. discriminate.
Qed.

(** ** C39: the OpenMDAO-backed ODE as the integrator sees it *)
(** If the stage problem solves with a matrix in forward mode and its transpose
    in reverse mode, derivative and adjoint derivative are transposes. *)
Theorem C39_transposed :
  forall (procs rank : nat) (vs : list variable) (qs is : list string) (mds : list metadata) (md : metadata) (pb : problem R)
    (st : om_state R) (norm : ode_out R -> R),
  metadata_of procs vs qs is = Ok mds -> nth_error mds rank = Some md ->
  keeps_layout pb -> solves_transposed pb -> well_formed st ->
  distinct_sources pb md -> distinct_outputs md -> scalar_time pb md st ->
  ode_transposed (openmdao_ode pb md st norm).
Proof. exact c39_transposed. Qed.
Print Assumptions C39_transposed.

(** If its forward solves are linear, so is the derivative. *)
Theorem C39_linear :
  forall (procs rank : nat) (vs : list variable) (qs is : list string) (mds : list metadata) (md : metadata) (pb : problem R)
    (st : om_state R) (norm : ode_out R -> R),
  metadata_of procs vs qs is = Ok mds -> nth_error mds rank = Some md ->
  keeps_layout pb -> solves_linear pb -> well_formed st -> scalar_time pb md st ->
  ode_linear (openmdao_ode pb md st norm).
Proof. exact c39_linear. Qed.
Print Assumptions C39_linear.

(** If its forward solves give the derivative of its outputs with respect to the
    sources, the ODE's derivative is the derivative of its update. *)
Theorem C39_differentiable :
  forall (procs rank : nat) (vs : list variable) (qs is : list string) (mds : list metadata) (md : metadata) (pb : problem R)
    (st : om_state R) (norm : ode_out R -> R),
  metadata_of procs vs qs is = Ok mds -> nth_error mds rank = Some md ->
  keeps_layout pb -> problem_differentiable (source_names pb md) pb -> well_formed st ->
  distinct_sources pb md -> scalar_time pb md st ->
  ode_differentiable (openmdao_ode pb md st norm).
Proof. exact c39_differentiable. Qed.
Print Assumptions C39_differentiable.

(** The arrays it returns have the announced sizes; weights of the stage states,
    which are zero, are ignored. *)
Theorem C39_sizes :
  forall (procs rank : nat) (vs : list variable) (qs is : list string) (mds : list metadata) (md : metadata) (pb : problem R)
    (st : om_state R) (norm : ode_out R -> R),
  metadata_of procs vs qs is = Ok mds -> nth_error mds rank = Some md ->
  keeps_layout pb ->
  result_sizes (openmdao_ode pb md st norm) /\ derivative_sizes (openmdao_ode pb md st norm) /\
  adjoint_sizes (openmdao_ode pb md st norm) /\ ignores_stage_state_weights (openmdao_ode pb md st norm).
Proof. exact (fun p r v q i m d pb st nm A B K => conj (c39_result_sizes p r v q i m d pb st nm A B K) (conj (c39_derivative_sizes p r v q i m d pb st nm A B) (conj (c39_adjoint_sizes p r v q i m d pb st nm A B) (c39_ignores d pb st nm)))). Qed.
Print Assumptions C39_sizes.

(** Hence the products of an integrator over such a problem are transposed. *)
Theorem C39_integrator_transposed :
  forall (procs rank : nat) (vs : list variable) (qs is : list string) (mds : list metadata) (md : metadata) (pb : problem R)
    (st : om_state R) (norm : ode_out R -> R),
  metadata_of procs vs qs is = Ok mds -> nth_error mds rank = Some md ->
  keeps_layout pb -> solves_transposed pb -> well_formed st ->
  distinct_sources pb md -> distinct_outputs md -> scalar_time pb md st ->
  forall (C : Type) (op : options R C) c1 c2 h1 h2 i din d w1 dout w2 out w3 g,
  o_ode op = openmdao_ode pb md st norm -> tableau_wf (o_bt op) -> o_ckpt op = AllCheckpointer ->
  Forall (call_sized (o_ode op)) h1 -> Forall (call_sized (o_ode op)) h2 ->
  inputs_sized (o_ode op) i -> inputs_sized (o_ode op) din -> outputs_sized (o_ode op) d ->
  ctl (run_calls op h1 (setup op c1)) = ctl (run_calls op h2 (setup op c2)) ->
  compute_jacvec_product_fwd op i din (run_calls op h1 (setup op c1)) = (w1, Ok dout) ->
  compute op i (run_calls op h2 (setup op c2)) = (w2, Ok out) ->
  compute_jacvec_product_rev op i d w2 = (w3, Ok g) ->
  dot_outputs d dout = dot_inputs g din.
Proof. exact c39_integrator. Qed.
Print Assumptions C39_integrator_transposed.

Example C39_nonvacuous :
  exists r x lp, keeps_layout (T := R) (demo 2 demo_source) /\ solves_transposed (demo 2 demo_source) /\
    solves_linear (demo 2 demo_source) /\
    problem_differentiable (source_names (T := R) (demo 2 demo_source) demo_md) (demo 2 demo_source) /\
    well_formed (demo_state 1) /\ distinct_sources (T := R) (demo 2 demo_source) demo_md /\
    distinct_outputs demo_md /\ scalar_time (demo 2 demo_source) demo_md (demo_state 1) /\
    compute_update_derivative (openmdao_ode (demo 2 demo_source) demo_md (demo_state 1) (fun _ => 0)) lp
      {| M_ODE.step_input := [1; 0]; stage_input := [0; 0]; independent_input := [0]; time := 0 |} 1 0 = Ok r /\
    vnth 0 (stage_update r) = 2 /\ vnth 1 (stage_update r) = 0 /\
    compute_update_adjoint_derivative (openmdao_ode (demo 2 demo_source) demo_md (demo_state 1) (fun _ => 0)) lp
      {| stage_update := [1; 0]; stage_state := [0; 0]; independent_output := [] |} 1 0 = Ok x /\
    vnth 0 (M_ODE.step_input x) = 2 /\ vnth 0 (stage_input x) = 2 /\ time x = 2.
Proof.
  eexists _, _, (repeat 0 14). split; [apply demo_keeps|]. split; [apply demo_transposed|].
  split; [apply demo_linear|]. split; [rewrite demo_sources; apply demo_differentiable|].
  split; [apply demo_formed|]. split; [apply demo_distinct|]. split; [apply demo_outputs|]. split; [apply demo_scalar|].
  split; [reflexivity|]. cbn. split; [field|]. split; [field|]. split; [reflexivity|]. cbn. repeat split; field.
Qed.

Definition demo_op : options R unit :=
  gop heun (openmdao_ode (demo 2 demo_source) demo_md (demo_state 1) (fun _ => 0)) AllCheckpointer false (1/2)
    (PredefinedNumberOfSteps 2).
Definition demo_inputs (t x y p : R) : inputs R := {| time_initial := t; initial := [x; y]; independent := [p] |}.
Example C39_integrator_nonvacuous : exists w1 dout w2 out w3 g,
  o_ode demo_op = openmdao_ode (demo 2 demo_source) demo_md (demo_state 1) (fun _ => 0) /\
  tableau_wf (o_bt demo_op) /\ o_ckpt demo_op = AllCheckpointer /\
  Forall (call_sized (o_ode demo_op)) [CallCompute (demo_inputs 1 2 3 4)] /\
  inputs_sized (o_ode demo_op) (demo_inputs 0 1 2 3) /\ outputs_sized (o_ode demo_op) {| time_final := 1; final := [2; 3] |} /\
  compute_jacvec_product_fwd demo_op (demo_inputs 0 1 2 3) (demo_inputs 1 1 0 1)
    (run_calls demo_op [CallCompute (demo_inputs 1 2 3 4)] (setup demo_op tt)) = (w1, Ok dout) /\
  compute demo_op (demo_inputs 0 1 2 3) (run_calls demo_op [] (setup demo_op tt)) = (w2, Ok out) /\
  compute_jacvec_product_rev demo_op (demo_inputs 0 1 2 3) {| time_final := 1; final := [2; 3] |} w2 = (w3, Ok g).
Proof.
  pose proof (demo_keeps (T := R) 2 demo_source) as K. pose proof demo_metadata as M.
  assert (S1 : result_sizes (o_ode demo_op)) by (eapply c39_result_sizes with (rank := 0%nat); eauto; reflexivity).
  assert (S2 : derivative_sizes (o_ode demo_op)) by (eapply c39_derivative_sizes with (rank := 0%nat); eauto; reflexivity).
  assert (S3 : adjoint_sizes (o_ode demo_op)) by (eapply c39_adjoint_sizes with (rank := 0%nat); eauto; reflexivity).
  assert (Zi : inputs_sized (o_ode demo_op) (demo_inputs 0 1 2 3)) by (split; reflexivity).
  assert (Zo : outputs_sized (o_ode demo_op) {| time_final := 1; final := [2; 3] |}) by reflexivity.
  destruct (returns (compute_jacvec_product_fwd demo_op (demo_inputs 0 1 2 3) (demo_inputs 1 1 0 1)
    (run_calls demo_op [CallCompute (demo_inputs 1 2 3 4)] (setup demo_op tt))) ltac:(vm_compute; reflexivity)) as (w1 & dout & E1).
  destruct (returns (compute demo_op (demo_inputs 0 1 2 3) (run_calls demo_op [] (setup demo_op tt)))
    ltac:(vm_compute; reflexivity)) as (w2 & out & E2).
  destruct (returns (compute_jacvec_product_rev demo_op (demo_inputs 0 1 2 3) {| time_final := 1; final := [2; 3] |}
    (setup demo_op tt)) ltac:(vm_compute; reflexivity)) as (w4 & g & E4).
  destruct (proj2 (rev_after_compute demo_op S1 S2 S3 (c39_ignores _ _ _ _) Reqb_eq tt _ _ _ g _ _
    eq_refl (gop_quiet _ _ _ _ _ _) (gop_stateless _ _ _ _ _ _) (Forall_nil _) Zi Zo E2) (ex_intro _ w4 E4)) as (w3 & E3).
  exists w1, dout, w2, out, w3, g. split; [reflexivity|]. split; [apply heun_wf|]. split; [reflexivity|].
  split; [repeat constructor|]. auto.
Qed.

(** Without distinct sources this fails: here the old value and the accumulated
    stages are fed by the same source.  Forward, the latter overwrite the former;
    in reverse both get the source's weight. *)
Theorem C39_shared_source_refuted :
  exists pb md st, metadata_of 1 demo_variables ["x"] ["p"] = Ok [md] /\
    keeps_layout pb /\ solves_transposed pb /\ well_formed st /\ distinct_outputs md /\ scalar_time pb md st /\
    ~ ode_transposed (openmdao_ode pb md st (fun _ => 0)).
Proof. exact c39_shared. Qed.
Print Assumptions C39_shared_source_refuted.

(** It also fails if the source of the time has several entries: all of them are
    set, but only the first is read in reverse mode. *)
Theorem C39_vector_time_refuted :
  exists pb md st, metadata_of 1 demo_variables ["x"] ["p"] = Ok [md] /\
    keeps_layout pb /\ solves_transposed pb /\ well_formed st /\ distinct_sources pb md /\ distinct_outputs md /\
    ~ ode_transposed (openmdao_ode pb md st (fun _ => 0)).
Proof. exact c39_vector_time. Qed.
Print Assumptions C39_vector_time_refuted.

(** ** C53: independence of earlier calls *)
(** Derivative calls depend on the linearization point and their arguments
    only, if all numbers are finite and the result of a linear solve does not
    depend on its starting guess. *)
Theorem C53_derivatives_ignore_history_partial :
  forall (md : metadata) (pb : problem R) (norm : ode_out R -> R) (st st' : om_state R),
  keeps_layout pb -> guess_free pb -> history pb md st st' ->
  (forall lp d h a, compute_update_derivative (openmdao_ode pb md st' norm) lp d h a
                  = compute_update_derivative (openmdao_ode pb md st norm) lp d h a) /\
  (forall lp w h a, compute_update_adjoint_derivative (openmdao_ode pb md st' norm) lp w h a
                  = compute_update_adjoint_derivative (openmdao_ode pb md st norm) lp w h a).
Proof. exact c53_history. Qed.
Print Assumptions C53_derivatives_ignore_history_partial.

(** So do updates, if the solution of the stage problem is determined by the
    sources. *)
Theorem C53_updates_ignore_history_partial :
  forall (procs rank : nat) (vs : list variable) (qs is : list string) (mds : list metadata) (md : metadata) (pb : problem R)
    (norm : ode_out R -> R),
  metadata_of procs vs qs is = Ok mds -> nth_error mds rank = Some md ->
  forall (st st' : om_state R), keeps_layout pb -> start_free (source_names pb md) pb ->
  scalar_time pb md st -> history pb md st st' ->
  forall inp h a, compute_update (openmdao_ode pb md st' norm) inp h a
                = compute_update (openmdao_ode pb md st norm) inp h a.
Proof. exact c53_history_update. Qed.
Print Assumptions C53_updates_ignore_history_partial.

(** With non-finite numbers it fails: the vectors are cleared by multiplying
    with zero, so a NaN left over from one adjoint call shows up in the next
    derivative. *)
Theorem C53_refuted :
  exists (pb : problem (ext Q)) md st st' lp d h a r r' norm,
    metadata_of 1 demo_variables ["x"] ["p"] = Ok [md] /\ keeps_layout pb /\ well_formed st /\
    distinct_sources pb md /\ scalar_time pb md st /\ history pb md st st' /\
    compute_update_derivative (openmdao_ode pb md st norm) lp d h a = Ok r /\
    compute_update_derivative (openmdao_ode pb md st' norm) lp d h a = Ok r' /\
    stage_update r = [Fin 2%Q; Fin 0%Q] /\ stage_update r' = [NaN; Fin 0%Q].
Proof. exact c53_nan. Qed.
Print Assumptions C53_refuted.

Example C53_nonvacuous :
  let inp := {| M_ODE.step_input := [1; 2]; stage_input := [3; 4]; independent_input := [5]; time := 6 |} in
  exists st', keeps_layout (T := R) (demo 2 demo_source) /\ guess_free (T := R) (demo 2 demo_source) /\
    start_free (T := R) (source_names (demo 2 demo_source) demo_md) (demo 2 demo_source) /\
    scalar_time (demo 2 demo_source) demo_md (demo_state 1) /\
    history (demo 2 demo_source) demo_md (demo_state 1) st' /\ om_in st' = demo_in (6 * 1) (1 * 1) (1 * 2) (1 * 3) (1 * 4) (1 * 5).
Proof.
  cbv zeta. eexists. split; [apply demo_keeps|]. split; [apply demo_guess_free|].
  split; [rewrite demo_sources; apply demo_start_free|]. split; [apply demo_scalar|].
  split.
  - refine (then_update _ _ _ _ _
      {| M_ODE.step_input := [1; 2]; stage_input := [3; 4]; independent_input := [5]; time := 6 |}
      1 1 _ (no_calls _ _ _) _). reflexivity.
  - reflexivity.
Qed.
