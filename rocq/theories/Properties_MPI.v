(** Property theorems about several processes (C36, C37). *)
From Coq Require Import String.
From Coq Require Import List Bool Arith Reals Lia Lra QArith.
From Verif Require Import Base Ext M_Tableau M_State M_ODE M_Step M_Controller M_Measure M_Integrator M_Metadata M_MPI
  SpecMetadata SpecMPI L_MPI3 L_MPI4 L_MPI5 Witness WitnessRun WitnessMPI.
Import ListNotations.
Local Open Scope string_scope.
Local Open Scope nat_scope.
Local Open Scope list_scope.

(** ** C36: the norm over several processes *)

(** For order 0, positive orders and infinity, every process gets the norm of
    the vector of all included entries, each counted once, however the
    quantities are spread.  (For infinity each process must hold entries of
    each included quantity.) *)
Theorem C36_norm_of_all_entries_partial :
  forall (ord : order R) (excl : list string) (n : nat) (vs : list variable) (qs is : list string)
    (mds : list metadata) (procs : list (metadata * list R)) (x : list R),
  positive ord ->
  metadata_of n vs qs is = Ok mds -> well_tagged vs qs -> map fst procs = mds -> fitting procs ->
  (ord = OrdInf -> Forall (no_gap excl) procs) -> assembled excl procs x ->
  exists v, is_norm ord x v /\ compute_state_norms ord excl procs = Ok (map (fun _ => v) procs).
Proof. intros ord excl n vs qs is mds procs x P M W Mp F; exact (c36 ord P excl n vs qs is mds M W procs Mp F x). Qed.
Print Assumptions C36_norm_of_all_entries_partial.

Example C36_meets_hypotheses : metadata_of 2 two ["x"; "y"] [] = Ok two_mds /\ well_tagged two ["x"; "y"] /\
  map fst (two_procs 2 (-1) 3 10)%R = two_mds /\ fitting (two_procs 2 (-1) 3 10)%R /\
  Forall (no_gap []) (two_procs 2 (-1) 3 10)%R /\ assembled [] (two_procs 2 (-1) 3 10)%R [2; -1; 3; 10]%R /\
  map (fun md => map (fun q => (q_name q, distributed (q_array q))) (time_integration_quantities md)) two_mds =
    [[("x", true); ("y", false)]; [("x", true); ("y", false)]].
Proof.
  exact (conj two_ok (conj two_tagged (conj eq_refl (conj (two_fitting _ _ _ _) (conj (two_no_gap _ _ _ _)
    (conj (two_assembled _ _ _ _) eq_refl)))))).
Qed.

(** The orders plus and minus infinity fail as soon as one process lacks
    entries of an included quantity, *)
Theorem C36_infinity_needs_entries :
  forall (T : Type) (N : Num T) (ord : order T) (excl : list string) (procs : list (metadata * list T)),
  ord = OrdInf \/ ord = OrdNegInf -> ~ Forall (no_gap excl) procs ->
  compute_state_norms ord excl procs = Err ValueError.
Proof. exact (fun T N ord excl procs H => @c36_gap T N ord H excl procs). Qed.
Print Assumptions C36_infinity_needs_entries.

Example C36_infinity_meets_hypotheses : metadata_of 2 lone ["x"] [] = Ok lone_mds /\
  ~ Forall (no_gap []) (combine lone_mds [[1; 2]; []]).
Proof.
  split; [vm_compute; reflexivity|].
  intros F; inversion F as [|? ? _ F1]; inversion F1 as [|? ? F2 _]; inversion F2 as [|? ? F3 _]; exact (F3 eq_refl).
Qed.

(** minus infinity gives zero whatever the state is, *)
Theorem C36_minus_infinity_is_zero :
  forall (excl : list string) (procs : list (metadata * list R)) (l : list R),
  compute_state_norms OrdNegInf excl procs = Ok l -> Forall (fun v => v = 0%R) l.
Proof. exact c36_neg. Qed.
Print Assumptions C36_minus_infinity_is_zero.

(** hence not the smallest absolute value, *)
Theorem C36_minus_infinity_refuted :
  exists mds (procs : list (metadata * list R)) x l, metadata_of 1 single ["x"] [] = Ok mds /\ well_tagged single ["x"] /\
  map fst procs = mds /\ fitting procs /\ assembled [] procs x /\
  compute_state_norms OrdNegInf [] procs = Ok l /\ forall v, In v l -> ~ is_norm OrdNegInf x v.
Proof. exact c36_neg_refuted. Qed.
Print Assumptions C36_minus_infinity_refuted.

(** and a quantity that has copies on some but not all processes counts once
    per copy: value 3 on two of three processes. *)
Theorem C36_partial_copies_refuted :
  exists mds (procs : list (metadata * list R)) l, metadata_of 3 partly ["x"] [] = Ok mds /\ well_tagged partly ["x"] /\
  map fst procs = mds /\ fitting procs /\
  (forall r v, nth_error (v_parts (out "xs" "x" [Some [1]; Some [1]; None] [1])) r = Some (Some v) ->
     option_map (portion 0) (nth_error procs r) = Some [3%R]) /\
  compute_state_norms (Ord 1%R) [] procs = Ok l /\ forall v, In v l -> ~ is_norm (Ord 1%R) [3%R] v.
Proof. exact c36_partly_refuted. Qed.
Print Assumptions C36_partial_copies_refuted.

(** ** C37: all processes take the same decisions *)

(** One process alone does what the integrator model of the other theorems
    does. *)
Theorem C37_one_process_is_the_integrator :
  forall (T : Type) (N : Num T) (C : Type) (op : options T C) (ord : order T) (excl : list string) (md : metadata),
  (forall x, compute_state_norms ord excl [(md, x)] =
     Ok [compute_state_norm (o_ode op) {| stage_update := []; stage_state := x; independent_output := [] |}]) ->
  forall fuel c st, alone (o_ode op) (p_iterate op ord excl md fuel c st) = iterate_on_step op fuel c st.
Proof. exact (@c37_alone). Qed.
Print Assumptions C37_one_process_is_the_integrator.

(** The sum of absolute values of a quantity with one entry. *)
Example C37_one_process_meets_hypotheses : exists (md : metadata) (o : ode Q),
  metadata_of 1 [out "xs" "x" [Some [2]] [2]] ["x"] [] = Ok [md] /\
  forall x, compute_state_norms (Ord 1%Q) [] [(md, x)] =
    Ok [compute_state_norm o {| stage_update := []; stage_state := x; independent_output := [] |}].
Proof.
  eexists; exists {| compute_update := compute_update (gode never never);
    compute_update_derivative := compute_update_derivative (gode never never);
    compute_update_adjoint_derivative := compute_update_adjoint_derivative (gode never never);
    compute_state_norm := fun r => 
      let n := nadd 0%Q (power (vsum (map nabs (slice 0 2 (stage_state r)))) 1%Q) in power (nadd 0%Q n) (ndiv 1%Q 1%Q);
    state_size := 2; independent_input_size := 1; independent_output_size := 0; linearization_point_size := 2 |}.
  split; [vm_compute; reflexivity|]; intros x; reflexivity.
Qed.

(** At every point of a joint run all processes are at the same operation: the
    same solver call (stage time and step size), the same reduction, the same
    callback of the same step, the same verdict on the same step size; or all
    have ended with the same result, histories and suggested step size. *)
Theorem C37_processes_stay_in_step_partial :
  forall (T : Type) (N : Num T) (C : Type) (op : options T C) (ord : order T) (excl : list string)
    (procs : nat) (vs : list variable) (qs is : list string) (mds : list metadata) (sts : list (tistate T))
    (fuel it : nat) (c : C) (ps : list (prog T (C * tistate T * res unit))),
  metadata_of procs vs qs is = Ok mds -> well_tagged vs qs -> norm_defined ord excl mds ->
  together excl (o_bt op) mds sts ->
  moves ord excl mds (map2 (fun md st => p_forward op ord excl md fuel it c st) mds sts) ps ->
  in_step ps.
Proof. exact (@c37). Qed.
Print Assumptions C37_processes_stay_in_step_partial.

(** So nobody waits for a process that does something else. *)
Theorem C37_no_deadlock_partial :
  forall (T : Type) (N : Num T) (C : Type) (op : options T C) (ord : order T) (excl : list string)
    (procs : nat) (vs : list variable) (qs is : list string) (mds : list metadata) (sts : list (tistate T))
    (fuel it : nat) (c : C) (ps : list (prog T (C * tistate T * res unit))),
  metadata_of procs vs qs is = Ok mds -> well_tagged vs qs -> norm_defined ord excl mds ->
  together excl (o_bt op) mds sts ->
  moves ord excl mds (map2 (fun md st => p_forward op ord excl md fuel it c st) mds sts) ps ->
  (exists rs, ps = map (Done _) rs) \/ (exists ps', move ord excl mds ps ps').
Proof. exact (@c37_no_deadlock). Qed.
Print Assumptions C37_no_deadlock_partial.

(** A run of two processes up to the first verdict. *)
Example C37_meets_hypotheses : metadata_of 2 two ["x"; "y"] [] = Ok two_mds /\ well_tagged two ["x"; "y"] /\
  norm_defined (Ord 1%Q) [] two_mds /\ together [] (o_bt (mop SimpleErrorMeasurer)) two_mds two_states /\
  exists ps, moves (Ord 1%Q) [] two_mds
    (map2 (fun md st => p_forward (mop SimpleErrorMeasurer) (Ord 1%Q) [] md 5 0 tt st) two_mds two_states) ps /\
    exists x1 k1 x2 k2, ps = [Decide _ x1 true k1; Decide _ x2 true k2].
Proof. exact (conj two_ok (conj two_tagged (conj (or_introl (ex_intro _ _ eq_refl)) (conj two_together two_may_move)))). Qed.

(** With an infinite order and a quantity that lives on one process only, that
    process waits for a reduction in which the other, having raised, never takes
    part. *)
Theorem C37_infinite_order_deadlock_refuted :
  exists mds sts ps, metadata_of 2 lone ["x"] [] = Ok mds /\ well_tagged lone ["x"] /\
  together [] heun mds sts /\
  moves OrdInf [] mds (map2 (fun md st => p_forward (mop SimpleErrorMeasurer) OrdInf [] md 5 0 tt st) mds sts) ps /\
  (exists x k r, ps = [Reduce _ x k; Done _ (tt, r, Err ValueError)]) /\ (forall ps', ~ move OrdInf [] mds ps ps').
Proof. exact c37_gap_refuted. Qed.
Print Assumptions C37_infinite_order_deadlock_refuted.

(** When the copies of a quantity differ, one process accepts a step that the
    other rejects. *)
Theorem C37_differing_copies_refuted :
  exists mds sts ps, metadata_of 2 both ["x"] [] = Ok mds /\ well_tagged both ["x"] /\
  norm_defined (Ord 1%Q) [] mds /\ Forall2 (fun md st => sized heun md (disc st)) mds sts /\
  moves (Ord 1%Q) [] mds
    (map2 (fun md st => p_forward (mop (ImprovedErrorMeasurer 1%Q 1%Q)) (Ord 1%Q) [] md 5 0 tt st) mds sts) ps /\
  exists h k h' k', ps = [Decide _ h false k; Decide _ h' true k'].
Proof. exact c37_copies_refuted. Qed.
Print Assumptions C37_differing_copies_refuted.
