(** Model of the integrator component as OpenMDAO calls it, on its named input
    and output vectors: /repo/src/rkopenmdao/runge_kutta_integrator.py (cited as
    RKI), [compute] and [compute_jacvec_product] around the runs of
    M_Integrator.v and the transfers of M_Packing.v.

    A transfer that raises leaves the component as it was; in the code it may
    have filled part of an array, which the next call overwrites. *)
From Coq Require Import String.
From Coq Require Import List.
From Verif Require Import Base M_Tableau M_State M_ODE M_Step M_Controller M_Measure M_Integrator
  M_Metadata M_Components M_Packing.
Import ListNotations.
Local Open Scope string_scope.
Local Open Scope list_scope.

Section Component.
Context {T : Type} {N : Num T} {C : Type}.
Variables (op : options T C) (md : metadata).

(** RKI:458-464, 695-711, 813-821: an input vector into the arrays of a
    discretization state [s]; what does not belong to a quantity stays. *)
Definition read_inputs (v : vec T) (s : rkstate T) : res (inputs T) :=
  let* y := to_numpy_ti md input_kind v (final_state s) in
  let* p := to_numpy_ind md input_kind v (independent_inputs s) in
  let* t := first "time_initial" v in
  Ok {| time_initial := t; initial := y; independent := p |}.

(** RKI:837-845: the weights of the outputs into the arrays of [s]. *)
Definition read_outputs (v : vec T) (s : rkstate T) : res (outputs T) :=
  let* y := to_numpy_ti md output_kind v (final_state s) in
  let* t := first "time_final" v in
  Ok {| time_final := t; final := y |}.

(** [vec[name] += x] for a scalar [x] (RKI:678-682, 787-789). *)
Definition add_scalar (n : string) (x : T) (v : vec T) : res (vec T) :=
  update (fun old _ => Ok (map (fun y => nadd y x) old)) n [] v.

(** RKI:438-453, [compute]: the new contents of [outputs]. *)
Definition component_compute (inputs outputs : vec T) : method T C (vec T) :=
  let! i := reading (fun w => mlift (read_inputs inputs (disc (live w)))) in
  let! o := compute op i in
  mlift (let* v := from_numpy_ti md output_kind (final o) outputs in
         fill "time_final" (time_final o) v).

(** RKI:658-682, [compute_jacvec_product] in mode "fwd": the new contents of
    [d_outputs]. *)
Definition component_fwd (inputs d_inputs d_outputs : vec T) : method T C (vec T) :=
  let! i := reading (fun w => mlift (read_inputs inputs (disc (live w)))) in
  let! d := reading (fun w => mlift (read_inputs d_inputs (disc (pert w)))) in
  let! o := compute_jacvec_product_fwd op i d in
  mlift (let* v := from_numpy_ti md output_kind (final o) d_outputs in
         add_scalar "time_final" (time_final o) v).

(** RKI:764-797, [compute_jacvec_product] in mode "rev": the new contents of
    [d_inputs].  The inputs are read into empty arrays (RKI:805-821).  The
    weights are read after the checkpoints have been prepared (RKI:837-845),
    which does not touch the arrays they are read into. *)
Definition component_rev (inputs d_inputs d_outputs : vec T) : method T C (vec T) :=
  let! i := mlift (read_inputs inputs (create_empty_discretization_state (o_bt op) (o_ode op))) in
  let! d := reading (fun w => mlift (read_outputs d_outputs (disc (pert w)))) in
  let! g := compute_jacvec_product_rev op i d in
  mlift (let* v := from_numpy_ti md input_kind (initial g) d_inputs in
         let* v := from_numpy_ind md input_kind (independent g) v in
         add_scalar "time_initial" (time_initial g) v).

(** A call of the component by OpenMDAO with the vectors it passes (RKI:438,
    650-656), and a history of such calls. *)
Inductive om_call : Type :=
| OMCompute (inputs outputs : vec T)
| OMFwd (inputs d_inputs d_outputs : vec T)
| OMRev (inputs d_inputs d_outputs : vec T).

(** RKI:438, 650-656. *)
Definition run_om_call (k : om_call) (w : component T C) : component T C :=
  match k with
  | OMCompute i o => fst (component_compute i o w)
  | OMFwd i di dout => fst (component_fwd i di dout w)
  | OMRev i di dout => fst (component_rev i di dout w)
  end.

(** RKI:438, 650-656, one after the other. *)
Definition run_om_calls (l : list om_call) (w : component T C) : component T C :=
  fold_left (fun w k => run_om_call k w) l w.

End Component.
Arguments om_call T : clear implicits.
