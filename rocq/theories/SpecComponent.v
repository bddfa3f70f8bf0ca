(** Notions for the statements about the integrator component as OpenMDAO sees
    it: what its named vectors hold, and which vectors OpenMDAO passes. *)
From Coq Require Import String.
From Coq Require Import List Reals.
From Verif Require Import Base Ext SpecRK M_State M_ODE M_Metadata M_Components M_Packing M_Integrator M_Component
  SpecComponents SpecPacking SpecRun.
Import ListNotations.
Local Open Scope string_scope.
Local Open Scope list_scope.

Section Generic.
Context {T : Type} {N : Num T} {C : Type}.

(** The vector holds the inputs of a run under their names: the initial time,
    every quantity's part of the initial state as <quantity>_initial, every
    independent input's part under its own name. *)
Definition holds_inputs (md : metadata) (v : vec T) (i : inputs T) : Prop :=
  get "time_initial" v = Ok [time_initial i] /\
  (forall q, In q (time_integration_quantities md) ->
     get (q_name q ++ "_initial")%string v = Ok (part (q_array q) (initial i))) /\
  (forall q, In q (time_independent_quantities md) -> get (q_name q) v = Ok (part (q_array q) (independent i))).

(** The vector holds the outputs of a run under their names. *)
Definition holds_outputs (md : metadata) (v : vec T) (o : outputs T) : Prop :=
  get "time_final" v = Ok [time_final o] /\
  (forall q, In q (time_integration_quantities md) ->
     get (q_name q ++ "_final")%string v = Ok (part (q_array q) (final o))).

(** All vectors passed in a call have the variables the component declared. *)
Definition passes_declared (io : list (string * nat) * list (string * nat)) (k : om_call T) : Prop :=
  let ins v := layout v = declared input_kind io in
  let outs v := layout v = declared output_kind io in
  match k with
  | OMCompute i o => ins i /\ outs o
  | OMFwd i di dout => ins i /\ ins di /\ outs dout
  | OMRev i di dout => ins i /\ ins di /\ outs dout
  end.

(** A component after set-up and any calls by OpenMDAO. *)
Definition in_use (op : options T C) (md : metadata) (io : list (string * nat) * list (string * nat))
    (c : C) (w : component T C) : Prop :=
  exists hist, Forall (passes_declared io) hist /\ w = run_om_calls op md hist (setup op c).
End Generic.

(** A vector of zeros. *)
Definition zeros (v : vec R) : Prop := Forall (fun p => Forall (fun x => x = 0%R) (snd p)) v.

Open Scope R_scope.

(** The stage problem implements y' = f(t, p, y): whenever the sources hold a
    time, a state, accumulated stages and parameters by name, and the problem is
    solved for a step size and a stage factor, the stage outputs hold the
    solution of the stage equation by name. *)
Definition implements (pb : problem R) (md : metadata) (f : R -> list R -> list R -> list R) : Prop :=
  forall h a i o i' o' t y acc p k,
    length y = time_integration_array_size md -> length acc = time_integration_array_size md ->
    length p = time_independent_input_size md -> length k = time_integration_array_size md ->
    (forall tv, time_variable md = Some tv -> exists s, p_source pb tv = Ok s /\ get s o = Ok [t]) ->
    (forall q sv, In q (time_integration_quantities md) -> local (q_array q) = true ->
       step_input_var (q_translation q) = Some sv ->
       exists s s', p_source pb sv = Ok s /\ get s o = Ok (part (q_array q) y) /\
         source_of pb (accumulated_stage_var (q_translation q)) = Ok s' /\ get s' o = Ok (part (q_array q) acc)) ->
    (forall q, In q (time_independent_quantities md) -> local (q_array q) = true ->
       exists s, source_of pb (q_translation q) = Ok s /\ get s o = Ok (part (q_array q) p)) ->
    p_nonlinear pb h a i o = Ok (i', o') ->
    (forall q, In q (time_integration_quantities md) -> local (q_array q) = true ->
       exists n, stage_output_var (q_translation q) = Some n /\ get n o' = Ok (part (q_array q) k)) ->
    k = f t p (vmake (time_integration_array_size md) (fun m => vnth m y + h * (vnth m acc + a * vnth m k))).

(** The vector has only some of the declared variables, and not all. *)
Definition lacks_variables {T} (k : kind) (io : list (string * nat) * list (string * nat)) (v : vec T) : Prop :=
  exists keep, layout v = filter keep (declared k io) /\ exists p, In p (declared k io) /\ keep p = false.

(** A vector entry by entry the sum of two others. *)
Definition sum_of (x y z : vec R) : Prop := forall n m, look n m z = look n m x + look n m y.
