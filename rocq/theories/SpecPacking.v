(** Notions for the statements about packing and about the OpenMDAO-backed ODE. *)
From Coq Require Import String.
From Coq Require Import List Reals.
From Verif Require Import Base Ext M_ODE M_Metadata M_Components SpecRK SpecDeriv SpecComponents M_Packing.
Import ListNotations.
Local Open Scope string_scope.
Local Open Scope R_scope.
Local Open Scope list_scope.

(** Names and sizes of a vector's variables. *)
Definition layout {T} (v : vec T) : list (string * nat) := map (fun p => (fst p, length (snd p))) v.

(** The range of a quantity in an array. *)
Definition part {T} (a : array_metadata) (arr : list T) : list T :=
  firstn (end_index a - start_index a) (skipn (start_index a) arr).

(** The name under which the integrator component has a quantity. *)
Definition io_name {X} (k : kind) (q : quantity X) : string :=
  match k with input_kind => q_name q ++ "_initial" | output_kind => q_name q ++ "_final" end.

(** The declared variables of one kind. *)
Definition declared (k : kind) (io : list (string * nat) * list (string * nat)) : list (string * nat) :=
  match k with input_kind => fst io | output_kind => snd io end.

(** The four vectors of a stage problem are laid out like those of another
    state; d_outputs and d_residuals are laid out like the outputs. *)
Definition same_layout {T} (st st' : om_state T) : Prop :=
  layout (om_in st) = layout (om_in st') /\ layout (om_out st) = layout (om_out st') /\
  layout (om_dout st) = layout (om_dout st') /\ layout (om_dres st) = layout (om_dres st').
Definition well_formed {T} (st : om_state T) : Prop :=
  layout (om_dout st) = layout (om_out st) /\ layout (om_dres st) = layout (om_out st).

(** Solving does not change which variables there are. *)
Definition keeps_layout {T} (pb : problem T) : Prop :=
  (forall h a i o i' o', p_nonlinear pb h a i o = Ok (i', o') -> layout i' = layout i /\ layout o' = layout o) /\
  (forall h a i o x r x' r', p_linear_fwd pb h a i o x r = Ok (x', r') -> layout x' = layout x /\ layout r' = layout r) /\
  (forall h a i o x r x' r', p_linear_rev pb h a i o x r = Ok (x', r') -> layout x' = layout x /\ layout r' = layout r).

(** What the program may do with the stage problem in between: any sequence of
    successful calls of the ODE. *)
Inductive history {T} {N : Num T} (pb : problem T) (md : metadata) : om_state T -> om_state T -> Prop :=
| no_calls st : history pb md st st
| then_update st st1 st2 inp h a r : history pb md st st1 ->
    om_compute_update pb md st1 inp h a = Ok (st2, r) -> history pb md st st2
| then_derivative st st1 st2 lp d h a r : history pb md st st1 ->
    om_derivative pb md st1 lp d h a = Ok (st2, r) -> history pb md st st2
| then_adjoint st st1 st2 lp w h a r : history pb md st st1 ->
    om_adjoint pb md st1 lp w h a = Ok (st2, r) -> history pb md st st2.

(** The variables whose sources an ODE input is written to on one process:
    time, then step input and accumulated stages of every quantity that has
    them, then the independent inputs. *)
Definition input_variables (md : metadata) : list (option string) :=
  match time_variable md with Some tv => [Some tv] | None => [] end
  ++ flat_map (fun q => match local (q_array q), step_input_var (q_translation q) with
                        | true, Some sv => [Some sv; accumulated_stage_var (q_translation q)]
                        | _, _ => [] end) (time_integration_quantities md)
  ++ flat_map (fun q => if local (q_array q) then [q_translation q] else []) (time_independent_quantities md).
(** The variables holding the stage updates. *)
Definition output_variables (md : metadata) : list (option string) :=
  flat_map (fun q => if local (q_array q) then [stage_output_var (q_translation q)] else [])
    (time_integration_quantities md).

(** Different variables have different sources, and the quantities have
    different stage outputs. *)
Definition distinct_sources {T} (pb : problem T) (md : metadata) : Prop :=
  NoDup (map (source_of pb) (input_variables md)).
Definition distinct_outputs (md : metadata) : Prop := NoDup (output_variables md).
(** The source of the time variable is a single number. *)
Definition scalar_time {T} (pb : problem T) (md : metadata) (st : om_state T) : Prop :=
  forall tv s x, time_variable md = Some tv -> p_source pb tv = Ok s -> get s (om_out st) = Ok x ->
    length x = 1%nat.

(** At every linearization point forward solves use a matrix and reverse
    solves its transpose. *)
Definition solves_transposed (pb : problem R) : Prop :=
  forall h a i o g r x r' w g' w' y,
    layout g = layout o -> layout r = layout o -> layout w = layout o -> layout g' = layout o ->
    p_linear_fwd pb h a i o g r = Ok (x, r') -> p_linear_rev pb h a i o w g' = Ok (w', y) ->
    vinner w x = vinner y r.

(** Forward solves are linear in the right-hand side. *)
Definition vec_lin (a : R) (v : vec R) (b : R) (w : vec R) : vec R :=
  map2 (fun p q => (fst p, vlin a (snd p) b (snd q))) v w.
Definition solves_linear (pb : problem R) : Prop :=
  forall h a i o g r1 x1 r1' r2 x2 r2' al be,
    layout r1 = layout o -> layout r2 = layout o ->
    p_linear_fwd pb h a i o g r1 = Ok (x1, r1') -> p_linear_fwd pb h a i o g r2 = Ok (x2, r2') ->
    exists r', p_linear_fwd pb h a i o g (vec_lin al r1 be r2) = Ok (vec_lin al x1 be x2, r').

(** The result of a linear solve does not depend on its starting guess. *)
Definition guess_free {T} (pb : problem T) : Prop :=
  (forall h a i o g g' r, layout g = layout g' ->
     match p_linear_fwd pb h a i o g r, p_linear_fwd pb h a i o g' r with
     | Ok (x, _), Ok (x', _) => x = x' | Err e, Err e' => e = e' | _, _ => False end) /\
  (forall h a i o w g g', layout g = layout g' ->
     match p_linear_rev pb h a i o w g, p_linear_rev pb h a i o w g' with
     | Ok (_, y), Ok (_, y') => y = y' | Err e, Err e' => e = e' | _, _ => False end).

(** A curve of vectors and its velocity. *)
Definition vec_curve (V : R -> vec R) (D : vec R) : Prop :=
  forall n i, derivable_pt_lim (fun e => look n i (V e)) 0 (look n i D).

(** When the values of the variables in [S] move, all outputs move with the
    velocity a forward solve gives for the negative velocity at [S] (openmdao's
    residual of an independent variable is minus its value). *)
Definition problem_differentiable (S : list string) (pb : problem R) : Prop :=
  forall del h a i (V : R -> vec R) (r : vec R) i1 o1 g x r',
    0 < del -> (forall e, Rabs e < del -> layout (V e) = layout r) -> layout g = layout r ->
    vec_curve V (map (fun p => (fst p, map Ropp (snd p))) r) ->
    (forall n k, ~ In n S -> look n k r = 0) ->
    (forall e, Rabs e < del -> p_nonlinear pb h a i (V e) = Ok (i1 e, o1 e)) ->
    p_linear_fwd pb h a (i1 0) (o1 0) g r = Ok (x, r') ->
    vec_curve o1 x.
Definition source_names {T} (pb : problem T) (md : metadata) : list string :=
  flat_map (fun n => match source_of pb n with Ok s => [s] | Err _ => [] end) (input_variables md).

(** The nonlinear solve finds the same solution from every starting point that
    agrees on the variables in [S]. *)
Definition start_free {T} (S : list string) (pb : problem T) : Prop :=
  forall h a i o i' o', layout i = layout i' -> layout o = layout o' ->
    (forall n, In n S -> get n o = get n o') ->
    p_nonlinear pb h a i o = p_nonlinear pb h a i' o'.
