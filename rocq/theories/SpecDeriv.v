(** What is assumed of an ODE's derivative calls, and the notions of
    derivative and transpose the derivative theorems are stated with. *)
From Coq Require Import List Reals.
From Verif Require Import Base Ext M_ODE SpecRK.
Import ListNotations.
Open Scope R_scope.

(** Sizes of the derivative results. *)
Definition derivative_sizes {T} (o : ode T) : Prop :=
  forall lp inp h a r,
    compute_update_derivative o lp inp h a = Ok r ->
    length (stage_update r) = state_size o /\
    length (stage_state r) = state_size o /\
    length (independent_output r) = independent_output_size o.

Definition adjoint_sizes {T} (o : ode T) : Prop :=
  forall lp r h a x,
    compute_update_adjoint_derivative o lp r h a = Ok x ->
    length (step_input x) = state_size o /\
    length (stage_input x) = state_size o /\
    length (independent_input x) = independent_input_size o.

Definition input_sizes (o : ode R) (i : ode_in R) : Prop :=
  length (step_input i) = state_size o /\ length (stage_input i) = state_size o /\
  length (independent_input i) = independent_input_size o.

Definition output_sizes (o : ode R) (r : ode_out R) : Prop :=
  length (stage_update r) = state_size o /\ length (stage_state r) = state_size o /\
  length (independent_output r) = independent_output_size o.

(** Inner products of ODE inputs and outputs. *)
Definition dot_in (x y : ode_in R) : R :=
  dot (step_input x) (step_input y) + dot (stage_input x) (stage_input y)
  + dot (independent_input x) (independent_input y) + time x * time y.

Definition dot_out (x y : ode_out R) : R :=
  dot (stage_update x) (stage_update y) + dot (stage_state x) (stage_state y)
  + dot (independent_output x) (independent_output y).

(** The adjoint derivative is the transpose of the derivative, at every
    linearization point, step size and stage factor. *)
Definition ode_transposed (o : ode R) : Prop :=
  forall lp h a inp r w x,
    input_sizes o inp -> output_sizes o w ->
    compute_update_derivative o lp inp h a = Ok r ->
    compute_update_adjoint_derivative o lp w h a = Ok x ->
    dot_out w r = dot_in x inp.

(** The adjoint derivative does not look at the weights on the stage state.
    So it is for the ODE the integrator uses (openmdao_ode.py:308-323). *)
Definition ignores_stage_state_weights {T} (o : ode T) : Prop :=
  forall lp r r' h a,
    stage_update r = stage_update r' -> independent_output r = independent_output r' ->
    compute_update_adjoint_derivative o lp r h a
    = compute_update_adjoint_derivative o lp r' h a.

(** The derivative is a linear map at every linearization point. *)
Definition vlin (a : R) (x : list R) (b : R) (y : list R) : list R :=
  vadd (vscale a x) (vscale b y).

Definition lin_in (a : R) (x : ode_in R) (b : R) (y : ode_in R) : ode_in R := {|
  step_input := vlin a (step_input x) b (step_input y);
  stage_input := vlin a (stage_input x) b (stage_input y);
  independent_input := vlin a (independent_input x) b (independent_input y);
  time := a * time x + b * time y |}.

Definition lin_out (a : R) (x : ode_out R) (b : R) (y : ode_out R) : ode_out R := {|
  stage_update := vlin a (stage_update x) b (stage_update y);
  stage_state := vlin a (stage_state x) b (stage_state y);
  independent_output := vlin a (independent_output x) b (independent_output y) |}.

Definition ode_linear (o : ode R) : Prop :=
  forall lp h a al x be y rx ry,
    input_sizes o x -> input_sizes o y ->
    compute_update_derivative o lp x h a = Ok rx ->
    compute_update_derivative o lp y h a = Ok ry ->
    compute_update_derivative o lp (lin_in al x be y) h a = Ok (lin_out al rx be ry).

(** A curve of vectors [Y] has velocity [d] at parameter 0. *)
Definition curve (Y : R -> list R) (d : list R) : Prop :=
  forall m, derivable_pt_lim (fun e => vnth m (Y e)) 0 (vnth m d).

(** Directional derivatives along curves: whenever the inputs of
    compute_update move along differentiable curves, its outputs do too, with
    the velocity given by compute_update_derivative at the linearization point
    of parameter 0.  (By the chain rule this holds for every differentiable
    update and its exact derivative.)  Only parameters below [del] in absolute
    value matter. *)
Definition ode_differentiable (o : ode R) : Prop :=
  forall del h a (inp : R -> ode_in R) (d : ode_in R) r lp dr,
    0 < del ->
    (forall e, Rabs e < del -> input_sizes o (inp e)) -> input_sizes o d ->
    (forall e, Rabs e < del -> compute_update o (inp e) h a = Ok (r e, lp e)) ->
    curve (fun e => step_input (inp e)) (step_input d) ->
    curve (fun e => stage_input (inp e)) (stage_input d) ->
    curve (fun e => independent_input (inp e)) (independent_input d) ->
    derivable_pt_lim (fun e => time (inp e)) 0 (time d) ->
    compute_update_derivative o (lp 0) d h a = Ok dr ->
    curve (fun e => stage_update (r e)) (stage_update dr) /\
    curve (fun e => stage_state (r e)) (stage_state dr) /\
    curve (fun e => independent_output (r e)) (independent_output dr).
