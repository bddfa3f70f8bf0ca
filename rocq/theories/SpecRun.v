(** Notions the theorems about whole runs are stated with. *)
From Coq Require Import List Reals Bool.
From Verif Require Import Base Ext M_Tableau M_State M_ODE M_Step M_Controller M_Integrator SpecRK SpecDeriv.
Import ListNotations.

Section Generic.
Local Open Scope nat_scope.
Context {T : Type} {N : Num T} {C : Type}.

(** Packed inputs and outputs have the sizes the ODE announces. *)
Definition inputs_sized (o : ode T) (i : inputs T) : Prop :=
  length (initial i) = state_size o /\ length (independent i) = independent_input_size o.
Definition outputs_sized (o : ode T) (d : outputs T) : Prop := length (final d) = state_size o.
Definition call_sized (o : ode T) (k : call T) : Prop :=
  match k with
  | CallCompute i => inputs_sized o i
  | CallFwd i d => inputs_sized o i /\ inputs_sized o d
  | CallRev i d => inputs_sized o i /\ outputs_sized o d
  end.

(** The results of all ODE calls have the announced sizes. *)
Definition sized_ode (o : ode T) : Prop := result_sizes o /\ derivative_sizes o /\ adjoint_sizes o.

(** A component set up with controller [c] after some history of public calls,
    which may have returned or raised. *)
Definition reachable (op : options T C) (c : C) (w : component T C) : Prop :=
  exists hist, Forall (call_sized (o_ode op)) hist /\ w = run_calls op hist (setup op c).

(** The variants without recomputation. *)
Definition loops (op : options T C) : Prop :=
  match o_ckpt op with PyrevolveCheckpointer _ _ => False | _ => True end.

(** Two states that agree in everything but the embedded solution and the
    error estimate. *)
Definition agree_but_embedded (x y : rkstate T) : Prop := x = w_embedded (embedded x) y.

(** Callbacks that never raise. *)
Definition quiet (op : options T C) : Prop :=
  forall m cb, In cb (o_callbacks op m) ->
    forall n st, before_iteration cb n st = Ok tt /\ after_iteration cb n st = Ok tt.

(** A controller object that no call changes (so are the controllers without a
    nested one), or fixed-step integration, which never calls it. *)
Definition stateless (op : options T C) (c : C) : Prop :=
  o_adaptive op = true -> forall q, fst (o_ctl op c q) = c.

(** The same component options with another checkpointing variant. *)
Definition with_ckpt (op : options T C) (k : checkpointing) : options T C := {|
  o_bt := o_bt op; o_ode := o_ode op; o_ckpt := k; o_adaptive := o_adaptive op;
  o_step := o_step op; o_crit := o_crit op; o_inf := o_inf op; o_meas := o_meas op;
  o_tol := o_tol op; o_ctl := o_ctl op; o_callbacks := o_callbacks op;
  retry_limit := retry_limit op; loop_limit := loop_limit op |}.

(** [b] results from [a] by one (possibly retried) time step. *)
Definition one_step (op : options T C) (a b : tistate T) : Prop :=
  exists c c', iterate_on_step op (retry_limit op) c a = (c', b, Ok tt).

(** [l] is the list of states after the successive steps from [a]. *)
Fixpoint trajectory (op : options T C) (a : tistate T) (l : list (tistate T)) : Prop :=
  match l with
  | [] => True
  | b :: l' => one_step op a b /\ trajectory op b l'
  end.

(** The hook calls of steps [n], [n+1], ... from state [a] through the states
    [l], with [k] callbacks: all before hooks in order, seeing the state before
    the step, then all after hooks in order, seeing the state after it. *)
Fixpoint bracketed (m : mode) (k n : nat) (a : tistate T) (l : list (tistate T)) : list (event T) :=
  match l with
  | [] => []
  | b :: l' => map (fun i => Before m i n a) (seq 0 k) ++ map (fun i => After m i n b) (seq 0 k)
               ++ bracketed m k (S n) b l'
  end.

(** What has been seen of step [n] from [a] when the run breaks off in it: some
    of the before hooks, or the step was made and some of the after hooks. *)
Definition broken_off (op : options T C) (m : mode) (k n : nat) (a : tistate T) (e : list (event T)) : Prop :=
  (exists j, j <= k /\ e = map (fun i => Before m i n a) (seq 0 j)) \/
  (exists b j, one_step op a b /\ j <= k /\
     e = map (fun i => Before m i n a) (seq 0 k) ++ map (fun i => After m i n b) (seq 0 j)).

(** A run from [i] begins in [a]. *)
Definition starts_at (op : options T C) (i : inputs T) (a : tistate T) : Prop :=
  final_time (disc a) = time_initial i /\ final_state (disc a) = initial i /\
  independent_inputs (disc a) = independent i /\ suggestion a = o_step op.

(** The number of steps [N] (states [l] from [a]) is the one the termination
    criterion asks for: it is met after them and not before. *)
Definition stops (op : options T C) (a : tistate T) (l : list (tistate T)) : Prop :=
  is_iteration_finished (o_crit op) (length l) (last l a) = true /\
  forall k, k < length l -> is_iteration_finished (o_crit op) k (nth k (a :: l) a) = false.

(** The reverse product through the steps that ended in the states [l] (last
    step first), each linearized at its own data and with its own step size. *)
Fixpoint adjoint_through (bt : tableau T) (o : ode T) (l : list (tistate T)) (p : rkstate T)
    : res (rkstate T) :=
  match l with
  | [] => Ok p
  | st :: l' =>
      let* q := compute_step_adjoint_derivative bt o (disc st) p (step_size (disc st)) in
      adjoint_through bt o l' q
  end.

(** The hook calls of a reverse sweep over the states [l], last step first;
    hooks see the state the step is linearized at. *)
Fixpoint bracketed_back (k : nat) (l : list (tistate T)) : list (event T) :=
  match l with
  | [] => []
  | b :: l' => map (fun i => Before Rev i (length l) b) (seq 0 k)
               ++ map (fun i => After Rev i (length l) b) (seq 0 k) ++ bracketed_back k l'
  end.

(** Calls all of which return. *)
Fixpoint all_return (op : options T C) (l : list (call T)) (w : component T C) : Prop :=
  match l with
  | [] => True
  | k :: l' =>
      match k with
      | CallCompute i => exists out, snd (compute op i w) = Ok out
      | CallFwd i d => exists out, snd (compute_jacvec_product_fwd op i d w) = Ok out
      | CallRev i d => exists g, snd (compute_jacvec_product_rev op i d w) = Ok g
      end /\ all_return op l' (run_call op k w)
  end.

(** The initial time of a call. *)
Definition call_time (k : call T) : T :=
  match k with
  | CallCompute i | CallFwd i _ | CallRev i _ => time_initial i
  end.

End Generic.

Open Scope R_scope.

(** Inner products of component inputs and of component outputs. *)
Definition dot_inputs (x y : inputs R) : R :=
  time_initial x * time_initial y + dot (initial x) (initial y)
  + dot (independent x) (independent y).
Definition dot_outputs (x y : outputs R) : R :=
  time_final x * time_final y + dot (final x) (final y).
