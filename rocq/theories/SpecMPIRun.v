(** Notions for statements about histories of calls on several processes. *)
From Coq Require Import String.
From Coq Require Import List Bool Arith.
From Verif Require Import Base M_Tableau M_State M_ODE M_Step M_Controller M_Measure M_Integrator M_Metadata M_MPI M_MPIRun SpecMPI.
Import ListNotations.
Local Open Scope list_scope.

Section Joint.
Context {T : Type} {N : Num T} {C : Type}.

(** A call made by all processes together; the arguments of process [r] are its
    portions. *)
Inductive joint_call : Type :=
| AllCompute (i : nat -> inputs T)
| AllFwd (i d : nat -> inputs T)
| AllRev (i : nat -> inputs T) (d : nat -> outputs T).
Definition part (r : nat) (j : joint_call) : call T :=
  match j with
  | AllCompute i => CallCompute (i r)
  | AllFwd i d => CallFwd (i r) (d r)
  | AllRev i d => CallRev (i r) (d r)
  end.
Definition inputs_of (j : joint_call) : nat -> inputs T :=
  match j with AllCompute i => i | AllFwd i _ => i | AllRev i _ => i end.
(** Inputs that may be cached or compared with cached ones. *)
Definition cacheable (j : joint_call) : list (nat -> inputs T) :=
  match j with AllCompute i => [i] | AllFwd _ _ => [] | AllRev i _ => [i] end.

(** Inputs of the right size, with one initial time, whose copies of shared
    quantities agree. *)
Definition inputs_fit (excl : list string) (mds : list metadata) (i : nat -> inputs T) : Prop :=
  exists t y, forall r md, nth_error mds r = Some md ->
    length (initial (i r)) = time_integration_array_size md /\
    time_initial (i r) = t /\ shared excl md (initial (i r)) = y.

(** Entries that compare equal. *)
Definition same_input (i j : inputs T) : Prop :=
  Forall2 (fun x y => neqb x y = true) (initial i) (initial j) /\
  Forall2 (fun x y => neqb x y = true) (independent i) (independent j).
(** A difference between [i] and [j] shows on every process or on none. *)
Definition seen_by_all (mds : list metadata) (i j : nat -> inputs T) : Prop :=
  (forall r, r < length mds -> same_input (i r) (j r)) \/
  (forall r, r < length mds -> ~ same_input (i r) (j r)).

(** Whether a callback raises does not depend on the state it is shown. *)
Definition uniform_callbacks (op : options T C) : Prop :=
  forall m cb step st st', In cb (o_callbacks op m) ->
    before_iteration cb step st = before_iteration cb step st' /\
    after_iteration cb step st = after_iteration cb step st'.

(** The options with another ODE. *)
Definition with_ode (op : options T C) (o : ode T) : options T C := {|
  o_bt := o_bt op; o_ode := o; o_ckpt := o_ckpt op; o_adaptive := o_adaptive op; o_step := o_step op;
  o_crit := o_crit op; o_inf := o_inf op; o_meas := o_meas op; o_tol := o_tol op; o_ctl := o_ctl op;
  o_callbacks := o_callbacks op; retry_limit := retry_limit op; loop_limit := loop_limit op |}.

(** What the processes do: process [r] with ODE [o r] is set up and makes the
    calls [js]. *)
Definition processes (op : options T C) (ord : order T) (excl : list string) (o : nat -> ode T) (c : C)
    (mds : list metadata) (js : list joint_call) : list (prog T (component T C * list (option exn))) :=
  map2 (fun r md => p_calls op ord excl md (map (part r) js) (setup (with_ode op (o r)) c))
       (seq 0 (length mds)) mds.

(** Processes that ended alike: the same exceptions or none, and the same
    controller, suggested step size, histories and time. *)
Definition same_ending (l : list (component T C * list (option exn))) : Prop :=
  exists c h sh eh t es, Forall (fun x => ctl (fst x) = c /\ suggestion (live (fst x)) = h /\
    step_hist (live (fst x)) = sh /\ err_hist (live (fst x)) = eh /\
    final_time (disc (live (fst x))) = t /\ snd x = es) l.
End Joint.
Arguments joint_call T : clear implicits.
