(** Model of /repo/src/rkopenmdao/runge_kutta_integrator.py ("RKI"),
    termination_criterion.py ("TC") and the three checkpointers in
    checkpoint_interface/ ("AC" all_checkpointer.py, "NC" no_checkpointer.py,
    "PC" pyrevolve_checkpointer.py, "PRC"
    runge_kutta_integrator_pyrevolve_classes.py).

    Component inputs and outputs appear as packed arrays (the packing of
    RKI:470-532 is modelled in M_Packing.v).  d_outputs and d_inputs are taken
    to be zero before a product call, so [=] and [+=] on them coincide.
    Callbacks may raise but do not change the state they are given.  The error
    controller is any object [C] with a call function, so that statements can
    be made for every controller; M_Controller.v has the concrete ones.
    Printing and the MPI rank are left out (M_MPI.v treats several ranks). *)
From Coq Require Import List Bool.
From Verif Require Import Base M_Tableau M_State M_ODE M_Step M_Controller M_Measure.
Import ListNotations.

Section Integrator.
Context {T : Type} {N : Num T}.

(** TC:42-63 and 66-105. A negative number of steps behaves like zero. *)
Inductive criterion : Type :=
| PredefinedNumberOfSteps (number_of_steps : nat)
| PredefinedFinalTime (termination_time : T).

(** TC:57-63 and 79-95, [is_iteration_finished]. *)
Definition is_iteration_finished (crit : criterion) (iteration : nat) (st : tistate T) : bool :=
  match crit with
  | PredefinedNumberOfSteps n => Nat.leb n iteration
  | PredefinedFinalTime t => nleb (nsub t (final_time (disc st))) n0
  end.

(** RKI:253-258, [_remaining_time_func]; [npinf] is [np.inf]. *)
Definition remaining_time_func (npinf : T) (crit : criterion) (time : T) : T :=
  match crit with
  | PredefinedNumberOfSteps _ => npinf
  | PredefinedFinalTime t => nsub t time
  end.

(** callback.py:34-77: the two hooks of a callback.  They get the step number
    and the integration state. *)
Record callback : Type := {
  before_iteration : nat -> tistate T -> res unit;
  after_iteration : nat -> tistate T -> res unit
}.

(** Which of the three callback lists of RKI:266-287 a call belongs to. *)
Inductive mode : Type := Compute | Fwd | Rev.

(** One invocation of a hook, with what the callback can observe. *)
Inductive event : Type :=
| Before (m : mode) (callback_index step : nat) (st : tistate T)
| After (m : mode) (callback_index step : nat) (st : tistate T).

(** What the pyrevolve library asks for, one entry per call it makes
    (PC:168, 190): [Advance a b] calls the forward operator with t_start = a,
    t_end = b (PRC:168-185); [Save k] copies the arrays handed out by
    RungeKuttaCheckpoint (PRC:33-98) to slot [k], [Restore k] copies them back;
    [Reverse a b] calls the reverse operator with t_start = a, t_end = b
    (PRC:211-231). *)
Inductive action : Type :=
| Advance (t_start t_end : nat)
| Save (slot : nat)
| Restore (slot : nat)
| Reverse (t_start t_end : nat).

(** RKI:428-436 with the option checkpointing_type.  The pyrevolve variant
    carries the library's actions for apply_forward and apply_reverse. *)
Inductive checkpointing : Type :=
| NoCheckpointer
| AllCheckpointer
| PyrevolveCheckpointer (forward_schedule reverse_schedule : list action).

(** Component inputs RKI:316-361 (time_initial, *_initial, independent
    inputs), packed; also the result of a reverse product. *)
Record inputs : Type := { time_initial : T; initial : list T; independent : list T }.

(** Component outputs RKI:338-344 (time_final, *_final), packed; also the
    result of a forward product. *)
Record outputs : Type := { time_final : T; final : list T }.

(** [np.roll(x, 1)] (RKI:606-613). *)
Definition roll1 (l : list T) : list T :=
  match l with
  | [] => []
  | x :: _ => last l x :: removelast l
  end.

Section Component.
Context {C : Type}.

(** The options a component is set up with (RKI:78-223 and
    integration_config.py:10-26): tableau, ODE, checkpointing,
    use_adaptive_time_stepping, initial_step_size, termination criterion, the
    value of np.inf, error measurer, the tolerance of the controller's
    configuration, the call function of the controller
    (error_controller.py:113-156, 338-383), the three callback lists; and the
    bounds at which the model gives up: [retry_limit] trials of one step (the
    interpreter's recursion limit, RKI:620-625) and [loop_limit] iterations of
    a while loop. *)
Record options : Type := {
  o_bt : tableau T;
  o_ode : ode T;
  o_ckpt : checkpointing;
  o_adaptive : bool;
  o_step : T;
  o_crit : criterion;
  o_inf : T;
  o_meas : measurer T;
  o_tol : T;
  o_ctl : C -> call_args T -> C * res (status T);
  o_callbacks : mode -> list callback;
  retry_limit : nat;
  loop_limit : nat
}.

(** The mutable part of a component: [_time_integration_state] (shared with
    the checkpointer), [_time_integration_state_perturbations], the error
    controller, [_cached_input], the storage of AllCheckpointer (newest
    first), the slots and [_first_complete_state] of PyrevolveCheckpointer;
    and the hook invocations so far (oldest first). *)
Record component : Type := {
  live : tistate T;
  pert : tistate T;
  ctl : C;
  cached : option (rkstate T);
  storage : list (tistate T);
  slots : list (nat * tistate T);
  first_complete : tistate T;
  log : list event
}.

(** Attribute assignments on the component (Python syntax). *)
Definition w_live v (w : component) : component := {| live := v; pert := pert w; ctl := ctl w;
  cached := cached w; storage := storage w; slots := slots w;
  first_complete := first_complete w; log := log w |}.
Definition w_pert v (w : component) : component := {| live := live w; pert := v; ctl := ctl w;
  cached := cached w; storage := storage w; slots := slots w;
  first_complete := first_complete w; log := log w |}.
Definition w_ctl v (w : component) : component := {| live := live w; pert := pert w; ctl := v;
  cached := cached w; storage := storage w; slots := slots w;
  first_complete := first_complete w; log := log w |}.
Definition w_cached v (w : component) : component := {| live := live w; pert := pert w; ctl := ctl w;
  cached := v; storage := storage w; slots := slots w;
  first_complete := first_complete w; log := log w |}.
Definition w_storage v (w : component) : component := {| live := live w; pert := pert w; ctl := ctl w;
  cached := cached w; storage := v; slots := slots w;
  first_complete := first_complete w; log := log w |}.
Definition w_slots v (w : component) : component := {| live := live w; pert := pert w; ctl := ctl w;
  cached := cached w; storage := storage w; slots := v;
  first_complete := first_complete w; log := log w |}.
Definition w_first_complete v (w : component) : component := {| live := live w; pert := pert w;
  ctl := ctl w; cached := cached w; storage := storage w; slots := slots w;
  first_complete := v; log := log w |}.
Definition w_log v (w : component) : component := {| live := live w; pert := pert w; ctl := ctl w;
  cached := cached w; storage := storage w; slots := slots w;
  first_complete := first_complete w; log := v |}.

(** A method of the component: it may change the component and return or
    raise; changes made before an exception stay. *)
Definition method (A : Type) : Type := component -> component * res A.
Definition mret {A} (a : A) : method A := fun w => (w, Ok a).
Definition mraise {A} (e : exn) : method A := fun w => (w, Err e).
Definition mbind {A B} (m : method A) (k : A -> method B) : method B := fun w =>
  match m w with
  | (w', Ok a) => k a w'
  | (w', Err e) => (w', Err e)
  end.
Definition modify (f : component -> component) : method unit := fun w => (f w, Ok tt).
Definition reading {A} (f : component -> method A) : method A := fun w => f w w.
Definition mlift {A} (r : res A) : method A := fun w => (w, r).

End Component.
Arguments options C : clear implicits.
Arguments component C : clear implicits.
Arguments method C A : clear implicits.

Notation "m ;; k" := (mbind m (fun _ => k)) (at level 100, k at level 200, right associativity).
Notation "'let!' x ':=' m 'in' k" := (mbind m (fun x => k))
  (at level 200, x pattern, m at level 100, k at level 200, right associativity).

Section Methods.
Context {C : Type}.
Variable op : options C.

(** RKI:407-426 with 393-405, the state after [setup]; [c] is the freshly
    built controller.  PC:64 copies the live state. *)
Definition setup (c : C) : component C :=
  let s := {| disc := create_empty_discretization_state (o_bt op) (o_ode op);
              suggestion := o_step op;
              step_hist := [n0; n0];
              err_hist := [o_tol op; o_tol op] |} in
  {| live := s;
     pert := {| disc := create_empty_discretization_state (o_bt op) (o_ode op);
                suggestion := n0; step_hist := []; err_hist := [] |};
     ctl := c; cached := None; storage := []; slots := []; first_complete := s; log := [] |}.

(** RKI:554-559. *)
Definition reset_error_control (st : tistate T) : tistate T :=
  {| disc := disc st; suggestion := o_step op;
     step_hist := map (fun _ => n0) (step_hist st);
     err_hist := map (fun _ => o_tol op) (err_hist st) |}.

(** RKI:561-637.  Works on the controller and the live integration state; the
    recursive call gets the same state object, so the [set] of RKI:620 copies
    the object onto itself.  [compute_step] works on a deep copy, so an
    exception leaves the live state untouched except for the suggestion of
    earlier trials.  Line 633 discards the result of np.roll. *)
Fixpoint iterate_on_step (fuel : nat) (c : C) (st : tistate T) : C * tistate T * res unit :=
  match fuel with
  | O => (c, st, Err OutOfFuel)
  | S fuel' =>
    match compute_step (o_bt op) (o_ode op) (disc st) (suggestion st) with
    | Err e => (c, st, Err e)
    | Ok tmp =>
      if o_adaptive op then
        match state_measure (o_meas op) (o_ode op) tmp with
        | Err e => (c, st, Err e)
        | Ok em =>
          let q := {| error_measure := em;
                      delta_t := suggestion st;
                      remaining_time := remaining_time_func (o_inf op) (o_crit op) (final_time tmp);
                      error_history := err_hist st;
                      step_size_history := step_hist st |} in
          match o_ctl op c q with
          | (c', Err e) => (c', st, Err e)
          | (c', Ok stat) =>
            if acceptance stat then
              (c', {| disc := rk_set (disc st) tmp;
                      suggestion := step_size_suggestion stat;
                      step_hist := upd 0 (suggestion st) (roll1 (step_hist st));
                      err_hist := upd 0 em (roll1 (err_hist st)) |}, Ok tt)
            else
              iterate_on_step fuel' c'
                {| disc := disc st; suggestion := step_size_suggestion stat;
                   step_hist := step_hist st; err_hist := err_hist st |}
          end
        end
      else
        (c, {| disc := rk_set (disc st) tmp;
               suggestion := suggestion st;
               step_hist := upd 0 (suggestion st) (step_hist st);
               err_hist := err_hist st |}, Ok tt)
    end
  end.

(** The loops over a callback list in RKI:537-543, 545-551, 739-745, 755-761,
    853-859 and 868-874; [ev] builds the event, [hook] picks the hook. *)
Fixpoint call_hooks (ev : nat -> event) (hook : callback -> res unit) (i : nat)
    (l : list callback) : method C unit :=
  match l with
  | [] => mret tt
  | cb :: l' =>
      modify (fun w => w_log (log w ++ [ev i]) w) ;;
      mlift (hook cb) ;;
      call_hooks ev hook (S i) l'
  end.

Definition before_hooks (m : mode) (step : nat) (st : tistate T) : method C unit :=
  call_hooks (fun i => Before m i step st) (fun cb => before_iteration cb step st) 0
             (o_callbacks op m).
Definition after_hooks (m : mode) (step : nat) (st : tistate T) : method C unit :=
  call_hooks (fun i => After m i step st) (fun cb => after_iteration cb step st) 0
             (o_callbacks op m).

(** The call of [_iterate_on_step] on the live state (RKI:544, 746). *)
Definition step_live : method C unit := fun w =>
  let '(c', st', r) := iterate_on_step (retry_limit op) (ctl w) (live w) in
  (w_ctl c' (w_live st' w), r).

(** RKI:534-552, [_run_step] on the live state. *)
Definition run_step (step : nat) : method C unit :=
  reading (fun w => before_hooks Compute step (live w)) ;;
  step_live ;;
  reading (fun w => after_hooks Compute step (live w)).

(** RKI:847-875, [_run_step_jacvec_rev] for the primal state [st].  When the
    adjoint step raises, the code leaves a partly updated perturbation, the
    model an unchanged one; every field read by a later product is overwritten
    first (RKI:835-845, stage_ordered_runge_kutta_discretization.py:129-178)
    except the stage states, which compute_step_adjoint_derivative never
    writes. *)
Definition run_step_jacvec_rev (step : nat) (st : tistate T) : method C unit :=
  before_hooks Rev step st ;;
  reading (fun w =>
    let! d := mlift (compute_step_adjoint_derivative (o_bt op) (o_ode op) (disc st)
                       (disc (pert w)) (nth 0 (step_hist st) n0)) in
    modify (fun w => w_pert (w_disc (rk_set (disc (pert w)) d) (pert w)) w)) ;;
  after_hooks Rev step st.

(** AC:65-74 and NC:61-68: the forward loop; [keep] appends a deep copy of the
    state to the storage (AC:74). *)
Fixpoint forward_loop (keep : bool) (fuel iteration : nat) : method C unit :=
  match fuel with
  | O => mraise OutOfFuel
  | S fuel' =>
      reading (fun w =>
        if is_iteration_finished (o_crit op) iteration (live w) then mret tt
        else
          run_step (S iteration) ;;
          (if keep then modify (fun w => w_storage (live w :: storage w) w) else mret tt) ;;
          forward_loop keep fuel' (S iteration))
  end.

(** AC:96-103: the reverse loop, popping the newest state; [len] is the length
    of the storage, i.e. the iteration number. *)
Fixpoint reverse_all (l : list (tistate T)) : method C unit :=
  match l with
  | [] => mret tt
  | st :: l' =>
      modify (w_storage l') ;;
      run_step_jacvec_rev (length l) st ;;
      reverse_all l'
  end.

(** PRC:181-185: steps t_start + 1 up to but excluding t_end + 1; here with
    [lo] = t_start + 1 (t_start may be -1) and [n] = t_end - t_start. *)
Fixpoint forward_operator (n lo : nat) : method C unit :=
  match n with
  | O => mret tt
  | S n' => run_step lo ;; forward_operator n' (S lo)
  end.

(** PRC:223-230: steps t_end + 1 down to t_start + 2, linearized at the live
    state; here with [lo] = t_start + 2 and [n] = t_end - t_start. *)
Fixpoint reverse_operator (n lo : nat) : method C unit :=
  match n with
  | O => mret tt
  | S n' =>
      reading (fun w => run_step_jacvec_rev (lo + n') (live w)) ;;
      reverse_operator n' lo
  end.

(** Loading a snapshot: every array of [to_dict] is copied back into the live
    state (runge_kutta_discretization_state.py:112-130, 219-223 and
    time_integration_state.py:56-71), that is everything but [step_size]. *)
Definition load_snapshot (st snap : tistate T) : tistate T :=
  w_disc (w_step_size (step_size (disc st)) (disc snap)) snap.

(** One call made by the library. *)
Definition run_action (a : action) : method C unit :=
  match a with
  | Advance t_start t_end => forward_operator (t_end - t_start) (S t_start)
  | Save k => modify (fun w => w_slots ((k, live w) :: slots w) w)
  | Restore k =>
      reading (fun w =>
        match find (fun e => Nat.eqb (fst e) k) (slots w) with
        | None => mraise KeyError
        | Some (_, snap) => modify (fun w => w_live (load_snapshot (live w) snap) w)
        end)
  | Reverse t_start t_end => reverse_operator (t_end - t_start) (S (S t_start))
  end.

Fixpoint run_actions (l : list action) : method C unit :=
  match l with
  | [] => mret tt
  | a :: l' => run_action a ;; run_actions l'
  end.

(** AC:46-48, NC:43-44, PC:108-110, [create_checkpointer]. *)
Definition create_checkpointer : method C unit :=
  match o_ckpt op with
  | NoCheckpointer => mret tt
  | AllCheckpointer => modify (w_storage [])
  | PyrevolveCheckpointer _ _ => modify (w_slots [])
  end.

(** AC:50-75, NC:46-69, PC:147-170, [iterate_forward] on the live state (which
    the [set] calls copy onto itself). *)
Definition iterate_forward : method C unit :=
  match o_ckpt op with
  | NoCheckpointer => forward_loop false (loop_limit op) 0
  | AllCheckpointer => forward_loop true (loop_limit op) 0
  | PyrevolveCheckpointer fwd _ =>
      forward_operator 1 0 ;;
      modify (fun w => w_first_complete (ti_set (first_complete w) (live w)) w) ;;
      run_actions fwd
  end.

(** AC:77-104, NC:71-89, PC:172-196, [iterate_reverse] on the perturbation. *)
Definition iterate_reverse : method C unit :=
  match o_ckpt op with
  | NoCheckpointer => mraise NotImplementedError
  | AllCheckpointer => reading (fun w => reverse_all (storage w))
  | PyrevolveCheckpointer _ rev =>
      run_actions rev ;;
      modify (fun w => w_live (ti_set (live w) (first_complete w)) w) ;;
      reverse_operator 1 1
  end.

(** Writing packed inputs into a discretization state (RKI:458-464, 695-711). *)
Definition put_inputs (i : inputs) (s : rkstate T) : rkstate T :=
  w_final_time (time_initial i) (w_independent_inputs (independent i) (w_final_state (initial i) s)).

(** RKI:455-468. *)
Definition compute_preparation_phase (i : inputs) : method C unit :=
  modify (fun w => w_live (w_disc (put_inputs i (disc (live w))) (live w)) w) ;;
  modify (fun w => w_cached (Some (disc (live w))) w) ;;
  modify (fun w => w_live (reset_error_control (live w)) w) ;;
  modify (fun w =>
    w_live (w_disc (w_linearization_points
                      (map (fun r => vzeros (length r)) (linearization_points (disc (live w))))
                      (disc (live w))) (live w)) w).

(** RKI:438-453, [compute]. *)
Definition compute (i : inputs) : method C outputs :=
  compute_preparation_phase i ;;
  create_checkpointer ;;
  iterate_forward ;;
  reading (fun w => mret {| time_final := final_time (disc (live w));
                            final := final_state (disc (live w)) |}).

(** RKI:688-712. *)
Definition jacvec_fwd_preparation_phase (i d : inputs) : method C unit :=
  modify (fun w => w_live (w_disc (put_inputs i (disc (live w))) (live w)) w) ;;
  modify (fun w => w_pert (w_disc (put_inputs d (disc (pert w))) (pert w)) w) ;;
  modify (fun w => w_live (reset_error_control (live w)) w).

(** RKI:747-754: the derivative of the step just made. *)
Definition step_derivative_live : method C unit :=
  reading (fun w =>
    let! d := mlift (compute_step_derivative (o_bt op) (o_ode op) (disc (live w))
                       (disc (pert w)) (nth 0 (step_hist (live w)) n0)) in
    modify (fun w => w_pert (w_disc (rk_set (disc (pert w)) d) (pert w)) w)).

(** RKI:733-762. *)
Definition run_step_jacvec_fwd (step : nat) : method C unit :=
  reading (fun w => before_hooks Fwd step (live w)) ;;
  step_live ;;
  step_derivative_live ;;
  reading (fun w => after_hooks Fwd step (live w)).

(** RKI:714-731 (the loop of [_compute_jacvec_fwd_run_steps]). *)
Fixpoint jacvec_fwd_run_steps (fuel iteration : nat) : method C unit :=
  match fuel with
  | O => mraise OutOfFuel
  | S fuel' =>
      reading (fun w =>
        if is_iteration_finished (o_crit op) iteration (live w) then mret tt
        else run_step_jacvec_fwd (S iteration) ;; jacvec_fwd_run_steps fuel' (S iteration))
  end.

(** RKI:658-682, [_compute_jacvec_product_fwd]. *)
Definition compute_jacvec_product_fwd (i d : inputs) : method C outputs :=
  jacvec_fwd_preparation_phase i d ;;
  jacvec_fwd_run_steps (loop_limit op) 0 ;;
  reading (fun w => mret {| time_final := final_time (disc (pert w));
                            final := final_state (disc (pert w)) |}).

(** [np.array_equal] on one-dimensional arrays (RKI:823-831). *)
Fixpoint array_equal (a b : list T) : bool :=
  match a, b with
  | [], [] => true
  | x :: a', y :: b' => neqb x y && array_equal a' b'
  | _, _ => false
  end.

(** RKI:822-832: whether the checkpoints are taken to belong to the inputs.
    The initial time is not compared. *)
Definition cache_hit (i : inputs) (cache : option (rkstate T)) : bool :=
  match cache with
  | None => false
  | Some s => array_equal (final_state s) (initial i)
              && array_equal (independent_inputs s) (independent i)
  end.

(** RKI:799-845. *)
Definition jacvec_rev_preparation_phase (i : inputs) (d : outputs) : method C unit :=
  reading (fun w =>
    if cache_hit i (cached w) then mret tt
    else compute i ;; mret tt) ;;
  modify (fun w =>
    w_pert (w_disc
      (w_final_time (time_final d)
        (w_independent_inputs (vzeros (length (independent_inputs (disc (pert w)))))
          (w_final_state (final d) (disc (pert w))))) (pert w)) w).

(** RKI:764-797, [_compute_jacvec_product_rev]. *)
Definition compute_jacvec_product_rev (i : inputs) (d : outputs) : method C inputs :=
  jacvec_rev_preparation_phase i d ;;
  iterate_reverse ;;
  let! r := reading (fun w => mret {| time_initial := final_time (disc (pert w));
                                      initial := final_state (disc (pert w));
                                      independent := independent_inputs (disc (pert w)) |}) in
  modify (w_cached None) ;;
  mret r.

(** A call of one of the public methods, and a history of such calls on one
    component.  An exception ends the call, not the history. *)
Inductive call : Type :=
| CallCompute (i : inputs)
| CallFwd (i d : inputs)
| CallRev (i : inputs) (d : outputs).

Definition run_call (k : call) (w : component C) : component C :=
  match k with
  | CallCompute i => fst (compute i w)
  | CallFwd i d => fst (compute_jacvec_product_fwd i d w)
  | CallRev i d => fst (compute_jacvec_product_rev i d w)
  end.

Definition run_calls (l : list call) (w : component C) : component C :=
  fold_left (fun w k => run_call k w) l w.

End Methods.
End Integrator.
Arguments criterion T : clear implicits.
Arguments callback T : clear implicits.
Arguments event T : clear implicits.
Arguments inputs T : clear implicits.
Arguments outputs T : clear implicits.
Arguments options T C : clear implicits.
Arguments component T C : clear implicits.
Arguments method T C A : clear implicits.
Arguments call T : clear implicits.
Notation "m ;; k" := (mbind m (fun _ => k)) (at level 100, k at level 200, right associativity).
Notation "'let!' x ':=' m 'in' k" := (mbind m (fun x => k))
  (at level 200, x pattern, m at level 100, k at level 200, right associativity).
