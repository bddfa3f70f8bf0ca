(** Model of what several processes do together: the norm of
    /repo/src/rkopenmdao/discretized_ode/openmdao_ode.py:380-435 (cited as
    ODE), and the forward run of
    /repo/src/rkopenmdao/runge_kutta_integrator.py (RKI) as a program of one
    process that takes part in collective operations.

    [comm.allreduce] hands the same value to every process (mpi4py reduces to
    one process and broadcasts). *)
From Coq Require Import String.
From Coq Require Import List Bool Arith QArith.
From Verif Require Import Base M_Tableau M_State M_ODE M_Step M_Controller M_Measure M_Integrator M_Metadata.
Import ListNotations.
Local Open Scope nat_scope.
Local Open Scope list_scope.

Section Norm.
Context {T : Type} {N : Num T}.

(** ODE:73, the argument [norm_order]: a float; the two infinities are kept
    apart (ODE:411, 417-422, 429, 434). *)
Inductive order : Type := OrdInf | OrdNegInf | Ord (p : T).

(** [x ** e] for [x >= 0] and [e > 0] (ODE:412, 435, numpy's norm). *)
Definition power (x e : T) : T := if neqb x n0 then n0 else npow x e.

(** Number of nonzero entries as a float (numpy's norm of order 0). *)
Definition count_nonzero (x : list T) : T :=
  vsum (map (fun y => if neqb y n0 then n0 else n1) x).

(** [np.linalg.norm(x, order)] of a one-dimensional array (ODE:412): maximum or
    minimum of the absolute values (ValueError for an empty array), number of
    nonzero entries, sum of absolute values, root of the sum of squares, or the
    general formula (for positive orders only). *)
Definition np_norm (ord : order) (x : list T) : res T :=
  match ord with
  | OrdInf => match map nabs x with [] => Err ValueError | y :: l => Ok (fold_left pymax l y) end
  | OrdNegInf => match map nabs x with [] => Err ValueError | y :: l => Ok (fold_left pymin l y) end
  | Ord p =>
    if neqb p n0 then Ok (count_nonzero x)
    else if neqb p n1 then Ok (vsum (map nabs x))
    else if neqb p (nlit 2) then Ok (power (vsum (map (fun y => nmul y y) x)) (nlit (1 # 2)))
    else Ok (power (vsum (map (fun y => power (nabs y) p) x)) (ndiv n1 p))
  end.

(** ODE:411 and 434. *)
Definition exponent (ord : order) : T :=
  match ord with Ord p => if neqb p n0 then n1 else p | _ => n1 end.
Definition root_exponent (ord : order) : T :=
  match ord with Ord p => if neqb p n0 then n1 else ndiv n1 p | _ => n1 end.

(** ODE:406-412, [_partial_norm_intermediate]. *)
Definition partial_norm_intermediate (ord : order) (state : list T) (a : array_metadata) : res T :=
  let* x := np_norm ord (slice (start_index a) (end_index a) state) in
  Ok (power x (exponent ord)).

(** ODE:414-422, [_add_to_intermediate]. *)
Definition add_to_intermediate (ord : order) (x y : T) : T :=
  match ord with OrdInf => pymax x y | OrdNegInf => pymin x y | Ord _ => nadd x y end.

(** ODE:381-400, the loop over the quantities: distributed and non-distributed
    intermediate values. *)
Definition own_intermediates (ord : order) (excl : list string) (md : metadata) (state : list T)
    : res (T * T) :=
  scan (fun (dn : T * T) q =>
    if mem (q_name q) excl then Ok dn
    else
      let* x := partial_norm_intermediate ord state (q_array q) in
      if distributed (q_array q) then Ok (add_to_intermediate ord (fst dn) x, snd dn)
      else Ok (fst dn, add_to_intermediate ord (snd dn) x))
    (n0, n0) (time_integration_quantities md).

(** ODE:424-431, [_allreduce_own_intermediate]: MAX, MIN or SUM over the
    processes, here in the order of the ranks. *)
Definition allreduce (ord : order) (l : list T) : T :=
  match l with
  | [] => n0
  | x :: l' => fold_left (add_to_intermediate ord) l' x
  end.

(** ODE:401-404, 433-435: the result once the reduced value is known. *)
Definition finish_norm (ord : order) (global non_distributed : T) : T :=
  power (add_to_intermediate ord global non_distributed) (root_exponent ord).

(** ODE:380-404, [compute_state_norm], called by all processes with their
    states; an exception on one process is an exception of the whole. *)
Definition compute_state_norms (ord : order) (excl : list string) (procs : list (metadata * list T))
    : res (list T) :=
  let* own := all_ok (map (fun p => own_intermediates ord excl (fst p) (snd p)) procs) in
  let g := allreduce ord (map fst own) in
  Ok (map (fun dn => finish_norm ord g (snd dn)) own).

(** *** Programs of one process *)

(** What a process does up to its next collective operation, and how it goes
    on: [Solve] is a call of the stage problem's solver (ODE:135), [Reduce] an
    allreduce (ODE:430-431), [Jvp] and [Vjp] the forward and the adjoint linear
    solve at a linearization point (ODE:158-173, 194-207), [Hook] the callbacks
    before or after a step (RKI:537-551, 739-761, 853-874; the file writer opens
    its file collectively, file_writer.py:78, 130).  [Decide] is no operation of the code; it marks
    the controller's verdict on a step size (RKI:603-625). *)
Inductive prog (A : Type) : Type :=
| Done (a : A)
| Solve (inp : ode_in T) (h a : T) (k : res (ode_out T * list T) -> prog A)
| Reduce (x : T) (k : T -> prog A)
| Jvp (lp : list T) (inp : ode_in T) (h a : T) (k : res (ode_out T) -> prog A)
| Vjp (lp : list T) (out : ode_out T) (h a : T) (k : res (ode_in T) -> prog A)
| Hook (m : mode) (before : bool) (step : nat) (k : prog A)
| Decide (h : T) (accepted : bool) (k : prog A).
Arguments Done {A} a.
Arguments Solve {A} inp h a k.
Arguments Reduce {A} x k.
Arguments Jvp {A} lp inp h a k.
Arguments Vjp {A} lp out h a k.
Arguments Hook {A} m before step k.
Arguments Decide {A} h accepted k.

(** Sequencing. *)
Fixpoint pbind {A B} (p : prog A) (f : A -> prog B) : prog B :=
  match p with
  | Done a => f a
  | Solve i h a k => Solve i h a (fun r => pbind (k r) f)
  | Reduce x k => Reduce x (fun g => pbind (k g) f)
  | Jvp l i h a k => Jvp l i h a (fun r => pbind (k r) f)
  | Vjp l o h a k => Vjp l o h a (fun r => pbind (k r) f)
  | Hook m b s k => Hook m b s (pbind k f)
  | Decide h b k => Decide h b (pbind k f)
  end.
(** Sequencing when the first part may raise. *)
Definition ptry {A B} (p : prog (res A)) (f : A -> prog (res B)) : prog (res B) :=
  pbind p (fun r => match r with Ok a => f a | Err e => Done (Err e) end).

Section Process.
Context {C : Type}.
Variable op : options T C.      (* the ODE and the callbacks in it are not used *)
Variable ord : order.           (* ODE:73 *)
Variable excl : list string.    (* ODE:72 *)
Variable md : metadata.         (* the metadata of this process *)

(** ODE:380-404. *)
Definition p_norm (state : list T) : prog (res T) :=
  match own_intermediates ord excl md state with
  | Err e => Done (Err e)
  | Ok (d, n) => Reduce d (fun g => Done (Ok (finish_norm ord g n)))
  end.

(** error_measurer.py:46-52 and 71-82. *)
Definition p_measure (est state : list T) : prog (res T) :=
  match o_meas op with
  | SimpleErrorMeasurer => p_norm est
  | ImprovedErrorMeasurer eta eps =>
      ptry (p_norm est) (fun x => ptry (p_norm state) (fun y => Done (Ok (ndiv x (nadd y (ndiv eta eps))))))
  end.

(** RKI:639-648. *)
Definition p_state_measure (s : rkstate T) : prog (res T) :=
  match embedded s with
  | None => Done (Err AttributeError)
  | Some (_, err) => p_measure err (final_state s)
  end.

(** stage_ordered_runge_kutta_discretization.py:210-243 (M_Step.v,
    [compute_stage]) with the solver as a collective operation. *)
Definition p_compute_stage (s : rkstate T) (h : T) (stage : nat) : prog (res (rkstate T)) :=
  let bt := o_bt op in
  let t := nadd (start_time s) (nmul h (nth stage (t_c bt) n0)) in
  let s := w_stage_times (upd stage t (stage_times s)) s in
  let inp := {| M_ODE.step_input := start_state s;
                stage_input := accumulate_stages bt stage (stage_updates s);
                independent_input := independent_inputs s;
                time := nth stage (stage_times s) n0 |} in
  Solve inp h (entry (t_A bt) stage stage) (fun r =>
    Done (let* (r, lp) := r in
          let s := w_stage_updates (upd stage (stage_update r) (stage_updates s)) s in
          let s := w_stage_states (upd stage (stage_state r) (stage_states s)) s in
          let s := w_stage_independent_outputs
                     (upd stage (independent_output r) (stage_independent_outputs s)) s in
          Ok (w_linearization_points (upd stage lp (linearization_points s)) s))).

(** The loop over the stages (same file, 61-64). *)
Fixpoint p_for_stages (body : rkstate T -> nat -> prog (res (rkstate T))) (l : list nat) (s : rkstate T)
    : prog (res (rkstate T)) :=
  match l with
  | [] => Done (Ok s)
  | i :: l' => ptry (body s i) (p_for_stages body l')
  end.

(** The same file, 53-80 and 546-555 (M_Step.v, [compute_step]). *)
Definition p_compute_step (s : rkstate T) (h : T) : prog (res (rkstate T)) :=
  let bt := o_bt op in
  let s := w_step_size h (shift_state s) in
  ptry (p_for_stages (fun s i => p_compute_stage s h i) (seq 0 (number_of_stages bt)) s) (fun s =>
    Done (let s := w_final_time (nadd (start_time s) h) s in
          let s := w_final_state (accumulate_step bt (start_state s) (stage_updates s) h) s in
          let* fio := compute_final_independent_outputs (stage_independent_outputs s) in
          let s := w_final_independent_outputs fio s in
          match t_hat bt with
          | None => Ok s
          | Some (bhat, _) => Ok (compute_error_estimate bhat s h)
          end)).

(** RKI:561-637 (M_Integrator.v, [iterate_on_step]). *)
Fixpoint p_iterate (fuel : nat) (c : C) (st : tistate T) : prog (C * tistate T * res unit) :=
  match fuel with
  | O => Done (c, st, Err OutOfFuel)
  | S fuel' =>
    pbind (p_compute_step (disc st) (suggestion st)) (fun r =>
    match r with
    | Err e => Done (c, st, Err e)
    | Ok tmp =>
      if o_adaptive op then
        pbind (p_state_measure tmp) (fun r =>
        match r with
        | Err e => Done (c, st, Err e)
        | Ok em =>
          let q := {| error_measure := em;
                      delta_t := suggestion st;
                      remaining_time := remaining_time_func (o_inf op) (o_crit op) (final_time tmp);
                      error_history := err_hist st;
                      step_size_history := step_hist st |} in
          match o_ctl op c q with
          | (c', Err e) => Done (c', st, Err e)
          | (c', Ok stat) =>
            Decide (suggestion st) (acceptance stat)
            (if acceptance stat then
              Done (c', {| disc := rk_set (disc st) tmp;
                           suggestion := step_size_suggestion stat;
                           step_hist := upd 0 (suggestion st) (roll1 (step_hist st));
                           err_hist := upd 0 em (roll1 (err_hist st)) |}, Ok tt)
            else
              p_iterate fuel' c'
                {| disc := disc st; suggestion := step_size_suggestion stat;
                   step_hist := step_hist st; err_hist := err_hist st |})
          end
        end)
      else
        Done (c, {| disc := rk_set (disc st) tmp;
                    suggestion := suggestion st;
                    step_hist := upd 0 (suggestion st) (step_hist st);
                    err_hist := err_hist st |}, Ok tt)
    end)
  end.

(** RKI:534-552 in the loops of checkpoint_interface/all_checkpointer.py:65-74
    and no_checkpointer.py:61-68 (M_Integrator.v, [forward_loop]). *)
Fixpoint p_forward (fuel iteration : nat) (c : C) (st : tistate T) : prog (C * tistate T * res unit) :=
  match fuel with
  | O => Done (c, st, Err OutOfFuel)
  | S fuel' =>
      if is_iteration_finished (o_crit op) iteration st then Done (c, st, Ok tt)
      else
        Hook Compute true (S iteration)
        (pbind (p_iterate (retry_limit op) c st) (fun r =>
         match r with
         | (c', st', Ok tt) => Hook Compute false (S iteration) (p_forward fuel' (S iteration) c' st')
         | (c', st', Err e) => Done (c', st', Err e)
         end))
  end.
End Process.
End Norm.
Arguments order T : clear implicits.
Arguments prog T A : clear implicits.
