(** Model of the public methods of
    /repo/src/rkopenmdao/runge_kutta_integrator.py ("RKI") as programs of one of
    several processes: M_Integrator.v once more, with the calls of the stage
    problem's solvers, the reductions and the callbacks as collective
    operations of M_MPI.v.  Each process has its own component with its own
    portions of the arrays; the options are the same on all processes.  The
    simplifications of M_Integrator.v apply. *)
From Coq Require Import String.
From Coq Require Import List Bool.
From Verif Require Import Base M_Tableau M_State M_ODE M_Step M_Controller M_Measure M_Integrator M_Metadata M_MPI.
Import ListNotations.
Local Open Scope list_scope.

Section Run.
Context {T : Type} {N : Num T} {C : Type}.
Variable op : options T C.      (* the ODE in it is not used *)
Variable ord : order T.
Variable excl : list string.
Variable md : metadata.

(** stage_ordered_runge_kutta_discretization.py:245-281 (M_Step.v,
    [compute_stage_derivative]). *)
Definition p_stage_derivative (lin : list (list T)) (s : rkstate T) (h : T) (stage : nat) : prog T (res (rkstate T)) :=
  let bt := o_bt op in
  let s := w_stage_times (upd stage (start_time s) (stage_times s)) s in
  let inp := {| M_ODE.step_input := start_state s;
                stage_input := accumulate_stages bt stage (stage_updates s);
                independent_input := independent_inputs s;
                time := nth stage (stage_times s) n0 |} in
  Jvp _ (nth stage lin []) inp h (entry (t_A bt) stage stage) (fun r =>
    Done _ (let* r := r in
            let s := w_stage_updates (upd stage (stage_update r) (stage_updates s)) s in
            let s := w_stage_states (upd stage (stage_state r) (stage_states s)) s in
            Ok (w_stage_independent_outputs
                  (upd stage (independent_output r) (stage_independent_outputs s)) s))).

(** The same file, 82-127. *)
Definition p_step_derivative (s pert : rkstate T) (h : T) : prog T (res (rkstate T)) :=
  let bt := o_bt op in
  let pert := shift_state pert in
  ptry (p_for_stages (fun p i => p_stage_derivative (linearization_points s) p h i) (seq 0 (number_of_stages bt)) pert) (fun pert =>
    Done _ (let pert := w_final_time (start_time pert) pert in
            let pert := w_final_state (accumulate_step bt (start_state pert) (stage_updates pert) h) pert in
            let* fio := compute_final_independent_outputs (stage_independent_outputs s) in
            Ok (w_final_independent_outputs fio pert))).

(** The same file, 283-323. *)
Definition p_stage_adjoint (lin : list (list T)) (s : rkstate T) (h : T) (stage : nat) : prog T (res (rkstate T)) :=
  let bt := o_bt op in
  let r := {| stage_update := nth stage (stage_updates s) [];
              stage_state := nth stage (stage_states s) [];
              independent_output := nth stage (stage_independent_outputs s) [] |} in
  Vjp _ (nth stage lin []) r h (entry (t_A bt) stage stage) (fun x =>
    Done _ (let* x := x in
            let s := w_independent_inputs (vadd (independent_inputs s) (independent_input x)) s in
            let s := w_stage_times
                       (upd stage (nadd (nth stage (stage_times s) n0) (time x)) (stage_times s)) s in
            let s := w_start_state (vadd (start_state s) (M_ODE.step_input x)) s in
            let s := w_stage_updates (add_to_updates bt stage (stage_input x) (stage_updates s)) s in
            Ok (w_start_time (nadd (start_time s) (nth stage (stage_times s) n0)) s))).

(** The same file, 129-178. *)
Definition p_step_adjoint (s pert : rkstate T) (h : T) : prog T (res (rkstate T)) :=
  let bt := o_bt op in
  let pert := w_stage_times (vzeros (length (stage_times s))) pert in
  let pert := w_stage_independent_outputs
      (map (fun r => vzeros (length r)) (stage_independent_outputs s)) pert in
  let pert := w_final_time (nadd (final_time pert) n0) pert in
  let pert := w_start_state (final_state pert) pert in
  let pert := w_stage_updates
      (fold_left (fun ups i =>
           upd i (vscale (nmul h (nth i (t_b bt) n0)) (final_state pert)) ups)
         (seq 0 (number_of_stages bt)) (stage_updates pert)) pert in
  let pert := w_start_time (final_time pert) pert in
  ptry (p_for_stages (fun p i => p_stage_adjoint (linearization_points s) p h i)
          (rev (seq 0 (number_of_stages bt))) pert) (fun pert =>
    Done _ (Ok (shift_state_reverse pert))).

(** A method of the component of this process. *)
Definition pmethod (A : Type) : Type := component T C -> prog T (component T C * res A).
Definition plift {A} (m : method T C A) : pmethod A := fun w => Done _ (m w).
Definition pthen {A B} (m : pmethod A) (k : A -> pmethod B) : pmethod B := fun w =>
  pbind (m w) (fun r => match r with (w', Ok a) => k a w' | (w', Err e) => Done _ (w', Err e) end).
Definition preading {A} (f : component T C -> pmethod A) : pmethod A := fun w => f w w.
Notation "m ;;; k" := (pthen m (fun _ => k)) (at level 100, k at level 200, right associativity).

(** The loops over the callback lists (M_Integrator.v, [before_hooks] and
    [after_hooks]); without callbacks there is nothing to take part in. *)
Definition p_hooks (m : mode) (before : bool) (step : nat) (st : tistate T) : pmethod unit := fun w =>
  let r := (if before then before_hooks op m step st else after_hooks op m step st) w in
  match o_callbacks op m with
  | [] => Done _ r
  | _ => Hook _ m before step (Done _ r)
  end.

(** RKI:544, 746. *)
Definition p_step_live : pmethod unit := fun w =>
  pbind (p_iterate op ord excl md (retry_limit op) (ctl w) (live w))
        (fun r => let '(c', st', r) := r in Done _ (w_ctl c' (w_live st' w), r)).

(** RKI:534-552. *)
Definition p_run_step (step : nat) : pmethod unit :=
  preading (fun w => p_hooks Compute true step (live w)) ;;;
  p_step_live ;;;
  preading (fun w => p_hooks Compute false step (live w)).

(** RKI:847-875. *)
Definition p_run_step_rev (step : nat) (st : tistate T) : pmethod unit :=
  p_hooks Rev true step st ;;;
  preading (fun w => pthen
    (fun w' => pbind (p_step_adjoint (disc st) (disc (pert w)) (nth 0 (step_hist st) n0)) (fun r => Done _ (w', r)))
    (fun d => plift (modify (fun w => w_pert (w_disc (rk_set (disc (pert w)) d) (pert w)) w)))) ;;;
  p_hooks Rev false step st.

(** checkpoint_interface/all_checkpointer.py:65-74, no_checkpointer.py:61-68. *)
Fixpoint p_forward_loop (keep : bool) (fuel iteration : nat) : pmethod unit :=
  match fuel with
  | O => plift (mraise OutOfFuel)
  | S fuel' =>
      preading (fun w =>
        if is_iteration_finished (o_crit op) iteration (live w) then plift (mret tt)
        else
          p_run_step (S iteration) ;;;
          plift (if keep then modify (fun w => w_storage (live w :: storage w) w) else mret tt) ;;;
          p_forward_loop keep fuel' (S iteration))
  end.

(** all_checkpointer.py:96-103. *)
Fixpoint p_reverse_all (l : list (tistate T)) : pmethod unit :=
  match l with
  | [] => plift (mret tt)
  | st :: l' =>
      plift (modify (w_storage l')) ;;;
      p_run_step_rev (length l) st ;;;
      p_reverse_all l'
  end.

(** runge_kutta_integrator_pyrevolve_classes.py:181-185 and 223-230. *)
Fixpoint p_forward_operator (n lo : nat) : pmethod unit :=
  match n with
  | O => plift (mret tt)
  | S n' => p_run_step lo ;;; p_forward_operator n' (S lo)
  end.
Fixpoint p_reverse_operator (n lo : nat) : pmethod unit :=
  match n with
  | O => plift (mret tt)
  | S n' =>
      preading (fun w => p_run_step_rev (lo + n') (live w)) ;;;
      p_reverse_operator n' lo
  end.

(** The calls made by the pyrevolve library; it runs on each process with the
    same number of steps and snapshots and so makes the same calls. *)
Definition p_run_action (a : action) : pmethod unit :=
  match a with
  | Advance t_start t_end => p_forward_operator (t_end - t_start) (S t_start)
  | Save _ | Restore _ => plift (run_action op a)
  | Reverse t_start t_end => p_reverse_operator (t_end - t_start) (S (S t_start))
  end.
Fixpoint p_run_actions (l : list action) : pmethod unit :=
  match l with
  | [] => plift (mret tt)
  | a :: l' => p_run_action a ;;; p_run_actions l'
  end.

(** all_checkpointer.py:50-75, no_checkpointer.py:46-69,
    pyrevolve_checkpointer.py:147-170. *)
Definition p_iterate_forward : pmethod unit :=
  match o_ckpt op with
  | NoCheckpointer => p_forward_loop false (loop_limit op) 0
  | AllCheckpointer => p_forward_loop true (loop_limit op) 0
  | PyrevolveCheckpointer fwd _ =>
      p_forward_operator 1 0 ;;;
      plift (modify (fun w => w_first_complete (ti_set (first_complete w) (live w)) w)) ;;;
      p_run_actions fwd
  end.

(** all_checkpointer.py:77-104, no_checkpointer.py:71-89,
    pyrevolve_checkpointer.py:172-196. *)
Definition p_iterate_reverse : pmethod unit :=
  match o_ckpt op with
  | NoCheckpointer => plift (mraise NotImplementedError)
  | AllCheckpointer => preading (fun w => p_reverse_all (storage w))
  | PyrevolveCheckpointer _ rev =>
      p_run_actions rev ;;;
      plift (modify (fun w => w_live (ti_set (live w) (first_complete w)) w)) ;;;
      p_reverse_operator 1 1
  end.

(** RKI:438-453. *)
Definition p_compute (i : inputs T) : pmethod (outputs T) :=
  plift (compute_preparation_phase op i) ;;;
  plift (create_checkpointer op) ;;;
  p_iterate_forward ;;;
  plift (reading (fun w => mret {| time_final := final_time (disc (live w));
                                   final := final_state (disc (live w)) |})).

(** RKI:747-754. *)
Definition p_step_derivative_live : pmethod unit :=
  preading (fun w => pthen
    (fun w' => pbind (p_step_derivative (disc (live w)) (disc (pert w)) (nth 0 (step_hist (live w)) n0)) (fun r => Done _ (w', r)))
    (fun d => plift (modify (fun w => w_pert (w_disc (rk_set (disc (pert w)) d) (pert w)) w)))).

(** RKI:733-762. *)
Definition p_run_step_fwd (step : nat) : pmethod unit :=
  preading (fun w => p_hooks Fwd true step (live w)) ;;;
  p_step_live ;;;
  p_step_derivative_live ;;;
  preading (fun w => p_hooks Fwd false step (live w)).

(** RKI:714-731. *)
Fixpoint p_fwd_steps (fuel iteration : nat) : pmethod unit :=
  match fuel with
  | O => plift (mraise OutOfFuel)
  | S fuel' =>
      preading (fun w =>
        if is_iteration_finished (o_crit op) iteration (live w) then plift (mret tt)
        else p_run_step_fwd (S iteration) ;;; p_fwd_steps fuel' (S iteration))
  end.

(** RKI:658-682. *)
Definition p_product_fwd (i d : inputs T) : pmethod (outputs T) :=
  plift (jacvec_fwd_preparation_phase op i d) ;;;
  p_fwd_steps (loop_limit op) 0 ;;;
  plift (reading (fun w => mret {| time_final := final_time (disc (pert w));
                                   final := final_state (disc (pert w)) |})).

(** RKI:799-845: each process compares its own portion of the inputs with its
    own portion of the cached ones (RKI:822-832) and decides for itself whether
    to call [compute]. *)
Definition p_rev_preparation (i : inputs T) (d : outputs T) : pmethod unit :=
  preading (fun w =>
    if cache_hit i (cached w) then plift (mret tt)
    else p_compute i ;;; plift (mret tt)) ;;;
  plift (modify (fun w =>
    w_pert (w_disc
      (w_final_time (time_final d)
        (w_independent_inputs (vzeros (length (independent_inputs (disc (pert w)))))
          (w_final_state (final d) (disc (pert w))))) (pert w)) w)).

(** RKI:764-797. *)
Definition p_product_rev (i : inputs T) (d : outputs T) : pmethod (inputs T) :=
  p_rev_preparation i d ;;;
  p_iterate_reverse ;;;
  pthen (plift (reading (fun w => mret {| time_initial := final_time (disc (pert w));
                                          initial := final_state (disc (pert w));
                                          independent := independent_inputs (disc (pert w)) |}))) (fun r =>
  plift (modify (w_cached None)) ;;;
  plift (mret r)).

(** One call of a public method; what remains is the component and the
    exception, if any. *)
Definition forget {A} (p : prog T (component T C * res A)) : prog T (component T C * option exn) :=
  pbind p (fun r => Done _ (fst r, match snd r with Ok _ => None | Err e => Some e end)).
Definition p_call (k : call T) (w : component T C) : prog T (component T C * option exn) :=
  match k with
  | CallCompute i => forget (p_compute i w)
  | CallFwd i d => forget (p_product_fwd i d w)
  | CallRev i d => forget (p_product_rev i d w)
  end.
(** A history of calls. *)
Fixpoint p_calls (l : list (call T)) (w : component T C) : prog T (component T C * list (option exn)) :=
  match l with
  | [] => Done _ (w, [])
  | k :: l' => pbind (p_call k w) (fun r => pbind (p_calls l' (fst r)) (fun r' => Done _ (fst r', snd r :: snd r')))
  end.
End Run.
