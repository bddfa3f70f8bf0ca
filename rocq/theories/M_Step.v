(** Model of /repo/src/rkopenmdao/time_discretization/
    stage_ordered_runge_kutta_discretization.py ("SO" below). *)
From Coq Require Import List Bool.
From Verif Require Import Base M_Tableau M_State M_ODE.
Import ListNotations.

Section Step.
Context {T : Type} {N : Num T}.
Variable bt : tableau T.   (* SO:40, attribute butcher_tableau *)
Variable o : ode T.        (* the [ode] argument of every method *)

(** SO:42-51 and 535-544. *)
Definition create_empty_discretization_state : rkstate T :=
  rk_init (is_embedded bt) (state_size o) (independent_input_size o)
          (independent_output_size o) (number_of_stages bt)
          (linearization_point_size o).

(** SO:180-183. *)
Definition shift_state (s : rkstate T) : rkstate T :=
  w_start_state (final_state s) (w_start_time (final_time s) s).

(** SO:185-188. *)
Definition shift_state_reverse (s : rkstate T) : rkstate T :=
  w_final_state (start_state s) (w_final_time (start_time s) s).

(** SO:190-199.  [field.shape[1]] is the state size, read off the first row. *)
Definition accumulate_stages (stage : nat) (field : list (list T)) : list T :=
  let n := length (nth 0 field []) in
  match stage with
  | O => vzeros n
  | _ => einsum_ij_i n (firstn stage field)
                     (firstn stage (nth stage (t_A bt) []))
  end.

(** SO:201-208. *)
Definition accumulate_step (start : list T) (field : list (list T)) (h : T)
    : list T :=
  vadd start (einsum_ij_i (length start) field (vscale h (t_b bt))).

(** SO:336-341: zeros of the shape of the first row; IndexError when there is
    no row (a tableau without stages). *)
Definition compute_final_independent_outputs (outs : list (list T))
    : res (list T) :=
  match outs with
  | [] => Err IndexError
  | r :: _ => Ok (vzeros (length r))
  end.

(** SO:210-243. *)
Definition compute_stage (s : rkstate T) (h : T) (stage : nat)
    : res (rkstate T) :=
  let t := nadd (start_time s) (nmul h (nth stage (t_c bt) n0)) in
  let s := w_stage_times (upd stage t (stage_times s)) s in
  let inp := {| step_input := start_state s;
                stage_input := accumulate_stages stage (stage_updates s);
                independent_input := independent_inputs s;
                time := nth stage (stage_times s) n0 |} in
  let* (r, lp) := compute_update o inp h (entry (t_A bt) stage stage) in
  let s := w_stage_updates (upd stage (stage_update r) (stage_updates s)) s in
  let s := w_stage_states (upd stage (stage_state r) (stage_states s)) s in
  let s := w_stage_independent_outputs
             (upd stage (independent_output r) (stage_independent_outputs s)) s in
  Ok (w_linearization_points (upd stage lp (linearization_points s)) s).

(** The [for i in range(number_of_stages())] loops of SO:61-64, 90-100 and
    (with a reversed list) 164-176. *)
Fixpoint for_stages (body : rkstate T -> nat -> res (rkstate T))
    (l : list nat) (s : rkstate T) : res (rkstate T) :=
  match l with
  | [] => Ok s
  | i :: l' => let* s' := body s i in for_stages body l' s'
  end.

(** SO:53-80, StageOrderedRungeKuttaDiscretization.compute_step. *)
Definition compute_step_base (s : rkstate T) (h : T) : res (rkstate T) :=
  let s := shift_state s in
  let s := w_step_size h s in
  let* s := for_stages (fun s i => compute_stage s h i)
                       (seq 0 (number_of_stages bt)) s in
  let s := w_final_time (nadd (start_time s) h) s in
  let s := w_final_state
             (accumulate_step (start_state s) (stage_updates s) h) s in
  let* fio := compute_final_independent_outputs (stage_independent_outputs s) in
  Ok (w_final_independent_outputs fio s).

(** SO:510-517. *)
Definition accumulate_embedded_step (bhat start : list T)
    (field : list (list T)) (h : T) : list T :=
  vadd start (einsum_ij_i (length start) field (vscale h bhat)).

(** SO:475-508. *)
Definition compute_error_estimate (bhat : list T) (s : rkstate T) (h : T)
    : rkstate T :=
  let e := accumulate_embedded_step bhat (start_state s) (stage_updates s) h in
  w_embedded (Some (e, vsub (final_state s) e)) s.

(** SO:53-80 or, for embedded tableaux, SO:546-555
    (runge_kutta_integrator.py:380-389 picks the class by [is_embedded]). *)
Definition compute_step (s : rkstate T) (h : T) : res (rkstate T) :=
  let* s := compute_step_base s h in
  match t_hat bt with
  | None => Ok s
  | Some (bhat, _) => Ok (compute_error_estimate bhat s h)
  end.

(** SO:245-281. *)
Definition compute_stage_derivative (lin : list (list T)) (s : rkstate T)
    (h : T) (stage : nat) : res (rkstate T) :=
  let s := w_stage_times (upd stage (start_time s) (stage_times s)) s in
  let inp := {| step_input := start_state s;
                stage_input := accumulate_stages stage (stage_updates s);
                independent_input := independent_inputs s;
                time := nth stage (stage_times s) n0 |} in
  let* r := compute_update_derivative o (nth stage lin []) inp h
              (entry (t_A bt) stage stage) in
  let s := w_stage_updates (upd stage (stage_update r) (stage_updates s)) s in
  let s := w_stage_states (upd stage (stage_state r) (stage_states s)) s in
  Ok (w_stage_independent_outputs
        (upd stage (independent_output r) (stage_independent_outputs s)) s).

(** SO:82-127.  The final independent outputs are zeros shaped like
    [stage_independent_outputs[0]] of the primal state (SO:353; lines 112-114
    build a one-element tuple and take its only entry). *)
Definition compute_step_derivative (s pert : rkstate T) (h : T)
    : res (rkstate T) :=
  let pert := shift_state pert in
  let* pert := for_stages
      (fun p i => compute_stage_derivative (linearization_points s) p h i)
      (seq 0 (number_of_stages bt)) pert in
  let pert := w_final_time (start_time pert) pert in
  let pert := w_final_state
      (accumulate_step (start_state pert) (stage_updates pert) h) pert in
  let* fio := compute_final_independent_outputs (stage_independent_outputs s) in
  Ok (w_final_independent_outputs fio pert).

(** SO:315-319: [for i in range(stage): stage_updates[i] += a[stage,i]*x]. *)
Definition add_to_updates (stage : nat) (x : list T) (ups : list (list T))
    : list (list T) :=
  fold_left (fun ups i =>
      upd i (vadd (nth i ups []) (vscale (entry (t_A bt) stage i) x)) ups)
    (seq 0 stage) ups.

(** SO:283-323. *)
Definition compute_stage_adjoint_derivative (lin : list (list T))
    (s : rkstate T) (h : T) (stage : nat) : res (rkstate T) :=
  let r := {| stage_update := nth stage (stage_updates s) [];
              stage_state := nth stage (stage_states s) [];
              independent_output := nth stage (stage_independent_outputs s) [] |} in
  let* x := compute_update_adjoint_derivative o (nth stage lin []) r h
              (entry (t_A bt) stage stage) in
  let s := w_independent_inputs
             (vadd (independent_inputs s) (independent_input x)) s in
  let s := w_stage_times
             (upd stage (nadd (nth stage (stage_times s) n0) (time x))
                  (stage_times s)) s in
  let s := w_start_state (vadd (start_state s) (step_input x)) s in
  let s := w_stage_updates
             (add_to_updates stage (stage_input x) (stage_updates s)) s in
  Ok (w_start_time (nadd (start_time s) (nth stage (stage_times s) n0)) s).

(** SO:129-178.  SO:362 gives zeros shaped like the primal [stage_times] and
    [stage_independent_outputs], and 0.0 added to the final time. *)
Definition compute_step_adjoint_derivative (s pert : rkstate T) (h : T)
    : res (rkstate T) :=
  let pert := w_stage_times (vzeros (length (stage_times s))) pert in
  let pert := w_stage_independent_outputs
      (map (fun r => vzeros (length r)) (stage_independent_outputs s)) pert in
  let pert := w_final_time (nadd (final_time pert) n0) pert in
  let pert := w_start_state (final_state pert) pert in
  let pert := w_stage_updates
      (fold_left (fun ups i =>
           upd i (vscale (nmul h (nth i (t_b bt) n0)) (final_state pert)) ups)
         (seq 0 (number_of_stages bt)) (stage_updates pert)) pert in
  let pert := w_start_time (final_time pert) pert in
  let* pert := for_stages
      (fun p i => compute_stage_adjoint_derivative (linearization_points s) p h i)
      (rev (seq 0 (number_of_stages bt))) pert in
  Ok (shift_state_reverse pert).

(** SO:364-377, starting scheme. *)
Definition starting_scheme (t0 : T) (y0 p0 : list T) (h : T) : rkstate T :=
  let s := create_empty_discretization_state in
  let s := w_final_time t0 s in
  let s := w_final_state y0 s in
  let s := w_independent_inputs p0 s in
  w_step_size h s.

(** SO:379-398, its derivative. *)
Definition starting_scheme_derivative (dt0 : T) (dy0 dp0 : list T)
    : rkstate T :=
  let s := create_empty_discretization_state in
  let s := w_final_time dt0 s in
  let s := w_final_state dy0 s in
  w_independent_inputs dp0 s.

(** SO:400-411, its adjoint derivative: (initial time, initial values,
    independent inputs). *)
Definition starting_scheme_adjoint (pert : rkstate T) : T * list T * list T :=
  (final_time pert, final_state pert, independent_inputs pert).

(** SO:413-436, finalization scheme and (the same reading of the
    perturbation) its derivative. *)
Definition finalization_scheme (s : rkstate T) : T * list T * list T :=
  (final_time s, final_state s, final_independent_outputs s).

(** SO:438-457, adjoint of the finalization scheme. *)
Definition finalization_scheme_adjoint (v : T * list T * list T) : rkstate T :=
  let '(ft, fv, fio) := v in
  let s := create_empty_discretization_state in
  let s := w_final_time ft s in
  let s := w_final_state fv s in
  w_final_independent_outputs fio s.

End Step.
