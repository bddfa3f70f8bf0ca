(** Model of the discretization state and the time integration state:
    /repo/src/rkopenmdao/time_discretization/runge_kutta_discretization_state.py
    and /repo/src/rkopenmdao/time_integration_state.py.

    Arrays are lists, two-dimensional arrays lists of rows.  Here an object is
    the tuple of its array contents; sharing of arrays between objects is
    modelled separately in M_Heap.v. *)
From Coq Require Import List Bool.
From Verif Require Import Base.
Import ListNotations.

Section State.
Context {T : Type} {N : Num T}.

(** runge_kutta_discretization_state.py:48-64 (fields) and 197-198 (the two
    additional arrays [embedded_state], [error_estimate] of the embedded
    subclass, [None] for the base class).  [start_time], [final_time] and
    [step_size] are arrays of length one, represented by their entry. *)
Record rkstate : Type := {
  start_state : list T;
  stage_states : list (list T);
  stage_updates : list (list T);
  final_state : list T;
  independent_inputs : list T;
  stage_independent_outputs : list (list T);
  final_independent_outputs : list T;
  start_time : T;
  stage_times : list T;
  final_time : T;
  step_size : T;
  linearization_points : list (list T);
  embedded : option (list T * list T)
}.

(** runge_kutta_discretization_state.py:66-96 and 200-217, [__init__]. *)
Definition rk_init (emb : bool) (n_state n_in n_out stages n_lin : nat)
    : rkstate := {|
  start_state := vzeros n_state;
  stage_states := repeat (vzeros n_state) stages;
  stage_updates := repeat (vzeros n_state) stages;
  final_state := vzeros n_state;
  independent_inputs := vzeros n_in;
  stage_independent_outputs := repeat (vzeros n_out) stages;
  final_independent_outputs := vzeros n_out;
  start_time := n0;
  stage_times := vzeros stages;
  final_time := n0;
  step_size := n0;
  linearization_points := repeat (vzeros n_lin) stages;
  embedded := if emb then Some (vzeros n_state, vzeros n_state) else None
|}.

(** runge_kutta_discretization_state.py:98-110, [set]: copies twelve arrays.
    The embedded subclass inherits it unchanged (158-229 contain no [set]), so
    the two additional arrays keep their old contents. *)
Definition rk_set (self other : rkstate) : rkstate := {|
  start_state := start_state other;
  stage_states := stage_states other;
  stage_updates := stage_updates other;
  final_state := final_state other;
  independent_inputs := independent_inputs other;
  stage_independent_outputs := stage_independent_outputs other;
  final_independent_outputs := final_independent_outputs other;
  start_time := start_time other;
  stage_times := stage_times other;
  final_time := final_time other;
  step_size := step_size other;
  linearization_points := linearization_points other;
  embedded := embedded self
|}.

(** time_integration_state.py:14-38.  [step_size_suggestion] is an array of
    length one (represented by its entry), the histories have length two. *)
Record tistate : Type := {
  disc : rkstate;
  suggestion : T;
  step_hist : list T;
  err_hist : list T
}.

(** time_integration_state.py:40-54, [set]. *)
Definition ti_set (self other : tistate) : tistate := {|
  disc := rk_set (disc self) (disc other);
  suggestion := suggestion other;
  step_hist := step_hist other;
  err_hist := err_hist other
|}.

(** Attribute assignments [obj.field[...] = v] as functional updates (Python
    syntax, used throughout stage_ordered_runge_kutta_discretization.py). *)
Definition w_start_state v (s : rkstate) : rkstate := {|
  start_state := v; stage_states := stage_states s;
  stage_updates := stage_updates s; final_state := final_state s;
  independent_inputs := independent_inputs s;
  stage_independent_outputs := stage_independent_outputs s;
  final_independent_outputs := final_independent_outputs s;
  start_time := start_time s; stage_times := stage_times s;
  final_time := final_time s; step_size := step_size s;
  linearization_points := linearization_points s; embedded := embedded s |}.
Definition w_stage_states v (s : rkstate) : rkstate := {|
  start_state := start_state s; stage_states := v;
  stage_updates := stage_updates s; final_state := final_state s;
  independent_inputs := independent_inputs s;
  stage_independent_outputs := stage_independent_outputs s;
  final_independent_outputs := final_independent_outputs s;
  start_time := start_time s; stage_times := stage_times s;
  final_time := final_time s; step_size := step_size s;
  linearization_points := linearization_points s; embedded := embedded s |}.
Definition w_stage_updates v (s : rkstate) : rkstate := {|
  start_state := start_state s; stage_states := stage_states s;
  stage_updates := v; final_state := final_state s;
  independent_inputs := independent_inputs s;
  stage_independent_outputs := stage_independent_outputs s;
  final_independent_outputs := final_independent_outputs s;
  start_time := start_time s; stage_times := stage_times s;
  final_time := final_time s; step_size := step_size s;
  linearization_points := linearization_points s; embedded := embedded s |}.
Definition w_final_state v (s : rkstate) : rkstate := {|
  start_state := start_state s; stage_states := stage_states s;
  stage_updates := stage_updates s; final_state := v;
  independent_inputs := independent_inputs s;
  stage_independent_outputs := stage_independent_outputs s;
  final_independent_outputs := final_independent_outputs s;
  start_time := start_time s; stage_times := stage_times s;
  final_time := final_time s; step_size := step_size s;
  linearization_points := linearization_points s; embedded := embedded s |}.
Definition w_independent_inputs v (s : rkstate) : rkstate := {|
  start_state := start_state s; stage_states := stage_states s;
  stage_updates := stage_updates s; final_state := final_state s;
  independent_inputs := v;
  stage_independent_outputs := stage_independent_outputs s;
  final_independent_outputs := final_independent_outputs s;
  start_time := start_time s; stage_times := stage_times s;
  final_time := final_time s; step_size := step_size s;
  linearization_points := linearization_points s; embedded := embedded s |}.
Definition w_stage_independent_outputs v (s : rkstate) : rkstate := {|
  start_state := start_state s; stage_states := stage_states s;
  stage_updates := stage_updates s; final_state := final_state s;
  independent_inputs := independent_inputs s;
  stage_independent_outputs := v;
  final_independent_outputs := final_independent_outputs s;
  start_time := start_time s; stage_times := stage_times s;
  final_time := final_time s; step_size := step_size s;
  linearization_points := linearization_points s; embedded := embedded s |}.
Definition w_final_independent_outputs v (s : rkstate) : rkstate := {|
  start_state := start_state s; stage_states := stage_states s;
  stage_updates := stage_updates s; final_state := final_state s;
  independent_inputs := independent_inputs s;
  stage_independent_outputs := stage_independent_outputs s;
  final_independent_outputs := v;
  start_time := start_time s; stage_times := stage_times s;
  final_time := final_time s; step_size := step_size s;
  linearization_points := linearization_points s; embedded := embedded s |}.
Definition w_start_time v (s : rkstate) : rkstate := {|
  start_state := start_state s; stage_states := stage_states s;
  stage_updates := stage_updates s; final_state := final_state s;
  independent_inputs := independent_inputs s;
  stage_independent_outputs := stage_independent_outputs s;
  final_independent_outputs := final_independent_outputs s;
  start_time := v; stage_times := stage_times s;
  final_time := final_time s; step_size := step_size s;
  linearization_points := linearization_points s; embedded := embedded s |}.
Definition w_stage_times v (s : rkstate) : rkstate := {|
  start_state := start_state s; stage_states := stage_states s;
  stage_updates := stage_updates s; final_state := final_state s;
  independent_inputs := independent_inputs s;
  stage_independent_outputs := stage_independent_outputs s;
  final_independent_outputs := final_independent_outputs s;
  start_time := start_time s; stage_times := v;
  final_time := final_time s; step_size := step_size s;
  linearization_points := linearization_points s; embedded := embedded s |}.
Definition w_final_time v (s : rkstate) : rkstate := {|
  start_state := start_state s; stage_states := stage_states s;
  stage_updates := stage_updates s; final_state := final_state s;
  independent_inputs := independent_inputs s;
  stage_independent_outputs := stage_independent_outputs s;
  final_independent_outputs := final_independent_outputs s;
  start_time := start_time s; stage_times := stage_times s;
  final_time := v; step_size := step_size s;
  linearization_points := linearization_points s; embedded := embedded s |}.
Definition w_step_size v (s : rkstate) : rkstate := {|
  start_state := start_state s; stage_states := stage_states s;
  stage_updates := stage_updates s; final_state := final_state s;
  independent_inputs := independent_inputs s;
  stage_independent_outputs := stage_independent_outputs s;
  final_independent_outputs := final_independent_outputs s;
  start_time := start_time s; stage_times := stage_times s;
  final_time := final_time s; step_size := v;
  linearization_points := linearization_points s; embedded := embedded s |}.
Definition w_linearization_points v (s : rkstate) : rkstate := {|
  start_state := start_state s; stage_states := stage_states s;
  stage_updates := stage_updates s; final_state := final_state s;
  independent_inputs := independent_inputs s;
  stage_independent_outputs := stage_independent_outputs s;
  final_independent_outputs := final_independent_outputs s;
  start_time := start_time s; stage_times := stage_times s;
  final_time := final_time s; step_size := step_size s;
  linearization_points := v; embedded := embedded s |}.
Definition w_embedded v (s : rkstate) : rkstate := {|
  start_state := start_state s; stage_states := stage_states s;
  stage_updates := stage_updates s; final_state := final_state s;
  independent_inputs := independent_inputs s;
  stage_independent_outputs := stage_independent_outputs s;
  final_independent_outputs := final_independent_outputs s;
  start_time := start_time s; stage_times := stage_times s;
  final_time := final_time s; step_size := step_size s;
  linearization_points := linearization_points s; embedded := v |}.

(** Attribute assignments on the time integration state. *)
Definition w_disc v (s : tistate) : tistate := {|
  disc := v; suggestion := suggestion s; step_hist := step_hist s;
  err_hist := err_hist s |}.
Definition w_suggestion v (s : tistate) : tistate := {|
  disc := disc s; suggestion := v; step_hist := step_hist s;
  err_hist := err_hist s |}.
Definition w_hists sh eh (s : tistate) : tistate := {|
  disc := disc s; suggestion := suggestion s; step_hist := sh;
  err_hist := eh |}.

End State.
Arguments rkstate T : clear implicits.
Arguments tistate T : clear implicits.
