(** Notions for statements about arrays in memory. *)
From Coq Require Import String.
From Coq Require Import List Arith.
From Verif Require Import Base M_State M_Heap.
Import ListNotations.
Local Open Scope nat_scope.
Local Open Scope list_scope.

(** Memory cell [k] of buffer [b] belongs to array [v]. *)
Definition cell (v : view) (b k : nat) : Prop := buf v = b /\ off v <= k < off v + size v.
Definition apart (v w : view) : Prop := forall b k, cell v b k -> cell w b k -> False.

(** The attributes of a time integration state that are arrays. *)
Inductive key : Type := Disc (f : field) | EmbeddedState | ErrorEstimate | Suggestion | StepHistory | ErrorHistory.
Definition at_key (o : tiobj) (k : key) : option view :=
  match k with
  | Disc f => Some (attr (o_disc o) f)
  | EmbeddedState => option_map fst (extra (o_disc o))
  | ErrorEstimate => option_map snd (extra (o_disc o))
  | Suggestion => Some (o_suggestion o)
  | StepHistory => Some (o_step_hist o)
  | ErrorHistory => Some (o_err_hist o)
  end.

Section Spec.
Context {T : Type} {N : Num T}.

(** All cells of the array exist. *)
Definition exists_in (h : heap T) (v : view) : Prop := forall b k, cell v b k -> k < length (nth b h []).

(** An array that exists and an object whose arrays exist and do not overlap. *)
Definition proper (h : heap T) (o : tiobj) : Prop :=
  (forall k v, at_key o k = Some v -> exists_in h v) /\
  (forall k k' v v', k <> k' -> at_key o k = Some v -> at_key o k' = Some v' -> apart v v').

(** Objects without common memory. *)
Definition separate (o o' : tiobj) : Prop :=
  forall k k' v v', at_key o k = Some v -> at_key o' k' = Some v' -> apart v v'.

(** The attributes have the same shapes; the classes are the same. *)
Definition same_shape (o o' : tiobj) : Prop :=
  forall k, option_map dims (at_key o k) = option_map dims (at_key o' k).

(** The class without error estimate. *)
Definition plain (o : tiobj) : Prop := extra (o_disc o) = None.

(** Between [h] and [h'] nothing but the arrays of [o] (and new memory) has
    changed. *)
Definition only (o : tiobj) (h h' : heap T) : Prop :=
  forall w, exists_in h w -> (forall k v, at_key o k = Some v -> apart v w) ->
  exists_in h' w /\ read h' w = read h w.

(** A run during which only [live] is worked on and deep copies of it are put
    into a list; [seen] are its values at these times. *)
Inductive history (live : tiobj) : heap T -> list tiobj -> list (tistate T) -> Prop :=
| history_start h : proper h live -> history live h [] []
| history_work h h' snaps seen : history live h snaps seen -> only live h h' -> proper h' live ->
    history live h' snaps seen
| history_keep h h' snap snaps seen : history live h snaps seen -> ti_deepcopy h live = (h', snap) ->
    history live h' (snap :: snaps) (ti_value h live :: seen).

(** All arrays of a dictionary exist and have integral shapes. *)
Definition equal_states (h : heap T) (o : tiobj) (h' : heap T) (a : tiany T) : Prop :=
  exists o', o_disc o' = a_disc a /\ a_suggestion a = Arr (o_suggestion o') /\ a_step_hist a = Arr (o_step_hist o') /\
    a_err_hist a = Arr (o_err_hist o') /\ ti_value h' o' = ti_value h o.
End Spec.

(** The shape of every attribute as set up by [__init__]. *)
Definition dims_of (z : sizes) (f : field) : list nat :=
  match f with
  | StartState | FinalState => [n_state z]
  | StageStates | StageUpdates => [n_stages z; n_state z]
  | IndependentInputs => n_in z
  | StageIndependentOutputs => [n_stages z; n_out z]
  | FinalIndependentOutputs => [n_out z]
  | StartTime | FinalTime | StepSize => [1]
  | StageTimes => [n_stages z]
  | LinearizationPoints => [n_stages z; n_lin z]
  end.
Definition formed (z : sizes) (o : rkobj) : Prop := forall f, dims (attr o f) = dims_of z f.
