(** Model of the state objects with their arrays in memory:
    /repo/src/rkopenmdao/time_discretization/runge_kutta_discretization_state.py
    (cited as DS), /repo/src/rkopenmdao/time_integration_state.py (TS),
    /repo/src/rkopenmdao/checkpoint_interface/runge_kutta_integrator_pyrevolve_classes.py
    (PR) and the storage of checkpoint_interface/all_checkpointer.py (AC).

    Memory is a list of buffers of floats; a numpy array is a contiguous piece
    of a buffer with a shape.  Other strides do not occur in this code.
    Assignments between arrays of different shapes raise (numpy would also
    accept shapes that can be broadcast). *)
From Coq Require Import String DecimalString.
From Coq Require Import List Bool Arith.
From Verif Require Import Base M_State.
Import ListNotations.
Local Open Scope string_scope.
Local Open Scope nat_scope.
Local Open Scope list_scope.

(** Decimal notation of a number in an f-string (DS:118; file_writer.py:80). *)
Definition str (n : nat) : string := NilEmpty.string_of_uint (Nat.to_uint n).

Section Heap.
Context {T : Type} {N : Num T}.

Definition heap : Type := list (list T).

(** A numpy array: buffer, offset, shape. *)
Record view : Type := { buf : nat; off : nat; dims : list nat }.
(** [array.size]. *)
Definition size (v : view) : nat := fold_right Nat.mul 1 (dims v).

(** The entries of an array, in C order. *)
Definition read (h : heap) (v : view) : list T := slice (off v) (off v + size v) (nth (buf v) h []).
Definition store (h : heap) (v : view) (x : list T) : heap :=
  upd (buf v) (slice_set (off v) (off v + size v) x (nth (buf v) h [])) h.

Fixpoint dims_eqb (a b : list nat) : bool :=
  match a, b with
  | [], [] => true
  | x :: a', y :: b' => (x =? y) && dims_eqb a' b'
  | _, _ => false
  end.

(** [dst[:] = src[:]] (DS:99-110, TS:52-54). *)
Definition assign (h : heap) (dst src : view) : res heap :=
  if dims_eqb (dims dst) (dims src) then Ok (store h dst (read h src)) else Err ValueError.

(** [np.zeros(d)] (DS:76-96). *)
Definition zeros (h : heap) (d : list nat) : heap * view :=
  (h ++ [vzeros (fold_right Nat.mul 1 d)], {| buf := length h; off := 0; dims := d |}).

(** [v.copy()] (PR:90), and [deepcopy] of an array (AC:74). *)
Definition copy (h : heap) (v : view) : heap * view :=
  (h ++ [read h v], {| buf := length h; off := 0; dims := dims v |}).

(** [v[i, :]] (DS:119-121, 147-151). *)
Definition row (v : view) (i : nat) : view :=
  {| buf := buf v; off := off v + i * fold_right Nat.mul 1 (tl (dims v)); dims := tl (dims v) |}.

(** DS:48-64, the attributes of a discretization state. *)
Inductive field : Type :=
| StartState | StageStates | StageUpdates | FinalState | IndependentInputs
| StageIndependentOutputs | FinalIndependentOutputs
| StartTime | StageTimes | FinalTime | StepSize | LinearizationPoints.
Definition field_eqb (f g : field) : bool :=
  match f, g with
  | StartState, StartState | StageStates, StageStates | StageUpdates, StageUpdates
  | FinalState, FinalState | IndependentInputs, IndependentInputs
  | StageIndependentOutputs, StageIndependentOutputs | FinalIndependentOutputs, FinalIndependentOutputs
  | StartTime, StartTime | StageTimes, StageTimes | FinalTime, FinalTime | StepSize, StepSize
  | LinearizationPoints, LinearizationPoints => true
  | _, _ => false
  end.

(** A discretization state: its attributes, and [embedded_state] and
    [error_estimate] (DS:197-198) for the embedded class. *)
Record rkobj : Type := { attr : field -> view; extra : option (view * view) }.
(** [self.f = v] (DS:141-155): the attribute refers to another array. *)
Definition rebind (f : field) (v : view) (o : rkobj) : rkobj :=
  {| attr := fun g => if field_eqb f g then v else attr o g; extra := extra o |}.

(** The sizes given to [__init__] (DS:66-74). *)
Record sizes : Type := { n_state : nat; n_in : list nat; n_out : nat; n_stages : nat; n_lin : nat }.

(** DS:76-96, in this order.  [n_in] is a shape: see [from_dict]. *)
Definition init_fields (z : sizes) : list (field * list nat) := [
  (StartState, [n_state z]); (StageStates, [n_stages z; n_state z]); (StageUpdates, [n_stages z; n_state z]);
  (FinalState, [n_state z]); (IndependentInputs, n_in z); (StageIndependentOutputs, [n_stages z; n_out z]);
  (FinalIndependentOutputs, [n_out z]); (StartTime, [1]); (StageTimes, [n_stages z]); (FinalTime, [1]);
  (StepSize, [1]); (LinearizationPoints, [n_stages z; n_lin z]) ].

Fixpoint zero_fields (h : heap) (l : list (field * list nat)) (o : rkobj) : heap * rkobj :=
  match l with
  | [] => (h, o)
  | (f, d) :: l' => let (h1, v) := zeros h d in zero_fields h1 l' (rebind f v o)
  end.
Definition nowhere : view := {| buf := 0; off := 0; dims := [0] |}.

(** DS:66-96 and 200-217, [__init__]. *)
Definition rk_new (emb : bool) (h : heap) (z : sizes) : heap * rkobj :=
  let (h, o) := zero_fields h (init_fields z) {| attr := fun _ => nowhere; extra := None |} in
  if emb then
    let (h, e) := zeros h (dims (attr o StartState)) in
    let (h, r) := zeros h (dims (attr o StartState)) in
    (h, {| attr := attr o; extra := Some (e, r) |})
  else (h, o).

(** DS:98-110: the attributes that [set] copies, in this order. *)
Definition set_fields : list field := [StartState; StageStates; StageUpdates; FinalState; IndependentInputs;
  StageIndependentOutputs; FinalIndependentOutputs; StartTime; StageTimes; FinalTime; StepSize; LinearizationPoints].

(** DS:98-110, [set]; inherited by the embedded class. *)
Fixpoint assign_fields (h : heap) (l : list field) (self other : rkobj) : res heap :=
  match l with
  | [] => Ok h
  | f :: l' => let* h1 := assign h (attr self f) (attr other f) in assign_fields h1 l' self other
  end.
Definition rk_obj_set (h : heap) (self other : rkobj) : res (heap * rkobj) :=
  let* h := assign_fields h set_fields self other in Ok (h, self).

(** TS:14-38. *)
Record tiobj : Type := { o_disc : rkobj; o_suggestion : view; o_step_hist : view; o_err_hist : view }.

(** [np.array(x)], [np.full(n, x)] and so on: a new one-dimensional array
    (runge_kutta_integrator.py:412-417, 423-425, 809-811). *)
Definition new_array (h : heap) (x : list T) : heap * view :=
  (h ++ [x], {| buf := length h; off := 0; dims := [length x] |}).
(** runge_kutta_integrator.py:407-426 and 805-812: a new state object. *)
Definition ti_new (emb : bool) (h : heap) (z : sizes) (s sh eh : list T) : heap * tiobj :=
  let (h, d) := rk_new emb h z in
  let (h, s) := new_array h s in
  let (h, sh) := new_array h sh in
  let (h, eh) := new_array h eh in
  (h, {| o_disc := d; o_suggestion := s; o_step_hist := sh; o_err_hist := eh |}).

(** TS:40-54, [set]. *)
Definition ti_obj_set (h : heap) (self other : tiobj) : res (heap * tiobj) :=
  let* (h, d) := rk_obj_set h (o_disc self) (o_disc other) in
  let* h := assign h (o_suggestion self) (o_suggestion other) in
  let* h := assign h (o_step_hist self) (o_step_hist other) in
  let* h := assign h (o_err_hist self) (o_err_hist other) in
  Ok (h, {| o_disc := d; o_suggestion := o_suggestion self; o_step_hist := o_step_hist self;
            o_err_hist := o_err_hist self |}).

(** [copy.deepcopy] of a state object (AC:74, pyrevolve_checkpointer.py:64,
    runge_kutta_integrator.py:465, 572): every array is copied. *)
Fixpoint copy_fields (h : heap) (l : list field) (src o : rkobj) : heap * rkobj :=
  match l with
  | [] => (h, o)
  | f :: l' => let (h1, v) := copy h (attr src f) in copy_fields h1 l' src (rebind f v o)
  end.
Definition rk_deepcopy (h : heap) (o : rkobj) : heap * rkobj :=
  let (h, c) := copy_fields h set_fields o {| attr := fun _ => nowhere; extra := None |} in
  match extra o with
  | None => (h, c)
  | Some (e, r) => let (h, e) := copy h e in let (h, r) := copy h r in (h, {| attr := attr c; extra := Some (e, r) |})
  end.
Definition ti_deepcopy (h : heap) (o : tiobj) : heap * tiobj :=
  let (h, d) := rk_deepcopy h (o_disc o) in
  let (h, s) := copy h (o_suggestion o) in
  let (h, sh) := copy h (o_step_hist o) in
  let (h, eh) := copy h (o_err_hist o) in
  (h, {| o_disc := d; o_suggestion := s; o_step_hist := sh; o_err_hist := eh |}).

(** *** Dictionaries *)

(** Values in the dictionaries: arrays, floats, dictionaries. *)
Inductive pyval : Type :=
| Arr (v : view)
| Flt (x : T)
| Dict (l : list (string * pyval)).

(** [d[key]]. *)
Definition item (d : pyval) (k : string) : res pyval :=
  match d with
  | Dict l => match find (fun e => String.eqb (fst e) k) l with Some (_, x) => Ok x | None => Err KeyError end
  | _ => Err TypeError
  end.
(** Where the code needs an array. *)
Definition array (x : pyval) : res view := match x with Arr v => Ok v | _ => Err AttributeError end.
Definition array_at (d : pyval) (k : string) : res view := let* x := item d k in array x.

Definition stage_key (i : nat) : string := ("stage_" ++ str i)%string.

(** DS:112-130, [to_dict]. *)
Definition rk_to_dict (o : rkobj) : list (string * pyval) :=
  [("start_state", Arr (attr o StartState)); ("start_time", Arr (attr o StartTime));
   ("stage_times", Arr (attr o StageTimes))] ++
  map (fun i => (stage_key i, Dict [("state", Arr (row (attr o StageStates) i));
                                    ("update", Arr (row (attr o StageUpdates) i));
                                    ("independent_output", Arr (row (attr o StageIndependentOutputs) i))]))
      (seq 0 (hd 0 (dims (attr o StageStates)))) ++
  [("final_state", Arr (attr o FinalState)); ("independent_input", Arr (attr o IndependentInputs));
   ("final_independent_output", Arr (attr o FinalIndependentOutputs)); ("final_time", Arr (attr o FinalTime));
   ("linearization_points", Arr (attr o LinearizationPoints))] ++
  (* DS:219-223 *)
  match extra o with None => [] | Some (e, r) => [("embedded_state", Arr e); ("error_estimate", Arr r)] end.

(** TS:56-71, [to_dict]. *)
Definition ti_to_dict (o : tiobj) : pyval := Dict [
  ("discretization_state", Dict (rk_to_dict (o_disc o))); ("step_size_suggestion", Arr (o_suggestion o));
  ("step_size_history", Arr (o_step_hist o)); ("error_history", Arr (o_err_hist o))].

(** [np.zeros(a)] with an array of floats as shape (DS:83 called with DS:137):
    its entries are no integers; an empty array is an empty shape. *)
Definition shape_of_array (v : view) : res (list nat) := if size v =? 0 then Ok [] else Err TypeError.

(** [array.shape[i]]. *)
Definition dim (v : view) (i : nat) : res nat :=
  match nth_error (dims v) i with Some n => Ok n | None => Err IndexError end.

(** The loop DS:144-149. *)
Fixpoint load_stages (h : heap) (d : pyval) (o : rkobj) (l : list nat) : res heap :=
  match l with
  | [] => Ok h
  | i :: l' =>
    let* s := item d (stage_key i) in
    let* x := array_at s "state" in
    let* h := assign h (row (attr o StageStates) i) x in
    let* x := array_at s "update" in
    let* h := assign h (row (attr o StageUpdates) i) x in
    let* x := array_at s "independent_output" in
    let* h := assign h (row (attr o StageIndependentOutputs) i) x in
    load_stages h d o l'
  end.

(** DS:131-156, [from_dict]; [emb] tells which class it is called on. *)
Definition rk_from_dict (emb : bool) (h : heap) (d : pyval) : res (heap * rkobj) :=
  let* lp := array_at d "linearization_points" in
  let* stages := dim lp 0 in
  let* fs := array_at d "final_state" in
  let* ii := array_at d "independent_input" in
  let* s0 := item d (stage_key 0) in
  let* io := array_at s0 "independent_output" in
  let* nl := dim lp 1 in
  let* shape_in := shape_of_array ii in
  let (h, o) := rk_new emb h {| n_state := size fs; n_in := shape_in; n_out := size io;
                                n_stages := stages; n_lin := nl |} in
  let* v := array_at d "start_state" in let o := rebind StartState v o in
  let* v := array_at d "start_time" in let o := rebind StartTime v o in
  let* v := array_at d "stage_times" in let o := rebind StageTimes v o in
  let* h := load_stages h d o (seq 0 stages) in
  let* v := array_at d "final_state" in let o := rebind FinalState v o in
  let* v := array_at d "independent_input" in let o := rebind IndependentInputs v o in
  let* v := array_at d "final_independent_output" in let o := rebind FinalIndependentOutputs v o in
  let* v := array_at d "final_time" in let o := rebind FinalTime v o in
  let* v := array_at d "linearization_points" in let o := rebind LinearizationPoints v o in
  Ok (h, o).

(** DS:225-229, [from_dict] of the embedded class; without a return statement
    it yields [None]. *)
Definition embedded_from_dict (h : heap) (d : pyval) : res (heap * option rkobj) :=
  let* (h, o) := rk_from_dict true h d in
  let* e := item d "embedded_dict" in
  let* r := item d "error_estimate" in
  Ok (h, None).

(** TS:73-92, [from_dict]; the result's attributes are whatever the dictionary
    holds. *)
Record tiany : Type := { a_disc : rkobj; a_suggestion : pyval; a_step_hist : pyval; a_err_hist : pyval }.
Definition ti_from_dict (h : heap) (d : pyval) : res (heap * tiany) :=
  let* x := item d "discretization_state" in
  let* (h, o) := rk_from_dict false h x in
  let* s := array_at d "step_size_suggestion" in
  let* s0 := match read h s with [] => Err IndexError | y :: _ => Ok (Flt y) end in
  let* sh := item d "step_size_history" in
  let* eh := item d "error_history" in
  Ok (h, {| a_disc := o; a_suggestion := s0; a_step_hist := sh; a_err_hist := eh |}).

(** *** Snapshots for pyrevolve *)

(** PR:68-96, [_get_data_impl] with [location=True]: the nonempty arrays. *)
Fixpoint locations (d : pyval) : res (list view) :=
  match d with
  | Dict l => (fix go (l : list (string * pyval)) : res (list view) :=
      match l with
      | [] => Ok []
      | (_, x) :: l' => let* a := locations x in let* b := go l' in Ok (a ++ b)
      end) l
  | Arr v => Ok (if 0 <? size v then [v] else [])
  | Flt _ => Err TypeError
  end.

(** PR:65-66 and 68-96 with [location=False]: copies of them. *)
Fixpoint copies (h : heap) (l : list view) : heap * list view :=
  match l with
  | [] => (h, [])
  | v :: l' => let (h, c) := copy h v in let (h, cs) := copies h l' in (h, c :: cs)
  end.
Definition get_data (h : heap) (d : pyval) : res (heap * list view) :=
  let* l := locations d in Ok (copies h l).

(** PR:98-131, [size]. *)
Fixpoint data_size (d : pyval) : res nat :=
  match d with
  | Dict l => (fix go (l : list (string * pyval)) : res nat :=
      match l with
      | [] => Ok 0
      | (_, x) :: l' => let* a := data_size x in let* b := go l' in Ok (a + b)
      end) l
  | Arr v => Ok (size v)
  | Flt _ => Err TypeError
  end.

(** What pyrevolve does with them (the library is not part of /repo): a slot of
    [size] floats takes the arrays of [get_data] one after the other, and is
    copied back piece by piece into the arrays of [get_data_location]. *)
Definition save (h : heap) (d : pyval) : res (heap * list T) :=
  let* (h, l) := get_data h d in Ok (h, concat (map (read h) l)).
Fixpoint load_pieces (h : heap) (slot : list T) (l : list view) : heap :=
  match l with
  | [] => h
  | v :: l' => load_pieces (store h v (firstn (size v) slot)) (skipn (size v) slot) l'
  end.
Definition load (h : heap) (slot : list T) (d : pyval) : res heap :=
  let* l := locations d in Ok (load_pieces h slot l).

(** *** Values *)

(** The rows of a two-dimensional array. *)
Definition rows (h : heap) (v : view) : list (list T) :=
  map (fun i => read h (row v i)) (seq 0 (hd 0 (dims v))).
Definition entry0 (h : heap) (v : view) : T := hd n0 (read h v).

(** The contents of an object as the tuple used in M_State.v. *)
Definition rk_value (h : heap) (o : rkobj) : rkstate T := {|
  start_state := read h (attr o StartState);
  stage_states := rows h (attr o StageStates);
  stage_updates := rows h (attr o StageUpdates);
  final_state := read h (attr o FinalState);
  independent_inputs := read h (attr o IndependentInputs);
  stage_independent_outputs := rows h (attr o StageIndependentOutputs);
  final_independent_outputs := read h (attr o FinalIndependentOutputs);
  start_time := entry0 h (attr o StartTime);
  stage_times := read h (attr o StageTimes);
  final_time := entry0 h (attr o FinalTime);
  step_size := entry0 h (attr o StepSize);
  linearization_points := rows h (attr o LinearizationPoints);
  embedded := option_map (fun p => (read h (fst p), read h (snd p))) (extra o) |}.
Definition ti_value (h : heap) (o : tiobj) : tistate T := {|
  disc := rk_value h (o_disc o); suggestion := entry0 h (o_suggestion o);
  step_hist := read h (o_step_hist o); err_hist := read h (o_err_hist o) |}.
End Heap.
Arguments heap T : clear implicits.
Arguments pyval T : clear implicits.
Arguments tiany T : clear implicits.
