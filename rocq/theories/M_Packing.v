(** Model of the transfers between numpy arrays and OpenMDAO vectors:
    /repo/src/rkopenmdao/runge_kutta_integrator.py (cited as RKI) and
    /repo/src/rkopenmdao/discretized_ode/openmdao_ode.py (cited as ODE), and of
    the three calls of [OpenMDAOODE] on top of a stage problem.

    Arrays are flat lists in C order, so [flatten] is the identity and
    [reshape] only tests the size.  Assigning arrays of another size raises;
    numpy's broadcasting of size-one arrays is left out. *)
From Coq Require Import String.
From Coq Require Import List Bool Arith.
From Verif Require Import Base M_ODE M_Metadata M_Components.
Import ListNotations.
Local Open Scope string_scope.
Local Open Scope nat_scope.
Local Open Scope list_scope.

Section Transfers.
Context {T : Type} {N : Num T}.

(** An OpenMDAO vector with flat data (M_Components.v). *)
Definition vec : Type := omvec (list T).

(** [vec[name] = x] for an array (RKI:513, 530; ODE:280-293, 300-306, 320-322). *)
Definition assign (n : string) (x : list T) (v : vec) : res vec :=
  update (fun old new => if length old =? length new then Ok new else Err ValueError) n x v.
(** [vec[name] = x] for a scalar (ODE:267-273, RKI:449): every entry. *)
Definition fill (n : string) (x : T) (v : vec) : res vec :=
  update (fun old _ => Ok (map (fun _ => x) old)) n [] v.
(** [x.reshape(shape)] (ODE:284-285, RKI:513). *)
Definition reshape (sh : list nat) (x : list T) : res (list T) :=
  if length x =? prod sh then Ok x else Err ValueError.
(** [array[start:end] = x] (RKI:482, 499; ODE:343, 348, 359, 376). *)
Definition copy_into (start stop : nat) (x arr : list T) : res (list T) :=
  if length x =? length (slice start stop arr) then Ok (slice_set start stop x arr) else Err ValueError.
(** [vec[name][0]] (RKI:464; ODE:333-337). *)
Definition first (n : string) (v : vec) : res T :=
  let* x := get n v in match x with [] => Err IndexError | t :: _ => Ok t end.

(** *** The integrator component *)

(** [om_vector._kind] (RKI:473, 487). *)
Inductive kind : Type := input_kind | output_kind.
(** RKI:473-476, 504-507. *)
Definition suffix (k : kind) : string := match k with input_kind => "_initial" | output_kind => "_final" end.

(** RKI:470-482, [_to_numpy_array_time_integration]. *)
Definition to_numpy_ti (md : metadata) (k : kind) (v : vec) (arr : list T) : res (list T) :=
  scan (fun arr q =>
    let* x := get (q_name q ++ suffix k)%string v in
    copy_into (start_index (q_array q)) (end_index (q_array q)) x arr)
    arr (time_integration_quantities md).

(** RKI:484-499, [_to_numpy_array_independent_inputs]. *)
Definition to_numpy_ind (md : metadata) (k : kind) (v : vec) (arr : list T) : res (list T) :=
  match k with
  | output_kind => Err TypeError
  | input_kind =>
    scan (fun arr q =>
      let* x := get (q_name q) v in
      copy_into (start_index (q_array q)) (end_index (q_array q)) x arr)
      arr (time_independent_quantities md)
  end.

(** RKI:501-515, [_from_numpy_array_time_integration]. *)
Definition from_numpy_ti (md : metadata) (k : kind) (arr : list T) (v : vec) : res vec :=
  scan (fun v q =>
    let* x := reshape (shape (q_array q)) (slice (start_index (q_array q)) (end_index (q_array q)) arr) in
    assign (q_name q ++ suffix k)%string x v)
    v (time_integration_quantities md).

(** RKI:517-532, [_from_numpy_array_independent_input]. *)
Definition from_numpy_ind (md : metadata) (k : kind) (arr : list T) (v : vec) : res vec :=
  match k with
  | output_kind => Err TypeError
  | input_kind =>
    scan (fun v q =>
      let* x := reshape (shape (q_array q)) (slice (start_index (q_array q)) (end_index (q_array q)) arr) in
      assign (q_name q) x v)
      v (time_independent_quantities md)
  end.

(** [add_input] / [add_output] on the integrator component (RKI:310-311, 316,
    332, 337, 348): [io] lists inputs and outputs with their sizes so far.
    OpenMDAO refuses a name that is taken. *)
Definition declare (k : kind) (n : string) (size : nat)
    (io : list (string * nat) * list (string * nat)) : res (list (string * nat) * list (string * nat)) :=
  if M_Metadata.mem n (map fst (fst io) ++ map fst (snd io)) then Err ValueError
  else match k with
       | input_kind => Ok (fst io ++ [(n, size)], snd io)
       | output_kind => Ok (fst io, snd io ++ [(n, size)])
       end.

(** RKI:312-341, one quantity; [sz n] is the size of [get_val(n)], which is
    reshaped (RKI:323-325). *)
Definition declare_ti (sz : string -> nat) (io : list (string * nat) * list (string * nat))
    (q : quantity ti_translation) : res (list (string * nat) * list (string * nat)) :=
  let a := q_array q in
  let* _ := if local a then
      match step_input_var (q_translation q) with
      | Some sv => if sz sv =? prod (shape a) then Ok tt else Err ValueError
      | None => Ok tt
      end
    else Ok tt in
  let* io := declare input_kind (q_name q ++ "_initial")%string (prod (shape a)) io in
  declare output_kind (q_name q ++ "_final")%string (prod (shape a)) io.

(** RKI:345-355, one independent input; [get_val(None)] raises. *)
Definition declare_ind (sz : string -> nat) (io : list (string * nat) * list (string * nat))
    (q : quantity (option string)) : res (list (string * nat) * list (string * nat)) :=
  match q_translation q with
  | None => Err KeyError
  | Some n => if sz n =? prod (shape (q_array q))
              then declare input_kind (q_name q) (prod (shape (q_array q))) io else Err ValueError
  end.

(** RKI:304-355, [_add_inputs_and_outputs]: the declared inputs and outputs. *)
Definition declare_all (sz : string -> nat) (md : metadata)
    : res (list (string * nat) * list (string * nat)) :=
  let* io := declare input_kind "time_initial" 1 ([], []) in
  let* io := declare output_kind "time_final" 1 io in
  let* io := scan (declare_ti sz) io (time_integration_quantities md) in
  scan (declare_ind sz) io (time_independent_quantities md).

(** *** The stage problem *)

(** What [OpenMDAOODE] uses of the stage problem: [model.get_source] (ODE:268,
    281, 288, 301), [run_solve_nonlinear] (ODE:135) acting on inputs and
    outputs, and [run_linearize] followed by [run_solve_linear] in either mode
    (ODE:161-173, 197-207) at given inputs and outputs, acting on d_outputs and
    d_residuals.  The first two arguments of the solves are the step size and
    the stage factor in the data exchange (ODE:133-134, 159-160, 195-196). *)
Record problem : Type := {
  p_source : string -> res string;
  p_nonlinear : T -> T -> vec -> vec -> res (vec * vec);
  p_linear_fwd : T -> T -> vec -> vec -> vec -> vec -> res (vec * vec);
  p_linear_rev : T -> T -> vec -> vec -> vec -> vec -> res (vec * vec)
}.

(** The vectors of the stage problem: [get_nonlinear_vectors] (ODE:125) and
    [get_linear_vectors] (ODE:162); they live as long as the problem. *)
Record om_state : Type := {
  om_in : vec;
  om_out : vec;
  om_dout : vec;
  om_dres : vec
}.

(** [model.get_source(name)]; no name, no source. *)
Definition source_of (pb : problem) (n : option string) : res string :=
  match n with Some n => p_source pb n | None => Err KeyError end.

(** *** Transfers of the ODE *)

(** One assignment of ODE:280-293, 300-306: part of [arr] times [factor] into
    the source of variable [n]. *)
Definition put_source (pb : problem) (a : array_metadata) (factor : T) (arr : list T)
    (n : option string) (v : vec) : res vec :=
  let* x := reshape (shape a) (slice (start_index a) (end_index a) arr) in
  let* s := source_of pb n in
  assign s (vscale factor x) v.

(** ODE:257-306, [_input_state_to_om_vector]. *)
Definition input_state_to_om_vector (pb : problem) (md : metadata) (inp : ode_in T) (factor : T) (v : vec)
    : res vec :=
  let* v := match time_variable md with
    | Some tv => let* s := p_source pb tv in fill s (nmul (time inp) factor) v
    | None => Ok v
    end in
  let* v := scan (fun v q =>
      if local (q_array q) then
        match step_input_var (q_translation q) with
        | Some sv =>
          let* v := put_source pb (q_array q) factor (M_ODE.step_input inp) (Some sv) v in
          put_source pb (q_array q) factor (stage_input inp) (accumulated_stage_var (q_translation q)) v
        | None => Ok v
        end
      else Ok v) v (time_integration_quantities md) in
  scan (fun v q =>
      if local (q_array q) then put_source pb (q_array q) factor (independent_input inp) (q_translation q) v
      else Ok v) v (time_independent_quantities md).

(** [om_vector[stage_output_var]] (ODE:320, 376). *)
Definition output_name (n : option string) : res string :=
  match n with Some n => Ok n | None => Err KeyError end.

(** ODE:308-322, [_output_state_to_om_vector]; only the stage update is used. *)
Definition output_state_to_om_vector (md : metadata) (upd : list T) (factor : T) (v : vec) : res vec :=
  scan (fun v q =>
    let a := q_array q in
    if local a then
      let* x := reshape (shape a) (slice (start_index a) (end_index a) upd) in
      let* n := output_name (stage_output_var (q_translation q)) in
      assign n (vscale factor x) v
    else Ok v) v (time_integration_quantities md).

(** One assignment of ODE:343-363: the source of variable [n] into part of
    [arr]. *)
Definition take_source (pb : problem) (a : array_metadata) (v : vec) (n : option string) (arr : list T)
    : res (list T) :=
  let* s := source_of pb n in
  let* x := get s v in
  copy_into (start_index a) (end_index a) x arr.

(** ODE:324-363, [_om_vector_to_input_state]; [inp] are the arrays to be
    filled. *)
Definition om_vector_to_input_state (pb : problem) (md : metadata) (v : vec) (inp : ode_in T) : res (ode_in T) :=
  let* t := match time_variable md with
    | Some tv => let* s := p_source pb tv in first s v
    | None => Ok (time inp)
    end in
  let* (st, ac) := scan (fun (p : list T * list T) q =>
      if local (q_array q) then
        match step_input_var (q_translation q) with
        | Some sv =>
          let* x := take_source pb (q_array q) v (Some sv) (fst p) in
          let* y := take_source pb (q_array q) v (accumulated_stage_var (q_translation q)) (snd p) in
          Ok (x, y)
        | None => Ok p
        end
      else Ok p) (M_ODE.step_input inp, stage_input inp) (time_integration_quantities md) in
  let* ind := scan (fun arr q =>
      if local (q_array q) then take_source pb (q_array q) v (q_translation q) arr else Ok arr)
    (independent_input inp) (time_independent_quantities md) in
  Ok {| M_ODE.step_input := st; stage_input := ac; independent_input := ind; time := t |}.

(** ODE:365-378, [_om_vector_to_output_state]; stage state and independent
    output stay as they are. *)
Definition om_vector_to_output_state (md : metadata) (v : vec) (upd : list T) : res (list T) :=
  scan (fun arr q =>
    let a := q_array q in
    if local a then
      let* n := output_name (stage_output_var (q_translation q)) in
      let* x := get n v in
      copy_into (start_index a) (end_index a) x arr
    else Ok arr) upd (time_integration_quantities md).

(** *** Linearization points *)

(** [vector.asarray()] (ODE:240, 244-246): the data of all variables. *)
Definition flat (v : vec) : list T := concat (map snd v).
(** [vector.asarray()[:] = x] for [x] of the same size (ODE:254-255). *)
Fixpoint refill (v : vec) (x : list T) : vec :=
  match v with
  | [] => []
  | (n, y) :: v' => (n, firstn (length y) x) :: refill v' (skipn (length y) x)
  end.
Definition assign_flat (v : vec) (x : list T) : res vec :=
  if length (flat v) =? length x then Ok (refill v x) else Err ValueError.

(** ODE:242-247, [_get_linearization_point]. *)
Definition get_linearization_point (st : om_state) : list T := flat (om_in st) ++ flat (om_out st).

(** ODE:249-255, [_set_linearization_point]. *)
Definition set_linearization_point (lp : list T) (st : om_state) : res om_state :=
  let n := length (flat (om_in st)) in
  let* i := assign_flat (om_in st) (firstn n lp) in
  let* o := assign_flat (om_out st) (skipn n lp) in
  Ok {| om_in := i; om_out := o; om_dout := om_dout st; om_dres := om_dres st |}.

(** [vector.asarray()[:] *= 0.0] (ODE:163, 199). *)
Definition zeroed (v : vec) : vec := map (fun p => (fst p, map (fun x => nmul x n0) (snd p))) v.

(** *** The calls of the ODE; the state of the stage problem is passed along *)

(** ODE:118-150, [compute_update]. *)
Definition om_compute_update (pb : problem) (md : metadata) (st : om_state) (inp : ode_in T) (h a : T)
    : res (om_state * (ode_out T * list T)) :=
  let* v := input_state_to_om_vector pb md inp n1 (om_out st) in
  let* (i, o) := p_nonlinear pb h a (om_in st) v in
  let n := length (M_ODE.step_input inp) in
  let* upd := om_vector_to_output_state md o (vzeros n) in
  let st' := {| om_in := i; om_out := o; om_dout := om_dout st; om_dres := om_dres st |} in
  Ok (st', ({| stage_update := upd; stage_state := vzeros n; independent_output := [] |},
            get_linearization_point st')).

(** ODE:152-186, [compute_update_derivative]. *)
Definition om_derivative (pb : problem) (md : metadata) (st : om_state) (lp : list T) (d : ode_in T) (h a : T)
    : res (om_state * ode_out T) :=
  let* st := set_linearization_point lp st in
  let* r := input_state_to_om_vector pb md d (nopp n1) (zeroed (om_dres st)) in
  let* (x, r') := p_linear_fwd pb h a (om_in st) (om_out st) (om_dout st) r in
  let n := length (M_ODE.step_input d) in
  let* upd := om_vector_to_output_state md x (vzeros n) in
  Ok ({| om_in := om_in st; om_out := om_out st; om_dout := x; om_dres := r' |},
      {| stage_update := upd; stage_state := vzeros n; independent_output := [] |}).

(** ODE:188-227, [compute_update_adjoint_derivative]. *)
Definition om_adjoint (pb : problem) (md : metadata) (st : om_state) (lp : list T) (w : ode_out T) (h a : T)
    : res (om_state * ode_in T) :=
  let* st := set_linearization_point lp st in
  let* d := output_state_to_om_vector md (stage_update w) (nopp n1) (zeroed (om_dout st)) in
  let* (d', y) := p_linear_rev pb h a (om_in st) (om_out st) d (om_dres st) in
  let* x := om_vector_to_input_state pb md y
    {| M_ODE.step_input := vzeros (time_integration_array_size md);
       stage_input := vzeros (time_integration_array_size md);
       independent_input := vzeros (time_independent_input_size md); time := n0 |} in
  Ok ({| om_in := om_in st; om_out := om_out st; om_dout := d'; om_dres := y |}, x).

(** The ODE the integrator works with (ODE:118-240), for calls that find the
    stage problem in state [st].  Arrays of other sizes than announced, which
    the integrator never passes, are rejected here, where the code might go on
    with arrays that are too long. *)
Definition openmdao_ode (pb : problem) (md : metadata) (st : om_state) (norm : ode_out T -> T) : ode T := {|
  compute_update := fun inp h a =>
    if (length (M_ODE.step_input inp) =? time_integration_array_size md) &&
       (length (stage_input inp) =? time_integration_array_size md) &&
       (length (independent_input inp) =? time_independent_input_size md)
    then let* (_, r) := om_compute_update pb md st inp h a in Ok r else Err ValueError;
  compute_update_derivative := fun lp d h a =>
    if (length (M_ODE.step_input d) =? time_integration_array_size md) &&
       (length (stage_input d) =? time_integration_array_size md) &&
       (length (independent_input d) =? time_independent_input_size md)
    then let* (_, r) := om_derivative pb md st lp d h a in Ok r else Err ValueError;
  compute_update_adjoint_derivative := fun lp w h a =>
    if length (stage_update w) =? time_integration_array_size md
    then let* (_, x) := om_adjoint pb md st lp w h a in Ok x else Err ValueError;
  compute_state_norm := norm;
  state_size := time_integration_array_size md;
  independent_input_size := time_independent_input_size md;
  independent_output_size := 0;
  linearization_point_size := length (flat (om_in st)) + length (flat (om_out st)) |}.
End Transfers.
Arguments vec T : clear implicits.
Arguments problem T : clear implicits.
Arguments om_state T : clear implicits.
