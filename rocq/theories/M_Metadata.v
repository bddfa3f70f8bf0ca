(** Model of /repo/src/rkopenmdao/metadata_extractor.py (cited as ME). *)
From Coq Require Import String.
From Coq Require Import List Bool Arith.
From Verif Require Import Base.
Import ListNotations.
Local Open Scope string_scope.
Local Open Scope nat_scope.
Local Open Scope list_scope.

(** What the stage problem (openmdao) tells about one variable of its model.
    [v_parts]: for each process, the shape of the portion that lives there, or
    [None] if the variable does not exist there; [v_global_shape] is the entry
    "global_shape" of its metadata.  Names are unique in openmdao. *)
Record variable : Type := {
  v_name : string;
  v_output : bool;
  v_tags : list string;
  v_parts : list (option (list nat));
  v_global_shape : list nat
}.

(** [np.prod(shape)] (ME:165, 192, 224, 354). *)
Definition prod (shape : list nat) : nat := fold_right Nat.mul 1 shape.

(** [x in collection] for strings. *)
Definition mem (s : string) (l : list string) : bool := existsb (String.eqb s) l.

(** Equality of shape tuples (ME:181, 396). *)
Fixpoint shape_eqb (a b : list nat) : bool :=
  match a, b with
  | [], [] => true
  | x :: a', y :: b' => (x =? y) && shape_eqb a' b'
  | _, _ => false
  end.

(** The portion of a variable on process [rank]. *)
Definition local_shape (rank : nat) (v : variable) : option (list nat) := nth rank (v_parts v) None.
Definition is_local (rank : nat) (v : variable) : bool :=
  match local_shape rank v with Some _ => true | None => false end.

(** Column of [model._var_sizes] (ME:183-186): local sizes of a variable, 0
    where it does not exist. *)
Definition var_sizes (v : variable) : list nat :=
  map (fun p => match p with Some s => prod s | None => 0 end) (v_parts v).

(** [get_io_metadata(iotypes=..., tags=..., get_remote=...)] (ME:98-108,
    149-159, 213-217, ...): the variables with at least one of the tags. *)
Definition with_tags (tags : list string) (vs : list variable) : list variable :=
  filter (fun v => existsb (fun t => mem t tags) (v_tags v)) vs.
Definition outputs_of (vs : list variable) : list variable := filter v_output vs.
Definition inputs_of (vs : list variable) : list variable := filter (fun v => negb (v_output v)) vs.
Definition locals (rank : nat) (vs : list variable) : list variable := filter (is_local rank) vs.

(** ME:40-51. *)
Record array_metadata : Type := {
  shape : list nat;
  global_shape : list nat;
  local : bool;
  distributed : bool;
  start_index : nat;
  end_index : nat;
  global_start_index : nat;
  global_end_index : nat
}.

(** ME:24-30. *)
Record ti_translation : Type := {
  step_input_var : option string;
  accumulated_stage_var : option string;
  stage_output_var : option string
}.

(** ME:54-75; the translation of an independent input (ME:33-37) is its
    variable name or [None].  The field [type] is given by the type here. *)
Record quantity (X : Type) : Type := {
  q_name : string;
  q_array : array_metadata;
  q_translation : X
}.
Arguments q_name {X} q.
Arguments q_array {X} q.
Arguments q_translation {X} q.

(** ME:78-91. *)
Record metadata : Type := {
  time_variable : option string;
  time_integration_array_size : nat;
  time_independent_input_size : nat;
  time_integration_quantities : list (quantity ti_translation);
  time_independent_quantities : list (quantity (option string))
}.

(** [ArrayMetadata(global_shape=...)] (ME:130, 329): the metadata of a quantity
    that does not exist on this process. *)
Definition remote_array (gs : list nat) : array_metadata := {|
  shape := [0]; global_shape := gs; local := false; distributed := false;
  start_index := 0; end_index := 0; global_start_index := 0; global_end_index := 0 |}.

(** [_var_allprocs_abs2idx[name]] (ME:185): position among the variables of the
    same kind. *)
Fixpoint position (name : string) (vs : list variable) : nat :=
  match vs with
  | [] => 0
  | v :: vs' => if String.eqb (v_name v) name then 0 else S (position name vs')
  end.

(** ME:174-205, [_create_local_array_metadata].  The size table is always that
    of the outputs, also when the variable is an input. *)
Definition create_local_array_metadata (rank : nat) (vs : list variable)
    (start_index end_index : nat) (v : variable) (sh : list nat) : res array_metadata :=
  let* g := if negb (shape_eqb sh (v_global_shape v)) then
      let idx := position (v_name v) (filter (fun u => Bool.eqb (v_output u) (v_output v)) vs) in
      match nth_error (outputs_of vs) idx with
      | None => Err IndexError
      | Some u =>
        let sizes := var_sizes u in
        let start := list_sum (firstn rank sizes) in
        Ok (start, start + nth rank sizes 0)
      end
    else Ok (0, prod sh) in
  Ok {| shape := sh; global_shape := v_global_shape v; local := true; distributed := false;
        start_index := start_index; end_index := end_index;
        global_start_index := fst g; global_end_index := snd g |}.

(** The local variables of [_extract_..._quantity] (ME:218-221, 347-348). *)
Record found (X : Type) : Type := {
  f_outputs : nat; f_steps : nat; f_accumulated : nat;
  f_translation : X;
  f_size : nat;
  f_array : option array_metadata
}.
Arguments f_outputs {X} f.
Arguments f_steps {X} f.
Arguments f_accumulated {X} f.
Arguments f_translation {X} f.
Arguments f_size {X} f.
Arguments f_array {X} f.

(** ME:222-244, one variable of the loop. *)
Definition scan_ti (rank : nat) (vs : list variable) (f : found ti_translation) (v : variable)
    : res (found ti_translation) :=
  let tr := f_translation f in
  if mem "stage_output_var" (v_tags v) then
    match local_shape rank v with
    | None => Err KeyError
    | Some sh =>
      let size := f_size f + prod sh in
      let* a := create_local_array_metadata rank vs (f_size f) size v sh in
      Ok {| f_outputs := S (f_outputs f); f_steps := f_steps f; f_accumulated := f_accumulated f;
            f_translation := {| step_input_var := step_input_var tr;
              accumulated_stage_var := accumulated_stage_var tr; stage_output_var := Some (v_name v) |};
            f_size := size; f_array := Some a |}
    end
  else if mem "step_input_var" (v_tags v) then
    Ok {| f_outputs := f_outputs f; f_steps := S (f_steps f); f_accumulated := f_accumulated f;
          f_translation := {| step_input_var := Some (v_name v);
            accumulated_stage_var := accumulated_stage_var tr; stage_output_var := stage_output_var tr |};
          f_size := f_size f; f_array := f_array f |}
  else if mem "accumulated_stage_var" (v_tags v) then
    Ok {| f_outputs := f_outputs f; f_steps := f_steps f; f_accumulated := S (f_accumulated f);
          f_translation := {| step_input_var := step_input_var tr;
            accumulated_stage_var := Some (v_name v); stage_output_var := stage_output_var tr |};
          f_size := f_size f; f_array := f_array f |}
  else Ok f.

(** A loop whose body may raise. *)
Fixpoint scan {A B} (body : B -> A -> res B) (b : B) (l : list A) : res B :=
  match l with
  | [] => Ok b
  | a :: l' => let* b' := body b a in scan body b' l'
  end.

(** ME:213-217, 342-346: the local variables tagged with a quantity, inputs
    before outputs. *)
Definition tagged_with (rank : nat) (vs : list variable) (q : string) : list variable :=
  locals rank (with_tags [q] (inputs_of vs ++ outputs_of vs)).

(** ME:208-282, [_extract_time_integration_quantity]. *)
Definition extract_time_integration_quantity (rank : nat) (vs : list variable) (q : string)
    (array_size : nat) : res (nat * quantity ti_translation) :=
  let* f := scan (scan_ti rank vs)
    {| f_outputs := 0; f_steps := 0; f_accumulated := 0;
       f_translation := {| step_input_var := None; accumulated_stage_var := None; stage_output_var := None |};
       f_size := array_size; f_array := None |} (tagged_with rank vs q) in
  if 1 <? f_outputs f then Err SetupError
  else if 1 <? f_steps f then Err SetupError
  else if 1 <? f_accumulated f then Err SetupError
  else if f_outputs f <? 1 then Err SetupError
  else if negb (((f_steps f =? 0) && (f_accumulated f =? 0)) || ((f_steps f =? 1) && (f_accumulated f =? 1)))
  then Err SetupError
  else match f_array f with
       | None => Err AttributeError
       | Some a => Ok (f_size f, {| q_name := q; q_array := a; q_translation := f_translation f |})
       end.

(** ME:148-171, [_search_for_time_variable]. *)
Definition search_for_time_variable (rank : nat) (vs : list variable) : res (option string) :=
  let global := with_tags ["time_variable"] (inputs_of vs) in
  let loc := locals rank global in
  match loc, global with
  | [_], [v] => if negb (prod (v_global_shape v) =? 1) then Err SetupError else Ok (Some (v_name v))
  | [], [] => Ok None
  | _, _ => Err SetupError
  end.

(** [set(quantities) & set(tags)] (ME:114, 307). *)
Definition tag_intersection (qs tags : list string) : list string :=
  nodup string_dec (filter (fun t => mem t qs) tags).

(** ME:113-133, the loop over the tagged outputs; the running value is the
    array size and the quantities found so far. *)
Definition scan_output (rank : nat) (vs : list variable) (qs : list string)
    (acc : nat * list (quantity ti_translation)) (v : variable)
    : res (nat * list (quantity ti_translation)) :=
  match tag_intersection qs (v_tags v) with
  | [q] =>
    if is_local rank v then
      let* (size, qu) := extract_time_integration_quantity rank vs q (fst acc) in
      Ok (size, snd acc ++ [qu])
    else
      Ok (fst acc, snd acc ++ [{| q_name := q; q_array := remote_array (v_global_shape v);
        q_translation := {| step_input_var := None; accumulated_stage_var := None; stage_output_var := None |} |}])
  | _ => Err SetupError
  end.

(** ME:94-145, [extract_time_integration_metadata]. *)
Definition extract_time_integration_metadata (rank : nat) (vs : list variable) (qs : list string)
    : res metadata :=
  let* (size, ql) := scan (scan_output rank vs qs) (0, []) (with_tags qs (outputs_of vs)) in
  let* tv := search_for_time_variable rank vs in
  Ok {| time_variable := tv; time_integration_array_size := size; time_independent_input_size := 0;
        time_integration_quantities := ql; time_independent_quantities := [] |}.

(** ME:349-362, one variable of the loop. *)
Definition scan_ind (rank : nat) (vs : list variable) (f : found (option string)) (v : variable)
    : res (found (option string)) :=
  if mem "time_independent_input_var" (v_tags v) then
    match local_shape rank v with
    | None => Err KeyError
    | Some sh =>
      let size := f_size f + prod sh in
      let* a := create_local_array_metadata rank vs (f_size f) size v sh in
      Ok {| f_outputs := S (f_outputs f); f_steps := 0; f_accumulated := 0;
            f_translation := Some (v_name v); f_size := size; f_array := Some a |}
    end
  else Ok f.

(** ME:337-384, [_extract_time_independent_quantity]. *)
Definition extract_time_independent_quantity (rank : nat) (vs : list variable) (q : string)
    (array_size : nat) : res (nat * quantity (option string)) :=
  let* f := scan (scan_ind rank vs)
    {| f_outputs := 0; f_steps := 0; f_accumulated := 0; f_translation := None;
       f_size := array_size; f_array := None |} (tagged_with rank vs q) in
  if 1 <? f_outputs f then Err SetupError
  else if f_outputs f <? 1 then Err SetupError
  else match f_array f with
       | None => Err AttributeError
       | Some a => Ok (f_size f, {| q_name := q; q_array := a; q_translation := f_translation f |})
       end.

(** ME:306-334, the loop over the tagged inputs. *)
Definition scan_input (rank : nat) (vs : list variable) (qs : list string)
    (acc : nat * list (quantity (option string))) (v : variable)
    : res (nat * list (quantity (option string))) :=
  match tag_intersection qs (v_tags v) with
  | [q] =>
    if is_local rank v then
      let* (size, qu) := extract_time_independent_quantity rank vs q (fst acc) in
      Ok (size, snd acc ++ [qu])
    else
      Ok (fst acc, snd acc ++ [{| q_name := q; q_array := remote_array (v_global_shape v);
        q_translation := None |}])
  | _ => Err SetupError
  end.

(** ME:285-334, [add_time_independent_input_metadata]. *)
Definition add_time_independent_input_metadata (rank : nat) (vs : list variable) (qs : list string)
    (md : metadata) : res metadata :=
  let* (size, ql) := scan (scan_input rank vs qs)
    (time_independent_input_size md, time_independent_quantities md) (with_tags qs (inputs_of vs)) in
  Ok {| time_variable := time_variable md; time_integration_array_size := time_integration_array_size md;
        time_independent_input_size := size;
        time_integration_quantities := time_integration_quantities md;
        time_independent_quantities := ql |}.

(** discretized_ode/openmdao_ode.py:83-91: the metadata one process builds
    before the processes talk to each other.  An empty list of independent
    inputs is skipped, which makes no difference. *)
Definition process_metadata (rank : nat) (vs : list variable) (qs is : list string) : res metadata :=
  let* md := extract_time_integration_metadata rank vs qs in
  match is with
  | [] => Ok md
  | _ => add_time_independent_input_metadata rank vs is md
  end.

Definition set_distributed (b : bool) (a : array_metadata) : array_metadata := {|
  shape := shape a; global_shape := global_shape a; local := local a; distributed := b;
  start_index := start_index a; end_index := end_index a;
  global_start_index := global_start_index a; global_end_index := global_end_index a |}.

(** All arrays of a process in the order of [chain(...)] (ME:392-395). *)
Definition arrays (md : metadata) : list array_metadata :=
  map q_array (time_integration_quantities md) ++ map q_array (time_independent_quantities md).

(** ME:396-401: the [k]th collective call; one entry per process. *)
Definition shapes_match_everywhere (all : list metadata) (k : nat) : bool :=
  forallb (fun md => match nth_error (arrays md) k with
                     | Some a => shape_eqb (shape a) (global_shape a)
                     | None => true end) all.

(** Marks the [k]th, [k+1]th, ... quantity. *)
Fixpoint mark {X} (all : list metadata) (k : nat) (ql : list (quantity X)) : list (quantity X) :=
  match ql with
  | [] => []
  | q :: ql' =>
    {| q_name := q_name q; q_array := set_distributed (negb (shapes_match_everywhere all k)) (q_array q);
       q_translation := q_translation q |} :: mark all (S k) ql'
  end.

(** ME:387-402, [add_distributivity_information], on one process, given what
    all processes have. *)
Definition add_distributivity_information (all : list metadata) (md : metadata) : metadata := {|
  time_variable := time_variable md;
  time_integration_array_size := time_integration_array_size md;
  time_independent_input_size := time_independent_input_size md;
  time_integration_quantities := mark all 0 (time_integration_quantities md);
  time_independent_quantities :=
    mark all (List.length (time_integration_quantities md)) (time_independent_quantities md) |}.

(** The metadata of all processes, if each of them succeeds (otherwise the
    first error; openmdao_ode.py:83-94). *)
Fixpoint all_ok {A} (l : list (res A)) : res (list A) :=
  match l with
  | [] => Ok []
  | r :: l' => let* a := r in let* as' := all_ok l' in Ok (a :: as')
  end.
Definition metadata_of (procs : nat) (vs : list variable) (qs is : list string) : res (list metadata) :=
  let* all := all_ok (map (fun rank => process_metadata rank vs qs is) (seq 0 procs)) in
  Ok (map (add_distributivity_information all) all).
