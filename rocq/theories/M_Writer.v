(** Model of /repo/src/rkopenmdao/file_writer.py (cited as FW) and of the parts
    of h5py it uses.

    A result file is a list of groups in order of creation.  Names of
    quantities contain no "/" (h5py would make nested groups).  The processes
    open, close and create together; each writes its own portions, here in the
    order of their ranks. *)
From Coq Require Import String.
From Coq Require Import List Bool Arith.
From Verif Require Import Base M_State M_Integrator M_Metadata.
From Verif Require M_Heap.
Import ListNotations.
Local Open Scope string_scope.
Local Open Scope nat_scope.
Local Open Scope list_scope.

(** f"{iteration}" (FW:80, 152, 162, 171). *)
Definition step_name (n : nat) : string := M_Heap.str n.

(** *** Positions in arrays *)

(** Position in C order of the entry with the given indices. *)
Fixpoint ravel (sh idx : list nat) : nat :=
  match sh, idx with
  | _ :: sh', i :: idx' => i * prod sh' + ravel sh' idx'
  | _, _ => 0
  end.

(** [np.unravel_index(i, sh)] (FW:179-186): raises for positions outside. *)
Fixpoint unravel (i : nat) (sh : list nat) : list nat :=
  match sh with
  | [] => []
  | _ :: sh' => (i / prod sh') :: unravel (i mod prod sh') sh'
  end.
Definition unravel_index (i : nat) (sh : list nat) : res (list nat) :=
  if i <? prod sh then Ok (unravel i sh) else Err ValueError.

(** FW:175-190, [get_write_indices]: one slice (start, stop) per axis. *)
Definition get_write_indices (a : array_metadata) : res (list (nat * nat)) :=
  let* s := unravel_index (global_start_index a) (global_shape a) in
  let* e := match global_end_index a with
            | O => Err ValueError
            | S k => unravel_index k (global_shape a)
            end in
  Ok (combine s (map S e)).

(** Whether the entry with these indices is selected; the shape of a selection;
    the position inside it (h5py hyperslabs, FW:140, 162). *)
Fixpoint selected (sel : list (nat * nat)) (idx : list nat) : bool :=
  match sel, idx with
  | (s, e) :: sel', i :: idx' => (s <=? i) && (i <? e) && selected sel' idx'
  | _, _ => true
  end.
Definition sel_shape (sel : list (nat * nat)) : list nat := map (fun p => snd p - fst p) sel.
Fixpoint inside (sel : list (nat * nat)) (idx : list nat) : list nat :=
  match sel, idx with
  | (s, _) :: sel', i :: idx' => (i - s) :: inside sel' idx'
  | _, _ => []
  end.

Section Writer.
Context {T : Type} {N : Num T}.

(** *** Files *)
Record dataset : Type := { d_shape : list nat; d_data : list T }.
Definition group : Type := list (string * dataset).
Definition file : Type := list (string * group).

Fixpoint lookup {A} (k : string) (l : list (string * A)) : option A :=
  match l with
  | [] => None
  | (k', x) :: l' => if String.eqb k' k then Some x else lookup k l'
  end.
Fixpoint change {A} (k : string) (x : A) (l : list (string * A)) : list (string * A) :=
  match l with
  | [] => []
  | (k', y) :: l' => if String.eqb k' k then (k', x) :: l' else (k', y) :: change k x l'
  end.

(** [dataset[sel] = x] for an array [x] of shape [sh]; h5py raises when the
    shapes differ (shapes it would broadcast are not modelled). *)
Definition put (sel : list (nat * nat)) (sh : list nat) (x : list T) (d : dataset) : res dataset :=
  if shape_eqb (sel_shape sel) sh then
    Ok {| d_shape := d_shape d;
          d_data := map (fun k => let idx := unravel k (d_shape d) in
                           if selected sel idx then nth (ravel sh (inside sel idx)) x n0 else nth k (d_data d) n0)
                        (seq 0 (prod (d_shape d))) |}
  else Err TypeError.

(** What the callbacks do to the file, call by call. *)
Inductive fop : Type :=
| OpenNew                                  (* mode "w", FW:81: earlier contents are lost *)
| OpenOld                                  (* mode "r+", FW:81, 127 *)
| MakeGroup (g : string)                   (* FW:83 *)
| MakeData (g n : string) (sh : list nat)  (* FW:84, 88-92, 97-101: filled with zeros *)
| Put (g n : string) (sel : list (nat * nat)) (sh : list nat) (x : list T)  (* FW:130, 140, 149, 152, 162, 171 *)
| Fail (e : exn).

Definition run_op (o : fop) (fs : option file) : res (option file) :=
  match o, fs with
  | OpenNew, _ => Ok (Some [])
  | Fail e, _ => Err e
  | _, None => Err FileError
  | OpenOld, Some f => Ok (Some f)
  | MakeGroup g, Some f =>
      match lookup g f with Some _ => Err ValueError | None => Ok (Some (f ++ [(g, [])])) end
  | MakeData g n sh, Some f =>
      match lookup g f with
      | None => Err KeyError
      | Some gr =>
        match lookup n gr with
        | Some _ => Err ValueError
        | None => Ok (Some (change g (gr ++ [(n, {| d_shape := sh; d_data := vzeros (prod sh) |})]) f))
        end
      end
  | Put g n sel sh x, Some f =>
      match lookup g f with
      | None => Err KeyError
      | Some gr =>
        match lookup n gr with
        | None => Err KeyError
        | Some d => let* d := put sel sh x d in Ok (Some (change g (change n d gr) f))
        end
      end
  end.
Fixpoint run_ops (l : list fop) (fs : option file) : res (option file) :=
  match l with
  | [] => Ok fs
  | o :: l' => let* fs := run_op o fs in run_ops l' fs
  end.

(** *** The callback *)

(** [isinstance(..., EmbeddedRungeKuttaDiscretizationState)] (FW:93-96). *)
Definition embedded_state (st : tistate T) : bool :=
  match embedded (disc st) with Some _ => true | None => false end.

(** FW:82-101, one group. *)
Definition make_step (md : metadata) (emb : bool) (g : string) : list fop :=
  [MakeGroup g; MakeData g "time" [1]] ++
  map (fun q => MakeData g (q_name q) (global_shape (q_array q))) (time_integration_quantities md) ++
  (if emb then [MakeData g "error_measure" [1]] else []).

(** FW:48-101, [before_iteration]. *)
Definition before_ops (period it : nat) (md : metadata) (st : tistate T) : list fop :=
  (if it =? 1 then OpenNew else OpenOld) ::
  flat_map (make_step md (embedded_state st))
    ((if it =? 1 then ["0"] else []) ++ (if it mod period =? 0 then [step_name it] else [])).

(** FW:133-144, 155-166: one quantity. *)
Definition put_quantity (g : string) (x : list T) (q : quantity ti_translation) : list fop :=
  let a := q_array q in
  if existsb (Nat.eqb 0) (shape a) then []
  else match get_write_indices a with
       | Err e => [Fail e]
       | Ok sel =>
         let y := slice (start_index a) (end_index a) x in
         if length y =? prod (shape a) then [Put g (q_name q) sel (shape a) y] else [Fail ValueError]
       end.
(** FW:130-149 and 152-173: one group; [err] is the error measure. *)
Definition put_step (md : metadata) (g : string) (t : T) (x : list T) (err : list fop) : list fop :=
  Put g "time" [(0, 1)] [1] [t] :: flat_map (put_quantity g x) (time_integration_quantities md) ++ err.
Definition put_error (g : string) (e : T) : fop := Put g "error_measure" [(0, 1)] [1] [e].

(** FW:103-173, [after_iteration]. *)
Definition after_ops (period it : nat) (md : metadata) (st : tistate T) : list fop :=
  let d := disc st in
  OpenOld ::
  (if it =? 1 then put_step md "0" (start_time d) (start_state d)
                     (if embedded_state st then [put_error "0" n0] else [])
   else []) ++
  (if it mod period =? 0 then put_step md (step_name it) (final_time d) (final_state d)
                     (if embedded_state st then
                        match err_hist st with [] => [Fail IndexError] | e :: _ => [put_error (step_name it) e] end
                      else [])
   else []).

(** The callbacks of all processes: creation is done together, the portions are
    written one process after the other. *)
Definition all_before (period it : nat) (mds : list metadata) (sts : list (tistate T)) : list fop :=
  match mds, sts with md :: _, st :: _ => before_ops period it md st | _, _ => [] end.
Definition all_after (period it : nat) (mds : list metadata) (sts : list (tistate T)) : list fop :=
  flat_map (fun p => after_ops period it (fst p) (snd p)) (combine mds sts).

(** The steps of a run, numbered from [it]: what the callbacks see before and
    after each of them (/repo/src/rkopenmdao/runge_kutta_integrator.py:534-552). *)
Fixpoint run_steps (period it : nat) (mds : list metadata) (steps : list (list (tistate T) * list (tistate T)))
    (fs : option file) : res (option file) :=
  match steps with
  | [] => Ok fs
  | (pre, post) :: l =>
    let* fs := run_ops (all_before period it mds pre) fs in
    let* fs := run_ops (all_after period it mds post) fs in
    run_steps period (S it) mds l fs
  end.

(** One process: the callback with number [i] in the list of compute callbacks
    works through the calls it gets (M_Integrator.v). *)
Fixpoint replay (period : nat) (md : metadata) (i : nat) (l : list (event T)) (fs : option file) : res (option file) :=
  match l with
  | [] => Ok fs
  | Before Compute j it st :: l' =>
      let* fs := if j =? i then run_ops (before_ops period it md st) fs else Ok fs in replay period md i l' fs
  | After Compute j it st :: l' =>
      let* fs := if j =? i then run_ops (after_ops period it md st) fs else Ok fs in replay period md i l' fs
  | _ :: l' => replay period md i l' fs
  end.

(** *** Reading *)

(** [int(key)] for group names. *)
Definition read_int (s : string) : res nat :=
  match DecimalString.NilEmpty.uint_of_string s with
  | Some d => if String.eqb s "" then Err ValueError else Ok (Nat.of_uint d)
  | None => Err ValueError
  end.
(** FW:253. *)
Fixpoint read_ints (l : list string) : res (list nat) :=
  match l with [] => Ok [] | s :: l' => let* n := read_int s in let* ns := read_ints l' in Ok (n :: ns) end.
(** [group[name][0]] (FW:211, 254). *)
Definition first_entry (gr : group) (n : string) : res T :=
  match lookup n gr with
  | None => Err KeyError
  | Some d => match d_data d with [] => Err IndexError | x :: _ => Ok x end
  end.

(** FW:240-254, [read_last_local_error]. *)
Definition read_last_local_error (fs : option file) : res T :=
  match fs with
  | None => Err FileError
  | Some f =>
    let* ns := read_ints (map fst f) in
    match ns with
    | [] => Err ValueError
    | _ => match lookup (step_name (list_max ns)) f with
           | None => Err KeyError
           | Some gr => first_entry gr "error_measure"
           end
    end
  end.

(** FW:210-211: the times of all steps.  h5py lists the groups by name and not
    in order of creation; the dictionaries are the same. *)
Fixpoint read_times (f : file) : res (list (nat * T)) :=
  match f with
  | [] => Ok []
  | (k, gr) :: f' =>
    let* n := read_int k in let* t := first_entry gr "time" in
    let* ts := read_times f' in Ok ((n, t) :: ts)
  end.
(** FW:217-220: the values of one quantity, copied row by row; [shape[0]] needs
    an axis. *)
Fixpoint read_values (q : string) (f : file) : res (list (nat * list T)) :=
  match f with
  | [] => Ok []
  | (k, gr) :: f' =>
    let* n := read_int k in
    let* d := match lookup q gr with None => Err KeyError | Some d => Ok d end in
    let* x := match d_shape d with [] => Err IndexError | _ => Ok (d_data d) end in
    let* ds := read_values q f' in Ok ((n, x) :: ds)
  end.
Fixpoint at_step {A} (n : nat) (l : list (nat * A)) : res A :=
  match l with [] => Err KeyError | (m, x) :: l' => if m =? n then Ok x else at_step n l' end.
Fixpoint each {A B} (f : A -> res B) (l : list A) : res (list B) :=
  match l with [] => Ok [] | a :: l' => let* b := f a in let* bs := each f l' in Ok (b :: bs) end.

(** FW:222-236: the distance to the analytical solution; [sol1] is called when
    one quantity is read, [soln] when several are. *)
Definition errors_of (sol1 : T -> list T -> T -> list T) (soln : T -> list (list T) -> T -> list (list T))
    (several : nat) (i : nat) (times : list (nat * T)) (values : list (nat * list T)) : res (list (nat * list T)) :=
  each (fun p =>
    let* x0 := at_step 0 values in
    let* t := at_step (fst p) times in
    let* t0 := at_step 0 times in
    let* y := if 1 <? several
              then match nth_error (soln t (repeat x0 several) t0) i with None => Err IndexError | Some y => Ok y end
              else Ok (sol1 t x0 t0) in
    Ok (fst p, map nabs (map2 nsub y (snd p)))) values.

(** FW:213-236, the loop over the quantities, from number [i] on. *)
Fixpoint read_quantities (sol1 : T -> list T -> T -> list T) (soln : T -> list (list T) -> T -> list (list T))
    (several i : nat) (times : list (nat * T)) (f : file) (qs : list string)
    : res (list (string * list (nat * list T)) * list (string * list (nat * list T))) :=
  match qs with
  | [] => Ok ([], [])
  | q :: qs' =>
    let* values := read_values q f in
    let* es := errors_of sol1 soln several i times values in
    let* (errors, results) := read_quantities sol1 soln several (S i) times f qs' in
    Ok ((q, es) :: errors, (q, values) :: results)
  end.

(** FW:193-237, [read_hdf5_file]: times, errors, results. *)
Definition read_hdf5_file (fs : option file) (qs : list string)
    (sol1 : T -> list T -> T -> list T) (soln : T -> list (list T) -> T -> list (list T)) :=
  match fs with
  | None => Err FileError
  | Some f =>
    let* times := read_times f in
    let* (errors, results) := read_quantities sol1 soln (length qs) 0 times f qs in
    Ok (times, errors, results)
  end.
End Writer.
Arguments dataset T : clear implicits.
Arguments group T : clear implicits.
Arguments file T : clear implicits.
Arguments fop T : clear implicits.
