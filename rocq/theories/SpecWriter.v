(** Notions for statements about the result file. *)
From Coq Require Import String.
From Coq Require Import List Arith Permutation.
From Verif Require Import Base M_State M_Metadata M_Writer SpecMetadata.
Import ListNotations.
Local Open Scope string_scope.
Local Open Scope nat_scope.
Local Open Scope list_scope.

(** Entry [k] of the flattened array has the given indices. *)
Inductive place : list nat -> list nat -> nat -> Prop :=
| place_end : place [] [] 0
| place_axis n sh i idx k : i < n -> place sh idx k -> place (n :: sh) (i :: idx) (i * prod sh + k).

(** The portion described by [a] is a number of complete rows of the whole. *)
Definition rows (a : array_metadata) : Prop :=
  exists n rest s k, global_shape a = n :: rest /\ shape a = k :: rest /\ s + k <= n /\
    global_start_index a = s * prod rest /\ global_end_index a = (s + k) * prod rest.

(** A process without entries. *)
Definition nothing (a : array_metadata) : Prop := In 0 (shape a).

(** Variable [v] is split up between the processes along its first axis: the
    process number [r] has the given number of rows, or the variable does not
    exist there. *)
Definition split_rows (v : variable) : Prop :=
  exists n rest ks, v_global_shape v = n :: rest /\ list_sum ks = n /\
    Forall2 (fun p k => p = Some (k :: rest) \/ (p = None /\ k = 0)) (v_parts v) ks.

(** The processes that have the variable have all of it; at least one has. *)
Definition copied (v : variable) : Prop :=
  v_global_shape v <> [] /\ In (Some (v_global_shape v)) (v_parts v) /\
  Forall (fun p => p = Some (v_global_shape v) \/ p = None) (v_parts v).

Section Spec.
Context {T : Type}.

(** The entries of [x] that belong to the portion. *)
Definition local_part (a : array_metadata) (x : list T) : list T := slice (start_index a) (end_index a) x.

(** Array [y] is spread over the processes with these descriptions and states:
    each has nothing of it, or complete rows; each entry of [y] is somewhere. *)
Definition spread (procs : list (array_metadata * list T)) (y : list T) : Prop :=
  Forall (fun p => let a := fst p in
    prod (global_shape a) = length y /\
    (nothing a \/ (rows a /\ local_part a (snd p) = slice (global_start_index a) (global_end_index a) y))) procs /\
  (forall k, k < length y -> exists p, In p procs /\ ~ nothing (fst p) /\
     global_start_index (fst p) <= k < global_end_index (fst p)).

(** The processes agree on names and shapes. *)
Definition agree (names : list string) (shapes : list (list nat)) (md : metadata) : Prop :=
  map q_name (time_integration_quantities md) = names /\
  map (fun q => global_shape (q_array q)) (time_integration_quantities md) = shapes.

(** The arrays [ys] are spread over the processes, each as the quantity of its
    number. *)
Definition spread_all (mds : list metadata) (xs : list (list T)) (ys : list (list T)) : Prop :=
  length xs = length mds /\
  Forall (fun md => length (time_integration_quantities md) = length ys) mds /\
  forall j y, nth_error ys j = Some y ->
    exists procs, spread procs y /\
      Forall2 (fun p q => exists qu, nth_error (time_integration_quantities (fst q)) j = Some qu /\
                          fst p = q_array qu /\ snd p = snd q) procs (combine mds xs).

(** The whole of quantity number [j] of the states [xs]: the portions one after
    the other, or what every process has that has any. *)
Definition portions (mds : list metadata) (xs : list (list T)) (j : nat) : list (array_metadata * list T) :=
  flat_map (fun p => match nth_error (time_integration_quantities (fst p)) j with
                     | Some qu => [(q_array qu, snd p)]
                     | None => []
                     end) (combine mds xs).
Definition whole_of (v : variable) (procs : list (array_metadata * list T)) (y : list T) : Prop :=
  (split_rows v /\ y = concat (map (fun p => local_part (fst p) (snd p)) procs)) \/
  (copied v /\ length y = prod (v_global_shape v) /\
   Forall (fun p => local (fst p) = true -> local_part (fst p) (snd p) = y) procs).

(** The quantities [names] and the tagged outputs they stand for, in the order
    the metadata have them in. *)
Definition quantities_are (vs : list variable) (qs : list string) (mds : list metadata)
    (names : list string) (outs : list variable) : Prop :=
  Forall (fun md => map q_name (time_integration_quantities md) = names) mds /\
  Forall2 (fun n v => In v vs /\ v_output v = true /\ In n qs /\ has n v) names outs.
(** [ys] are the wholes of the quantities of the states [xs]. *)
Definition wholes (mds : list metadata) (outs : list variable) (xs ys : list (list T)) : Prop :=
  Forall2 (fun md x => length x = time_integration_array_size md) mds xs /\ length ys = length outs /\
  forall j v y, nth_error outs j = Some v -> nth_error ys j = Some y -> whole_of v (portions mds xs j) y.

(** What is to be recorded of one instant: time, quantities, error measure (for
    embedded schemes). *)
Record instant : Type := { i_time : T; i_values : list (list T); i_error : option T }.

(** The group that records it. *)
Definition record_of (names : list string) (shapes : list (list nat)) (r : instant) : group T :=
  ("time", {| d_shape := [1]; d_data := [i_time r] |}) ::
  combine names (map2 (fun sh y => {| d_shape := sh; d_data := y |}) shapes (i_values r)) ++
  match i_error r with Some e => [("error_measure", {| d_shape := [1]; d_data := [e] |})] | None => [] end.

(** The steps among the first [n] that are written. *)
Definition written (period n : nat) : list nat := filter (fun k => k mod period =? 0) (seq 1 n).

(** The complete file: the start and every [period]-th step. *)
Definition result_file (names : list string) (shapes : list (list nat)) (period : nat)
    (start : instant) (steps : list instant) : file T :=
  ("0", record_of names shapes start) ::
  map (fun k => (step_name k, record_of names shapes (nth (k - 1) steps start))) (written period (length steps)).

(** Names that can be used beside each other in one group. *)
Definition names_ok (names : list string) (emb : bool) : Prop :=
  NoDup ("time" :: names ++ (if emb then ["error_measure"] else [])).

(** What the processes have in their states after a step is what is to be
    recorded of its end / of its start. *)
Definition embedded_like (e : option T) (st : tistate T) : Prop :=
  embedded_state st = match e with Some _ => true | None => false end.
Definition at_end (mds : list metadata) (sts : list (tistate T)) (r : instant) : Prop :=
  spread_all mds (map (fun st => final_state (disc st)) sts) (i_values r) /\
  Forall (fun st => final_time (disc st) = i_time r /\ embedded_like (i_error r) st /\
            forall e, i_error r = Some e -> nth_error (err_hist st) 0 = Some e) sts.
Definition at_start (mds : list metadata) (sts : list (tistate T)) (r : instant) : Prop :=
  spread_all mds (map (fun st => start_state (disc st)) sts) (i_values r) /\
  Forall (fun st => start_time (disc st) = i_time r /\ embedded_like (i_error r) st) sts.

(** An error measure is to be recorded exactly for embedded schemes. *)
Definition flagged (emb : bool) (r : instant) : Prop := match i_error r with Some _ => true | None => false end = emb.
(** The processes are in the states [fst s] before a step and [snd s] after it,
    which is to be recorded as [r]. *)
Definition proper_step (mds : list metadata) (s : list (tistate T) * list (tistate T)) (r : instant) : Prop :=
  length (fst s) = length mds /\ Forall (embedded_like (i_error r)) (fst s) /\ at_end mds (snd s) r.

(** *** One process *)

(** The process has all of every quantity. *)
Definition undivided (md : metadata) : Prop :=
  Forall (fun q => let a := q_array q in
    global_shape a <> [] /\ shape a = global_shape a /\
    global_start_index a = 0 /\ global_end_index a = prod (shape a) /\
    end_index a = start_index a + prod (shape a) /\ end_index a <= time_integration_array_size md)
    (time_integration_quantities md).

Definition names_of (md : metadata) : list string := map q_name (time_integration_quantities md).
Definition shapes_of (md : metadata) : list (list nat) :=
  map (fun q => global_shape (q_array q)) (time_integration_quantities md).

(** What is to be recorded of a time and an array / of a state. *)
Definition instant_at (md : metadata) (t : T) (x : list T) (e : option T) : instant :=
  {| i_time := t; i_values := map (fun q => local_part (q_array q) x) (time_integration_quantities md); i_error := e |}.
Definition instant_of (emb : bool) (md : metadata) (st : tistate T) : instant :=
  instant_at md (final_time (disc st)) (final_state (disc st)) (if emb then hd_error (err_hist st) else None).

(** *** Reading *)

(** The recorded instants of a run with their numbers. *)
Definition recorded_instants (period : nat) (start : instant) (steps : list instant) : list (nat * instant) :=
  (0, start) :: map (fun k => (k, nth (k - 1) steps start)) (written period (length steps)).

(** [m] is the last of the steps 0, period, 2 period, ... among the first [n]. *)
Definition last_recorded (period n m : nat) : Prop := (exists k, m = k * period) /\ m <= n < m + period.

(** The value of a quantity. *)
Definition value_of (names : list string) (r : instant) (q : string) : list T :=
  match lookup q (combine names (i_values r)) with Some y => y | None => [] end.
End Spec.
Arguments instant T : clear implicits.

(** The run as seen by the file, with the writes of the processes in any
    order. *)
Section Orders.
Context {T : Type} {N : Num T}.
Inductive writes (period : nat) (mds : list metadata)
    : nat -> list (list (tistate T) * list (tistate T)) -> option (file T) -> res (option (file T)) -> Prop :=
| w_done it fs : writes period mds it [] fs (Ok fs)
| w_step it pre post l fs fs1 o fs2 r :
    run_ops (all_before period it mds pre) fs = Ok fs1 ->
    Permutation o (all_after period it mds post) -> run_ops o fs1 = Ok fs2 ->
    writes period mds (S it) l fs2 r ->
    writes period mds it ((pre, post) :: l) fs r
| w_stop_after it pre post l fs fs1 o e :
    run_ops (all_before period it mds pre) fs = Ok fs1 ->
    Permutation o (all_after period it mds post) -> run_ops o fs1 = Err e ->
    writes period mds it ((pre, post) :: l) fs (Err e)
| w_stop_before it pre post l fs e :
    run_ops (all_before period it mds pre) fs = Err e -> writes period mds it ((pre, post) :: l) fs (Err e).
End Orders.
