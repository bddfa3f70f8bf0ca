(** Notions for statements about the metadata of a stage problem. *)
From Coq Require Import String.
From Coq Require Import List Arith.
From Verif Require Import Base M_Metadata.
Import ListNotations.
Local Open Scope nat_scope.
Local Open Scope list_scope.

(** Array position [k] belongs to the range of [a]. *)
Definition holds (a : array_metadata) (k : nat) : Prop := start_index a <= k < end_index a.

(** The ranges fill an array of the given size without gap or overlap; ranges
    of quantities on this process come in the order of the list. *)
Definition fills (l : list array_metadata) (size : nat) : Prop :=
  (forall k, k < size -> exists j a, nth_error l j = Some a /\ holds a k) /\
  (forall j a, nth_error l j = Some a -> start_index a <= end_index a <= size) /\
  (forall j j' a a', j < j' -> nth_error l j = Some a -> nth_error l j' = Some a' ->
     local a = true -> local a' = true -> end_index a <= start_index a') /\
  (forall j j' a a' k, nth_error l j = Some a -> nth_error l j' = Some a' -> holds a k -> holds a' k -> j = j').

(** Variable [v] carries tag [t]; it exists on process [rank]. *)
Definition has (t : string) (v : variable) : Prop := In t (v_tags v).
Definition here (rank : nat) (v : variable) : Prop := local_shape rank v <> None.

(** The three roles of a variable tagged with a time-integration quantity; of
    several role tags the first in this order counts. *)
Definition stage_output (v : variable) : Prop := has "stage_output_var" v.
Definition step_input (v : variable) : Prop := ~ stage_output v /\ has "step_input_var" v.
Definition accumulated_input (v : variable) : Prop :=
  ~ stage_output v /\ ~ has "step_input_var" v /\ has "accumulated_stage_var" v.

(** Exactly one member / no member of [l] has property [P]. *)
Definition exactly_one {A} (P : A -> Prop) (l : list A) (x : A) : Prop :=
  exists l1 l2, l = l1 ++ x :: l2 /\ P x /\ Forall (fun y => ~ P y) l1 /\ Forall (fun y => ~ P y) l2.
Definition none {A} (P : A -> Prop) (l : list A) : Prop := Forall (fun y => ~ P y) l.

(** Names are unique and there are as many portions as processes (both are
    guaranteed by openmdao). *)
Definition named (procs : nat) (vs : list variable) : Prop :=
  NoDup (map v_name vs) /\ Forall (fun v => length (v_parts v) = procs) vs.

(** The portions of variable [v] together are the whole of it. *)
Definition split_up (v : variable) : Prop := list_sum (var_sizes v) = prod (v_global_shape v).

(** The ranges (one per process) fill 0..size-1, each position in exactly one
    of them. *)
Definition partitions (rs : list (nat * nat)) (size : nat) : Prop :=
  (forall k, k < size -> exists j r, nth_error rs j = Some r /\ fst r <= k < snd r) /\
  (forall j r, nth_error rs j = Some r -> snd r <= size) /\
  (forall j j' r r' k, nth_error rs j = Some r -> nth_error rs j' = Some r' ->
     fst r <= k < snd r -> fst r' <= k < snd r' -> j = j').

(** A variable on process [rank] tagged with [q] that plays role [P]. *)
Definition of_quantity (rank : nat) (q : string) (P : variable -> Prop) (u : variable) : Prop :=
  has q u /\ here rank u /\ P u.

(** On process [rank] quantity [q] has one step input and one accumulated
    input, or none of both. *)
Definition paired (rank : nat) (vs : list variable) (q : string) : Prop :=
  (none (of_quantity rank q step_input) vs /\ none (of_quantity rank q accumulated_input) vs) \/
  (exists s a, exactly_one (of_quantity rank q step_input) vs s /\
     exactly_one (of_quantity rank q accumulated_input) vs a).

(** A stage problem tagged as the documentation asks for: each requested
    quantity is carried by one output, which is its stage output; no input
    tagged with it is a stage output; no output carries two; and on each
    process its inputs are paired. *)
Record well_tagged (vs : list variable) (qs : list string) : Prop := {
  wt_output : forall q, In q qs -> exists v,
    exactly_one (fun u => v_output u = true /\ has q u) vs v /\ stage_output v;
  wt_inputs : forall q u, In q qs -> In u vs -> has q u -> stage_output u -> v_output u = true;
  wt_one : forall v q q', In v vs -> v_output v = true -> In q qs -> In q' qs -> has q v -> has q' v -> q = q';
  wt_pair : forall q rank, In q qs -> paired rank vs q
}.

(** At most one input is tagged as time; it is scalar and exists on [rank]. *)
Definition well_timed (rank : nat) (vs : list variable) : Prop :=
  let P u := v_output u = false /\ has "time_variable" u in
  none P vs \/ exists v, exactly_one P vs v /\ here rank v /\ prod (v_global_shape v) = 1.

(** The variable behind a time-integration quantity on process [rank]. *)
Definition ti_source (vs : list variable) (rank : nat) (q : quantity ti_translation) : Prop :=
  let a := q_array q in
  (local a = true /\ end_index a = start_index a + prod (shape a) /\
   exists v, In v vs /\ has (q_name q) v /\ stage_output v /\ local_shape rank v = Some (shape a) /\
     global_shape a = v_global_shape v /\ stage_output_var (q_translation q) = Some (v_name v)) \/
  (local a = false /\ start_index a = 0 /\ end_index a = 0 /\
   exists v, In v vs /\ has (q_name q) v /\ local_shape rank v = None /\ global_shape a = v_global_shape v).

(** The variable behind an independent input. *)
Definition ind_source (vs : list variable) (rank : nat) (q : quantity (option string)) : Prop :=
  let a := q_array q in
  (local a = true /\ end_index a = start_index a + prod (shape a) /\
   exists v, In v vs /\ has (q_name q) v /\ has "time_independent_input_var" v /\
     local_shape rank v = Some (shape a) /\
     global_shape a = v_global_shape v /\ q_translation q = Some (v_name v)) \/
  (local a = false /\ start_index a = 0 /\ end_index a = 0 /\
   exists v, In v vs /\ has (q_name q) v /\ local_shape rank v = None /\ global_shape a = v_global_shape v).


(** The part of the whole quantity number [j] that a process claims. *)
Definition global_range (j : nat) (md : metadata) : nat * nat :=
  match nth_error (time_integration_quantities md) j with
  | Some q => (global_start_index (q_array q), global_end_index (q_array q))
  | None => (0, 0)
  end.

(** Likewise for independent inputs. *)
Definition global_input_range (j : nat) (md : metadata) : nat * nat :=
  match nth_error (time_independent_quantities md) j with
  | Some q => (global_start_index (q_array q), global_end_index (q_array q))
  | None => (0, 0)
  end.
