(** Which sequences of library calls the recomputing checkpointer is specified
    for.  The library numbers the states from 0 to [last]; it only knows these
    numbers. *)
From Coq Require Import List Bool Arith.
From Verif Require Import Base M_Integrator.
Import ListNotations.

(** Number of the live state, number up to which the reverse sweep has come,
    and numbers of the saved states. *)
Record sched : Type := { pos : nat; next : nat; saved : nat -> option nat }.

Definition start_of (last : nat) : sched := {| pos := 0; next := last; saved := fun _ => None |}.

(** Effect of a call, [None] if the call is not allowed: the forward operator
    starts at the live state; only saved states are restored; the reverse
    operator makes one step, from the live state, and steps are reversed last
    to first. *)
Definition play (last : nat) (s : sched) (x : action) : option sched :=
  match x with
  | Advance a b =>
      if (a =? pos s) && (a <=? b) && (b <=? last)
      then Some {| pos := b; next := next s; saved := saved s |} else None
  | Save k =>
      Some {| pos := pos s; next := next s;
              saved := fun j => if j =? k then Some (pos s) else saved s j |}
  | Restore k =>
      match saved s k with
      | Some p => Some {| pos := p; next := next s; saved := saved s |}
      | None => None
      end
  | Reverse a b =>
      if (b =? S a) && (pos s =? b) && (next s =? b)
      then Some {| pos := pos s; next := a; saved := saved s |} else None
  end.

Fixpoint plays (last : nat) (s : sched) (l : list action) : option sched :=
  match l with
  | [] => Some s
  | x :: l' => match play last s x with Some s' => plays last s' l' | None => None end
  end.

(** The forward calls lead to the last state without reversing, the reverse
    calls then reverse every step. *)
Definition valid_schedule (last : nat) (fwd rev : list action) : Prop :=
  exists s s', plays last (start_of last) fwd = Some s /\ pos s = last /\ next s = last /\
    plays last s rev = Some s' /\ next s' = 0.

(** A checkpointing variant fit for runs of [S n] steps (the recomputing
    variant makes the first step itself and hands [n] steps to the library),
    and one that can be used for reverse products. *)
Definition fit (n : nat) (k : checkpointing) : Prop :=
  match k with
  | PyrevolveCheckpointer fwd rev => valid_schedule n fwd rev
  | _ => True
  end.
Definition reversing (k : checkpointing) : Prop := k <> NoCheckpointer.

(** What the library asks for in its forward phase. *)
Definition forward_action (x : action) : Prop :=
  match x with Advance _ _ | Save _ => True | _ => False end.

(** The step number a hook invocation carries, and those of one mode. *)
Definition number_of {T} (e : event T) : nat :=
  match e with Before _ _ k _ | After _ _ k _ => k end.
Definition mode_of {T} (e : event T) : mode :=
  match e with Before m _ _ _ | After m _ _ _ => m end.
Definition is_rev {T} (e : event T) : bool :=
  match mode_of e with Rev => true | _ => false end.
Definition rev_numbers {T} (l : list (event T)) : list nat := map number_of (filter is_rev l).

(** [2 * k] hook invocations for each of the steps [n], [n-1], ..., 1. *)
Fixpoint countdown (k n : nat) : list nat :=
  match n with
  | O => []
  | S n' => repeat n (2 * k) ++ countdown k n'
  end.

(** Calls other than forward products. *)
Definition no_forward {T} (k : call T) : Prop :=
  match k with CallFwd _ _ => False | _ => True end.
