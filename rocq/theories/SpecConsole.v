(** What is to be printed about steps. *)
From Coq Require Import String List Reals.
From Verif Require Import Base M_State M_Integrator M_Console.
Import ListNotations.

Section Generic.
Context {T : Type} {N : Num T}.

(** Three lines for each of the steps numbered [ns]; the time of a step is the
    difference of two successive readings of the clock, starting at number [r]. *)
Fixpoint report (clock : nat -> T) (name : string) (ns : list nat) (r : nat) : list (line T) :=
  match ns with
  | [] => []
  | n :: ns' => Starting n name :: Finishing n name :: Took (nsub (clock (S r)) (clock r)) :: report clock name ns' (S (S r))
  end.

(** The callbacks of a component on process [rank] whose callback options have
    not been set. *)
Definition no_option (_ : mode) : option (list builtin) := None.
Definition default_callbacks {C} (rank : nat) (op : options T C) : Prop :=
  forall m, o_callbacks op m = map as_callback (setup_callbacks rank no_option m).

(** During a call that takes the component from [w] to [w'] the process prints
    [ls], wherever the clock and the callbacks are before it. *)
Definition prints {C} (clock : nat -> T) (lists : mode -> list builtin) (w w' : component T C)
    (ls : nat -> list (line T)) : Prop :=
  exists l, log w' = log w ++ l /\
    forall c, printed (console_after clock lists l c) = printed c ++ ls (readings c).

(** The times in a list of lines. *)
Fixpoint times (ls : list (line T)) : list T :=
  match ls with
  | [] => []
  | Took t :: ls' => t :: times ls'
  | _ :: ls' => times ls'
  end.
End Generic.

Definition total (l : list R) : R := fold_right Rplus 0%R l.
