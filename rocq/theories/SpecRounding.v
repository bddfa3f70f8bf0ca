(** Notions for runs whose arithmetic may round. *)
From Coq Require Import List Reals Arith SpecFloat.
From Verif Require Import Base.

Section Any.
Context {T : Type} {N : Num T}.

(** The time after [n] steps of size [h], added up one by one. *)
Fixpoint added (n : nat) (t h : T) : T :=
  match n with O => t | S k => added k (nadd t h) h end.

(** A final time has been reached when nothing is left of it. *)
Definition nothing_left (tf t : T) : bool := nleb (nsub tf t) n0.
End Any.

(** The real number a finite double stands for (others: 0). *)
Definition value (f : spec_float) : R :=
  match f with
  | S754_finite s m e => ((if s then -1 else 1) * IZR (Zpos m) * powerRZ 2 e)%R
  | _ => 0%R
  end.
