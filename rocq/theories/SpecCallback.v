(** Notions for exceptions raised by callbacks. *)
From Coq Require Import List.
From Verif Require Import Base M_State M_Integrator SpecRun.
Import ListNotations.

Section Generic.
Context {T : Type} {N : Num T} {C : Type}.

(** What the callback invoked in an event answered: its own hook, for the step
    number and state it was shown. *)
Definition answers_with (op : options T C) (e : event T) (r : res unit) : Prop :=
  match e with
  | Before m i n st => exists cb, nth_error (o_callbacks op m) i = Some cb /\ before_iteration cb n st = r
  | After m i n st => exists cb, nth_error (o_callbacks op m) i = Some cb /\ after_iteration cb n st = r
  end.

(** What a public call gives: outputs, products or an exception. *)
Definition outcome (op : options T C) (k : call T) (w : component T C) : res (outputs T + inputs T) :=
  match k with
  | CallCompute i => match snd (compute op i w) with Ok x => Ok (inl x) | Err e => Err e end
  | CallFwd i d => match snd (compute_jacvec_product_fwd op i d w) with Ok x => Ok (inl x) | Err e => Err e end
  | CallRev i d => match snd (compute_jacvec_product_rev op i d w) with Ok x => Ok (inr x) | Err e => Err e end
  end.

(** The last of the invocations [l] raised, the others returned, and its
    exception is the result [r] of the call. *)
Definition stopped_by {A} (op : options T C) (l : list (event T)) (r : res A) : Prop :=
  exists l' ev e, l = l' ++ [ev] /\ Forall (fun ev => answers_with op ev (Ok tt)) l' /\ answers_with op ev (Err e) /\ r = Err e.
(** All the invocations [l] returned. *)
Definition all_answered (op : options T C) (l : list (event T)) : Prop := Forall (fun ev => answers_with op ev (Ok tt)) l.

(** The same options without callbacks. *)
Definition without_callbacks (op : options T C) : options T C := {|
  o_bt := o_bt op; o_ode := o_ode op; o_ckpt := o_ckpt op; o_adaptive := o_adaptive op;
  o_step := o_step op; o_crit := o_crit op; o_inf := o_inf op; o_meas := o_meas op;
  o_tol := o_tol op; o_ctl := o_ctl op; o_callbacks := fun _ => [];
  retry_limit := retry_limit op; loop_limit := loop_limit op |}.
(** Two components that differ at most in what callbacks have seen. *)
Definition same_but_log (w w' : component T C) : Prop := w' = w_log (log w') w.
(** What the calls of a history give, one after the other. *)
Fixpoint outcomes (op : options T C) (l : list (call T)) (w : component T C) : list (res (outputs T + inputs T)) :=
  match l with
  | [] => []
  | k :: l' => outcome op k w :: outcomes op l' (run_call op k w)
  end.
End Generic.
