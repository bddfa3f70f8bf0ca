(** Exceptions and influence of callbacks. *)
From Coq Require Import List ZArith.
From Verif Require Import Base M_Tableau M_State M_ODE M_Step M_Controller M_Measure M_Integrator SpecRun SpecCallback L_Callback WitnessRun.
Import ListNotations.

(** ** C90: an exception of a callback ends the call it happens in, callbacks
    that return have no influence *)
(** In every call, every hook invoked returned, or the last one raised and the
    call raises the same. *)
Theorem C90_exceptions : forall T (N : Num T) C (op : options T C) k w,
  exists l, log (run_call op k w) = log w ++ l /\ (all_answered op l \/ stopped_by op l (outcome op k w)).
Proof. exact @c90_reported. Qed.
Print Assumptions C90_exceptions.

(** Unless a callback raises, the call gives what it gives without callbacks,
    and leaves the component in the same state. *)
Theorem C90_no_influence : forall T (N : Num T) C (op : options T C) k w0 w, same_but_log w0 w ->
  (exists l, log (run_call op k w) = log w ++ l /\ stopped_by op l (outcome op k w)) \/
  (outcome op k w = outcome (without_callbacks op) k w0 /\ same_but_log (run_call (without_callbacks op) k w0) (run_call op k w)).
Proof. exact @c90_transparent. Qed.
Print Assumptions C90_no_influence.

(** So whole histories of calls give the same with callbacks that never raise as
    with none. *)
Theorem C90_histories : forall T (N : Num T) C (op : options T C) l c, quiet op ->
  outcomes op l (setup op c) = outcomes (without_callbacks op) l (setup (without_callbacks op) c).
Proof. exact @c90_histories. Qed.
Print Assumptions C90_histories.

(** Non-vacuity: a callback that raises after step 2 of forward runs, none in
    other modes; three steps. *)
Definition raising_op : options Z unit := {|
  o_bt := euler; o_ode := gode never never; o_ckpt := AllCheckpointer; o_adaptive := false; o_step := 1%Z;
  o_crit := PredefinedNumberOfSteps 3; o_inf := 0%Z; o_meas := SimpleErrorMeasurer; o_tol := 1%Z; o_ctl := halving 1%Z;
  o_callbacks := fun m => match m with
    | Compute => [quiet_cb; {| before_iteration := fun _ _ => Ok tt; after_iteration := fun n _ => if Nat.eqb n 2 then Err KeyError else Ok tt |}; quiet_cb]
    | _ => [] end;
  retry_limit := 10; loop_limit := 10 |}.
Example C90_example_raises : outcome raising_op (CallCompute (gin 0 1 1)%Z) (setup raising_op tt) = Err KeyError /\
  match rev (log (run_call raising_op (CallCompute (gin 0 1 1)%Z) (setup raising_op tt))) with
  | After Compute 1 2 _ :: After Compute 0 2 _ :: _ => True
  | _ => False
  end.
Proof. split; vm_compute; [reflexivity|exact I]. Qed.
Example C90_example_quiet : quiet (gop (euler (T := Z)) (gode never never) AllCheckpointer false 1%Z (PredefinedNumberOfSteps 3)) /\
  outcomes (gop (euler (T := Z)) (gode never never) AllCheckpointer false 1%Z (PredefinedNumberOfSteps 3))
    [CallCompute (gin 0 1 1)%Z; CallRev (gin 0 1 1)%Z (gout 0 1)%Z] (setup (gop (euler (T := Z)) (gode never never) AllCheckpointer false 1%Z (PredefinedNumberOfSteps 3)) tt) =
  [Ok (inl (gout 3 16)%Z); Ok (inr (gin 17 6 10)%Z)].
Proof. split; [apply gop_quiet|vm_compute; reflexivity]. Qed.
