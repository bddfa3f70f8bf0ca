(** What the default callbacks print. *)
From Coq Require Import String List Reals ZArith Lra Lia.
From Verif Require Import Base M_Tableau M_State M_ODE M_Step M_Controller M_Measure M_Integrator M_Console
  SpecRK SpecShape SpecDeriv SpecRun SpecRevolve SpecCallback SpecConsole L_Console WitnessRun.
Import ListNotations.
Local Open Scope nat_scope.

(** ** C94: the default callbacks report every step once, in order, with the
    time it took *)
(** A forward run of N steps on the first process prints three lines for each
    of the steps 1, ..., N. *)
Theorem C94_compute : forall T (N : Num T) (clock : nat -> T) C (op : options T C), default_callbacks 0 op ->
  forall i w w' out, loops op -> compute op i w = (w', Ok out) ->
  exists a l, starts_at op i a /\ trajectory op a l /\ stops op a l /\
    prints clock (setup_callbacks 0 no_option) w w' (report clock "compute" (seq 1 (length l))).
Proof. exact @compute_prints. Qed.
Print Assumptions C94_compute.

Theorem C94_forward : forall T (N : Num T) (clock : nat -> T) C (op : options T C), default_callbacks 0 op ->
  forall i d w w' out, compute_jacvec_product_fwd op i d w = (w', Ok out) ->
  exists a l, starts_at op i a /\ trajectory op a l /\ stops op a l /\
    prints clock (setup_callbacks 0 no_option) w w' (report clock "compute_jacvec_product_fwd" (seq 1 (length l))).
Proof. exact @fwd_prints. Qed.
Print Assumptions C94_forward.

(** A reverse product after it prints those of N, ..., 1. *)
Theorem C94_reverse : forall T (N : Num T) (clock : nat -> T) C (op : options T C), default_callbacks 0 op ->
  forall i d c w w1 out w2 g, sized_ode (o_ode op) ->
  (forall x : T, In x (initial i ++ independent i) -> neqb x x = true) ->
  o_ckpt op = AllCheckpointer -> reachable op c w -> inputs_sized (o_ode op) i ->
  compute op i w = (w1, Ok out) -> compute_jacvec_product_rev op i d w1 = (w2, Ok g) ->
  exists a l, starts_at op i a /\ trajectory op a l /\ stops op a l /\
    prints clock (setup_callbacks 0 no_option) w w1 (report clock "compute" (seq 1 (length l))) /\
    prints clock (setup_callbacks 0 no_option) w1 w2
      (report clock "compute_jacvec_product_rev" (rev (seq 1 (length l)))).
Proof. exact @rev_prints. Qed.
Print Assumptions C94_reverse.

(** With the recomputing checkpointer the steps of compute are reported under
    the numbers 0, ..., N - 1. *)
Theorem C94_recomputing : forall T (N : Num T) (clock : nat -> T) C (op : options T C), default_callbacks 0 op ->
  forall c n fs rs i w w' out,
  stateless op c -> o_ckpt op = PyrevolveCheckpointer fs rs -> valid_schedule n fs rs ->
  Forall forward_action fs -> ctl w = c -> compute op i w = (w', Ok out) ->
  prints clock (setup_callbacks 0 no_option) w w' (report clock "compute" (seq 0 (S n))).
Proof. exact @recomputing_prints. Qed.
Print Assumptions C94_recomputing.

(** Whatever the outcome of compute, the report is that of the completed steps
    and possibly of part of the next one, which has been made if its end is
    reported. *)
Theorem C94_raising : forall T (N : Num T) (clock : nat -> T) C (op : options T C), default_callbacks 0 op ->
  forall i w w' r, loops op -> compute op i w = (w', r) ->
  exists a l k, starts_at op i a /\ trajectory op a l /\ 3 * length l <= k /\
    (3 * length l + 1 < k -> exists b, one_step op (last l a) b) /\
    prints clock (setup_callbacks 0 no_option) w w'
      (fun n => firstn k (report clock "compute" (seq 1 (S (length l))) n)).
Proof. exact @raising_prints. Qed.
Print Assumptions C94_raising.

(** Other processes print nothing of this kind. *)
Theorem C94_other_processes : forall T (N : Num T) (clock : nat -> T) C (op : options T C) rank k w, rank <> 0 ->
  prints clock (setup_callbacks rank no_option) w (run_call op k w) (fun _ => []).
Proof. exact @others_silent. Qed.
Print Assumptions C94_other_processes.

(** Lists given by the user, also empty ones, replace the default ones on every
    process. *)
Theorem C94_options : forall rank option m l, option m = Some l -> setup_callbacks rank option m = l.
Proof. exact chosen_lists. Qed.
Print Assumptions C94_options.

(** Reporting has no influence: whole histories of calls give what they give
    without callbacks. *)
Theorem C94_no_influence : forall T (N : Num T) C rank (op : options T C) l c, default_callbacks rank op ->
  outcomes op l (setup op c) = outcomes (without_callbacks op) l (setup (without_callbacks op) c).
Proof. exact @default_no_influence. Qed.
Print Assumptions C94_no_influence.

(** With a clock that does not run backwards the times reported are not negative
    and add up to at most the time that passed between the first and the last
    reading. *)
Theorem C94_times : forall (clock : nat -> R) name ns, (forall k, clock k <= clock (S k))%R -> forall r,
  Forall (fun t => 0 <= t)%R (times (report clock name ns r)) /\
  (total (times (report clock name ns r)) <= clock (2 * length ns + r)%nat - clock r)%R.
Proof. exact times_total. Qed.
Print Assumptions C94_times.

(** Non-vacuity: default callbacks, two steps of which the second fails for
    some inputs, readings 0, 1, 4, 9, ... of the clock. *)
Definition console_op : options Z unit := {|
  o_bt := euler; o_ode := gode (fun i => Z.eqb (nth 0 (step_input i) 0%Z) 8%Z) never; o_ckpt := AllCheckpointer; o_adaptive := false; o_step := 1%Z;
  o_crit := PredefinedNumberOfSteps 2; o_inf := 0%Z; o_meas := SimpleErrorMeasurer; o_tol := 1%Z; o_ctl := halving 1%Z;
  o_callbacks := fun m => map as_callback (setup_callbacks 0 no_option m);
  retry_limit := 10; loop_limit := 10 |}.
Definition squares (k : nat) : Z := (Z.of_nat k * Z.of_nat k)%Z.
Definition shown (w : component Z unit) : list (line Z) :=
  printed (console_after squares (setup_callbacks 0 no_option) (log w)
    {| readings := 0; before_time := fun _ _ => 0%Z; printed := [] |}).
Definition console_1 := run_call console_op (CallCompute (gin 0 1 1)%Z) (setup console_op tt).
Example C94_example_returns : default_callbacks 0 console_op /\
  shown console_1 = [Starting 1 "compute"; Finishing 1 "compute"; Took 1%Z; Starting 2 "compute"; Finishing 2 "compute"; Took 5%Z] /\
  skipn 6 (shown (run_call console_op (CallRev (gin 0 1 1)%Z (gout 0 1)%Z) console_1)) =
    [Starting 2 "compute_jacvec_product_rev"; Finishing 2 "compute_jacvec_product_rev"; Took 9%Z;
     Starting 1 "compute_jacvec_product_rev"; Finishing 1 "compute_jacvec_product_rev"; Took 13%Z].
Proof. split; [intros m; reflexivity|split; vm_compute; reflexivity]. Qed.
Example C94_example_raises :
  shown (run_call console_op (CallCompute (gin 0 1 7)%Z) (setup console_op tt)) =
    [Starting 1 "compute"; Finishing 1 "compute"; Took 1%Z; Starting 2 "compute"].
Proof. vm_compute; reflexivity. Qed.
Example C94_example_clock : forall k, (INR k <= INR (S k))%R.
Proof. intros k; rewrite S_INR; lra. Qed.
