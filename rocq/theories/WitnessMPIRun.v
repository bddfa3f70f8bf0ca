(** Histories of calls on two processes used in the Examples and refutations;
    not part of the model. *)
From Coq Require Import String.
From Coq Require Import List Bool Arith Lia QArith.
From Verif Require Import Base M_Tableau M_State M_ODE M_Step M_Controller M_Measure M_Integrator M_Metadata M_MPI M_MPIRun
  SpecMetadata SpecMPI SpecMPIRun Witness WitnessRun WitnessMPI.
Import ListNotations.
Local Open Scope string_scope.
Local Open Scope nat_scope.
Local Open Scope list_scope.

(** One step of Heun's method, all states kept, no callbacks. *)
Definition rop : options Q unit := {|
  o_bt := heun; o_ode := gode never never; o_ckpt := AllCheckpointer; o_adaptive := false; o_step := 1%Q;
  o_crit := PredefinedNumberOfSteps 1; o_inf := 0%Q; o_meas := SimpleErrorMeasurer; o_tol := 1%Q; o_ctl := accepting (1 # 4)%Q;
  o_callbacks := fun _ => []; retry_limit := 10; loop_limit := 10 |}.
(** The sizes on the two processes of [two_mds]; the solvers are the
    environment. *)
Definition sized_ode (n : nat) : ode Q := {|
  compute_update := compute_update (gode never never);
  compute_update_derivative := compute_update_derivative (gode never never);
  compute_update_adjoint_derivative := compute_update_adjoint_derivative (gode never never);
  compute_state_norm := compute_state_norm (gode never never);
  state_size := n; independent_input_size := 0; independent_output_size := 0; linearization_point_size := 0 |}.
Definition rodes (r : nat) : ode Q := sized_ode (2 + r).
Lemma rodes_size r md : nth_error two_mds r = Some md -> state_size (rodes r) = time_integration_array_size md.
Proof. destruct r as [|[|[|r]]]; cbn; intros H; try discriminate; injection H as <-; reflexivity. Qed.

(** The first quantity of three entries, one of them on the first process; the
    second of one entry, on both. *)
Definition spread (x1 x2 x3 y : Q) (r : nat) : inputs Q :=
  {| time_initial := 0%Q; initial := match r with O => [x1; y] | _ => [x2; x3; y] end; independent := [] |}.
Definition out_seed (r : nat) : outputs Q :=
  {| time_final := 0%Q; final := match r with O => [1; 1]%Q | _ => [1; 1; 1]%Q end |}.
Lemma spread_fits x1 x2 x3 y : inputs_fit [] two_mds (spread x1 x2 x3 y).
Proof.
  exists 0%Q, [[y]]; intros [|[|[|r]]] md; cbn; intros H; try discriminate; injection H as <-; repeat split.
Qed.

Lemma rop_uniform : uniform_callbacks rop.
Proof. intros m cb step st st' []. Qed.

(** Compute, then a reverse and a forward product at the same inputs. *)
Definition x0 : nat -> inputs Q := spread 2 1 3 5.
Definition same_inputs : list (joint_call Q) := [AllCompute x0; AllRev x0 out_seed; AllFwd x0 x0].
Lemma same_inputs_fit j : In j same_inputs -> inputs_fit [] two_mds (inputs_of j).
Proof. intros [<-|[<-|[<-|[]]]]; apply spread_fits. Qed.
Lemma same_inputs_seen i j : In i (flat_map cacheable same_inputs) -> In j (flat_map cacheable same_inputs) -> seen_by_all two_mds i j.
Proof.
  cbn; intros [<-|[<-|[]]] [<-|[<-|[]]]; left; intros [|r] _; split; repeat constructor.
Qed.

(** Compute, then a reverse product after a change on the second process
    only. *)
Definition x1 : nat -> inputs Q := spread 2 1 4 5.
Definition changed_inputs : list (joint_call Q) := [AllCompute x0; AllRev x1 out_seed].
Lemma changed_inputs_fit j : In j changed_inputs -> inputs_fit [] two_mds (inputs_of j).
Proof. intros [<-|[<-|[]]]; apply spread_fits. Qed.

(** After the two stages of the computation. *)
Definition rprog (js : list (joint_call Q)) (r : nat) :=
  p_calls rop (Ord 1%Q) [] (md_at r two_mds) (map (part r) js) (setup (with_ode rop (rodes r)) tt).
Definition computed (u : list Q) (p : prog Q (component Q unit * list (option exn))) :=
  go 0%Q (Ok (ans u)) (go 0%Q (Ok (ans u)) p).
Lemma computed_moves js :
  kind_of (rprog js 0) = KSolve -> kind_of (rprog js 1) = KSolve ->
  kind_of (go 0%Q (Ok (ans [1; 1]%Q)) (rprog js 0)) = KSolve -> kind_of (go 0%Q (Ok (ans [2; 3; 1]%Q)) (rprog js 1)) = KSolve ->
  moves (Ord 1%Q) [] two_mds (processes rop (Ord 1%Q) [] rodes tt two_mds js)
    [computed [1; 1]%Q (rprog js 0); computed [2; 3; 1]%Q (rprog js 1)].
Proof.
  intros H1 H2 H3 H4.
  change (processes rop (Ord 1%Q) [] rodes tt two_mds js) with [rprog js 0; rprog js 1].
  eapply moves_more; [eapply moves_more; [apply moves_none|]|].
  - refine (solve_move (Ord 1%Q) _ 0%Q (ans [1; 1]%Q) (ans [2; 3; 1]%Q) _ _ _ H1 H2); exists [[1%Q]]; repeat constructor.
  - refine (solve_move (Ord 1%Q) _ 0%Q (ans [1; 1]%Q) (ans [2; 3; 1]%Q) _ _ _ H3 H4); exists [[1%Q]]; repeat constructor.
Qed.

Section Kinds.
Context {A : Type}.
Lemma is_vjp (p : prog Q A) : kind_of p = KVjp -> exists lp r h a k, p = Vjp _ lp r h a k.
Proof. destruct p; try discriminate; eauto 6. Qed.
Lemma is_solve (p : prog Q A) : kind_of p = KSolve -> exists i h a k, p = Solve _ i h a k.
Proof. destruct p; try discriminate; eauto 6. Qed.
Lemma mixed_stuck lp r h a k i h' a' k' ps : ~ move (Ord 1%Q) [] two_mds [Vjp _ lp r h a k; Solve _ i h' a' k' : prog Q A] ps.
Proof.
  intros Mv; inversion Mv as [qs answers K E|qs e E|qs E|qs answers K E|qs e E|qs answers K E|qs e E|mo b s ks E|qs E];
    try (destruct qs as [|q0 [|q1 qs]]; discriminate).
  destruct ks as [|q0 ks]; discriminate.
Qed.
End Kinds.

Lemma same_inputs_run : exists ps, moves (Ord 1%Q) [] two_mds (processes rop (Ord 1%Q) [] rodes tt two_mds same_inputs) ps /\
  exists lp r h a k lp' r' h' a' k', ps = [Vjp _ lp r h a k; Vjp _ lp' r' h' a' k'].
Proof.
  exists [computed [1; 1]%Q (rprog same_inputs 0); computed [2; 3; 1]%Q (rprog same_inputs 1)]; split.
  - apply computed_moves; vm_compute; reflexivity.
  - destruct (is_vjp (computed [1; 1]%Q (rprog same_inputs 0))) as (lp & r & h & a & k & E); [vm_compute; reflexivity|].
    destruct (is_vjp (computed [2; 3; 1]%Q (rprog same_inputs 1))) as (lp' & r' & h' & a' & k' & E'); [vm_compute; reflexivity|].
    rewrite E, E'; do 10 eexists; reflexivity.
Qed.

Lemma c86_cache_refuted : exists ps,
  (forall j, In j changed_inputs -> inputs_fit [] two_mds (inputs_of j)) /\
  moves (Ord 1%Q) [] two_mds (processes rop (Ord 1%Q) [] rodes tt two_mds changed_inputs) ps /\
  (exists lp r h a k i h' a' k', ps = [Vjp _ lp r h a k; Solve _ i h' a' k']) /\
  forall ps', ~ move (Ord 1%Q) [] two_mds ps ps'.
Proof.
  exists [computed [1; 1]%Q (rprog changed_inputs 0); computed [2; 3; 1]%Q (rprog changed_inputs 1)].
  split; [exact changed_inputs_fit|].
  destruct (is_vjp (computed [1; 1]%Q (rprog changed_inputs 0))) as (lp & r & h & a & k & E); [vm_compute; reflexivity|].
  destruct (is_solve (computed [2; 3; 1]%Q (rprog changed_inputs 1))) as (i & h' & a' & k' & E'); [vm_compute; reflexivity|].
  split; [apply computed_moves; vm_compute; reflexivity|]; rewrite E, E'; split; [eauto 10|].
  intros ps'; apply mixed_stuck.
Qed.
