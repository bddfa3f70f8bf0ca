(** Options, tableaux and amplification factors for the theorems about the
    shipped stage problems. *)
From Coq Require Import String.
From Coq Require Import List Bool Arith Reals Lia Lra QArith Qreals.
From Verif Require Import Base Ext M_Tableau M_Tableaux M_TableauxInit M_State M_ODE M_Step M_Controller M_Measure M_Integrator
  M_Metadata M_Packing M_Component M_Stage SpecRK SpecShape SpecRun SpecComponent SpecTree SpecOrder SpecNodes SpecStage
  L_Tableau L_Order L_OrderCheck L_RunOrder L_Stage2 WitnessRun.
Import ListNotations.
Local Open Scope string_scope.
Open Scope nat_scope.
Open Scope R_scope.
Local Open Scope list_scope.

(** [n] steps of size [h]. *)
Definition study_op (bt : tableau R) (o : ode R) (h : R) (n : nat) : options R Datatypes.unit := {|
  o_bt := bt; o_ode := o; o_ckpt := AllCheckpointer; o_adaptive := false; o_step := h;
  o_crit := PredefinedNumberOfSteps n; o_inf := 0; o_meas := SimpleErrorMeasurer;
  o_tol := 1; o_ctl := halving 1; o_callbacks := fun _ => [quiet_cb]; retry_limit := 1; loop_limit := S n |}.
Lemma study_fixed bt o h n : fixed_steps (study_op bt o h n) bt o h n.
Proof.
  split; [reflexivity|]. split; [reflexivity|]. split; [reflexivity|]. split; [reflexivity|]. split; [reflexivity|].
  split; [exact I|]. split; [intros m cb [<-|[]] k st; auto|]. cbn. lia.
Qed.
Lemma study_in_use bt o h n md io : in_use (study_op bt o h n) md io tt (setup (study_op bt o h n) tt).
Proof. exists []. split; [constructor|reflexivity]. Qed.

Lemma rk4_precise : In (runge_kutta_four, (0%Q, 0%Q)) precision.
Proof. apply (nth_error_In _ 4); reflexivity. Qed.
Lemma rk4_nodes_precise : In (runge_kutta_four, 0%Q) node_precision.
Proof. apply (nth_error_In _ 4); reflexivity. Qed.
Lemma ie_precise : In (implicit_euler, (0%Q, 0%Q)) precision.
Proof. apply (nth_error_In _ 1); reflexivity. Qed.

(** The classical method. *)
Lemma rk4_amplification : exists bt, shipped_init runge_kutta_four = Ok (bt, []) /\ tableau_wf bt /\ (0 < t_stages bt)%nat /\
  is_implicit bt = false /\ (forall i, (i < t_stages bt)%nat -> entry (t_A bt) i i = 0) /\
  forall z, amplification (t_stages bt) (entry (t_A bt)) (fun k => vnth k (t_b bt)) z
    (1 + z + z ^ 2 / 2 + z ^ 3 / 6 + z ^ 4 / 24).
Proof.
  destruct (shipped_constructed _ _ _ rk4_precise) as (bt & E & W & P & I & _ & _ & EA & Eb & _).
  assert (S : t_stages bt = 4%nat) by (rewrite <- (tw_b _ W), Eb; reflexivity).
  exists bt. split; [exact E|]. split; [exact W|]. split; [exact P|]. split; [exact I|]. rewrite S, EA, Eb. split.
  - intros i Hi. do 4 (destruct i as [|i]; [cbn; lra|]). lia.
  - intros z. exists (fun i => match i with 0%nat => 1 | 1%nat => 1 + z / 2 | 2%nat => 1 + z / 2 * (1 + z / 2)
      | _ => 1 + z * (1 + z / 2 * (1 + z / 2)) end). split.
    + intros i Hi. do 4 (destruct i as [|i]; [cbn; unfold Q2R; cbn; field|]). lia.
    + cbn. unfold Q2R; cbn. field.
Qed.

(** The implicit Euler method. *)
Lemma ie_amplification : exists bt, shipped_init implicit_euler = Ok (bt, []) /\ tableau_wf bt /\ (0 < t_stages bt)%nat /\
  is_implicit bt = false /\ (forall i, (i < t_stages bt)%nat -> entry (t_A bt) i i = 1) /\
  forall z, 1 - z <> 0 -> amplification (t_stages bt) (entry (t_A bt)) (fun k => vnth k (t_b bt)) z (/ (1 - z)).
Proof.
  destruct (shipped_constructed _ _ _ ie_precise) as (bt & E & W & P & I & _ & _ & EA & Eb & _).
  assert (S : t_stages bt = 1%nat) by (rewrite <- (tw_b _ W), Eb; reflexivity).
  exists bt. split; [exact E|]. split; [exact W|]. split; [exact P|]. split; [exact I|]. rewrite S, EA, Eb. split.
  - intros i Hi. destruct i as [|i]; [cbn; unfold Q2R; cbn; field|lia].
  - intros z Hz. exists (fun _ => / (1 - z)). split.
    + intros i Hi. destruct i as [|i]; [cbn; unfold Q2R; cbn; field; exact Hz|lia].
    + cbn. unfold Q2R; cbn. field. exact Hz.
Qed.
