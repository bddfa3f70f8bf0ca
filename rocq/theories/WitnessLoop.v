(** Heun's method with embedded Euler on y' = 4 t, whose error measure is 2 h^2,
    run without a final time; for the Examples of Properties_Loop.v. *)
From Coq Require Import List Reals Lra Lia Bool QArith Qreals.
From Verif Require Import Base Ext M_Tableau M_State M_ODE M_Step M_Controller M_Measure M_Integrator SpecRK SpecDeriv SpecControl SpecFilter
  SpecRun SpecAdaptive SpecLoop L_Control L_Catalogue L_Filter L_Run L_Iter L_Log L_Adaptive L_Adaptive2 L_Adaptive3 L_Loop L_Loop2 L_Loop3
  WitnessRun WitnessAdaptive.
Import ListNotations.
Local Open Scope R_scope.

Definition lcfg : config (ext R) := default_config.
Lemma lcfg_sane : sane lcfg (1 / 1000000) (95 / 100).
Proof. constructor; cbn; try (unfold Q2R; cbn); try lra; try exact I; f_equal; lra. Qed.
Lemma lcfg_unlimited : unlimited lcfg.
Proof. split; [cbn; unfold Q2R; cbn; lra|reflexivity]. Qed.
Definition lop (n : nat) : options (ext R) (controller (ext R)) := {|
  o_bt := heun; o_ode := rode; o_ckpt := AllCheckpointer; o_adaptive := true; o_step := Fin 1;
  o_crit := PredefinedNumberOfSteps n; o_inf := PInf; o_meas := SimpleErrorMeasurer; o_tol := tol lcfg;
  o_ctl := ctl_call lcfg; o_callbacks := fun _ => []; retry_limit := 40; loop_limit := S n |}.
Lemma lop_open n : open_ended (lop n) lcfg.
Proof. constructor; try reflexivity. exists n. reflexivity. Qed.

Lemma lop_loop n : forall hs c st h h1 h2 y t, 0 < h -> rform y t (disc st) -> remembers st 2 2 h h1 h2 ->
  Forall (fun h => 0 < h) hs -> closed_loop lcfg 2 2 c h h1 h2 hs ->
  exists l, at_once (lop n) 2 2 c st l /\ map suggestion l = map Fin hs.
Proof.
  induction hs as [|h0 hs IH]; intros c st h h1 h2 y t Hh F M P L.
  - exists []. split; [constructor|reflexivity].
  - apply closed_loop_inv in L as (c' & stat & A & B & D & L). inversion P; subst.
    pose proof M as M0. destruct M as (M1 & M2 & M3).
    destruct (rode_step y t h (disc st) F) as (y' & tmp & R1 & R2 & R3).
    assert (E2 : 2 * (h * h) = 2 * Rpower h 2).
    { f_equal. replace 2 with (1 + 1) by ring. rewrite Rpower_plus, Rpower_1 by exact Hh. reflexivity. }
    rewrite E2 in R3.
    set (st1 := {| disc := rk_set (disc st) tmp; suggestion := step_size_suggestion stat;
                   step_hist := upd 0 (suggestion st) (roll1 (step_hist st));
                   err_hist := upd 0 (Fin (2 * Rpower h 2)) (roll1 (err_hist st)) |}).
    assert (It : iterate_on_step (lop n) 1 c st = (c', st1, Ok tt)).
    { rewrite iterate_first by reflexivity. unfold first_trial. cbn [o_bt o_ode o_meas lop]. rewrite M1, R1, R3.
      rewrite (power_law_question (lop n) lcfg st tmp 2 2 h h1 h2 (lop_open n) M0). cbn [o_ctl lop]. rewrite A, B, <- M1. reflexivity. }
    destruct (IH c' st1 h0 h h1 y' (t + h)) as (l & L1 & L2); auto.
    + apply rform_set. exact R2.
    + unfold st1. split; [exact D|]. cbn [step_hist err_hist]. rewrite M1, M2, M3. split; reflexivity.
    + exists (st1 :: l). split; [|cbn [map]; rewrite L2; f_equal; exact D].
      econstructor; eauto. intros tmp' em (T1 & T2). cbn [o_bt o_ode o_meas lop] in T1, T2. rewrite M1, R1 in T1. injection T1 as <-.
      rewrite R3 in T2. injection T2 as <-. eauto.
Qed.

(** A state in the middle of such a run. *)
Definition lstate (h h1 h2 : R) : tistate (ext R) := {|
  disc := disc (live (prepare (raop 1 1) rain (setup (raop 1 1) ractl))); suggestion := Fin h;
  step_hist := [Fin h1; Fin h2]; err_hist := [Fin (2 * Rpower h1 2); Fin (2 * Rpower h2 2)] |}.
Lemma lstate_form h h1 h2 : rform 3 0 (disc (lstate h h1 h2)).
Proof. apply rform_setup. Qed.
Lemma lstate_remembers h h1 h2 : remembers (lstate h h1 h2) 2 2 h h1 h2.
Proof. repeat split. Qed.
