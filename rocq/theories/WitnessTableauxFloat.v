(** y' = -y in binary floating point with Heun's method as it is shipped: for the
    Example of the theorem about runs; not part of the model. *)
From Coq Require Import String.
From Coq Require Import ZArith QArith List Reals Lia Lra Bool Arith SpecFloat.
From Verif Require Import Base Ext M_Tableau M_Tableaux M_TableauxInit M_TableauxFloat M_State M_ODE M_Step M_Controller M_Measure M_Integrator
  SpecRK SpecShape SpecDeriv SpecRun SpecTree SpecOrder SpecFloating SpecTableauxFloat
  L_Vec L_Tableau L_Float L_FloatOps L_Order L_TotalT L_TableauxFloat2 WitnessRun WitnessFloating.
Import ListNotations.
Open Scope nat_scope.
Open Scope R_scope.

Section Format.
Variables prec emax : Z.
Hypothesis Hfmt : (53 <= prec < emax)%Z.
Local Instance FN2 : Num spec_float := binary prec emax.

Definition sop (bf : tableau spec_float) (h : spec_float) (n : nat) : options spec_float Datatypes.unit := {|
  o_bt := bf; o_ode := fdecay prec emax; o_ckpt := AllCheckpointer; o_adaptive := false; o_step := h;
  o_crit := PredefinedNumberOfSteps n; o_inf := n0; o_meas := SimpleErrorMeasurer;
  o_tol := n1; o_ctl := halving n1; o_callbacks := fun _ => [quiet_cb]; retry_limit := 1; loop_limit := S n |}.
Lemma sop_returns bf h n : (0 < t_stages bf)%nat ->
  exists w' out, compute (sop bf h n) (fin prec emax) (setup (sop bf h n) tt) = (w', Ok out).
Proof.
  intros Hs. apply (compute_totalT (sop bf h n) Hs) with (n := n) (c := tt).
  - intros i inp _ _ _ _; cbn; eauto.
  - apply fdecay_sized.
  - reflexivity.
  - exact I.
  - intros m cb [<-|[]] k st; auto.
  - cbn; lia.
  - reflexivity.
  - cbn; lia.
  - exists []; split; [constructor|reflexivity].
  - split; reflexivity.
Qed.
(** Explicit methods have a zero diagonal. *)
Lemma explicit_diagonal bf i : tableau_wf bf -> is_explicit bf = true -> (i < t_stages bf)%nat ->
  float_finite prec emax (entry (t_A bf) i i) -> float_value (entry (t_A bf) i i) = 0.
Proof.
  intros W E Hi F. apply (float_eqb0 prec emax _ false F).
  unfold is_explicit in E. rewrite forallb_forall in E. specialize (E i ltac:(apply in_seq; lia)).
  rewrite forallb_forall in E. apply (E i). apply in_seq. lia.
Qed.
End Format.
