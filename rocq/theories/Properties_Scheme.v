(** C85: driving the time discretization by hand through its interface. *)
From Coq Require Import List Reals Lia Lra Bool.
From Verif Require Import Base Ext M_Tableau M_State M_ODE M_Step M_Controller M_Measure M_Integrator
  SpecRK SpecShape SpecDeriv SpecRun SpecConvergence SpecScheme Witness WitnessRun
  L_Step L_Adjoint L_Deriv L_Tableau L_StepProps L_Generic L_Iter L_Run L_RunConvergence L_RunProps L_Scheme L_SchemeR.
Import ListNotations.
Open Scope R_scope.

(** ** C85 *)
Theorem C85_steps_taken :
  forall (bt : tableau R) (o : ode R) (f : R -> list R -> list R -> list R) t y p h0 hs l,
  tableau_wf bt -> result_sizes o -> is_implicit bt = false ->
  solves_stage_equation o (state_size o) f ->
  length y = state_size o -> length p = independent_input_size o ->
  steps bt o (starting_scheme bt o t y p h0) hs l ->
  exists z, finalization_scheme (last l (starting_scheme bt o t y p h0))
            = (t + covered hs, z, vzeros (independent_output_size o)) /\
    rk_steps (t_stages bt) (state_size o) (entry (t_A bt)) (fun k => vnth k (t_b bt)) (fun k => vnth k (t_c bt))
      (fun t y => f t p y) t y hs z.
Proof. intros bt o f t y p h0 hs l Hb Hr; exact (hand_steps bt o Hb Hr f t y p h0 hs l). Qed.
Print Assumptions C85_steps_taken.

Definition gsteps : list R := [1; 1/2; -1/4].
Definition gstart (e : R) : rkstate R :=
  starting_scheme heun (gode never never) (1 + e) [2 + 3 * e] [5 * e] (1/3).

Lemma heun_wf : tableau_wf (heun (T := R)).
Proof. constructor; cbn; auto. Qed.


Lemma gsteps_exist : forall hs s, shaped 2 1 1 0 2 s -> exists l, steps heun (gode (T := R) never never) s hs l.
Proof.
  induction hs as [|h hs IH]; intros s Hs; [exists []; exact I|].
  destruct (compute_step_total heun (gode never never) s h 1 1 0 2 heun_wf eq_refl eq_refl eq_refl
    (proj1 (gode_sized never never)) Hs) as [s1 E1]; [cbn; lia|intros i inp Hi; eexists; reflexivity|].
  destruct (IH s1 (fr_shape _ _ _ _ _
    (compute_step_frame heun (gode never never) _ _ _ (proj1 (gode_sized never never)) Hs E1))) as [l Hl].
  exists (s1 :: l); split; assumption.
Qed.

Lemma gsteps_taken e : exists l, steps heun (gode never never) (gstart e) gsteps l.
Proof. apply gsteps_exist, (start_shaped heun (gode never never)); reflexivity. Qed.

Example C85_steps_taken_hypotheses_met : exists l,
  tableau_wf wbt /\ result_sizes wode /\ is_implicit wbt = false /\
  solves_stage_equation wode (state_size wode) wf_rhs /\
  steps wbt wode (starting_scheme wbt wode 3 [2] [1] (1/7)) [1/2; 1/2] l.
Proof.
  pose proof (start_shaped wbt wode 3 [2] [1] (1/7) eq_refl eq_refl) as S0.
  destruct (compute_step_total wbt wode _ (1/2) _ _ _ _ wbt_wf eq_refl eq_refl eq_refl wode_result_sizes S0)
    as [s1 E1]; [cbn; lia|intros i inp Hi; apply wode_update_ok, wdiag, Hi|].
  pose proof (fr_shape _ _ _ _ _ (compute_step_frame wbt wode _ _ _ wode_result_sizes S0 E1)) as S1.
  destruct (compute_step_total wbt wode _ (1/2) _ _ _ _ wbt_wf eq_refl eq_refl eq_refl wode_result_sizes S1)
    as [s2 E2]; [cbn; lia|intros i inp Hi; apply wode_update_ok, wdiag, Hi|].
  exists [s1; s2].
  split; [apply wbt_wf|]; split; [apply wode_result_sizes|]; split.
  { destruct (is_implicit wbt) eqn:E; [|reflexivity].
    apply is_implicit_spec in E; exfalso; apply E, wbt_lower. }
  split; [apply wode_solves|]; split; [exact E1|]; split; [exact E2|exact I].
Qed.

(** The forward chain is the derivative of the final time and values with
    respect to starting time, values and independent inputs, at fixed step
    sizes (which may be negative or differ). *)
Theorem C85_forward_is_derivative :
  forall (bt : tableau R) (o : ode R) del t y p (h0 : R -> R) dt dy dp hs l v',
  tableau_wf bt -> result_sizes o -> derivative_sizes o -> ode_differentiable o -> 0 < del ->
  (forall e, Rabs e < del -> length (y e) = state_size o /\ length (p e) = independent_input_size o /\
     steps bt o (starting_scheme bt o (t e) (y e) (p e) (h0 e)) hs (l e)) ->
  length dy = state_size o -> length dp = independent_input_size o ->
  derivable_pt_lim t 0 dt -> curve y dy -> curve p dp ->
  steps_derivative bt o hs (l 0) (starting_scheme_derivative bt o dt dy dp) v' ->
  let fin e := finalization_scheme (last (l e) (starting_scheme bt o (t e) (y e) (p e) (h0 e))) in
  let '(ft, fv, fq) := finalization_scheme v' in
  derivable_pt_lim (fun e => fst (fst (fin e))) 0 ft /\ curve (fun e => snd (fst (fin e))) fv /\
  (forall e, Rabs e < del -> snd (fin e) = vzeros (independent_output_size o)) /\
  fq = vzeros (independent_output_size o).
Proof.
  intros bt o del t y p h0 dt dy dp hs l v' Hb Hr Hd Hf Hdel.
  exact (hand_derivative bt o Hb Hr Hd del t y p h0 dt dy dp hs l v' Hdel Hf).
Qed.
Print Assumptions C85_forward_is_derivative.

Theorem C85_forward_linear :
  forall (bt : tableau R) (o : ode R) s0 hs l t1 y1 p1 t2 y2 p2 al be v1 v2 v,
  tableau_wf bt -> result_sizes o -> derivative_sizes o -> ode_linear o ->
  shaped (t_stages bt) (state_size o) (independent_input_size o) (independent_output_size o)
         (linearization_point_size o) s0 ->
  steps bt o s0 hs l ->
  length y1 = state_size o -> length p1 = independent_input_size o ->
  length y2 = state_size o -> length p2 = independent_input_size o ->
  steps_derivative bt o hs l (starting_scheme_derivative bt o t1 y1 p1) v1 ->
  steps_derivative bt o hs l (starting_scheme_derivative bt o t2 y2 p2) v2 ->
  steps_derivative bt o hs l
    (starting_scheme_derivative bt o (al * t1 + be * t2) (vlin al y1 be y2) (vlin al p1 be p2)) v ->
  fst (finalization_scheme v)
  = (al * fst (fst (finalization_scheme v1)) + be * fst (fst (finalization_scheme v2)),
     vlin al (snd (fst (finalization_scheme v1))) be (snd (fst (finalization_scheme v2)))).
Proof.
  intros bt o s0 hs l t1 y1 p1 t2 y2 p2 al be v1 v2 v Hb Hr Hd Hl.
  exact (hand_linear bt o Hb Hr Hd s0 hs l t1 y1 p1 t2 y2 p2 al be v1 v2 v Hl).
Qed.
Print Assumptions C85_forward_linear.

(** The reverse chain is the transpose of the forward chain, for every ODE
    whose two derivative calls are transposed, weights on stage states
    included: fresh states hold none. *)
Theorem C85_reverse_is_transpose :
  forall (bt : tableau R) (o : ode R) s0 hs l dt dy dp v' wt wy wq w',
  tableau_wf bt -> sized_ode o -> ode_transposed o ->
  shaped (t_stages bt) (state_size o) (independent_input_size o) (independent_output_size o)
         (linearization_point_size o) s0 ->
  steps bt o s0 hs l ->
  length dy = state_size o -> length dp = independent_input_size o ->
  length wy = state_size o -> length wq = independent_output_size o ->
  steps_derivative bt o hs l (starting_scheme_derivative bt o dt dy dp) v' ->
  steps_adjoint bt o hs l (finalization_scheme_adjoint bt o (wt, wy, wq)) w' ->
  let '(ft, fv, fq) := finalization_scheme v' in
  let '(gt, gy, gp) := starting_scheme_adjoint w' in
  wt * ft + dot wy fv + dot wq fq = gt * dt + dot gy dy + dot gp dp.
Proof.
  intros bt o s0 hs l dt dy dp v' wt wy wq w' Hb (Hr & Hd & Ha) Ht.
  exact (hand_transposed bt o Hb Hr Hd Ha s0 hs l dt dy dp v' wt wy wq w' Ht).
Qed.
Print Assumptions C85_reverse_is_transpose.

Lemma stages_total (body : rkstate R -> nat -> res (rkstate R)) :
  (forall s i, exists s', body s i = Ok s') -> forall l s, exists s', for_stages body l s = Ok s'.
Proof.
  intros H; induction l as [|i l IH]; intros s; cbn [for_stages]; [eauto|].
  destruct (H s i) as [s1 E]; rewrite E; cbn [bind]; apply IH.
Qed.

Lemma gderivative_total (s v : rkstate R) h : (length (stage_independent_outputs s) <> 0)%nat ->
  exists v', compute_step_derivative heun (gode never never) s v h = Ok v'.
Proof.
  intros Hs; unfold compute_step_derivative.
  match goal with |- context [for_stages ?b ?l ?s] =>
    assert (H : exists x, for_stages b l s = Ok x) end;
    [apply stages_total|destruct H as [x E]].
  { intros a i; unfold compute_stage_derivative; cbn [compute_update_derivative gode bind]; eauto. }
  rewrite E; cbn [bind]; destruct (stage_independent_outputs s); [contradiction|]; cbn [compute_final_independent_outputs bind]; eauto.
Qed.

Lemma gadjoint_total (s v : rkstate R) h :
  exists v', compute_step_adjoint_derivative heun (gode never never) s v h = Ok v'.
Proof.
  unfold compute_step_adjoint_derivative.
  match goal with |- context [for_stages ?b ?l ?s] =>
    assert (H : exists x, for_stages b l s = Ok x) end;
    [apply stages_total|destruct H as [x E]].
  { intros a i; unfold compute_stage_adjoint_derivative; cbn [compute_update_adjoint_derivative gode]; unfold never; cbn [bind]; eauto. }
  rewrite E; cbn [bind]; eauto.
Qed.

Example C85_products_hypotheses_met : exists l v v1 v2 w,
  tableau_wf (heun (T := R)) /\ sized_ode (gode (T := R) never never) /\
  ode_transposed (gode never never) /\ ode_linear (gode never never) /\ ode_differentiable (gode never never) /\
  steps heun (gode never never) (gstart 0) gsteps l /\
  steps_derivative heun (gode never never) gsteps l (starting_scheme_derivative heun (gode never never) 1 [3] [5]) v /\
  steps_derivative heun (gode never never) gsteps l (starting_scheme_derivative heun (gode never never) 1 [0] [0]) v1 /\
  steps_derivative heun (gode never never) gsteps l (starting_scheme_derivative heun (gode never never) 0 [3] [5]) v2 /\
  steps_adjoint heun (gode never never) gsteps l
    (finalization_scheme_adjoint heun (gode never never) (2, [7], [])) w.
Proof.
  destruct (gsteps_taken 0) as [l Hl].
  assert (L : exists a b c, l = [a; b; c]).
  { pose proof (steps_length _ _ _ _ _ Hl) as E; destruct l as [|a [|b [|c [|d l]]]]; try discriminate; eauto. }
  destruct L as (a & b & c & ->).
  pose proof (steps_shaped heun (gode never never) (proj1 (gode_sized never never)) (gstart 0) gsteps [a; b; c]
    (start_shaped heun (gode never never) (1 + 0) [2 + 3 * 0] [5 * 0] (1/3) eq_refl eq_refl) Hl) as F.
  inversion F as [|? ? Fa F1]; subst; inversion F1 as [|? ? Fb F2]; subst; inversion F2 as [|? ? Fc _]; subst.
  assert (K : forall s : rkstate R, shaped 2 1 1 0 2 s -> (length (stage_independent_outputs s) <> 0)%nat).
  { intros s Hs; rewrite (sh_sio _ _ _ _ _ _ Hs); lia. }
  assert (P : forall v, exists v', steps_derivative heun (gode never never) gsteps [a; b; c] v v').
  { intros v; destruct (gderivative_total a v 1 (K _ Fa)) as [x X],
      (gderivative_total b x (1/2) (K _ Fb)) as [y Y], (gderivative_total c y (-1/4) (K _ Fc)) as [z Z].
    exists z, x; split; [exact X|]; exists y; split; [exact Y|]; exists z; split; [exact Z|reflexivity]. }
  destruct (P (starting_scheme_derivative heun (gode never never) 1 [3] [5])) as [v Hv].
  destruct (P (starting_scheme_derivative heun (gode never never) 1 [0] [0])) as [v1 Hv1].
  destruct (P (starting_scheme_derivative heun (gode never never) 0 [3] [5])) as [v2 Hv2].
  set (w0 := finalization_scheme_adjoint heun (gode never never) (2, [7], [])).
  destruct (gadjoint_total c w0 (-1/4)) as [x X], (gadjoint_total b x (1/2)) as [y Y], (gadjoint_total a y 1) as [z Z].
  exists [a; b; c], v, v1, v2, z.
  split; [apply heun_wf|]; split; [apply gode_sized|]; split; [apply gode_transposed|].
  split; [apply gode_linear|]; split; [apply gode_differentiable|]; split; [exact Hl|].
  split; [exact Hv|]; split; [exact Hv1|]; split; [exact Hv2|].
  exists y; split; [|exact Z]; exists x; split; [|exact Y]; exists w0; split; [reflexivity|exact X].
Qed.

(** What the component does is what a user driving the scheme by hand does
    with the step sizes of the run, for every scalar type and configuration
    without recomputation, fixed or adaptive. *)
Theorem C85_component_compute :
  forall (T : Type) (N : Num T) (C : Type) (op : options T C) c i w w' out,
  sized_ode (o_ode op) -> loops op -> reachable op c w -> inputs_sized (o_ode op) i ->
  compute op i w = (w', Ok out) ->
  let s0 := starting_scheme (o_bt op) (o_ode op) (time_initial i) (initial i) (independent i) (o_step op) in
  exists hs l, steps (o_bt op) (o_ode op) s0 hs l /\
    (o_adaptive op = false -> hs = repeat (o_step op) (length hs)) /\
    (forall n, o_crit op = PredefinedNumberOfSteps n -> length hs = n) /\
    finalization_scheme (last l s0)
    = (time_final out, final out, vzeros (independent_output_size (o_ode op))).
Proof.
  intros T N C op c i w w' out Hs HL HR Hi H; cbn zeta.
  destruct (component_compute_drives op (proj1 Hs) i w w' out HL (reachable_wf op c w Hs HR) Hi H)
    as (hs & l & A & [B1 B2] & D); exists hs, l; auto.
Qed.
Print Assumptions C85_component_compute.

Theorem C85_component_products :
  forall (T : Type) (N : Num T) (C : Type) (op : options T C) c i,
  sized_ode (o_ode op) -> inputs_sized (o_ode op) i ->
  let bt := o_bt op in let o := o_ode op in
  let s0 := starting_scheme bt o (time_initial i) (initial i) (independent i) (o_step op) in
  (forall d w' out, inputs_sized o d -> compute_jacvec_product_fwd op i d (setup op c) = (w', Ok out) ->
     exists hs l v', steps bt o s0 hs l /\
       (o_adaptive op = false -> hs = repeat (o_step op) (length hs)) /\
       steps_derivative bt o hs l
         (starting_scheme_derivative bt o (time_initial d) (initial d) (independent d)) v' /\
       finalization_scheme v' = (time_final out, final out, vzeros (independent_output_size o))) /\
  (forall d w' g, o_ckpt op = AllCheckpointer -> outputs_sized o d ->
     compute_jacvec_product_rev op i d (setup op c) = (w', Ok g) ->
     exists hs l v', steps bt o s0 hs l /\
       (o_adaptive op = false -> hs = repeat (o_step op) (length hs)) /\
       steps_adjoint bt o hs l
         (finalization_scheme_adjoint bt o (time_final d, final d, vzeros (independent_output_size o))) v' /\
       starting_scheme_adjoint v' = (time_initial g, initial g, independent g)).
Proof.
  intros T N C op c i Hs Hi; cbn zeta; split.
  - intros d w' out Hd H.
    destruct (component_fwd_drives op (proj1 Hs) i d c w' out Hi Hd H) as (hs & l & v' & A & [B1 _] & D & E).
    exists hs, l, v'; auto.
  - intros d w' g HA Hd H.
    destruct (component_rev_drives op (proj1 Hs) i d c w' g HA Hi Hd H) as (hs & l & v' & A & [B1 _] & D & E).
    exists hs, l, v'; auto.
Qed.
Print Assumptions C85_component_products.

Example C85_component_hypotheses_met :
  let op := gop heun (gode (T := R) never never) AllCheckpointer false (1/2) (PredefinedNumberOfSteps 2) in
  sized_ode (o_ode op) /\ loops op /\ reachable op tt (setup op tt) /\
  inputs_sized (o_ode op) (gin 1 2 3) /\
  (exists w' out, compute op (gin 1 2 3) (setup op tt) = (w', Ok out)) /\
  (exists w' out, compute_jacvec_product_fwd op (gin 1 2 3) (gin 1 1 1) (setup op tt) = (w', Ok out)) /\
  (exists w' g, compute_jacvec_product_rev op (gin 1 2 3) (gout 1 1) (setup op tt) = (w', Ok g)).
Proof.
  cbn zeta; split; [apply gode_sized|]; split; [exact I|]; split; [exists []; split; [constructor|reflexivity]|].
  split; [apply gin_sized|]; split; [apply returns; reflexivity|]; split; apply returns; reflexivity.
Qed.
