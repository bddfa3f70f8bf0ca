(** Runs as compositions of Runge-Kutta steps, and their error. *)
From Coq Require Import List Reals Lia Lra.
From Verif Require Import Base Ext M_Tableau M_State M_ODE M_Step M_Controller M_Measure M_Integrator
  SpecRK SpecShape SpecRun SpecRevolve SpecConvergence L_Step L_StepProps L_Iter L_Run L_Log L_RunProps L_WholeR L_Revolve L_RevolveLog L_Convergence.
Import ListNotations.
Open Scope R_scope.

Section Runs.
Context {C : Type}.
Variable op : options R C.
Notation bt := (o_bt op).
Notation o := (o_ode op).
Notation size := (state_size o).
Notation Sg := (t_stages bt).
Variable f : R -> list R -> list R -> list R.
Hypothesis Hbt : tableau_wf bt.
Hypothesis Himp : is_implicit bt = false.
Hypothesis Hres : result_sizes o.
Hypothesis Hf : solves_stage_equation o size f.
Notation steps p := (rk_steps Sg size (entry (t_A bt)) (fun i => vnth i (t_b bt)) (fun i => vnth i (t_c bt))
                              (fun t y => f t p y)).

Lemma trajectory_steps l : forall st, trajectory op st l -> wf_ti op st ->
  let hs := map (fun x => step_size (disc x)) l in
  let st' := last l st in
  steps (independent_inputs (disc st)) (final_time (disc st)) (final_state (disc st)) hs (final_state (disc st')) /\
  final_time (disc st') = final_time (disc st) + covered hs /\
  (o_adaptive op = false -> hs = repeat (suggestion st) (length l)).
Proof.
  induction l as [|st1 l IH]; intros st Ht Hw; cbv zeta.
  { cbn; split; [reflexivity|]; split; [lra|reflexivity]. }
  rewrite last_cons; cbn [map rk_steps covered repeat length].
  destruct Ht as [(c & c1 & I) Ht].
  pose proof (iterate_wf op Hres _ _ _ _ _ _ Hw I) as Hw1.
  destruct (iterate_step op _ _ _ _ _ (wt_sh _ _ Hw) I) as (h & tmp & E & D & _).
  destruct (c01 bt o f _ _ _ _ Hbt Hres Himp Hf (wt_shape _ _ Hw) E) as (K & _ & _ & Pi & Ph & Pt & _).
  destruct (IH st1 Ht Hw1) as (I1 & I2 & I3); rewrite D in I1, I2.
  cbn [rk_set final_state final_time independent_inputs step_size] in I1, I2.
  rewrite D; cbn [rk_set step_size]; rewrite Ph; rewrite Pi, Pt in I1; rewrite Pt in I2.
  split; [|split].
  - exists (fun i => nth i (stage_updates tmp) []), (final_state tmp); split; [exact K|exact I1].
  - rewrite I2; lra.
  - intros Hfix; rewrite (I3 Hfix).
    destruct (iterate_fixed op _ _ _ _ _ Hfix I) as (s' & E' & _ & ->); cbn [suggestion disc] in *.
    rewrite <- Ph; f_equal.
    assert (step_size s' = suggestion st)
      by (destruct (c01 bt o f _ _ _ _ Hbt Hres Himp Hf (wt_shape _ _ Hw) E') as (_ & _ & _ & _ & X & _); exact X).
    apply (f_equal (@step_size R)) in D; cbn [rk_set step_size] in D; congruence.
Qed.
End Runs.

Section Runs2.
Context {C : Type}.
Variable op : options R C.
Notation bt := (o_bt op).
Notation o := (o_ode op).
Variable f : R -> list R -> list R -> list R.
Hypothesis Hbt : tableau_wf bt.
Hypothesis Himp : is_implicit bt = false.
Hypothesis Hs : sized_ode o.
Hypothesis Hf : solves_stage_equation o (state_size o) f.
Notation steps p := (rk_steps (t_stages bt) (state_size o) (entry (t_A bt)) (fun k => vnth k (t_b bt))
                              (fun k => vnth k (t_c bt)) (fun t y => f t p y)).
Notation ncb m := (length (o_callbacks op m)).

Lemma from_start i a l : starts_at op i a -> trajectory op a l -> wf_ti op a ->
  let hs := map (fun x => step_size (disc x)) l in
  steps (independent i) (time_initial i) (initial i) hs (final_state (disc (last l a))) /\
  final_time (disc (last l a)) = time_initial i + covered hs /\
  (o_adaptive op = false -> hs = repeat (o_step op) (length l)).
Proof.
  intros (A1 & A2 & A3 & A4) Ht Hw; rewrite <- A1, <- A2, <- A3, <- A4.
  exact (trajectory_steps op f Hbt Himp (proj1 Hs) Hf l a Ht Hw).
Qed.

Lemma run_steps c w i w' out : loops op ->
  reachable op c w -> inputs_sized o i -> compute op i w = (w', Ok out) ->
  exists a l, starts_at op i a /\ trajectory op a l /\ stops op a l /\
    log w' = (log w ++ bracketed Compute (ncb Compute) 1 a l)%list /\
    let hs := map (fun x => step_size (disc x)) l in
    steps (independent i) (time_initial i) (initial i) hs (final out) /\
    time_final out = time_initial i + covered hs /\
    (o_adaptive op = false -> hs = repeat (o_step op) (length l)).
Proof.
  intros L HR Hi E.
  pose proof (reachable_wf op c w Hs HR) as Hw.
  destruct (compute_ok op i w w' out L E) as (l & c' & st' & Hc & Hl & -> & Ew).
  pose proof (wf_live _ _ (wf_prepare op i w Hi Hw)) as Ha.
  exists (live (prepare op i w)), l.
  split; [apply starts_prepare|].
  split; [eapply chain_trajectory; eauto|]; split; [eapply chain_stops; eauto|].
  split; [rewrite Ew, <- run_events_bracketed; unfold after_run; destruct (keeps op); reflexivity|].
  rewrite (chain_last op _ _ _ _ _ _ Hc).
  apply (from_start i _ l); [apply starts_prepare|eapply chain_trajectory; eauto|exact Ha].
Qed.

Lemma fwd_steps c w i d w' out :
  reachable op c w -> inputs_sized o i -> inputs_sized o d -> compute_jacvec_product_fwd op i d w = (w', Ok out) ->
  exists a l, starts_at op i a /\ trajectory op a l /\ stops op a l /\
    log w' = (log w ++ bracketed Fwd (ncb Fwd) 1 a l)%list /\
    let hs := map (fun x => step_size (disc x)) l in
    steps (independent i) (time_initial i) (initial i) hs (final_state (disc (live w'))) /\
    final_time (disc (live w')) = time_initial i + covered hs /\
    (o_adaptive op = false -> hs = repeat (o_step op) (length l)).
Proof.
  intros HR Hi Hd E.
  pose proof (reachable_wf op c w Hs HR) as Hw.
  destruct (fwd_ok op i d w w' out E) as (l & c' & st' & p' & Hc & Hl & _ & _ & ->).
  pose proof (wf_live _ _ (wf_prepare_fwd op i d w Hi Hd Hw)) as Ha.
  exists (live (prepare_fwd op i d w)), l.
  split; [apply starts_prepare_fwd|].
  split; [eapply chain_trajectory; eauto|]; split; [eapply chain_stops; eauto|].
  split; [cbn; rewrite <- run_events_bracketed; reflexivity|].
  cbn [live w_log w_live w_pert w_ctl]; rewrite (chain_last op _ _ _ _ _ _ Hc).
  apply (from_start i _ l); [apply starts_prepare_fwd|eapply chain_trajectory; eauto|exact Ha].
Qed.

Lemma revolve_steps n fs rs c c0 w i w' out : stateless op c -> ctl w = c ->
  o_ckpt op = PyrevolveCheckpointer fs rs -> valid_schedule n fs rs -> Forall forward_action fs ->
  reachable op c0 w -> inputs_sized o i -> compute op i w = (w', Ok out) ->
  exists a l, starts_at op i a /\ trajectory op a l /\ length l = S n /\
    log w' = (log w ++ bracketed Compute (ncb Compute) 0 a l)%list /\
    let hs := map (fun x => step_size (disc x)) l in
    steps (independent i) (time_initial i) (initial i) hs (final out) /\
    time_final out = time_initial i + covered hs /\
    (o_adaptive op = false -> hs = repeat (o_step op) (length l)).
Proof.
  intros HS Hc HP HV HF HR Hi H; pose proof (reachable_wf op c0 w Hs HR) as Hw.
  destruct (revolve_log op c HS n fs rs i w w' out HP HV HF Hc H) as (l & L1 & L2 & L3 & L4 & ->).
  pose proof (wf_live _ _ (wf_prepare op i w Hi Hw)) as Wa.
  exists (live (prepare op i w)), l.
  split; [apply starts_prepare|]; split; [exact (steps_trajectory op _ l _ L2)|].
  split; [exact L1|]; split; [exact L3|].
  replace (final (result_of (live w'))) with (final_state (disc (live w'))) by reflexivity.
  replace (time_final (result_of (live w'))) with (final_time (disc (live w'))) by reflexivity.
  rewrite L4; apply from_start; [apply starts_prepare|exact (steps_trajectory op _ l _ L2)|exact Wa].
Qed.
End Runs2.

(** *** Error of a run *)
Section Error.
Context {C : Type}.
Variable op : options R C.
Notation bt := (o_bt op).
Notation o := (o_ode op).
Notation size := (state_size o).
Variable f : R -> list R -> list R -> list R.
Hypothesis Hbt : tableau_wf bt.
Hypothesis Himp : is_implicit bt = false.
Hypothesis Hs : sized_ode o.
Hypothesis Hf : solves_stage_equation o size f.
Variables (al be ga L B H : R).
Hypothesis Hm : method_bounds (t_stages bt) (entry (t_A bt)) (fun k => vnth k (t_b bt))
                  (fun k => vnth k (t_c bt)) al be ga.
Hypothesis Hal : 0 <= al.
Hypothesis Hga : 0 <= ga.
Hypothesis HL : 0 <= L.
Hypothesis HB : 0 <= B.
Hypothesis Hsmall : 2 * (H * L * al) <= 1.

Lemma run_error c w i w' out Y d : loops op ->
  reachable op c w -> inputs_sized o i -> compute op i w = (w', Ok out) ->
  lipschitz size L (fun t y => f t (independent i) y) ->
  solution size (fun t y => f t (independent i) y) (time_initial i) (time_final out) Y ->
  (forall t m, time_initial i <= t <= time_final out -> (m < size)%nat ->
     Rabs (vnth m (f t (independent i) (Y t))) <= B) ->
  0 <= d -> within size d (initial i) (Y (time_initial i)) ->
  exists a l, starts_at op i a /\ trajectory op a l /\
    log w' = (log w ++ bracketed Compute (length (o_callbacks op Compute)) 1 a l)%list /\
    (Forall (fun x => 0 < step_size (disc x) <= H) l -> 0 <= H ->
     within size (error_bound al be ga L B H d (time_final out - time_initial i)) (final out) (Y (time_final out))).
Proof.
  intros Lo HR Hi E HLip HY HBd Hd W.
  destruct (run_steps op f Hbt Himp Hs Hf c w i w' out Lo HR Hi E) as (a & l & A1 & A2 & _ & A4 & A5 & A6 & _).
  exists a, l; split; [exact A1|]; split; [exact A2|]; split; [exact A4|]; intros HF HH.
  replace (time_final out - time_initial i) with (covered (map (fun x => step_size (disc x)) l)) by (rewrite A6; ring).
  rewrite A6; eapply rk_steps_close with (t0 := time_initial i) (t1 := time_final out);
    eauto; [lra|lra| |apply Hi].
  clear -HF; induction HF; constructor; auto.
Qed.
End Error.

Lemma repeat_Forall {A} (P : A -> Prop) x n : P x -> Forall P (repeat x n).
Proof. intros Hx; induction n; constructor; auto. Qed.
Lemma covered_repeat h n : covered (repeat h n) = INR n * h.
Proof. induction n as [|n IH]; [cbn; ring|]; rewrite S_INR; cbn [repeat covered]; rewrite IH; ring. Qed.

Section Converge.
Variables (bt : tableau R) (o : ode R) (f : R -> list R -> list R -> list R).
Notation size := (state_size o).
Hypothesis Hbt : tableau_wf bt.
Hypothesis Himp : is_implicit bt = false.
Hypothesis Hs : sized_ode o.
Hypothesis Hf : solves_stage_equation o size f.
Variables (al be ga L B : R).
Hypothesis Hm : method_bounds (t_stages bt) (entry (t_A bt)) (fun k => vnth k (t_b bt))
                  (fun k => vnth k (t_c bt)) al be ga.
Hypothesis Hal : 0 <= al.
Hypothesis Hga : 0 <= ga.
Hypothesis HL : 0 <= L.
Hypothesis HB : 0 <= B.

(** Fixed steps: the error is at most proportional to the step size. *)
Lemma fixed_error {C} (op : options R C) c w i w' out Y d : o_bt op = bt -> o_ode op = o ->
  o_adaptive op = false -> loops op -> 0 < o_step op -> 2 * (o_step op * L * al) <= 1 ->
  reachable op c w -> inputs_sized o i -> compute op i w = (w', Ok out) ->
  lipschitz size L (fun t y => f t (independent i) y) ->
  solution size (fun t y => f t (independent i) y) (time_initial i) (time_final out) Y ->
  (forall t m, time_initial i <= t <= time_final out -> (m < size)%nat ->
     Rabs (vnth m (f t (independent i) (Y t))) <= B) ->
  0 <= d -> within size d (initial i) (Y (time_initial i)) ->
  within size (error_bound al be ga L B (o_step op) d (time_final out - time_initial i)) (final out)
    (Y (time_final out)).
Proof.
  intros Ebt Eo Hfix Lo Hh Hsmall HR Hi E HLip HY HBd Hd W; subst bt o.
  destruct (run_steps op f Hbt Himp Hs Hf c w i w' out Lo HR Hi E) as (a & l & A1 & A2 & _ & A4 & A5 & A6 & A7).
  specialize (A7 Hfix); cbv zeta in *; rewrite A7 in *.
  replace (time_final out - time_initial i) with (covered (repeat (o_step op) (length l))) by (rewrite A6; ring).
  rewrite A6; eapply rk_steps_close with (t0 := time_initial i) (t1 := time_final out);
    eauto; [lra|lra| |apply Hi|lra].
  apply repeat_Forall; lra.
Qed.

Variables (t1 : R) (Y : R -> list R) (i : inputs R).
Notation t0 := (time_initial i).
Hypothesis Ht : t0 < t1.
Hypothesis Hi : inputs_sized o i.
Hypothesis HLip : lipschitz size L (fun t y => f t (independent i) y).
Hypothesis HY : solution size (fun t y => f t (independent i) y) t0 t1 Y.
Hypothesis HBd : forall t m, t0 <= t <= t1 -> (m < size)%nat -> Rabs (vnth m (f t (independent i) (Y t))) <= B.
Hypothesis H0 : initial i = Y t0.

Lemma bound_small eps : 0 < eps -> exists dl, 0 < dl /\ forall h, 0 < h <= dl ->
  2 * (h * L * al) <= 1 /\ error_bound al be ga L B h 0 (t1 - t0) <= eps.
Proof.
  intros He.
  pose proof (be_pos _ _ _ _ _ _ _ Hm) as Hbe.
  pose proof (constant_pos _ _ _ _ _ _ _ Hm L HL B HB 1 Hal Hga ltac:(lra)) as HC.
  set (C1 := error_constant al be ga L B 1) in *.
  set (E := exp (L * (1 + be) * (t1 - t0))).
  assert (HE : 0 < E) by apply exp_pos.
  set (X := (t1 - t0) * C1 * E).
  assert (HX : 0 <= X) by (apply Rmult_le_pos; [apply Rmult_le_pos|]; lra).
  set (q := 2 * (L * al)).
  assert (Hq : 0 <= q) by (unfold q; apply Rmult_le_pos; [lra|apply Rmult_le_pos; assumption]).
  exists (Rmin 1 (Rmin (/ (1 + q)) (eps / (1 + X)))); split.
  { repeat apply Rmin_pos; [lra|apply Rinv_0_lt_compat; lra|apply Rdiv_lt_0_compat; lra]. }
  intros h [Hh0 Hh].
  assert (h <= 1) by (eapply Rle_trans; [exact Hh|apply Rmin_l]).
  assert (h <= / (1 + q)) by (eapply Rle_trans; [exact Hh|]; eapply Rle_trans; [apply Rmin_r|apply Rmin_l]).
  assert (h <= eps / (1 + X)) by (eapply Rle_trans; [exact Hh|]; eapply Rle_trans; [apply Rmin_r|apply Rmin_r]).
  split.
  - assert (Q : h * (1 + q) <= 1).
    { apply Rle_trans with (/ (1 + q) * (1 + q)); [apply Rmult_le_compat_r; lra|right; field; lra]. }
    unfold q in *; nra.
  - unfold error_bound; rewrite Rplus_0_l; fold E.
    assert (Q : h * (1 + X) <= eps).
    { apply Rle_trans with (eps / (1 + X) * (1 + X)); [apply Rmult_le_compat_r; lra|right; field; lra]. }
    assert (EC : error_constant al be ga L B h <= C1).
    { unfold C1, error_constant; apply Rplus_le_compat_r.
      apply Rmult_le_compat_l; [apply Rmult_le_pos; assumption|]; apply Rplus_le_compat_l.
      apply Rmult_le_compat_l; [lra|]; apply Rplus_le_compat_l.
      apply Rmult_le_compat_l; [apply Rmult_le_pos; assumption|assumption]. }
    apply Rle_trans with (h * X).
    + replace (h * X) with ((t1 - t0) * h * C1 * E) by (unfold X; ring).
      apply Rmult_le_compat_r; [lra|]; apply Rmult_le_compat_l; [apply Rmult_le_pos; lra|exact EC].
    + nra.
Qed.

Lemma converges eps : 0 < eps -> exists N, forall n, (N <= n)%nat ->
  forall C (op : options R C) c w w' out, o_bt op = bt -> o_ode op = o -> o_adaptive op = false -> loops op ->
  o_crit op = PredefinedNumberOfSteps n -> o_step op = (t1 - t0) / INR n ->
  reachable op c w -> compute op i w = (w', Ok out) ->
  time_final out = t1 /\ within size eps (final out) (Y t1).
Proof.
  intros He; destruct (bound_small eps He) as (dl & Hdl & Hb).
  destruct (archimed ((t1 - t0) / dl)) as [Ar _].
  exists (S (Z.to_nat (up ((t1 - t0) / dl)))); intros n Hn C op c w w' out Ebt Eo Hfix Lo Hcrit Hstep HR E.
  assert (Hup : (0 < up ((t1 - t0) / dl))%Z).
  { apply lt_IZR; assert (0 < (t1 - t0) / dl) by (apply Rdiv_lt_0_compat; lra); lra. }
  assert (HIN : (t1 - t0) / dl < INR n).
  { eapply Rlt_trans; [exact Ar|]; rewrite <- (Z2Nat.id (up _)) at 1 by lia; rewrite <- INR_IZR_INZ; apply lt_INR; lia. }
  assert (Hn0 : 0 < INR n) by (assert (0 < (t1 - t0) / dl) by (apply Rdiv_lt_0_compat; lra); lra).
  assert (Hh : 0 < o_step op <= dl).
  { rewrite Hstep; split; [apply Rdiv_lt_0_compat; lra|].
    apply Rmult_le_reg_r with (INR n); [exact Hn0|].
    replace ((t1 - t0) / INR n * INR n) with (t1 - t0) by (field; lra).
    apply Rmult_lt_compat_r with (r := dl) in HIN; [|lra].
    replace ((t1 - t0) / dl * dl) with (t1 - t0) in HIN by (field; lra); lra. }
  destruct (Hb _ Hh) as [Hsmall Hbound].
  assert (Tf : time_final out = t1).
  { pose proof (fixed_count op n c w i w' out) as F; rewrite Eo in F.
    destruct (F Hs Hfix Lo Hcrit HR Hi E) as (T1 & _); rewrite T1, Hstep; field; lra. }
  split; [exact Tf|].
  pose proof (fixed_error op c w i w' out Y 0 Ebt Eo Hfix Lo (proj1 Hh) Hsmall HR Hi E HLip) as FE.
  rewrite Tf in FE; specialize (FE HY HBd (Rle_refl 0)).
  assert (W0 : within size 0 (initial i) (Y t0)).
  { intros m _; rewrite H0, Rminus_eq_0, Rabs_R0; lra. }
  intros m Hm'; eapply Rle_trans; [exact (FE W0 m Hm')|exact Hbound].
Qed.
End Converge.

(** Without constants. *)
Lemma run_converges (bt : tableau R) (o : ode R) f L t1 Y i :
  tableau_wf bt -> is_implicit bt = false -> rsum (t_stages bt) (fun k => vnth k (t_b bt)) = 1 ->
  sized_ode o -> solves_stage_equation o (state_size o) f ->
  0 <= L -> lipschitz (state_size o) L (fun t y => f t (independent i) y) ->
  inputs_sized o i -> time_initial i < t1 ->
  solution (state_size o) (fun t y => f t (independent i) y) (time_initial i) t1 Y ->
  initial i = Y (time_initial i) ->
  forall eps, 0 < eps -> exists N, forall n, (N <= n)%nat ->
  forall C (op : options R C) c w w' out, o_bt op = bt -> o_ode op = o -> o_adaptive op = false -> loops op ->
  o_crit op = PredefinedNumberOfSteps n -> o_step op = (t1 - time_initial i) / INR n ->
  reachable op c w -> compute op i w = (w', Ok out) ->
  time_final out = t1 /\ within (state_size o) eps (final out) (Y t1).
Proof.
  intros Hbt Himp Hcons Hs Hf HL HLip Hi Ht HY H0 eps He.
  destruct (bounds_exist _ (entry (t_A bt)) _ (fun k => vnth k (t_c bt)) Hcons) as (al & be & ga & Hal & Hga & Hm).
  destruct (velocity_bounded (state_size o) _ L HL HLip _ _ Y (Rlt_le _ _ Ht) HY) as (B & HB & HBd).
  exact (converges bt o f Hbt Himp Hs Hf al be ga L B Hm Hal Hga HL HB t1 Y i Ht Hi HLip HY HBd H0 eps He).
Qed.
