(** Runs with nearly solved stage equations. *)
From Coq Require Import List Reals Lia Lra Bool Arith QArith Qreals.
From Verif Require Import Base Ext M_Tableau M_State M_ODE M_Step M_Controller M_Measure M_Integrator M_Tableaux M_TableauxInit
  SpecRK SpecShape SpecRun SpecRevolve SpecTree SpecOrder SpecNodes SpecConvergence SpecSmooth SpecLocal
  L_Vec L_Step L_Tableau L_StepProps L_Iter L_Run L_Log L_RunProps L_WholeR L_Convergence L_RunConvergence L_Order L_Rows L_Series L_OrderConv L_RunOrder
  L_Local L_Local2.
Import ListNotations.
Open Scope nat_scope.
Open Scope R_scope.

Lemma step_near bt o n ni no nl f xi X rho H tol s h s' :
  tableau_wf bt -> is_implicit bt = false -> state_size o = n -> independent_output_size o = no ->
  linearization_point_size o = nl -> result_sizes o ->
  (forall i, (i < t_stages bt)%nat -> nearly_solves o n f xi X rho H tol (entry (t_A bt) i i)) ->
  shaped (t_stages bt) n ni no nl s -> independent_inputs s = xi -> 0 < h <= H ->
  compute_step bt o s h = Ok s' ->
  near_stages (t_stages bt) n (entry (t_A bt)) (nodes bt) f X rho tol (final_time s) h (final_state s)
    (fun i => nth i (stage_updates s') []) /\
  final_state s' = vmake n (fun m => vnth m (final_state s) + h * rsum (t_stages bt) (fun i => vnth i (t_b bt) * vnth m (nth i (stage_updates s') []))).
Proof.
  intros Hbt Himp Hn Hno Hnl Hsz Hf Hs Hxi Hh E.
  pose proof (compute_step_facts bt o n ni no nl Hbt Hn Hno Hnl Hsz s h s' Hs E) as F.
  destruct F as [[Hshape Hy Hp Ht Hh' Htimes Hstage] Ffin Ftime _ _].
  pose proof (sh_su _ _ _ _ _ _ Hshape) as Hsu; pose proof (sh_sur _ _ _ _ _ _ Hshape) as Hsur.
  pose proof (sh_final _ _ _ _ _ _ Hs) as Hfs.
  pose proof (is_implicit_false_no_upper bt Himp) as Hup.
  split.
  - intros i Hi Hin; pose proof (Hstage i Hi) as Ei.
    destruct (accumulate_stages_spec bt n i (stage_updates s') Hbt Hi Hsu Hsur) as [Hacc1 Hacc2].
    epose proof (fun P Q W K => Hf i Hi _ _ _ _ P Q W Hh K Ei) as G.
    unfold known_part, stage_value in G; cbn [time independent_input M_ODE.step_input stage_input stage_update] in G.
    replace (vmake n (fun m => vnth m (final_state s) + h * (vnth m (accumulate_stages bt i (stage_updates s'))
               + entry (t_A bt) i i * vnth m (nth i (stage_updates s') []))))
      with (rk_stage_value (t_stages bt) n (entry (t_A bt)) h (final_state s) (fun i => nth i (stage_updates s') []) i) in G.
    2:{ unfold rk_stage_value; apply vmake_ext; intros m Hm; f_equal; f_equal; rewrite Hacc2.
        rewrite (rsum_trunc (t_stages bt) (S i)) by (try lia; intros j Hj; rewrite Hup by lia; lra); reflexivity. }
    replace (final_time s + h * vnth i (t_c bt)) with (final_time s + vnth i (t_c bt) * h) in G by ring.
    apply G; [exact Hfs|exact Hacc1|exact Hxi|].
    destruct Hin as [I1 I2]; split; [exact I1|]; intros m Hm; pose proof (I2 m Hm) as I3.
    rewrite vnth_vmake in I3 |- * by exact Hm; rewrite Hacc2; exact I3.
  - destruct (accumulate_step_spec bt n h (final_state s) (stage_updates s') Hbt Hfs Hsu Hsur) as [Hl Hv].
    rewrite Ffin; apply (vec_eq n); [exact Hl|apply length_vmake|].
    intros m Hm; rewrite vnth_vmake by exact Hm; apply Hv.
Qed.

(** What holds of a step whatever the stage solves return. *)
Lemma step_fields (bt : tableau R) (o : ode R) ni s h s' :
  tableau_wf bt -> result_sizes o ->
  shaped (t_stages bt) (state_size o) ni (independent_output_size o) (linearization_point_size o) s ->
  compute_step bt o s h = Ok s' ->
  independent_inputs s' = independent_inputs s /\ step_size s' = h /\ final_time s' = final_time s + h.
Proof.
  intros W Hsz Hs H.
  pose proof (compute_step_facts bt o _ ni _ _ W eq_refl eq_refl eq_refl Hsz s h s' Hs H) as F.
  destruct F as [[Hshape Hy Hp Ht Hh Htimes Hstage] Ffin Ftime _ _]; auto 10.
Qed.

Section Runs.
Context {C : Type}.
Variable op : options R C.
Notation bt := (o_bt op).
Notation o := (o_ode op).
Notation size := (state_size o).
Notation Sg := (t_stages bt).
Variables (f : R -> list R -> list R) (xi : list R) (X : box) (rho : R).
Hypothesis Hbt : tableau_wf bt.
Hypothesis Himp : is_implicit bt = false.
Hypothesis Hs : sized_ode o.
Notation steps := (near_steps Sg size (entry (t_A bt)) (weights bt) (nodes bt) f X rho).

Lemma trajectory_near l : forall st, trajectory op st l -> wf_ti op st -> independent_inputs (disc st) = xi ->
  let hs := map (fun x => step_size (disc x)) l in
  let st' := last l st in
  (forall H tol, (forall i, (i < Sg)%nat -> nearly_solves o size f xi X rho H tol (entry (t_A bt) i i)) ->
     Forall (fun h => 0 < h <= H) hs ->
     steps tol (final_time (disc st)) (final_state (disc st)) hs (final_state (disc st'))) /\
  final_time (disc st') = final_time (disc st) + covered hs /\
  (o_adaptive op = false -> hs = repeat (suggestion st) (length l)).
Proof.
  induction l as [|st1 l IH]; intros st Ht Hw Hxi; cbv zeta.
  { cbn; split; [reflexivity|]; split; [lra|reflexivity]. }
  rewrite last_cons; cbn [map near_steps covered repeat length].
  destruct Ht as [(c & c1 & I) Ht].
  pose proof (iterate_wf op (proj1 Hs) _ _ _ _ _ _ Hw I) as Hw1.
  destruct (iterate_step op _ _ _ _ _ (wt_sh _ _ Hw) I) as (h & tmp & E & D & _).
  destruct (step_fields bt o _ _ _ _ Hbt (proj1 Hs) (wt_shape _ _ Hw) E) as (Pi & Ph & Pt).
  assert (Hxi1 : independent_inputs (disc st1) = xi) by (rewrite D; cbn [rk_set independent_inputs]; rewrite Pi; exact Hxi).
  destruct (IH st1 Ht Hw1 Hxi1) as (I1 & I2 & I3); rewrite D in I1, I2.
  cbn [rk_set final_state final_time step_size] in I1, I2.
  rewrite D; cbn [rk_set step_size]; rewrite Ph; rewrite Pt in I1, I2.
  split; [|split].
  - intros H tol Hf HF; pose proof (Forall_inv HF) as Hh; apply Forall_inv_tail in HF.
    destruct (step_near bt o size _ _ _ f xi X rho H tol _ _ _ Hbt Himp eq_refl eq_refl eq_refl (proj1 Hs) Hf (wt_shape _ _ Hw) Hxi Hh E) as [S1 S2].
    exists (fun i => nth i (stage_updates tmp) []), (final_state tmp); split; [exact S1|]; split; [exact S2|].
    apply (I1 H tol Hf HF).
  - rewrite I2; lra.
  - intros Hfix; rewrite (I3 Hfix).
    destruct (iterate_fixed op _ _ _ _ _ Hfix I) as (s' & E' & _ & ->); cbn [suggestion disc] in *.
    rewrite <- Ph; f_equal.
    assert (step_size s' = suggestion st)
      by (destruct (step_fields bt o _ _ _ _ Hbt (proj1 Hs) (wt_shape _ _ Hw) E') as (_ & Z & _); exact Z).
    apply (f_equal (@step_size R)) in D; cbn [rk_set step_size] in D; congruence.
Qed.

Lemma run_near c w i w' out : loops op ->
  reachable op c w -> inputs_sized o i -> independent i = xi -> compute op i w = (w', Ok out) ->
  exists a l, starts_at op i a /\ trajectory op a l /\ stops op a l /\
    log w' = (log w ++ bracketed Compute (length (o_callbacks op Compute)) 1 a l)%list /\
    let hs := map (fun x => step_size (disc x)) l in
    (forall H tol, (forall i, (i < Sg)%nat -> nearly_solves o size f xi X rho H tol (entry (t_A bt) i i)) ->
       Forall (fun h => 0 < h <= H) hs ->
       steps tol (time_initial i) (initial i) hs (final out)) /\
    time_final out = time_initial i + covered hs /\
    (o_adaptive op = false -> hs = repeat (o_step op) (length l)).
Proof.
  intros L HR Hi Hxi E.
  pose proof (reachable_wf op c w Hs HR) as Hw.
  destruct (compute_ok op i w w' out L E) as (l & c' & st' & Hc & Hl & -> & Ew).
  pose proof (wf_live _ _ (wf_prepare op i w Hi Hw)) as Ha.
  exists (live (prepare op i w)), l.
  split; [apply starts_prepare|].
  split; [eapply chain_trajectory; eauto|]; split; [eapply chain_stops; eauto|].
  split; [rewrite Ew, <- run_events_bracketed; unfold after_run; destruct (keeps op); reflexivity|].
  rewrite (chain_last op _ _ _ _ _ _ Hc).
  destruct (starts_prepare op i w) as (A1 & A2 & A3 & A4).
  pose proof (trajectory_near l _ (chain_trajectory op _ _ _ _ _ _ Hc) Ha) as G; rewrite A1, A2, A3, A4 in G.
  exact (G Hxi).
Qed.
End Runs.

Section Order.
Variables (bt : tableau R) (n : nat) (f : R -> list R -> list R) (X : box) (p : nat) (eps nu L rho t0 t1 : R) (xi : list R) (Y : R -> list R).
Hypothesis Hbt : tableau_wf bt.
Hypothesis Himp : is_implicit bt = false.
Hypothesis Hp : (0 < p)%nat.
Hypothesis Hord : order_conditions (t_stages bt) (entry (t_A bt)) (weights bt) p eps.
Hypothesis Hnu : 0 <= nu.
Hypothesis Hrow : row_conditions (t_stages bt) (entry (t_A bt)) (nodes bt) nu.
Hypothesis HL0 : 0 <= L.
Hypothesis HL : lipschitz_in n X L f.
Hypothesis Hrho : 0 < rho <= 1.
Hypothesis Ht : t0 <= t1.
Hypothesis HY : solution n f t0 t1 Y.
Hypothesis HT : forall t, t0 <= t <= t1 -> inside n X (3 * rho) t (Y t).
Hypothesis Hsm : smooth_close rho n p f t0 t1 Y.

Lemma local_order : exists K H, 1 <= K /\ 0 < H /\
  forall C (op : options R C) c w i w' out d, o_bt op = bt -> state_size (o_ode op) = n -> sized_ode (o_ode op) ->
  loops op -> reachable op c w ->
  inputs_sized (o_ode op) i -> independent i = xi -> time_initial i = t0 ->
  0 <= d -> within n d (initial i) (Y t0) ->
  compute op i w = (w', Ok out) -> time_final out <= t1 ->
  exists a l, starts_at op i a /\ trajectory op a l /\
    log w' = (log w ++ bracketed Compute (length (o_callbacks op Compute)) 1 a l)%list /\
    forall hm tol, Forall (fun x => 0 < step_size (disc x) <= hm) l -> 0 <= hm <= H -> 0 <= tol ->
    (forall k, (k < t_stages bt)%nat -> nearly_solves (o_ode op) n f xi X rho hm tol (entry (t_A bt) k k)) ->
    K * (d + hm ^ p + nu + eps + tol) <= rho ->
    within n (K * (d + hm ^ p + nu + eps + tol)) (final out) (Y (time_final out)).
Proof.
  destruct (local_steps n p f X L rho Hp HL0 HL Hrho t0 t1 Y Ht HY HT Hsm _ _ _ _ eps nu Hord Hrow Hnu) as (K & H & K0 & H0 & HK).
  exists K, H; split; [exact K0|]; split; [exact H0|].
  intros C op c w i w' out d <- <- Hs Lo HR Hi Ei Et Hd W E Htf.
  destruct (run_near op f xi X rho Hbt Himp Hs c w i w' out Lo HR Hi Ei E) as (a & l & A1 & A2 & _ & A4 & A5 & A6 & _).
  exists a, l; split; [exact A1|]; split; [exact A2|]; split; [exact A4|]; intros hm tol HF Hm Htol Hf Hsmall.
  assert (HF' : Forall (fun h => 0 < h <= hm) (map (fun x => step_size (disc x)) l)) by (clear -HF; induction HF; constructor; auto).
  specialize (A5 hm tol Hf HF'); rewrite Et in A5, A6; rewrite A6 in Htf |- *.
  apply (HK _ hm t0 (initial i) _ d tol); auto; [lra|apply Hi].
Qed.

(** [N] steps of the same size to the end. *)
Lemma local_fixed : t0 < t1 -> exists K H, 1 <= K /\ 0 < H /\
  forall C (op : options R C) c w i w' out N tol, o_bt op = bt -> state_size (o_ode op) = n -> sized_ode (o_ode op) ->
  o_adaptive op = false -> loops op ->
  (0 < N)%nat -> o_crit op = PredefinedNumberOfSteps N -> o_step op = (t1 - t0) / INR N -> o_step op <= H ->
  reachable op c w -> inputs_sized (o_ode op) i -> independent i = xi -> time_initial i = t0 -> initial i = Y t0 ->
  0 <= tol -> (forall k, (k < t_stages bt)%nat -> nearly_solves (o_ode op) n f xi X rho (o_step op) tol (entry (t_A bt) k k)) ->
  K * (o_step op ^ p + nu + eps + tol) <= rho ->
  compute op i w = (w', Ok out) ->
  time_final out = t1 /\ within n (K * (o_step op ^ p + nu + eps + tol)) (final out) (Y t1).
Proof.
  intros H01.
  destruct (local_steps n p f X L rho Hp HL0 HL Hrho t0 t1 Y Ht HY HT Hsm _ _ _ _ eps nu Hord Hrow Hnu) as (K & H & K0 & H0 & HK).
  exists K, H; split; [exact K0|]; split; [exact H0|].
  intros C op c w i w' out N tol <- <- Hs Hfix Lo HN Hcrit Hstep HH HR Hi Ei Et E0 Htol Hf Hsmall E.
  destruct (fixed_count op N c w i w' out Hs Hfix Lo Hcrit HR Hi E) as (T1 & _).
  destruct (run_near op f xi X rho Hbt Himp Hs c w i w' out Lo HR Hi Ei E) as (a & l & A1 & A2 & _ & A4 & A5 & A6 & A7).
  specialize (A7 Hfix); cbv zeta in A5, A6, A7.
  assert (HN' : 0 < INR N) by (apply lt_0_INR, HN).
  assert (Hh : 0 < o_step op) by (rewrite Hstep; apply Rdiv_lt_0_compat; lra).
  assert (Tf : time_final out = t1) by (rewrite T1, Hstep, Et; field; lra).
  split; [exact Tf|].
  assert (W0 : within (state_size (o_ode op)) 0 (initial i) (Y t0)).
  { intros m _; rewrite E0, Rminus_eq_0, Rabs_R0; lra. }
  assert (HF : Forall (fun h => 0 < h <= o_step op) (map (fun x => step_size (disc x)) l)) by (rewrite A7; apply repeat_Forall; lra).
  specialize (A5 _ tol Hf HF); rewrite Et in A5, A6.
  rewrite <- (Rplus_0_l (o_step op ^ p)), <- Tf, A6.
  apply (HK _ (o_step op) t0 (initial i) _ 0 tol); auto; [lra|lra|lra|apply Hi|lra|].
  rewrite Rplus_0_l; exact Hsmall.
Qed.
End Order.

(** The shipped tableaux. *)
Lemma shipped_local x e eh nu bt n f X L rho t0 t1 xi Y :
  In (x, (e, eh)) precision -> In (x, nu) node_precision -> shipped_init x = Ok (bt, []) ->
  0 <= L -> lipschitz_in n X L f -> 0 < rho <= 1 -> t0 < t1 -> solution n f t0 t1 Y ->
  (forall t, t0 <= t <= t1 -> inside n X (3 * rho) t (Y t)) ->
  smooth_close rho n (s_p x) f t0 t1 Y ->
  exists K H, 1 <= K /\ 0 < H /\
  forall C (op : options R C) c w i w' out N tol, o_bt op = bt -> state_size (o_ode op) = n -> sized_ode (o_ode op) ->
  o_adaptive op = false -> loops op ->
  (0 < N)%nat -> o_crit op = PredefinedNumberOfSteps N -> o_step op = (t1 - t0) / INR N -> o_step op <= H ->
  reachable op c w -> inputs_sized (o_ode op) i -> independent i = xi -> time_initial i = t0 -> initial i = Y t0 ->
  0 <= tol -> (forall k, (k < t_stages bt)%nat -> nearly_solves (o_ode op) n f xi X rho (o_step op) tol (entry (t_A bt) k k)) ->
  K * (o_step op ^ s_p x + Q2R nu + Q2R e + tol) <= rho ->
  compute op i w = (w', Ok out) ->
  time_final out = t1 /\ within n (K * (o_step op ^ s_p x + Q2R nu + Q2R e + tol)) (final out) (Y t1).
Proof.
  intros Hx Hn Hi HL0 HL Hrho Ht HY HT Hsm.
  destruct (shipped_constructed x e eh Hx) as (bt' & E & W & Hst & Himp & Hp & _).
  rewrite Hi in E; injection E as <-.
  destruct (shipped_order x e eh bt [] Hx Hi) as [Ho _].
  destruct (shipped_rows x e eh nu bt [] Hx Hn Hi) as [Hnu Hr].
  assert (Pp : (0 < s_p x)%nat).
  { pose proof shipped_complete as G.
    assert (J : In x all_tableaux) by (rewrite <- G; apply in_map_iff; exists (x, (e, eh)); auto).
    revert J; clear; unfold all_tableaux; cbn; intuition (subst; cbn; lia). }
  apply (local_fixed bt n f X (s_p x) (Q2R e) (Q2R nu) L rho t0 t1 xi Y); auto; lra.
Qed.
