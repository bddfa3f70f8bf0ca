(** Convergence of forward and reverse products. *)
From Coq Require Import List Reals Lia Lra Bool Arith QArith Qreals.
From Verif Require Import Base Ext M_Tableau M_State M_ODE M_Step M_Controller M_Measure M_Integrator M_Tableaux M_TableauxInit
  SpecRK SpecDeriv SpecShape SpecRun SpecRevolve SpecTree SpecOrder SpecNodes SpecConvergence SpecSmooth SpecLocal SpecSensitivity
  L_Vec L_Step L_Tableau L_StepProps L_Iter L_Run L_Log L_RunProps L_Whole L_WholeR L_Adjoint L_Generic L_Convergence L_RunConvergence L_Order L_Rows L_Series L_OrderConv L_RunOrder
  L_Local L_Local2 L_Local3 L_Kaps4 L_Sensitivity.
Import ListNotations.
Open Scope nat_scope.
Open Scope R_scope.
Local Open Scope list_scope.

Section Runs.
Context {C : Type}.
Variable op : options R C.
Notation bt := (o_bt op).
Notation o := (o_ode op).
Notation n := (state_size o).
Notation Sg := (t_stages bt).
Variables (f : R -> list R -> list R) (g : R -> list R -> list R -> list R) (xi : list R) (dt : R) (dxi : list R) (X : box) (rho : R).
Hypothesis Hbt : tableau_wf bt.
Hypothesis Himp : is_implicit bt = false.
Hypothesis Hs : sized_ode o.
Notation steps := (near_steps Sg (n + n) (entry (t_A bt)) (weights bt) (nodes bt) (paired n f g) X rho).

Lemma sweep_near l : forall st p p', trajectory op st l -> wf_ti op st -> independent_inputs (disc st) = xi ->
  derivative_sweep op l p = Ok p' -> shaped Sg n (independent_input_size o) (independent_output_size o) (linearization_point_size o) (disc p) -> independent_inputs (disc p) = dxi -> final_time (disc p) = dt ->
  let hs := map (fun x => step_size (disc x)) l in
  let st' := last l st in
  (forall H tol, (forall i, (i < Sg)%nat -> nearly_differentiates o n f g xi dt dxi X rho H tol (entry (t_A bt) i i)) ->
     Forall (fun h => 0 < h <= H) hs ->
     steps tol (final_time (disc st)) (final_state (disc st) ++ final_state (disc p)) hs (final_state (disc st') ++ final_state (disc p'))) /\
  shaped Sg n (independent_input_size o) (independent_output_size o) (linearization_point_size o) (disc p') /\ final_time (disc p') = dt.
Proof.
  induction l as [|st1 l IH]; intros st p p' Ht Hw Hxi Hd Hp Hdxi Hdt; cbv zeta.
  { cbn in *. injection Hd as <-. auto. }
  rewrite last_cons; cbn [map near_steps].
  destruct Ht as [(c & c1 & I) Ht].
  pose proof (iterate_wf op (proj1 Hs) _ _ _ _ _ _ Hw I) as Hw1.
  destruct (step_size_hist op (proj1 Hs) st st1 Hw (ex_intro _ c (ex_intro _ c1 I))) as [_ Sh].
  destruct (iterate_step op _ _ _ _ _ (wt_sh _ _ Hw) I) as (h & tmp & E & D & _).
  destruct (step_fields bt o _ _ _ _ Hbt (proj1 Hs) (wt_shape _ _ Hw) E) as (Pi & Ph & Pt).
  assert (Hxi1 : independent_inputs (disc st1) = xi) by (rewrite D; cbn [rk_set independent_inputs]; rewrite Pi; exact Hxi).
  cbn [derivative_sweep] in Hd. unfold derivative_step in Hd. change (@n0 R _) with 0 in Hd. change (@n0 R _) with 0 in Sh. rewrite Sh in Hd.
  assert (Sz : step_size (disc st1) = h) by (rewrite D; exact Ph). rewrite Sz in Hd.
  destruct (compute_step_derivative bt o (disc st1) (disc p) h) as [v|] eqn:Ed; cbn [bind] in Hd; [|discriminate].
  pose proof (wt_shape _ _ Hw1) as W1.
  pose proof (compute_step_derivative_facts bt o n _ _ _ Hbt eq_refl eq_refl (proj1 (proj2 Hs)) (disc st1) (disc p) h v Hp
    ltac:(apply W1) ltac:(apply W1) Ed) as [[Dshape _ Dp _ _] _ Dtime].
  set (p1 := w_disc (rk_set (disc p) v) p) in *.
  assert (Hp1 : shaped Sg n (independent_input_size o) (independent_output_size o) (linearization_point_size o) (disc p1)) by (destruct Dshape; constructor; cbn; auto).
  assert (Hdxi1 : independent_inputs (disc p1) = dxi) by (cbn; rewrite Dp; exact Hdxi).
  assert (Hdt1 : final_time (disc p1) = dt) by (cbn; rewrite Dtime; exact Hdt).
  destruct (IH st1 p1 p' Ht Hw1 Hxi1 Hd Hp1 Hdxi1 Hdt1) as (I1 & I2 & I3).
  split; [|split; [exact I2|exact I3]].
  intros H tol Hf HF; pose proof (Forall_inv HF) as Hh; apply Forall_inv_tail in HF. rewrite Sz in Hh |- *.
  destruct (pair_step bt o n (independent_input_size o) _ _ f g xi dt dxi X rho H tol Hbt Himp eq_refl eq_refl eq_refl (proj1 Hs) (proj1 (proj2 Hs)) Hf
    (disc st) tmp (disc st1) (disc p) v h (wt_shape _ _ Hw) Hxi E ltac:(rewrite D; reflexivity) ltac:(rewrite D; reflexivity) Hp Hdxi Hdt Hh Ed) as [S1 S2].
  exists (fun i => nth i (stage_updates tmp) [] ++ nth i (stage_updates v) []), (final_state tmp ++ final_state v).
  split; [exact S1|]; split; [exact S2|].
  specialize (I1 H tol Hf HF). rewrite D in I1. cbn [p1 w_disc disc rk_set final_state final_time] in I1. rewrite Pt in I1. exact I1.
Qed.

Lemma fwd_near c w i d w' out : reachable op c w -> inputs_sized o i -> inputs_sized o d ->
  independent i = xi -> independent d = dxi -> time_initial d = dt -> compute_jacvec_product_fwd op i d w = (w', Ok out) ->
  exists a l, starts_at op i a /\ trajectory op a l /\ stops op a l /\
    log w' = (log w ++ bracketed Fwd (length (o_callbacks op Fwd)) 1 a l)%list /\
    let hs := map (fun x => step_size (disc x)) l in
    (forall H tol, (forall i, (i < Sg)%nat -> nearly_differentiates o n f g xi dt dxi X rho H tol (entry (t_A bt) i i)) ->
       Forall (fun h => 0 < h <= H) hs ->
       steps tol (time_initial i) (initial i ++ initial d) hs (final_state (disc (last l a)) ++ final out)) /\
    final_time (disc (last l a)) = time_initial i + covered hs /\ length (final_state (disc (last l a))) = n /\ time_final out = dt /\
    (o_adaptive op = false -> hs = repeat (o_step op) (length l)).
Proof.
  intros HR Hi Hd Hxi Hdxi Hdt E.
  pose proof (reachable_wf op c w Hs HR) as Hw.
  destruct (fwd_ok op i d w w' out E) as (l & c' & st' & p' & Hc & Hl & Hp & -> & Ew).
  pose proof (wf_prepare_fwd op i d w Hi Hd Hw) as Wp.
  pose proof (wf_live _ _ Wp) as Ha.
  exists (live (prepare_fwd op i d w)), l.
  split; [apply starts_prepare_fwd|].
  split; [eapply chain_trajectory; eauto|]; split; [eapply chain_stops; eauto|].
  split; [rewrite Ew, <- run_events_bracketed; reflexivity|].
  destruct (starts_prepare_fwd op i d w) as (A1 & A2 & A3 & A4).
  destruct (sweep_near l _ _ _ (chain_trajectory op _ _ _ _ _ _ Hc) Ha (eq_trans A3 Hxi) Hp) as (S1 & S2 & S3); try assumption.
  { apply (wf_pert _ _ Wp). }
  destruct (trajectory_near op f xi X rho Hbt Himp Hs l _ (chain_trajectory op _ _ _ _ _ _ Hc) Ha (eq_trans A3 Hxi)) as (_ & T2 & T3).
  cbv zeta. rewrite A1, A2 in S1. rewrite A1 in T2. rewrite A4 in T3.
  split; [exact S1|]. split; [exact T2|]. split; [|split; [exact S3|exact T3]].
  assert (W : wf_ti op (last l (live (prepare_fwd op i d w)))).
  { rewrite <- (chain_last op _ _ _ _ _ _ Hc). pose proof (chain_wf op (proj1 Hs) _ _ _ _ _ _ Hc Ha) as F.
    apply F || (apply (proj2 F)). }
  apply (wt_shape _ _ W).
Qed.
End Runs.

Lemma right_half n m (y d : list R) : length y = n -> vnth (n + m) (y ++ d) = vnth m d.
Proof. intros <-. apply vnth_right. Qed.
Lemma within_split n r (a b y d : list R) : length a = n -> length y = n -> within (n + n) r (a ++ b) (y ++ d) -> within n r a y /\ within n r b d.
Proof.
  intros La Ly W. split; intros m Hm.
  - pose proof (W m ltac:(lia)) as Wm. rewrite !vnth_left in Wm by lia. exact Wm.
  - pose proof (W (n + m)%nat ltac:(lia)) as Wm. rewrite (right_half n _ a b La), (right_half n _ y d Ly) in Wm. exact Wm.
Qed.
Lemma within_join n r (a b y d : list R) : length a = n -> length y = n -> within n r a y -> within n r b d -> within (n + n) r (a ++ b) (y ++ d).
Proof.
  intros La Ly W1 W2 m Hm. destruct (Nat.lt_ge_cases m n) as [Hl|Hg].
  - rewrite !vnth_left by lia. auto.
  - replace m with (n + (m - n))%nat by lia.
    rewrite (right_half n _ a b La), (right_half n _ y d Ly). apply W2. lia.
Qed.

Section Order.
Variables (bt : tableau R) (n : nat) (f : R -> list R -> list R) (g : R -> list R -> list R -> list R) (X : box) (p : nat)
  (eps nu L rho t0 t1 : R) (xi : list R) (dt : R) (dxi : list R) (Y D : R -> list R).
Hypothesis Hbt : tableau_wf bt.
Hypothesis Himp : is_implicit bt = false.
Hypothesis Hp : (0 < p)%nat.
Hypothesis Hord : order_conditions (t_stages bt) (entry (t_A bt)) (weights bt) p eps.
Hypothesis Hnu : 0 <= nu.
Hypothesis Hrow : row_conditions (t_stages bt) (entry (t_A bt)) (nodes bt) nu.
Hypothesis HL0 : 0 <= L.
Hypothesis HL : lipschitz_in (n + n) X L (paired n f g).
Hypothesis Hrho : 0 < rho <= 1.
Hypothesis Ht : t0 <= t1.
Hypothesis HlY : forall t, length (Y t) = n.
Hypothesis HY : solution (n + n) (paired n f g) t0 t1 (fun t => Y t ++ D t).
Hypothesis HT : forall t, t0 <= t <= t1 -> inside (n + n) X (3 * rho) t (Y t ++ D t).
Hypothesis Hsm : smooth_close rho (n + n) p (paired n f g) t0 t1 (fun t => Y t ++ D t).

Lemma sensitivity_order : exists K H, 1 <= K /\ 0 < H /\
  forall C (op : options R C) c w i d w' out e, o_bt op = bt -> state_size (o_ode op) = n -> sized_ode (o_ode op) ->
  reachable op c w ->
  inputs_sized (o_ode op) i -> independent i = xi -> time_initial i = t0 ->
  inputs_sized (o_ode op) d -> independent d = dxi -> time_initial d = dt ->
  0 <= e -> within n e (initial i) (Y t0) -> within n e (initial d) (D t0) ->
  compute_jacvec_product_fwd op i d w = (w', Ok out) ->
  exists a l, starts_at op i a /\ trajectory op a l /\
    log w' = (log w ++ bracketed Fwd (length (o_callbacks op Fwd)) 1 a l)%list /\ time_final out = dt /\
    forall hm tol, final_time (disc (last l a)) <= t1 ->
    Forall (fun x => 0 < step_size (disc x) <= hm) l -> 0 <= hm <= H -> 0 <= tol ->
    (forall k, (k < t_stages bt)%nat -> nearly_differentiates (o_ode op) n f g xi dt dxi X rho hm tol (entry (t_A bt) k k)) ->
    K * (e + hm ^ p + nu + eps + tol) <= rho ->
    within n (K * (e + hm ^ p + nu + eps + tol)) (final out) (D (final_time (disc (last l a)))).
Proof.
  destruct (local_steps (n + n) p (paired n f g) X L rho Hp HL0 HL Hrho t0 t1 _ Ht HY HT Hsm _ _ _ _ eps nu Hord Hrow Hnu) as (K & H & K0 & H0 & HK).
  exists K, H; split; [exact K0|]; split; [exact H0|].
  intros C op c w i d w' out e <- <- Hs HR Hi Ei Et Hd Ed Etd He W1 W2 E.
  destruct (fwd_near op f g xi dt dxi X rho Hbt Himp Hs c w i d w' out HR Hi Hd Ei Ed Etd E) as (a & l & A1 & A2 & _ & A4 & A5 & A6 & A7 & A8 & _).
  exists a, l; split; [exact A1|]; split; [exact A2|]; split; [exact A4|]; split; [exact A8|]; intros hm tol Htf HF Hm Htol Hf Hsmall.
  assert (HF' : Forall (fun h => 0 < h <= hm) (map (fun x => step_size (disc x)) l)) by (clear -HF; induction HF; constructor; auto).
  specialize (A5 hm tol Hf HF'); rewrite Et in A5, A6; rewrite A6 in Htf |- *.
  assert (Li : length (initial i) = state_size (o_ode op)) by apply Hi.
  refine (proj2 (within_split _ _ _ _ _ _ A7 (HlY _) _)).
  apply (HK _ hm t0 (initial i ++ initial d) _ e tol); auto; [lra| |].
  - rewrite app_length. f_equal; [exact Li|apply Hd].
  - now apply within_join.
Qed.

Lemma sensitivity_fixed : t0 < t1 -> exists K H, 1 <= K /\ 0 < H /\
  forall C (op : options R C) c w i d w' out N tol, o_bt op = bt -> state_size (o_ode op) = n -> sized_ode (o_ode op) ->
  o_adaptive op = false ->
  (0 < N)%nat -> o_crit op = PredefinedNumberOfSteps N -> o_step op = (t1 - t0) / INR N -> o_step op <= H ->
  reachable op c w ->
  inputs_sized (o_ode op) i -> independent i = xi -> time_initial i = t0 -> initial i = Y t0 ->
  inputs_sized (o_ode op) d -> independent d = dxi -> time_initial d = dt -> initial d = D t0 ->
  0 <= tol ->
  (forall k, (k < t_stages bt)%nat -> nearly_differentiates (o_ode op) n f g xi dt dxi X rho (o_step op) tol (entry (t_A bt) k k)) ->
  K * (o_step op ^ p + nu + eps + tol) <= rho ->
  compute_jacvec_product_fwd op i d w = (w', Ok out) ->
  time_final out = dt /\ within n (K * (o_step op ^ p + nu + eps + tol)) (final out) (D t1).
Proof.
  intros H01.
  destruct (local_steps (n + n) p (paired n f g) X L rho Hp HL0 HL Hrho t0 t1 _ Ht HY HT Hsm _ _ _ _ eps nu Hord Hrow Hnu) as (K & H & K0 & H0 & HK).
  exists K, H; split; [exact K0|]; split; [exact H0|].
  intros C op c w i d w' out N tol <- <- Hs Hfix HN Hcrit Hstep HH HR Hi Ei Et E0 Hd Ed Etd Ed0 Htol Hf Hsmall E.
  destruct (fwd_near op f g xi dt dxi X rho Hbt Himp Hs c w i d w' out HR Hi Hd Ei Ed Etd E) as (a & l & A1 & A2 & A3 & A4 & A5 & A6 & A7 & A8 & A9).
  specialize (A9 Hfix); cbv zeta in A5, A6, A9.
  assert (Ln : length l = N).
  { destruct A3 as [S1 S2]. rewrite Hcrit in S1, S2. cbn [is_iteration_finished] in S1, S2. apply Nat.leb_le in S1.
    destruct (Nat.lt_ge_cases N (length l)) as [Lt|]; [|lia]. specialize (S2 N Lt). apply Nat.leb_gt in S2. lia. }
  assert (HN' : 0 < INR N) by (apply lt_0_INR, HN).
  assert (Hh : 0 < o_step op) by (rewrite Hstep; apply Rdiv_lt_0_compat; lra).
  assert (Tf : t0 + covered (map (fun x => step_size (disc x)) l) = t1) by (rewrite A9, covered_repeat, Ln, Hstep; field; lra).
  split; [exact A8|].
  assert (HF : Forall (fun h => 0 < h <= o_step op) (map (fun x => step_size (disc x)) l)) by (rewrite A9; apply repeat_Forall; lra).
  specialize (A5 _ tol Hf HF); rewrite Et, E0, Ed0 in A5.
  assert (LD : length (D t0) = state_size (o_ode op)) by (rewrite <- Ed0; apply Hd).
  refine (proj2 (within_split _ _ _ _ _ _ A7 (HlY _) _)).
  rewrite <- (Rplus_0_l (o_step op ^ p)), <- Tf.
  apply (HK _ (o_step op) t0 (Y t0 ++ D t0) _ 0 tol); auto; [lra|lra|lra| |lra| |].
  - rewrite app_length, HlY, LD. reflexivity.
  - intros m _; rewrite Rminus_eq_0, Rabs_R0; lra.
  - rewrite Rplus_0_l; exact Hsmall.
Qed.
End Order.
