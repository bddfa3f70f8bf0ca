(** Runs in arithmetic with rounding errors. *)
From Coq Require Import List Reals Lia Lra Psatz Bool Arith.
From Verif Require Import Base Ext M_Tableau M_State M_ODE M_Step M_Controller M_Measure M_Integrator
  SpecRK SpecShape SpecRun SpecTree SpecOrder SpecConvergence SpecSmooth SpecLocal SpecFloating
  L_Vec L_Step L_Iter L_Run L_Log L_RunProps L_Convergence L_Series L_OrderConv L_Local L_Local2 L_StepT L_Floating L_Floating2 L_Floating3.
Import ListNotations.
Open Scope R_scope.

Lemma step_fieldsT {T} {N : Num T} (bt : tableau T) (o : ode T) ni s h s' :
  result_sizes o ->
  shaped (t_stages bt) (state_size o) ni (independent_output_size o) (linearization_point_size o) s ->
  compute_step bt o s h = Ok s' ->
  independent_inputs s' = independent_inputs s /\ step_size s' = h.
Proof.
  intros Hsz Hs H.
  pose proof (compute_step_facts bt o _ ni _ _ eq_refl eq_refl eq_refl Hsz s h s' Hs H) as F.
  destruct F as [[Hshape Hy Hp Ht Hh Htimes Hstage] Ffin Ftime _ _]; auto.
Qed.
Lemma exp_ge x : 0 <= x -> 1 + x <= exp x.
Proof. intros H; destruct (Req_dec x 0) as [->|Hne]; [rewrite exp_0; lra|left; apply exp_ineq1; lra]. Qed.

Section RoundedRun.
Variables (n p : nat) (f : R -> list R -> list R) (X : box) (L rho : R).
Hypothesis Hp : (0 < p)%nat.
Hypothesis HL0 : 0 <= L.
Hypothesis HL : lipschitz_in n X L f.
Hypothesis Hrho : 0 < rho <= 1.
Variables (t0 t1 : R) (Y : R -> list R).
Hypothesis Ht : t0 <= t1.
Hypothesis HY : solution n f t0 t1 Y.
Hypothesis HT : forall t, t0 <= t <= t1 -> inside n X (3 * rho) t (Y t).
Hypothesis Hsm : smooth_close rho n p f t0 t1 Y.
Variables (s : nat) (a : nat -> nat -> R) (b c : nat -> R) (eps nu : R).
Hypothesis Hord : order_conditions s a b p eps.
Hypothesis Hrow : row_conditions s a c nu.
Hypothesis Hnu : 0 <= nu.
Hypothesis Hup : forall i j, (i < j < s)%nat -> a i j = 0.

Definition sizes {T} (value : T -> R) (l : list (tistate T)) : list R := map (fun x => value (step_size (disc x))) l.

Lemma rounded_trajectory : exists K H, 1 <= K /\ 0 < H /\
  forall T (N : Num T) value regular u big, rounded N value regular u big -> 0 <= u <= 1 -> K <= big ->
  forall A (op : options T A) xi, tableau_wf (o_bt op) -> holds_values value regular u (o_bt op) s a b c ->
  state_size (o_ode op) = n -> sized_ode (o_ode op) ->
  forall l st e tol hm hmin, trajectory op st l -> wf_ti op st -> independent_inputs (disc st) = xi ->
  Forall regular (final_state (disc st)) -> regular (final_time (disc st)) -> value (final_time (disc st)) = t0 ->
  Forall (fun x => regular (step_size (disc x)) /\ hmin <= value (step_size (disc x)) <= hm) l ->
  0 < hmin <= hm -> hm <= H -> t0 + covered (sizes value l) <= t1 ->
  0 <= e -> within n e (map value (final_state (disc st))) (Y t0) -> 0 <= tol ->
  (forall k, (k < s)%nat -> nearly_solves_rounded value regular (o_ode op) n f xi X rho hm tol (entry (t_A (o_bt op)) k k)) ->
  K * (e + hm ^ p + nu + eps + tol + u / hmin) <= rho ->
  let st' := last l st in
  Forall regular (final_state (disc st')) /\ regular (final_time (disc st')) /\
  Rabs (value (final_time (disc st')) - (t0 + covered (sizes value l))) <= K * (u / hmin) /\
  within n (K * (e + hm ^ p + nu + eps + tol + u / hmin)) (map value (final_state (disc st'))) (Y (t0 + covered (sizes value l))).
Proof.
  destruct (rounded_step n p f X L rho Hp HL0 HL Hrho t0 t1 Y Ht HY HT Hsm s a b c eps nu Hord Hrow Hnu Hup)
    as (C & H & E & C0 & HH & HE & HC).
  set (TT := t1 - t0).
  assert (PT : 0 <= TT) by (unfold TT; lra).
  assert (PCT : 0 <= C * TT) by (apply Rmult_le_pos; assumption).
  assert (PTE : 0 <= TT * E) by (apply Rmult_le_pos; lra).
  assert (X1 : 1 <= exp (C * TT)) by (pose proof (exp_ge _ PCT); lra).
  (* the constant *)
  set (G0 := C * (1 + (TT + 2) * E) + E).
  assert (PG0 : 0 <= G0).
  { unfold G0; apply Rplus_le_le_0_compat; [|lra]; apply Rmult_le_pos; [exact C0|].
    assert (0 <= (TT + 2) * E) by (apply Rmult_le_pos; lra); lra. }
  set (K := (1 + TT * G0) * exp (C * TT) + 2 * ((TT + 1) * E)).
  assert (PTG : 0 <= TT * G0) by (apply Rmult_le_pos; assumption).
  assert (K1 : 1 <= (1 + TT * G0) * exp (C * TT)).
  { replace 1 with (1 * 1) at 1 by ring; apply Rmult_le_compat; lra. }
  assert (K2 : 0 <= (TT + 1) * E) by (apply Rmult_le_pos; lra).
  assert (Pe : 0 <= eps).
  { eapply Rle_trans; [apply Rabs_pos|apply (Hord (Node [])); cbn; lia]. }
  exists K, H; split; [unfold K; lra|]; split; [lra|].
  intros T N value regular u big Hr Hu HB A op xi Hbt Hv Hn Hsz.
  assert (KE : E <= K) by (unfold K; lra).
  (* induction over the steps *)
  assert (Main : forall l st t e tol hm hmin q, trajectory op st l -> wf_ti op st -> independent_inputs (disc st) = xi ->
    Forall regular (final_state (disc st)) -> regular (final_time (disc st)) ->
    Forall (fun x => regular (step_size (disc x)) /\ hmin <= value (step_size (disc x)) <= hm) l ->
    0 < hmin -> hm <= H -> u * E = q * hmin -> 0 <= q -> (TT + 1) * q <= rho / 2 ->
    t0 <= t -> t + covered (sizes value l) <= t1 ->
    Rabs (value (final_time (disc st)) - t) <= (t - t0) * q ->
    0 <= e -> within n e (map value (final_state (disc st))) (Y t) -> 0 <= tol <= 1 ->
    (forall k, (k < s)%nat -> nearly_solves_rounded value regular (o_ode op) n f xi X rho hm tol (entry (t_A (o_bt op)) k k)) ->
    let G := C * (Rabs hm ^ p + nu + eps + tol + (TT + 2) * q) + q in
    let cov := covered (sizes value l) in
    (e + cov * G) * exp (C * cov) <= rho ->
    let st' := last l st in
    0 <= cov /\
    Forall regular (final_state (disc st')) /\ regular (final_time (disc st')) /\
    Rabs (value (final_time (disc st')) - (t + cov)) <= (t + cov - t0) * q /\
    within n ((e + cov * G) * exp (C * cov)) (map value (final_state (disc st'))) (Y (t + cov))).
  { induction l as [|st1 l IH]; intros st t e tol hm hmin q Htr Hw Hxi Rf Rt HF Hmin Hm Eq Hq Hsm' Q0 Q1 Hdr He W Htol Hsol G cov Hr' st'.
    { subst st' cov; cbn in *; rewrite Rmult_0_l, Rmult_0_r, exp_0, !Rplus_0_r, Rmult_1_r; repeat split; auto; lra. }
    subst st'; rewrite last_cons.
    destruct Htr as [(c0 & c1 & I) Htr].
    pose proof (iterate_wf op (proj1 Hsz) _ _ _ _ _ _ Hw I) as Hw1.
    destruct (iterate_step op _ _ _ _ _ (wt_sh _ _ Hw) I) as (h & tmp & Es & Dd & _).
    destruct (step_fieldsT (o_bt op) (o_ode op) _ _ _ _ (proj1 Hsz) (wt_shape _ _ Hw) Es) as (Pi & Ph).
    pose proof (Forall_inv HF) as [Rh Hh]; apply Forall_inv_tail in HF.
    rewrite Dd in Rh, Hh; cbn [rk_set step_size] in Rh, Hh; rewrite Ph in Rh, Hh.
    unfold cov, sizes in *; cbn [map covered] in *; fold (sizes value l) in *.
    rewrite Dd in Q1, Hr' |- *; cbn [rk_set step_size] in Q1, Hr' |- *; rewrite Ph in Q1, Hr' |- *.
    set (S0 := covered (sizes value l)) in *.
    assert (HS0 : 0 <= S0).
    { unfold S0; clear -HF Hmin; induction HF as [|x l [_ Hx] HF IHF]; cbn; unfold sizes in *; cbn; lra. }
    assert (HhH : value h <= 1) by lra.
    assert (uE : u * E <= value h * q) by (rewrite Eq, (Rmult_comm q); apply Rmult_le_compat_r; lra).
    assert (uE0 : 0 <= u * E) by (apply Rmult_le_pos; lra).
    assert (hq : value h * q <= 1 * q) by (apply Rmult_le_compat_r; lra).
    assert (Dq : (t - t0) * q <= TT * q) by (apply Rmult_le_compat_r; unfold TT; lra).
    assert (D0 : 0 <= (t - t0) * q) by (apply Rmult_le_pos; lra).
    assert (PG : 0 <= G).
    { unfold G; apply Rplus_le_le_0_compat; [|exact Hq]; apply Rmult_le_pos; [exact C0|].
      assert (0 <= Rabs hm ^ p) by (apply pow_le, Rabs_pos).
      assert (0 <= (TT + 2) * q) by (apply Rmult_le_pos; lra); lra. }
    assert (PC : 0 <= C * value h) by (apply Rmult_le_pos; lra).
    assert (PhG : 0 <= value h * G) by (apply Rmult_le_pos; lra).
    assert (He' : 0 <= (1 + C * value h) * e + value h * G) by (apply Rplus_le_le_0_compat; [apply Rmult_le_pos|]; lra).
    assert (HS : 0 <= S0 * G) by (apply Rmult_le_pos; lra).
    pose proof (exp_ge _ PC) as E1.
    assert (E3 : 1 <= exp (C * S0)).
    { assert (0 <= C * S0) by (apply Rmult_le_pos; lra); pose proof (exp_ge (C * S0)); lra. }
    assert (Grow : ((1 + C * value h) * e + value h * G + S0 * G) * exp (C * S0) <= (e + (value h + S0) * G) * exp (C * (value h + S0))).
    { replace (C * (value h + S0)) with (C * value h + C * S0) by ring; rewrite exp_plus.
      rewrite <- (Rmult_assoc _ (exp (C * value h))).
      apply Rmult_le_compat_r; [left; apply exp_pos|].
      replace ((e + (value h + S0) * G) * exp (C * value h)) with (exp (C * value h) * e + exp (C * value h) * (value h * G) + exp (C * value h) * (S0 * G)) by ring.
      assert ((1 + C * value h) * e <= exp (C * value h) * e) by (apply Rmult_le_compat_r; assumption).
      assert (1 * (value h * G) <= exp (C * value h) * (value h * G)) by (apply Rmult_le_compat_r; lra).
      assert (1 * (S0 * G) <= exp (C * value h) * (S0 * G)) by (apply Rmult_le_compat_r; lra).
      lra. }
    assert (Ee : e <= rho).
    { eapply Rle_trans; [|exact Hr']; eapply Rle_trans; [|exact Grow].
      assert (0 <= C * value h * e) by (apply Rmult_le_pos; assumption).
      rewrite <- (Rmult_1_r e) at 1; apply Rmult_le_compat; lra. }
    destruct (HC T N value regular u big Hr Hu ltac:(lra) (o_bt op) (o_ode op) (independent_input_size (o_ode op)) xi Hbt Hv Hn (proj1 Hsz)
      (disc st) h tmp t e tol hm ((t - t0) * q)) as (R1 & R2 & R3 & R4); auto; try lra.
    { rewrite <- Hn; apply (wt_shape _ _ Hw). }
    assert (Hxi1 : independent_inputs (disc st1) = xi) by (rewrite Dd; cbn [rk_set independent_inputs]; rewrite Pi; exact Hxi).
    destruct (IH st1 (t + value h) ((1 + C * value h) * e + value h * G) tol hm hmin q) as (_ & J2 & J3 & J4 & J5); auto; try lra.
    { rewrite Dd; exact R1. }
    { rewrite Dd; exact R2. }
    { rewrite Dd; cbn [rk_set final_time]; eapply Rle_trans; [exact R3|].
      replace ((t + value h - t0) * q) with ((t - t0) * q + value h * q) by ring; lra. }
    { rewrite Dd; cbn [rk_set final_state]; eapply within_weaken; [|exact R4].
      replace ((1 + C * value h) * e + value h * G) with
        (e + value h * (C * (Rabs hm ^ p + e + nu + eps + tol + (TT + 2) * q)) + value h * q) by (unfold G; ring).
      apply Rplus_le_compat; [|exact uE]; apply Rplus_le_compat_l, Rmult_le_compat_l; [lra|]; apply Rmult_le_compat_l; [exact C0|].
      assert (value h ^ p <= Rabs hm ^ p) by (apply pow_incr; rewrite Rabs_pos_eq; lra).
      replace ((TT + 2) * q) with (TT * q + q + q) by ring; lra. }
    { fold S0; eapply Rle_trans; [exact Grow|exact Hr']. }
    fold S0 in J4, J5.
    replace (t + (value h + S0)) with (t + value h + S0) by ring.
    split; [lra|]; split; [exact J2|]; split; [exact J3|]; split; [exact J4|].
    eapply within_weaken; [exact Grow|exact J5]. }
  intros l st e tol hm hmin Htr Hw Hxi Rf Rt E0 HF Hmin Hm Q1 He W Htol Hsol Hsmall st'.
  assert (Hhm : 0 <= hm) by lra; destruct Hmin as [Hmin Hmm].
  set (v := u / hmin) in *.
  assert (Pv : 0 <= v) by (unfold v; apply Rmult_le_pos; [lra|left; apply Rinv_0_lt_compat, Hmin]).
  pose proof (pow_le hm p Hhm) as Php.
  assert (S1 : e + hm ^ p + nu + eps + tol + v <= K * (e + hm ^ p + nu + eps + tol + v)).
  { rewrite <- (Rmult_1_l (e + hm ^ p + nu + eps + tol + v)) at 1; apply Rmult_le_compat_r; [lra|unfold K; lra]. }
  set (cov := covered (sizes value l)) in *.
  assert (Pcov : 0 <= cov).
  { unfold cov; clear -HF Hmin; induction HF as [|x l [_ Hx] HF IHF]; cbn; unfold sizes in *; cbn; lra. }
  set (q := E * v).
  assert (Pq : 0 <= q) by (apply Rmult_le_pos; lra).
  set (G := C * (Rabs hm ^ p + nu + eps + tol + (TT + 2) * q) + q).
  set (err := e + hm ^ p + nu + eps + tol + v) in *.
  assert (Perr : 0 <= err) by (unfold err; lra).
  assert (HG : 0 <= G <= G0 * err).
  { unfold G, G0; rewrite (Rabs_pos_eq hm Hhm).
    assert (Z1 : 0 <= (TT + 2) * q) by (apply Rmult_le_pos; lra).
    split; [apply Rplus_le_le_0_compat; [apply Rmult_le_pos|]; lra|].
    replace ((C * (1 + (TT + 2) * E) + E) * err) with (C * (err + (TT + 2) * E * err) + E * err) by ring; apply Rplus_le_compat.
    - apply Rmult_le_compat_l; [exact C0|].
      apply Rplus_le_compat; [unfold err; lra|].
      unfold q; rewrite <- Rmult_assoc; apply Rmult_le_compat_l; [apply Rmult_le_pos; lra|unfold err; lra].
    - unfold q; apply Rmult_le_compat_l; [lra|unfold err; lra]. }
  assert (Fin : (e + cov * G) * exp (C * cov) <= K * err).
  { apply Rle_trans with ((1 + TT * G0) * exp (C * TT) * err).
    - replace ((1 + TT * G0) * exp (C * TT) * err) with ((1 + TT * G0) * err * exp (C * TT)) by ring.
      apply Rmult_le_compat; [|left; apply exp_pos| |].
      + apply Rplus_le_le_0_compat; [lra|apply Rmult_le_pos; lra].
      + rewrite Rmult_plus_distr_r, Rmult_1_l; apply Rplus_le_compat; [unfold err; lra|].
        rewrite Rmult_assoc; apply Rmult_le_compat; [lra|lra|unfold TT; lra|lra].
      + assert (C * cov <= C * TT) by (apply Rmult_le_compat_l; [lra|unfold TT; lra]).
        destruct (Req_dec (C * cov) (C * TT)) as [->|Hne]; [lra|left; apply exp_increasing; lra].
    - apply Rmult_le_compat_r; [exact Perr|unfold K; lra]. }
  assert (Hq2 : 2 * ((TT + 1) * q) <= K * v).
  { unfold q; replace (2 * ((TT + 1) * (E * v))) with (2 * ((TT + 1) * E) * v) by ring; apply Rmult_le_compat_r; [exact Pv|unfold K; lra]. }
  assert (Hv2 : K * v <= K * err) by (apply Rmult_le_compat_l; [unfold K; lra|unfold err; lra]).
  destruct (Main l st t0 e tol hm hmin q) as (_ & J2 & J3 & J4 & J5); auto; try lra.
  { unfold q, v; field; lra. }
  { rewrite E0, !Rminus_eq_0, Rabs_R0; lra. }
  { assert (tol <= err) by (unfold err; lra); lra. }
  { fold cov G; lra. }
  fold cov G in J4, J5; fold st' in J2, J3, J4, J5.
  split; [exact J2|]; split; [exact J3|]; split.
  - eapply Rle_trans; [exact J4|].
    assert ((t0 + cov - t0) * q <= TT * q) by (apply Rmult_le_compat_r; [exact Pq|unfold TT; lra]).
    assert (0 <= TT * q) by (apply Rmult_le_pos; assumption).
    replace ((TT + 1) * q) with (TT * q + q) in Hq2 by ring; lra.
  - eapply within_weaken; [exact Fin|exact J5].
Qed.
End RoundedRun.
