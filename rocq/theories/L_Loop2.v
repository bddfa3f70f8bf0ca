(** The controllers of the catalogue under power-law errors. *)
From Coq Require Import List Reals Lra Lia Bool QArith Qreals Qabs.
From Verif Require Import Base Ext M_State M_ODE M_Controller M_Measure M_Integrator SpecControl SpecFilter SpecAdaptive SpecLoop
  L_Control L_Catalogue L_Filter L_Loop.
Import ListNotations.
Local Open Scope R_scope.

Lemma planned_coeffs ctl w l p : In (ctl, (w, l)) settling -> 0 < p ->
  exists al be ga a b, In ((al, be, ga, a, b), (w, l)) plans /\
  coeffs (ctl p) (Q2R al / p) (Q2R be / p) (Q2R ga / p) (Q2R a) (Q2R b).
Proof.
  intros H Hp. unfold settling in H. cbn [In] in H.
  repeat (destruct H as [H|H]; [injection H as <- <- <-; do 5 eexists; (split; [unfold plans, settling; cbn [map snd combine In]; repeat (first [left; reflexivity | right])|]);
    unfold h_211, h0_211, pid, h_312, h0_312, ppid, h_321, h0_321, h0_330, h0_220, pc, coeffs; rewrite ?lit_ext; rewrite ?Fin_mul, ?Fin_add, ?Fin_sub;
    rewrite ?Fin_div by lra; unfold Q2R; cbn; f_equal; f_equal; field; lra|]).
  destruct H.
Qed.

Lemma settles_coeffs ctl p q s k : settles ctl p q s k ->
  exists al be ga a b, coeffs (ctl p) al be ga a b /\ s = al - be + ga /\ 0 < s /\ 0 < q /\
  exists c1 c2 c3, halving c1 c2 c3 k = true /\ Q2R c1 = 1 - al * q + a /\ Q2R c2 = be * q - a + b /\ Q2R c3 = - ga * q - b.
Proof.
  intros (Hp & [(w & l & r & H1 & H2 & -> & ->)|(H1 & -> & -> & ->)]).
  - destruct (planned_coeffs ctl w l p H1 Hp) as (al & be & ga & a & b & P & E).
    exists (Q2R al / p), (Q2R be / p), (Q2R ga / p), (Q2R a), (Q2R b). split; [exact E|].
    pose proof plans_good as G. rewrite forallb_forall in G. specialize (G _ P). unfold planned in G.
    rewrite !andb_true_iff in G. destruct G as ((G1 & G2) & G3). rewrite forallb_forall in G3. specialize (G3 _ H2). cbn [fst snd] in G3.
    apply andb_true_iff in G3 as (G3 & G4). unfold slope in G4.
    apply Qeq_bool_eq, Qeq_eqR in G1. rewrite Q2R_plus, Q2R_minus in G1.
    apply Qle_bool_iff, Qle_Rle in G2, G3. replace (Q2R (1 # 1000)) with (/ 1000) in G2, G3 by (unfold Q2R; cbn; field).
    split; [rewrite G1; field; lra|]. split; [apply Rdiv_lt_0_compat; lra|]. split; [apply Rmult_lt_0_compat; lra|].
    do 3 eexists. split; [exact G4|].
    rewrite !(Qeq_eqR _ _ (Qred_correct _)), !Q2R_plus, !Q2R_minus, ?Q2R_plus, !Q2R_mult, Q2R_opp.
    replace (Q2R 1) with 1 by (unfold Q2R; cbn; field).
    repeat split; field; lra.
  - exists (/ (p + 1)), 0, 0, 0, 0. split.
    { destruct H1 as [-> | ->]; unfold h0_110, integral, zero_x, coeffs; rewrite ?lit_ext, ?Fin_add; rewrite ?Fin_div by (cbn; lra); cbn; f_equal; f_equal; field; lra. }
    split; [ring|]. split; [apply Rinv_0_lt_compat; lra|]. split; [lra|].
    exists 0%Q, 0%Q, 0%Q. split; [reflexivity|]. rewrite RMicromega.Q2R_0. repeat split; [field; lra|ring|ring].
Qed.

Lemma balance_pos C q eps kappa s : 0 < balance C q eps kappa s.
Proof. apply exp_pos. Qed.
Lemma balance_ln C q eps kappa s : 0 < C -> 0 < eps -> 0 < kappa -> ln (balance C q eps kappa s) = / q * (ln eps + / s * ln kappa - ln C).
Proof.
  intros. unfold balance, Rpower. rewrite ln_exp. f_equal. assert (P := exp_pos (/ s * ln kappa)).
  rewrite ln_div, ln_mult, ln_exp; try ring; try assumption; apply Rmult_lt_0_compat; assumption.
Qed.

Lemma closed_loop_inv cfg C q c h h1 h2 h0 hs : closed_loop cfg C q c h h1 h2 (h0 :: hs) ->
  exists c' st, ctl_call cfg c (power_law_args C q h h1 h2 PInf) = (c', Ok st) /\ acceptance st = true /\
  step_size_suggestion st = Fin h0 /\ closed_loop cfg C q c' h0 h h1 hs.
Proof. intros H. inversion H; subst. eauto 10. Qed.

Section Loop.
Variables (cfg : config (ext R)) (eps kappa C q s : R) (x : exponents (ext R)) (al be ga a b c1 c2 c3 : R).
Hypothesis Hs : sane cfg eps kappa.
Hypothesis Hu : unlimited cfg.
Hypothesis HC : 0 < C.
Hypothesis Hq : 0 < q.
Hypothesis Hx : coeffs x al be ga a b.
Hypothesis Es : s = al - be + ga.
Hypothesis Ps : 0 < s.
Hypothesis E1 : c1 = 1 - al * q + a.
Hypothesis E2 : c2 = be * q - a + b.
Hypothesis E3 : c3 = - ga * q - b.
Let hb := balance C q eps kappa s.
Let u h := ln (h / hb).

Lemma formula_orbit h h1 h2 : 0 < h -> 0 < h1 -> 0 < h2 ->
  step_formula kappa eps al be ga a b (C * Rpower h q) (C * Rpower h1 q) (C * Rpower h2 q) h h1 h2 = hb * exp (c1 * u h + c2 * u h1 + c3 * u h2).
Proof.
  intros Hh Hh1 Hh2. pose proof (sane_eps _ _ _ Hs) as He. pose proof (sane_kappa _ _ _ Hs) as Hk.
  assert (P : forall t, 0 < C * Rpower t q) by (intros; apply Rmult_lt_0_compat; [exact HC|apply exp_pos]).
  rewrite step_formula_ln by auto. assert (LL : forall t, ln (C * Rpower t q) = ln C + q * ln t).
  { intros t. rewrite ln_mult; [unfold Rpower; rewrite ln_exp; reflexivity|exact HC|apply exp_pos]. }
  rewrite !LL.
  assert (B := balance_pos C q eps kappa s). fold hb in B.
  rewrite <- (exp_ln kappa) at 1 by exact Hk. rewrite <- (exp_ln h) at 1 by exact Hh. rewrite <- (exp_ln hb) by exact B. rewrite <- !exp_plus. f_equal.
  unfold u. rewrite !ln_div by auto. unfold hb. rewrite balance_ln by auto.
  rewrite E1, E2, E3, Es. assert (al - be + ga <> 0) by lra. field. split; lra.
Qed.

Lemma loop_answer h h1 h2 c' st : 0 < h -> 0 < h1 -> 0 < h2 ->
  ctl_call cfg (mk_plain x) (power_law_args C q h h1 h2 PInf) = (c', Ok st) ->
  step_size_suggestion st = Fin (hb * exp (c1 * u h + c2 * u h1 + c3 * u h2)).
Proof.
  intros Hh Hh1 Hh2 H. rewrite Hx in H.
  assert (P : forall t, 0 < C * Rpower t q) by (intros; apply Rmult_lt_0_compat; [exact HC|apply exp_pos]).
  change (power_law_args C q h h1 h2 PInf) with (history_args (C * Rpower h q) (C * Rpower h1 q) (C * Rpower h2 q) h h1 h2 PInf) in H.
  apply (call_history cfg eps kappa) in H; auto; try discriminate.
  rewrite formula_orbit in H by auto. destruct H as (_ & _ & _ & H & _). apply H.
  - destruct Hu as (L & _). destruct (lower_bound cfg); cbn in *; try contradiction; auto.
    assert (0 < hb * exp (c1 * u h + c2 * u h1 + c3 * u h2)) by (apply Rmult_lt_0_compat; [apply balance_pos|apply exp_pos]). lra.
  - destruct Hu as (_ & ->). exact I.
  - exact I.
Qed.
Lemma deviation_next v : u (hb * exp v) = v.
Proof. unfold u. assert (B := balance_pos C q eps kappa s). fold hb in B. replace (hb * exp v / hb) with (exp v) by (field; lra). apply ln_exp. Qed.

Lemma plain_same y im q0 c' r : ctl_call cfg (Plain y im) q0 = (c', r) -> c' = Plain y im.
Proof. cbn [ctl_call]. destruct (_ && _); intros H; injection H; auto. Qed.

Lemma loop_orbit hs : forall h h1 h2, 0 < h -> 0 < h1 -> 0 < h2 -> closed_loop cfg C q (mk_plain x) h h1 h2 hs ->
  forall n h', nth_error hs n = Some h' -> 0 < h' /\ u h' = orbit c1 c2 c3 (S n) (u h) (u h1) (u h2).
Proof.
  induction hs as [|h0 hs IH]; intros h h1 h2 Hh Hh1 Hh2 L n h' E; [destruct n; discriminate|].
  apply closed_loop_inv in L as (c' & st & A & B & D & F). pose proof (plain_same _ _ _ _ _ A) as ->.
  rewrite (loop_answer h h1 h2 _ st Hh Hh1 Hh2 A) in D. injection D as D.
  assert (P : 0 < h0) by (rewrite <- D; apply Rmult_lt_0_compat; [apply balance_pos|apply exp_pos]).
  destruct n as [|n]; cbn [nth_error] in E.
  - injection E as <-. split; [exact P|]. rewrite <- D, deviation_next. reflexivity.
  - destruct (IH h0 h h1 P Hh Hh1 F n h' E) as (Q1 & Q2). split; [exact Q1|]. rewrite Q2.
    change (orbit c1 c2 c3 (S (S n)) (u h) (u h1) (u h2)) with (orbit c1 c2 c3 (S n) (c1 * u h + c2 * u h1 + c3 * u h2) (u h) (u h1)).
    f_equal. rewrite <- D. apply deviation_next.
Qed.

(** Acceptance. *)
Lemma loop_accepts h h1 h2 : 0 < h -> 0 < h1 -> 0 < h2 -> u h <= - ln kappa / (s * q) ->
  exists st, ctl_call cfg (mk_plain x) (power_law_args C q h h1 h2 PInf) = (mk_plain x, Ok st) /\ acceptance st = true.
Proof.
  intros Hh Hh1 Hh2 L.
  assert (A : run_success cfg (power_law_args C q h h1 h2 PInf) = true).
  { apply run_success_iff. left. cbn [error_measure power_law_args]. rewrite (sane_tol _ _ _ Hs). cbn [xle].
    pose proof (sane_eps _ _ _ Hs) as He. pose proof (sane_kappa _ _ _ Hs) as Hk. assert (B := balance_pos C q eps kappa s). fold hb in B.
    unfold u in L. rewrite ln_div in L by auto. unfold hb in L. rewrite balance_ln in L by auto.
    apply Rmult_le_compat_l with (r := q) in L; [|lra].
    replace (q * (ln h - / q * (ln eps + / s * ln kappa - ln C))) with (q * ln h - ln eps - / s * ln kappa + ln C) in L by (field; lra).
    replace (q * (- ln kappa / (s * q))) with (- (/ s * ln kappa)) in L by (field; lra).
    rewrite <- (exp_ln eps) by exact He. rewrite <- (exp_ln C) at 1 by exact HC. unfold Rpower. rewrite <- exp_plus.
    destruct (Req_dec (ln C + q * ln h) (ln eps)) as [->|N]; [lra|]. left. apply exp_increasing. lra. }
  unfold mk_plain. cbn [ctl_call]. rewrite acceptance_base_run, A. eexists. split; [reflexivity|exact A].
Qed.
Lemma loop_extends h h1 h2 : 0 < h -> 0 < h1 -> 0 < h2 -> forall n,
  (forall m, (m < n)%nat -> orbit c1 c2 c3 m (u h) (u h1) (u h2) <= - ln kappa / (s * q)) ->
  exists hs, length hs = n /\ closed_loop cfg C q (mk_plain x) h h1 h2 hs.
Proof.
  intros Hh Hh1 Hh2 n. revert h h1 h2 Hh Hh1 Hh2. induction n as [|n IH]; intros h h1 h2 Hh Hh1 Hh2 H.
  - exists []. split; [reflexivity|constructor].
  - destruct (loop_accepts h h1 h2 Hh Hh1 Hh2 (H 0%nat ltac:(lia))) as (st & A & B).
    pose proof (loop_answer h h1 h2 _ st Hh Hh1 Hh2 A) as D. set (h0 := hb * exp (c1 * u h + c2 * u h1 + c3 * u h2)) in *.
    assert (P : 0 < h0) by (apply Rmult_lt_0_compat; [apply balance_pos|apply exp_pos]).
    destruct (IH h0 h h1 P Hh Hh1) as (hs & L & F).
    { intros m Hm. specialize (H (S m) ltac:(lia)). cbn [orbit] in H. unfold h0. rewrite deviation_next. exact H. }
    exists (h0 :: hs). split; [cbn; congruence|]. econstructor; eauto.
Qed.
End Loop.

Definition all_away (hb D h h1 h2 : R) : Prop := away hb h <= D /\ away hb h1 <= D /\ away hb h2 <= D.

Lemma c89_settles ctl p q s k cfg eps kappa C h h1 h2 hs D n h' :
  settles ctl p q s k -> sane cfg eps kappa -> unlimited cfg -> 0 < C -> 0 < h -> 0 < h1 -> 0 < h2 ->
  closed_loop cfg C q (mk_plain (ctl p)) h h1 h2 hs -> nth_error hs n = Some h' ->
  let hb := balance C q eps kappa s in
  away hb h <= D -> away hb h1 <= D -> away hb h2 <= D ->
  0 < h' /\ away hb h' <= 4 * ((/ 2) ^ (S n / k) * D).
Proof.
  intros S0 Hs Hu HC Hh Hh1 Hh2 L E hb D0 D1 D2.
  destruct (settles_coeffs _ _ _ _ _ S0) as (al & be & ga & a & b & E0 & E1 & E2 & E3 & c1 & c2 & c3 & F0 & F1 & F2 & F3).
  destruct (loop_orbit cfg eps kappa C q s (ctl p) al be ga a b _ _ _ Hs Hu HC E3 E0 E1 E2 F1 F2 F3 hs h h1 h2 Hh Hh1 Hh2 L n h' E) as (P & Q).
  split; [exact P|]. unfold away in *. fold hb in Q. rewrite Q. apply halving_bound; assumption.
Qed.

Lemma c89_accepted ctl p q s k cfg eps kappa C h h1 h2 D n :
  settles ctl p q s k -> sane cfg eps kappa -> unlimited cfg -> 0 < C -> 0 < h -> 0 < h1 -> 0 < h2 ->
  let hb := balance C q eps kappa s in
  away hb h <= D -> away hb h1 <= D -> away hb h2 <= D -> 4 * D <= - ln kappa / (s * q) ->
  exists hs, length hs = n /\ closed_loop cfg C q (mk_plain (ctl p)) h h1 h2 hs.
Proof.
  intros S0 Hs Hu HC Hh Hh1 Hh2 hb D0 D1 D2 DD.
  destruct (settles_coeffs _ _ _ _ _ S0) as (al & be & ga & a & b & E0 & E1 & E2 & E3 & c1 & c2 & c3 & F0 & F1 & F2 & F3).
  eapply (loop_extends cfg eps kappa C q s (ctl p) al be ga a b); eauto. fold hb.
  intros m _. eapply Rle_trans; [apply Rle_abs|]. eapply Rle_trans; [|exact DD].
  eapply Rle_trans; [eapply (halving_bound c1 c2 c3 k F0 m _ _ _ D); assumption|].
  apply Rmult_le_compat_l; [lra|]. assert (0 <= D) by (eapply Rle_trans; [apply Rabs_pos|exact D0]).
  rewrite <- (Rmult_1_l D) at 2. apply Rmult_le_compat_r; [assumption|].
  rewrite <- (pow1 (m / k)). apply pow_incr. lra.
Qed.
