(** Proofs about runs with error control: termination. *)
From Coq Require Import List Reals Lra Lia Bool.
From Verif Require Import Base Ext M_Tableau M_State M_ODE M_Step M_Controller M_Measure M_Integrator
  SpecControl SpecRun SpecAdaptive L_Control L_Catalogue L_Run L_Iter L_Log L_Adaptive.
Import ListNotations.
Open Scope R_scope.

(** *** The integral controller *)
Section Integral.
Variables (op : options (ext R) (controller (ext R))) (cfg : config (ext R)) (p eps kappa lb : R).
Hypothesis K : integral_control op cfg p eps kappa lb.
Notation c0 := (mk_plain (integral (Fin p))).

Lemma integral_estimate q d : delta_t q = Fin d -> 0 <= d -> error_measure q <> NaN ->
  ~ xle (error_measure q) (tol cfg) ->
  exists x, estimate_next_step cfg (integral (Fin p)) q = Fin x /\ 0 <= x <= kappa * d.
Proof.
  destruct K as [K1 K2 K3 K4 K5 K6 K7 K8 K9 K10 K11].
  intros Hd H0 Hn He; rewrite K5 in He.
  assert (exists y, npow (ndiv (tol cfg) (error_measure q)) (Fin (1 / (1 + p))) = Fin y /\ 0 <= y <= 1)
    as (y & Ey & Hy).
  { assert (Hal : 0 < 1 / (1 + p)) by (apply Rdiv_lt_0_compat; lra).
    rewrite K5; destruct (error_measure q) as [e| | |]; cbn in He; try (contradiction; fail); try congruence.
    - assert (eps < e) by lra. rewrite Fin_div, Fin_pow by (try lra; apply Rdiv_lt_0_compat; lra).
      eexists; split; [reflexivity|]; split; [left; apply exp_pos|].
      apply Rle_trans with (exp 0); [|rewrite exp_0; lra].
      assert (A : eps / e < 1) by (apply (Rmult_lt_reg_r e); [lra|]; unfold Rdiv; rewrite Rmult_assoc, Rinv_l; lra).
      assert (B : 0 < eps / e) by (apply Rdiv_lt_0_compat; lra).
      unfold Rpower.
      assert (C : ln (eps / e) < ln 1) by (apply ln_increasing; lra). rewrite ln_1 in C.
      destruct (Rle_lt_dec (exp (1 / (1 + p) * ln (eps / e))) (exp 0)) as [D|D]; [exact D|].
      apply exp_lt_inv in D.
      assert (0 < 1 / (1 + p) * - ln (eps / e)) by (apply Rmult_lt_0_compat; lra).
      lra.
    - exists 0; split; [|lra].
      cbn; rewrite (Reqb_neq (1 / (1 + p)) 0) by lra; rewrite Rltb_false by lra; rewrite Reqb_refl.
      rewrite Rltb_true by exact Hal; reflexivity. }
  exists (kappa * d * y).
  split.
  - rewrite integral_ext by exact K4; unfold estimate_next_step; cbn [x_alpha x_beta x_gamma x_a x_b].
    rewrite !pow_zero_exp, Ey, Hd, K7, !Fin_mul.
    destruct (negb _); [destruct (negb _)|]; rewrite ?Fin_mul; f_equal; ring.
  - assert (0 <= kappa * d) by (apply Rmult_le_pos; lra).
    split; [apply Rmult_le_pos; lra|].
    rewrite <- (Rmult_1_r (kappa * d)) at 2; apply Rmult_le_compat_l; lra.
Qed.

Lemma integral_answer st tmp em t d : errors_are_numbers op st -> about_to st t d -> lb <= d ->
  time_left (o_crit op) t lb -> trial op st tmp em ->
  exists stat, o_ctl op c0 (question op st tmp em) = (c0, Ok stat) /\
    (acceptance stat = false ->
     lb + / 10 ^ 10 <= d /\
     exists s, step_size_suggestion stat = Fin s /\ lb <= s /\ s < d /\ s <= Rmax lb (kappa * d)).
Proof.
  intros En A Hd Hl Ht.
  pose proof Ht as Hn; rewrite <- (with_suggestion_id st) in Hn; apply En in Hn.
  set (q := question op st tmp em).
  rewrite (ic_ctl _ _ _ _ _ _ K).
  assert (X : run_success cfg q = false -> lb + / 10 ^ 10 <= d /\
    exists s, step_size_suggestion (base_run cfg (integral (Fin p)) q) = Fin s /\
      lb <= s /\ s < d /\ s <= Rmax lb (kappa * d)).
  { intros F.
    assert (NF : ~ accept_rule cfg q) by (rewrite <- run_success_iff, F; discriminate).
    unfold accept_rule in NF; cbn [q question delta_t error_measure remaining_time] in NF.
    destruct A as [A1 A2]; rewrite A2, (ic_lower _ _ _ _ _ _ K) in NF; cbn [near] in NF.
    assert (Hnear : lb + / 10 ^ 10 <= d).
    { destruct (Rle_lt_dec (lb + / 10 ^ 10) d) as [L|L]; [exact L|].
      destruct NF; right; left; rewrite Rabs_right; lra. }
    split; [exact Hnear|].
    pose proof (ic_lb _ _ _ _ _ _ K) as Hlb; pose proof (ic_kappa _ _ _ _ _ _ K) as Hk.
    assert (T10 : 0 < / 10 ^ 10) by (apply Rinv_0_lt_compat, pow_lt; lra).
    destruct (integral_estimate q d A2) as (x & Ex & Hx); [lra|exact Hn|tauto|].
    assert (Hdpos : 0 < d) by lra.
    assert (Hkd : kappa * d < d) by (rewrite <- (Rmult_1_l d) at 2; apply Rmult_lt_compat_r; lra).
    unfold base_run; rewrite F; cbn [step_size_suggestion].
    assert (E0 : neqb (error_measure q) n0 = false).
    { destruct (neqb (error_measure q) n0) eqn:E; [|reflexivity].
      apply xeqb_iff in E as [E _]; destruct NF; left; cbn [q question error_measure] in E.
      rewrite E, (ic_tol _ _ _ _ _ _ K); cbn; pose proof (ic_eps _ _ _ _ _ _ K); lra. }
    rewrite E0; cbn [negb]; rewrite Ex.
    pose proof (ic_bounds _ _ _ _ _ _ K) as Hb; rewrite (ic_lower _ _ _ _ _ _ K) in *.
    (* the clamped estimate *)
    assert (exists y, pymax (Fin lb) (pymin (upper_bound cfg) (Fin x)) = Fin y /\ lb <= y <= Rmax lb x)
      as (y & Ey & Hy).
    { assert (M : exists z, pymin (upper_bound cfg) (Fin x) = Fin z /\ z <= x).
      { destruct (upper_bound cfg) as [u| | |]; cbn in Hb; try contradiction.
        - destruct (pymin_cases (Fin u) (Fin x)) as [[H E]|[H E]]; rewrite E;
            [exists x|exists u]; split; auto; try lra.
          destruct (Rle_lt_dec u x); [assumption|].
          destruct H; split; cbn; lra.
        - exists x; split; [reflexivity|lra]. }
      destruct M as (z & -> & Hz).
      destruct (pymax_cases (Fin lb) (Fin z)) as [[[H1 H2] E]|[H E]]; rewrite E.
      - cbn in H1; exists z; split; [reflexivity|]; split; [exact H1|].
        apply Rle_trans with x; [exact Hz|apply Rmax_r].
      - exists lb; split; [reflexivity|]; split; [lra|apply Rmax_l]. }
    rewrite Ey.
    assert (Hmax : Rmax lb x <= Rmax lb (kappa * d)) by (apply Rle_max_compat_l; lra).
    assert (Hlt : Rmax lb (kappa * d) < d) by (apply Rmax_lub_lt; lra).
    (* the limit by the time left *)
    assert (Lim : nadd (remaining_time q) (nmul (nsub n1 n0) (delta_t q)) = PInf \/
                  exists r, nadd (remaining_time q) (nmul (nsub n1 n0) (delta_t q)) = Fin r /\ lb <= r).
    { pose proof (trial_time _ _ _ _ Ht) as Et; rewrite A1, A2 in Et.
      cbn [q question remaining_time delta_t]; rewrite Et, A2, (ic_inf _ _ _ _ _ _ K).
      unfold time_left in Hl; destruct (o_crit op) as [n|[tf| | |]]; cbn; try contradiction; [left; reflexivity|].
      right; eexists; split; [reflexivity|lra]. }
    destruct Lim as [-> |(r & -> & Hr)].
    - exists y; split; [reflexivity|]; lra.
    - destruct (pymin_cases (Fin r) (Fin y)) as [[H E]|[H E]]; rewrite E.
      + exists y; split; [reflexivity|]; lra.
      + exists r; split; [reflexivity|].
        assert (r <= y) by (destruct (Rle_lt_dec r y); [assumption|destruct H; split; cbn; lra]).
        lra. }
  exists (base_run cfg (integral (Fin p)) q).
  cbn [ctl_call mk_plain]; rewrite acceptance_base_run.
  destruct (run_success cfg q) eqn:F; cbn [negb andb]; [split; [reflexivity|discriminate]|].
  destruct (X eq_refl) as (X1 & s & Es & X2 & X3 & X4).
  split; [|eauto].
  assert (E : nltb (delta_t q) (step_size_suggestion (base_run cfg (integral (Fin p)) q)) = false).
  { apply xltb_false; rewrite Es; destruct A as [_ A2]; cbn [q question delta_t]; rewrite A2.
    intros [H _]; cbn in H; lra. }
  rewrite E; reflexivity.
Qed.

(** One retry. *)
Lemma integral_retry st t d c1 st1 : errors_are_numbers op st -> about_to st t d -> lb <= d ->
  time_left (o_crit op) t lb -> retry op c0 st c1 st1 ->
  c1 = c0 /\ lb + / 10 ^ 10 <= d /\
  exists s, about_to st1 t s /\ lb <= s /\ s < d /\ s <= Rmax lb (kappa * d).
Proof.
  intros En A Hd Hl R; destruct R as [tmp em c2 stat Ht E Ea].
  destruct (integral_answer st tmp em t d En A Hd Hl Ht) as (stat' & E' & P).
  rewrite E' in E; injection E as <- <-; split; [reflexivity|].
  destruct (P Ea) as (P1 & s & Es & P2 & P3 & P4); split; [exact P1|].
  exists s; split; [split; [apply A|exact Es]|auto].
Qed.

Lemma integral_retries st t d l c1 st1 : errors_are_numbers op st -> about_to st t d -> lb <= d ->
  time_left (o_crit op) t lb -> retries op c0 st l c1 st1 ->
  c1 = c0 /\ (exists s, about_to st1 t s /\ lb <= s /\ s <= d) /\ decreasing (l ++ [suggestion st1]) /\
  (forall n, kappa ^ n * d < lb + / 10 ^ 10 -> (length l <= n)%nat).
Proof.
  intros En A Hd Hl R.
  assert (G : forall c, retries op c st l c1 st1 -> c = c0 ->
    c1 = c0 /\ (exists s, about_to st1 t s /\ lb <= s /\ s <= d) /\ decreasing (l ++ [suggestion st1]) /\
    (forall n, kappa ^ n * d < lb + / 10 ^ 10 -> (length l <= n)%nat)); [|exact (G _ R eq_refl)].
  clear R; intros c R; revert d En A Hd; induction R as [c st|c st c1 st1 l c2 st2 R RR IH];
    intros d En A Hd Ec.
  - split; [exact Ec|]; split; [exists d; split; [exact A|lra]|]; split; [exact I|].
    intros n _; simpl; lia.
  - subst c; destruct (integral_retry st t d c1 st1 En A Hd Hl R) as (-> & P1 & s & P2 & P3 & P4 & P5).
    destruct (IH s ltac:(destruct R; exact En) P2 P3 eq_refl) as (Q1 & (s2 & Q2 & Q3 & Q4) & Q5 & Q6).
    split; [exact Q1|]; split; [exists s2; split; [exact Q2|lra]|]; split.
    + change (decreasing (suggestion st :: (l ++ [suggestion st2]))).
      assert (H : exists l', l ++ [suggestion st2] = suggestion st1 :: l').
      { inversion RR; subst; [exists []; reflexivity|eexists; reflexivity]. }
      destruct H as [l' H]; rewrite H in *.
      split; [|exact Q5]. destruct A as [_ ->]; destruct P2 as [_ ->].
      split; cbn; lra.
    + intros n Hn.
      pose proof (ic_kappa _ _ _ _ _ _ K) as Hk; pose proof (ic_lb _ _ _ _ _ _ K) as Hlb.
      assert (T10 : 0 < / 10 ^ 10) by (apply Rinv_0_lt_compat, pow_lt; lra).
      destruct n as [|n]; [simpl in Hn; lra|].
      simpl; apply le_n_S, Q6.
      assert (Kn : 0 < kappa ^ n <= 1).
      { split; [apply pow_lt; lra|]. rewrite <- (pow1 n); apply pow_incr; lra. }
      apply Rle_lt_trans with (kappa ^ n * Rmax lb (kappa * d)); [apply Rmult_le_compat_l; lra|].
      unfold Rmax; destruct (Rle_dec lb (kappa * d)).
      * rewrite <- Rmult_assoc, (Rmult_comm (kappa ^ n)); exact Hn.
      * apply Rle_lt_trans with (1 * lb); [apply Rmult_le_compat_r; lra|lra].
Qed.

(** The attempt loop. *)
Lemma integral_ends st t d n m c' st' r : errors_are_numbers op st -> about_to st t d -> lb <= d ->
  time_left (o_crit op) t lb -> kappa ^ n * d < lb + / 10 ^ 10 -> (n < m)%nat ->
  iterate_on_step op m c0 st = (c', st', r) ->
  c' = c0 /\
  exists l st1, retries op c0 st l c0 st1 /\ decreasing (l ++ [suggestion st1]) /\ (length l <= n)%nat /\
  match r with
  | Ok _ => exists tmp em, trial op st1 tmp em /\ accept_rule cfg (question op st1 tmp em) /\
      disc st' = rk_set (disc st) tmp
  | Err e => trial_fails op st1 e
  end.
Proof.
  intros En A Hd Hl Hn Hm H.
  apply iterate_spec in H as (l & c1 & st1 & R & L & D); [|apply K].
  destruct (integral_retries st t d l c1 st1 En A Hd Hl R) as (-> & (s & Q2 & Q3 & Q4) & Q5 & Q6).
  specialize (Q6 n Hn).
  assert (En1 : errors_are_numbers op st1) by (rewrite (retries_with _ _ _ _ _ _ R); exact En).
  destruct D as [(D1 & _)|(D1 & D)]; [exfalso; lia|].
  inversion D as [tmp em c2 stat Ht E Ea|e He|tmp em c2 e Ht E]; subst.
  - destruct (integral_answer st1 tmp em t s En1 Q2 Q3 Hl Ht) as (stat' & E' & P).
    pose proof E as E1; rewrite E' in E; injection E as <- <-.
    split; [reflexivity|]; exists l, st1; split; [exact R|]; split; [exact Q5|]; split; [exact Q6|].
    exists tmp, em; split; [exact Ht|]; split; [|cbn; rewrite (retries_disc _ _ _ _ _ _ R); reflexivity].
    rewrite (ic_ctl _ _ _ _ _ _ K) in E1; apply (c13 cfg _ _ _ _ E1), Ea.
  - split; [reflexivity|]; exists l, st'; repeat split; auto.
  - destruct (integral_answer st' tmp em t s En1 Q2 Q3 Hl Ht) as (stat' & E' & P).
    rewrite E' in E; discriminate.
Qed.

End Integral.
