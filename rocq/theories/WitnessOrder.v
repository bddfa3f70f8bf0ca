(** The ODE y' = sin(y) with its solution 2 atan(exp(t)), for the theorems about
    the order of runs. *)
From Coq Require Import String.
From Coq Require Import List Reals Lra Lia Bool Arith QArith Qreals.
From Verif Require Import Base Ext M_Tableau M_State M_ODE M_Step M_Controller M_Measure M_Integrator M_Tableaux M_TableauxInit
  SpecRK SpecShape SpecRun SpecTree SpecOrder SpecNodes SpecConvergence SpecSmooth
  L_Tableau L_Order L_Fields L_OrderCheck L_RunProps L_Convergence L_Series WitnessRun.
Import ListNotations.
Open Scope nat_scope.
Open Scope R_scope.
Local Open Scope list_scope.

(** *** Scalar right hand sides with bounded derivatives *)
Section Scalar.
Variables (phi : nat -> R -> R) (B : R).
Hypothesis Hphi : forall k x, derivable_pt_lim (phi k) x (phi (S k) x).
Hypothesis HB : forall k x, Rabs (phi k x) <= B.

Lemma scalar_taylor k : forall j y v,
  Rabs (phi j (y + v) - rsum (S k) (fun i => / INR (fact i) * (phi (j + i) y * v ^ i))) <= B * Rabs v ^ S k.
Proof.
  assert (B0 : 0 <= B) by (eapply Rle_trans; [apply Rabs_pos|apply (HB 0 0)]).
  induction k as [|k IH]; intros j y v.
  - destruct (MVT_abs (fun u => phi j (y + u)) (fun u => phi (S j) (y + u)) 0 v) as (c & E & _).
    { intros c _; rewrite <- (Rmult_1_r (phi (S j) (y + c))).
      apply (derivable_pt_lim_comp (fun u => y + u) (phi j)); [|apply Hphi].
      rewrite <- (Rplus_0_l 1); apply (derivable_pt_lim_plus (fun _ => y) (fun u => u)); [apply derivable_pt_lim_const|apply derivable_pt_lim_id]. }
    rewrite Rplus_0_r, Rminus_0_r in E.
    replace (phi j (y + v) - _) with (phi j (y + v) - phi j y).
    + rewrite E, pow_1; apply Rmult_le_compat_r; [apply Rabs_pos|apply HB].
    + cbn [rsum fact INR pow]; rewrite Nat.add_0_r, Rinv_1; ring.
  - set (g := fun u => phi j (y + u) - rsum (S (S k)) (fun i => / INR (fact i) * (phi (j + i)%nat y * u ^ i))).
    set (g' := fun u => phi (S j) (y + u) - rsum (S k) (fun i => / INR (fact i) * (phi (S j + i)%nat y * u ^ i))).
    destruct (MVT_abs g g' 0 v) as (c & E & Hc).
    { intros c _; unfold g, g'; apply (derivable_pt_lim_minus (fun u => phi j (y + u))
        (fun u => rsum (S (S k)) (fun i => / INR (fact i) * (phi (j + i)%nat y * u ^ i)))).
      - rewrite <- (Rmult_1_r (phi (S j) (y + c))).
        apply (derivable_pt_lim_comp (fun u => y + u) (phi j)); [|apply Hphi].
        rewrite <- (Rplus_0_l 1); apply (derivable_pt_lim_plus (fun _ => y) (fun u => u)); [apply derivable_pt_lim_const|apply derivable_pt_lim_id].
      - replace (rsum (S k) (fun i => / INR (fact i) * (phi (S j + i)%nat y * c ^ i)))
          with (rsum (S (S k)) (fun i => / INR (fact i) * (phi (j + i)%nat y * (INR i * c ^ pred i)))).
        + apply (derivable_rsum (S (S k)) (fun i u => / INR (fact i) * (phi (j + i)%nat y * u ^ i))
            (fun i u => / INR (fact i) * (phi (j + i)%nat y * (INR i * u ^ pred i)))).
          intros i _; apply (derivable_pt_lim_scal (fun u => phi (j + i)%nat y * u ^ i)).
          apply (derivable_pt_lim_scal (fun u => u ^ i)), derivable_pt_lim_pow.
        + assert (G : forall m, rsum (S m) (fun i => / INR (fact i) * (phi (j + i)%nat y * (INR i * c ^ pred i)))
            = rsum m (fun i => / INR (fact i) * (phi (S j + i)%nat y * c ^ i))); [|apply G].
          induction m as [|m IHm]; [cbn; ring|].
          change (rsum (S m) (fun i => / INR (fact i) * (phi (j + i)%nat y * (INR i * c ^ pred i)))
            + / INR (fact (S m)) * (phi (j + S m)%nat y * (INR (S m) * c ^ m)) =
            rsum m (fun i => / INR (fact i) * (phi (S j + i)%nat y * c ^ i)) + / INR (fact m) * (phi (S j + m)%nat y * c ^ m)).
          rewrite IHm; f_equal; rewrite Nat.add_succ_r, fact_simpl, mult_INR.
          change (S j + m)%nat with (S (j + m)).
          field; split; [apply INR_fact_neq_0|apply not_0_INR; lia]. }
    assert (G0 : g 0 = 0).
    { unfold g; assert (X : forall m, rsum (S m) (fun i => / INR (fact i) * (phi (j + i)%nat y * 0 ^ i)) = phi j y).
      { induction m as [|m IHm]; [cbn; rewrite Nat.add_0_r, Rinv_1; ring|].
        change (rsum (S m) (fun i => / INR (fact i) * (phi (j + i)%nat y * 0 ^ i)) + / INR (fact (S m)) * (phi (j + S m)%nat y * 0 ^ S m) = phi j y).
        rewrite IHm; cbn [pow]; ring. }
      rewrite X, Rplus_0_r; ring. }
    rewrite G0, !Rminus_0_r in E; fold (g v); rewrite E.
    replace (B * Rabs v ^ S (S k)) with (B * Rabs v ^ S k * Rabs v) by (cbn [pow]; ring).
    apply Rmult_le_compat_r; [apply Rabs_pos|].
    eapply Rle_trans; [apply (IH (S j) y c)|].
    apply Rmult_le_compat_l; [exact B0|]; apply pow_incr; split; [apply Rabs_pos|].
    revert Hc; unfold Rmin, Rmax; destruct (Rle_dec 0 v); intros Hc; [rewrite !Rabs_right; lra|rewrite !Rabs_left1; lra].
Qed.

Lemma scalar_smooth p t0 t1 Y : smooth_along 1 p (fun _ y => [phi 0 (vnth 0 y)]) t0 t1 Y.
Proof.
  assert (B0 : 0 <= B) by (eapply Rle_trans; [apply Rabs_pos|apply (HB 0 0)]).
  exists (fun t vs => [phi (length vs) (vnth 0 (Y t)) * lprod (vnth 1) vs]), B; split; [exact B0|].
  intros t _; constructor.
  - intros us ws u v al be m Hm; destruct m as [|m]; [|lia].
    rewrite !app_length; cbn [length].
    assert (V0 : forall x : R, vnth 0 [x] = x) by reflexivity; rewrite !V0; clear V0.
    assert (E : forall x, lprod (vnth 1) (us ++ x :: ws) = vnth 1 x * (lprod (vnth 1) us * lprod (vnth 1) ws)).
    { intros x; induction us as [|y us IH]; cbn [app]; [rewrite lprod_cons, lprod_nil; ring|rewrite !lprod_cons, IH; ring]. }
    rewrite !E, vnth_vmake by lia; ring.
  - intros vs rs m Hm _ F; destruct m as [|m]; [|lia]; unfold vnth at 1; cbn [nth].
    rewrite Rabs_mult; apply Rmult_le_compat; [apply Rabs_pos|apply Rabs_pos|apply HB|].
    induction F as [|v r vs rs [H1 H2] F IH]; [rewrite lprod_nil, Rabs_R1; cbn; lra|].
    rewrite lprod_cons, Rabs_mult; cbn [fold_right]; apply Rmult_le_compat; [apply Rabs_pos|apply Rabs_pos|apply H2; lia|exact IH].
  - intros k v r m Hm Hk Hv Hr Hb; destruct m as [|m]; [|lia].
    unfold vnth at 1; cbn [nth]; rewrite vnth_vmake by lia.
    rewrite (rsum_ext (S k) _ (fun i => / INR (fact i) * (phi (0 + i) (vnth 0 (Y t)) * vnth 1 v ^ i))).
    + eapply Rle_trans; [apply scalar_taylor|]; apply Rmult_le_compat_l; [exact B0|].
      apply pow_incr; split; [apply Rabs_pos|apply Hb; lia].
    + intros i _; f_equal; unfold vnth at 1; cbn [nth]; rewrite repeat_length; f_equal.
      induction i as [|i IH]; [reflexivity|cbn [repeat pow]; rewrite lprod_cons, IH; reflexivity].
Qed.
End Scalar.

(** *** y' = sin(y) *)
Definition sine_phi (k : nat) (x : R) : R := sin (x + INR k * (PI / 2)).
Lemma sine_phi_derive k x : derivable_pt_lim (sine_phi k) x (sine_phi (S k) x).
Proof.
  unfold sine_phi; rewrite S_INR.
  replace (sin (x + (INR k + 1) * (PI / 2))) with (cos (x + INR k * (PI / 2)) * 1).
  - apply (derivable_pt_lim_comp (fun u => u + INR k * (PI / 2)) sin); [|apply derivable_pt_lim_sin].
    rewrite <- (Rplus_0_r 1); apply (derivable_pt_lim_plus (fun u => u) (fun _ => INR k * (PI / 2))); [apply derivable_pt_lim_id|apply derivable_pt_lim_const].
  - rewrite Rmult_1_r, cos_sin; f_equal; ring.
Qed.
Lemma sine_phi_bound k x : Rabs (sine_phi k x) <= 1.
Proof. unfold sine_phi; apply Rabs_le, SIN_bound. Qed.

Definition sine_f (t : R) (p y : list R) : list R := [sin (vnth 0 y)].
Lemma sine_smooth n xi t0 t1 Y : smooth_along 1 n (fun t y => sine_f t xi y) t0 t1 Y.
Proof.
  pose proof (scalar_smooth sine_phi 1 sine_phi_derive sine_phi_bound n t0 t1 Y) as (D & B & HB & HD).
  exists D, B; split; [exact HB|]; intros t Ht; destruct (HD t Ht) as [X1 X2 X3]; constructor; [exact X1|exact X2|].
  intros k v r m Hm Hk Hv Hr Hb; specialize (X3 k v r m Hm Hk Hv Hr Hb).
  unfold sine_f, sine_phi in *; cbn [INR] in X3; rewrite Rmult_0_l, Rplus_0_r in X3; exact X3.
Qed.
Lemma sine_lipschitz xi : lipschitz 1 1 (fun t y => sine_f t xi y).
Proof.
  intros t t' y z r _ _ W m Hm; destruct m as [|m]; [|lia].
  specialize (W 0%nat Hm); unfold sine_f; unfold vnth at 1 3; cbn [nth].
  destruct (MVT_abs sin cos (vnth 0 z) (vnth 0 y)) as (c & E & _); [intros; apply derivable_pt_lim_sin|].
  rewrite E; pose proof (COS_bound c) as X; apply Rabs_le in X; pose proof (Rabs_pos (t - t')).
  apply Rle_trans with (1 * Rabs (vnth 0 y - vnth 0 z)); [apply Rmult_le_compat_r; [apply Rabs_pos|exact X]|lra].
Qed.

Definition sine_sol (t : R) : list R := [2 * atan (exp t)].
Lemma sin_2_atan x : sin (2 * atan x) = 2 * x / (1 + x ^ 2).
Proof.
  rewrite sin_2a, sin_atan, cos_atan.
  assert (P : 0 < 1 + x ^ 2) by (pose proof (pow2_ge_0 x); lra).
  assert (Q : sqrt (1 + x²) * sqrt (1 + x²) = 1 + x ^ 2).
  { rewrite sqrt_sqrt; unfold Rsqr; [ring|pose proof (pow2_ge_0 x); lra]. }
  assert (S : 0 < sqrt (1 + x²)) by (apply sqrt_lt_R0; unfold Rsqr; lra).
  rewrite <- Q; field; lra.
Qed.
Lemma sine_solution xi t0 t1 : solution 1 (fun t y => sine_f t xi y) t0 t1 sine_sol.
Proof.
  split; [reflexivity|]; intros t m _ Hm; destruct m as [|m]; [|lia].
  unfold sine_f, sine_sol, vnth; cbn [nth]; rewrite sin_2_atan.
  replace (2 * exp t / (1 + exp t ^ 2)) with (2 * (/ (1 + exp t ^ 2) * exp t)) by (field; pose proof (pow2_ge_0 (exp t)); lra).
  apply (derivable_pt_lim_scal (fun u => atan (exp u))).
  apply (derivable_pt_lim_comp exp atan); [apply derivable_pt_lim_exp|].
  exact (derivable_pt_lim_atan (exp t)).
Qed.

(** It answers explicit stages only. *)
Definition sine : ode R := {|
  compute_update := fun i h a =>
    if Req_EM_T a 0 then
      Ok ({| stage_update := [sin (vnth 0 (M_ODE.step_input i) + h * vnth 0 (stage_input i))];
             stage_state := [0]; independent_output := [] |}, [])
    else Err SolverError;
  compute_update_derivative := fun lp i h a =>
    Ok {| stage_update := [0]; stage_state := [0]; independent_output := [] |};
  compute_update_adjoint_derivative := fun lp r h a =>
    Ok {| M_ODE.step_input := [0]; stage_input := [0]; independent_input := [0]; time := 0 |};
  compute_state_norm := fun r => 0;
  state_size := 1; independent_input_size := 1; independent_output_size := 0; linearization_point_size := 0 |}.

Lemma sine_sized : sized_ode sine.
Proof.
  split; [|split].
  - intros i h a r lp H; cbn in H; destruct (Req_EM_T _ _); [|discriminate]; injection H as <- <-; cbn; auto.
  - intros lp i h a r H; injection H as <-; cbn; auto.
  - intros lp i h a r H; injection H as <-; cbn; auto.
Qed.
Lemma sine_solves : solves_stage_equation sine 1 sine_f.
Proof.
  intros i h a r lp _ _ H; cbn in H; destruct (Req_EM_T _ _) as [->|]; [|discriminate].
  injection H as <- <-; unfold sine_f; cbn; f_equal; f_equal; ring.
Qed.

(** Steps with an explicit shipped tableau. *)
Definition explicit_table (x : shipped) : bool :=
  forallb (fun i => is_zero (nth i (nth i (s_A x) []) (Lit 0))) (seq 0 (length (s_b x))).
Lemma sine_step x e eh bt s h : In (x, (e, eh)) precision -> explicit_table x = true -> shipped_init x = Ok (bt, []) ->
  shaped (t_stages bt) 1 1 0 0 s -> exists s', compute_step bt sine s h = Ok s'.
Proof.
  intros Hx Hex Hi Hs; destruct (shipped_constructed x e eh Hx) as (bt' & E & W & Hst & _ & _ & _ & EA & Eb & _).
  rewrite Hi in E; injection E as <-.
  assert (Ls : t_stages bt = length (s_b x)) by (rewrite <- (tw_b _ W), Eb, map_length; reflexivity).
  apply (compute_step_total bt sine s h 1 1 0 0 W eq_refl eq_refl eq_refl); [apply sine_sized|exact Hs|exact Hst|].
  intros i inp Hii; cbn [compute_update sine].
  unfold explicit_table in Hex; rewrite forallb_forall in Hex; specialize (Hex i ltac:(apply in_seq; lia)).
  apply is_zero_sound in Hex.
  replace (entry (t_A bt) i i) with 0; [destruct (Req_EM_T 0 0) as [_|N]; [eexists; reflexivity|congruence]|].
  assert (LA : length (s_A x) = t_stages bt) by (rewrite <- (tw_A _ W), EA, map_length; reflexivity).
  assert (LR : length (nth i (s_A x) []) = t_stages bt).
  { pose proof (tw_rows _ W) as F; rewrite Forall_forall in F.
    rewrite <- (map_length evalR); apply F; rewrite EA; apply in_map, nth_In; lia. }
  rewrite <- Hex, EA; unfold entry; change (@nil R) with (map evalR []); rewrite map_nth.
  erewrite (nth_indep (map evalR _)) by (rewrite map_length, LR; exact Hii); rewrite map_nth; reflexivity.
Qed.

(** [n] steps from time 0 to time 1. *)
Definition sine_op (bt : tableau R) (n : nat) : options R Datatypes.unit := {|
  o_bt := bt; o_ode := sine; o_ckpt := AllCheckpointer; o_adaptive := false;
  o_step := (1 - 0) / INR n; o_crit := PredefinedNumberOfSteps n; o_inf := 0; o_meas := SimpleErrorMeasurer;
  o_tol := 1; o_ctl := halving 1; o_callbacks := fun _ => [quiet_cb]; retry_limit := 1; loop_limit := S n |}.
Definition sine_in : inputs R := gin 0 (2 * atan 1) 0.

Lemma sine_returns x e eh bt n : In (x, (e, eh)) precision -> explicit_table x = true -> shipped_init x = Ok (bt, []) ->
  exists w' out, compute (sine_op bt n) sine_in (setup (sine_op bt n) tt) = (w', Ok out).
Proof.
  intros Hx Hex Hi; apply (fixed_returns (sine_op bt n) tt).
  - apply sine_sized.
  - reflexivity.
  - exact I.
  - intros m cb [<-|[]] k st; auto.
  - cbn; lia.
  - intros s Hs; apply (sine_step x e eh bt s _ Hx Hex Hi Hs).
  - cbn; lia.
  - apply reachable_setup.
  - split; reflexivity.
Qed.
