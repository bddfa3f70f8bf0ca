(** y' = -y in binary floating point with Heun's method: for the Example of the
    theorems about rounding; not part of the model. *)
From Coq Require Import String.
From Coq Require Import ZArith List Reals Lia Lra Psatz Bool Arith SpecFloat QArith Qreals.
From Verif Require Import Base Ext M_Tableau M_Tableaux M_TableauxInit M_State M_ODE M_Step M_Controller M_Measure M_Integrator
  SpecRK SpecShape SpecDeriv SpecRun SpecTree SpecOrder SpecNodes SpecConvergence SpecSmooth SpecLocal SpecFloating
  L_Vec L_Order L_Float L_Local L_Floating2 L_Floating5 L_TotalT WitnessRun.
Import ListNotations.
Open Scope nat_scope.
Open Scope R_scope.
Local Open Scope list_scope.

(** *** The problem over the real numbers *)
Definition decay (t : R) (y : list R) : list R := [- vnth 0 y].
Definition decay_box : box := {| early := -1; late := 2; low := fun _ => -1; high := fun _ => 2 |}.
Definition decay_exact (t : R) : list R := [exp (- t)].

Lemma decay_lipschitz : lipschitz_in 1 decay_box 1 decay.
Proof.
  intros t t' y z r _ _ _ _ W m Hm; destruct m as [|m]; [|lia]; specialize (W 0%nat Hm).
  unfold decay, vnth in *; cbn [nth] in *; pose proof (Rabs_pos (t - t')).
  replace (- nth 0 y 0 - - nth 0 z 0) with (- (nth 0 y 0 - nth 0 z 0)) by ring; rewrite Rabs_Ropp; lra.
Qed.
Lemma decay_solution : solution 1 decay 0 1 decay_exact.
Proof.
  split; [reflexivity|]; intros t m Ht Hm; destruct m as [|m]; [|lia].
  unfold decay, decay_exact, vnth; cbn [nth].
  replace (- exp (- t)) with (exp (- t) * - (1)) by ring.
  apply (derivable_pt_lim_comp Ropp exp); [|apply derivable_pt_lim_exp].
  apply (derivable_pt_lim_opp (fun x => x)), derivable_pt_lim_id.
Qed.
Lemma decay_inside t : 0 <= t <= 1 -> inside 1 decay_box (3 * (1 / 3)) t (decay_exact t).
Proof.
  intros Ht; split; cbn; [lra|]; intros m Hm; destruct m as [|m]; [|lia]; unfold vnth; cbn.
  pose proof (exp_pos (- t)); destruct (Req_dec t 0) as [->|Hne]; [rewrite Ropp_0, exp_0; lra|].
  assert (exp (- t) < exp 0) by (apply exp_increasing; lra); rewrite exp_0 in *; lra.
Qed.
Lemma decay_smooth p : smooth_close (1 / 3) 1 p decay 0 1 decay_exact.
Proof.
  exists (fun t vs => match vs with [] => [- exp (- t)] | [v] => [- vnth 1 v] | _ => [0] end), 1.
  split; [lra|]; intros t Ht.
  assert (E : 0 < exp (- t) <= 1).
  { pose proof (decay_inside t Ht) as [_ I]; specialize (I 0%nat ltac:(lia)); unfold vnth in I; cbn in I.
    pose proof (exp_pos (- t)); lra. }
  constructor.
  - intros us ws u v al be m Hm; destruct m as [|m]; [|lia].
    assert (V0 : forall x : R, vnth 0 [x] = x) by reflexivity.
    destruct us as [|x us]; [destruct ws; cbn [app]; rewrite !V0; [rewrite vnth_vmake by lia; ring|ring]|].
    destruct us; cbn [app]; rewrite !V0; ring.
  - intros vs rs m Hm _ F; destruct m as [|m]; [|lia].
    destruct F as [|v r vs rs [H1 H2] F]; [unfold vnth; cbn; rewrite Rabs_Ropp, Rabs_pos_eq; lra|].
    destruct F as [|v' r' vs rs [H1' H2'] F].
    + unfold vnth at 1; cbn; rewrite Rabs_Ropp; pose proof (H2 1%nat ltac:(lia)); lra.
    + unfold vnth; cbn [nth fold_right]; rewrite Rabs_R0.
      assert (0 <= fold_right Rmult 1 rs).
      { clear -F; induction F as [|? ? ? ? [? _] _ IH]; cbn; [lra|apply Rmult_le_pos; assumption]. }
      rewrite Rmult_1_l; repeat apply Rmult_le_pos; assumption.
  - intros k v r m Hm Hk Hv Hr Hb; destruct m as [|m]; [|lia].
    pose proof (Hb 1%nat ltac:(lia)) as B.
    unfold decay; unfold vnth at 1; cbn [nth]; rewrite vnth_vmake by lia.
    unfold decay_exact; unfold vnth at 1; cbn [nth].
    destruct k as [|k].
    + cbn [rsum repeat fact pow]; unfold vnth at 2; cbn [nth INR].
      replace (- (exp (- t) + vnth 1 v) - (0 + / 1 * - exp (- t))) with (- vnth 1 v) by field; rewrite Rabs_Ropp; lra.
    + assert (Z : forall j, rsum (S (S j)) (fun i => / INR (fact i) * vnth 0 (match repeat v i with [] => [- exp (- t)] | [v0] => [- vnth 1 v0] | _ => [0] end)) = - exp (- t) - vnth 1 v).
      { induction j as [|j IH].
        - cbn [rsum repeat fact]; unfold vnth at 1 2; cbn [nth INR]; change (INR (1 + 0)) with 1; cbn; field.
        - change (rsum (S (S (S j))) ?g) with (rsum (S (S j)) g + g (S (S j))); rewrite IH; cbv beta; unfold vnth at 2; cbn [repeat nth]; ring. }
      rewrite Z; replace (- (exp (- t) + vnth 1 v) - (- exp (- t) - vnth 1 v)) with 0 by ring; rewrite Rabs_R0.
      rewrite Rmult_1_l; apply pow_le, Hr.
Qed.

(** *** In floating point *)
Lemma pw_2 : powerRZ 2 2 = 4.
Proof. change (2 ^ Pos.to_nat 2 = 4); change (Pos.to_nat 2) with 2%nat; ring. Qed.
Lemma pw_m2 : powerRZ 2 (- 2) = 1 / 4.
Proof. change (/ 2 ^ Pos.to_nat 2 = 1 / 4); change (Pos.to_nat 2) with 2%nat; field. Qed.
Lemma pw_m1 : powerRZ 2 (-1) = 1 / 2.
Proof. change (/ 2 ^ Pos.to_nat 1 = 1 / 2); change (Pos.to_nat 1) with 1%nat; field. Qed.
Section Format.
Variables prec emax : Z.
Hypothesis Hfmt : (2 <= prec < emax)%Z.
Local Instance FN : Num spec_float := binary prec emax.
Notation u := (powerRZ 2 (- prec)).
Notation regular := (float_finite prec emax).

(** z 2^e, rounded. *)
Definition fl (z e : Z) : spec_float := binary_normalize prec emax z e false.
Lemma u_small : 0 < u <= 1 / 4.
Proof.
  split; [apply pw_pos|]; apply Rle_trans with (powerRZ 2 (- 2)); [apply pw_le; lia|]; rewrite pw_m2; lra.
Qed.
Lemma big_large : 4 <= powerRZ 2 (emax - 1).
Proof. apply Rle_trans with (powerRZ 2 2); [rewrite pw_2; lra|apply pw_le; lia]. Qed.
Lemma fl_near z e : Rabs (IZR z * powerRZ 2 e) <= 1 ->
  regular (fl z e) /\ Rabs (float_value (fl z e) - IZR z * powerRZ 2 e) <= 2 * u.
Proof.
  intros H; pose proof big_large; pose proof u_small.
  destruct (normalize_spec prec emax ltac:(lia) ltac:(lia) z e) as [A B]; [lra|].
  split; [exact A|]; eapply Rle_trans; [exact B|]; rewrite Rmult_comm; apply Rmult_le_compat_r; lra.
Qed.
Lemma one_near : regular (fl 1 0) /\ Rabs (float_value (fl 1 0) - 1) <= 2 * u.
Proof. 
  assert (E : IZR 1 * powerRZ 2 0 = 1) by (cbn; lra).
  destruct (fl_near 1 0) as [A B]; rewrite E in *; [rewrite Rabs_pos_eq; lra|]; auto.
Qed.
Lemma half_near : regular (fl 1 (-1)) /\ Rabs (float_value (fl 1 (-1)) - 1 / 2) <= 2 * u.
Proof.
  assert (E : IZR 1 * powerRZ 2 (-1) = 1 / 2) by (rewrite pw_m1; lra).
  destruct (fl_near 1 (-1)) as [A B]; rewrite E in *; [rewrite Rabs_pos_eq; lra|]; auto.
Qed.

(** The stage solve evaluates -(y + h s). *)
Definition fdecay : ode spec_float := {|
  compute_update := fun i h a =>
    Ok ({| stage_update := [nopp (nadd (nth 0 (M_ODE.step_input i) n0) (nmul h (nth 0 (stage_input i) n0)))];
           stage_state := [n0]; independent_output := [] |}, []);
  compute_update_derivative := fun lp i h a =>
    Ok {| stage_update := [nopp (nadd (nth 0 (M_ODE.step_input i) n0) (nmul h (nth 0 (stage_input i) n0)))];
          stage_state := [n0]; independent_output := [] |};
  compute_update_adjoint_derivative := fun lp r h a =>
    let v := nopp (nth 0 (stage_update r) n0) in
    Ok {| M_ODE.step_input := [v]; stage_input := [nmul h v]; independent_input := []; time := n0 |};
  compute_state_norm := fun r => n0;
  state_size := 1; independent_input_size := 0; independent_output_size := 0; linearization_point_size := 0 |}.
Lemma fdecay_sized : sized_ode fdecay.
Proof.
  split; [|split].
  - intros i h a r lp H; injection H as <- <-; cbn; auto.
  - intros lp i h a r H; injection H as <-; cbn; auto.
  - intros lp r h a x H; injection H as <-; cbn; auto.
Qed.
Lemma value_opp x : float_value (SFopp x) = - float_value x.
Proof. destruct x as [s|s| |s m e]; try (cbn; ring); destruct s; cbn [SFopp negb float_value]; change (Z.neg m) with (- Z.pos m)%Z; rewrite opp_IZR; ring. Qed.
Lemma finite_opp x : regular x -> regular (SFopp x).
Proof. destruct x as [[]|[]| |[] m e]; cbn; auto. Qed.

Lemma fdecay_solves H a : float_value a = 0 -> 16 <= powerRZ 2 (emax - 1) ->
  nearly_solves_rounded float_value regular fdecay 1 decay [] decay_box (1 / 3) H (13 * u) a.
Proof.
  intros Ha HB inp h r lp L1 L2 _ R1 R2 Rt Rh Hh I1 I2 E.
  injection E as <- <-; cbn [stage_update].
  pose proof (binary_rounded prec emax Hfmt) as Hr; change (binary prec emax) with FN in Hr; pose proof u_small as Hu.
  destruct (M_ODE.step_input inp) as [|y [|]] eqn:E1; try discriminate.
  destruct (stage_input inp) as [|s [|]] eqn:E2; try discriminate.
  cbn [nth map] in *; apply Forall_inv in R1, R2.
  unfold known_part, stage_value, in_values in *; rewrite E1, E2 in *; cbn [M_ODE.step_input stage_input map] in *.
  rewrite Ha.
  destruct I1 as [T1 I1]; destruct I2 as [T2 I2].
  specialize (I1 0%nat ltac:(lia)); specialize (I2 0%nat ltac:(lia)).
  rewrite vnth_vmake in I2 by lia; unfold vnth in I1, I2; cbn in I1, I2, T1.
  set (yv := float_value y) in *; set (sv := float_value s) in *; set (hv := float_value h) in *.
  assert (B1 : Rabs (hv * sv) <= 3) by (apply Rabs_le; lra).
  destruct (mul_near float_value regular u _ Hr ltac:(lra) h s 3 Rh R2 B1 ltac:(lra)) as [M1 M2].
  fold hv sv in M2; apply Rabs_le_inv in M2.
  set (q := nmul h s) in *.
  assert (B2 : Rabs (yv + float_value q) <= 3) by (apply Rabs_le; lra).
  destruct (add_near float_value regular u _ Hr ltac:(lra) y q 3 R1 M1 B2 ltac:(lra)) as [A1 A2].
  fold yv in A2; apply Rabs_le_inv in A2.
  cbv zeta; split; [constructor; [apply finite_opp, A1|constructor]|]; split.
  - split; [cbn in *; lra|]; intros m Hm; destruct m as [|m]; [|lia].
    rewrite vnth_vmake by lia; unfold vnth; cbn [nth map]; cbn; fold hv sv yv.
    replace (yv + hv * (sv + 0 * _)) with (yv + hv * sv) by ring; lra.
  - intros m Hm; destruct m as [|m]; [|lia]; unfold decay; unfold vnth at 1 2; cbn [nth map].
    rewrite vnth_vmake by lia; unfold vnth; cbn [nth map].
    change (nopp (nadd y q)) with (SFopp (nadd y q)); rewrite value_opp; fold hv sv yv.
    change (SFadd prec emax y (SFmul prec emax h s)) with (nadd y q).
    match goal with |- Rabs ?x <= _ => replace x with (- ((float_value (nadd y q) - (yv + float_value q)) + (float_value q - hv * sv))) by ring end.
    apply Rabs_le; lra.
Qed.

(** Heun's method; the other options as in the real runs. *)
Definition fheun : tableau spec_float := {| t_A := [[n0; n0]; [fl 1 0; n0]]; t_b := [fl 1 (-1); fl 1 (-1)]; t_c := [n0; fl 1 0];
  t_stages := 2; t_p := Some 2%nat; t_name := "heun"; t_hat := None |}.
Lemma fheun_wf : tableau_wf fheun.
Proof. constructor; cbn; auto. Qed.
Definition fop (h : spec_float) (n : nat) : options spec_float Datatypes.unit := {|
  o_bt := fheun; o_ode := fdecay; o_ckpt := AllCheckpointer; o_adaptive := false; o_step := h;
  o_crit := PredefinedNumberOfSteps n; o_inf := n0; o_meas := SimpleErrorMeasurer;
  o_tol := n1; o_ctl := halving n1; o_callbacks := fun _ => [quiet_cb]; retry_limit := 1; loop_limit := S n |}.
Definition fin : inputs spec_float := {| time_initial := n0; initial := [fl 1 0]; independent := [] |}.
Lemma fop_returns h n : exists w' out, compute (fop h n) fin (setup (fop h n) tt) = (w', Ok out).
Proof.
  apply (compute_totalT (fop h n) ltac:(cbn; lia)) with (n := n) (c := tt).
  - intros i inp _ _ _ _; cbn; eauto.
  - apply fdecay_sized.
  - reflexivity.
  - exact I.
  - intros m cb [<-|[]] k st; auto.
  - cbn; lia.
  - reflexivity.
  - cbn; lia.
  - exists []; split; [constructor|reflexivity].
  - split; reflexivity.
Qed.
Lemma fheun_values (bt : tableau R) : shipped_init embedded_heun_euler = Ok (bt, []) ->
  holds_values float_value regular (2 * u) fheun (t_stages bt) (entry (t_A bt)) (fun k => vnth k (t_b bt)) (fun k => vnth k (t_c bt)).
Proof.
  intros E.
  assert (P : In (embedded_heun_euler, (0%Q, 0%Q)) precision) by (apply (nth_error_In _ 6); reflexivity).
  destruct (shipped_constructed _ _ _ P) as (bt' & E' & W & Hst & _ & _ & _ & EA & Eb & Ec & _).
  rewrite E in E'; injection E' as <-.
  assert (S : t_stages bt = 2%nat) by (rewrite <- (tw_b _ W), Eb; reflexivity).
  pose proof one_near as [O1 O2]; pose proof half_near as [H1 H2]; pose proof u_small as Hu.
  assert (Z : forall q, (q == 0)%Q -> regular (n0 (T := spec_float)) /\ Rabs (float_value n0 - Q2R q) <= 2 * u).
  { intros q Hq; rewrite (Qeq_eqR _ _ Hq); split; [exact I|]; cbn [float_value n0 FN binary]; rewrite RMicromega.Q2R_0, Rminus_0_r, Rabs_R0; lra. }
  assert (O : forall q, (q == 1)%Q -> regular (fl 1 0) /\ Rabs (float_value (fl 1 0) - Q2R q) <= 2 * u)
    by (intros q Hq; rewrite (Qeq_eqR _ _ Hq), RMicromega.Q2R_1; auto).
  assert (Hf : forall q, (q == 1 # 2)%Q -> regular (fl 1 (-1)) /\ Rabs (float_value (fl 1 (-1)) - Q2R q) <= 2 * u).
  { intros q Hq; rewrite (Qeq_eqR _ _ Hq); replace (Q2R (1 # 2)) with (1 / 2) by (unfold Q2R; cbn [Qnum Qden]; field); auto. }
  constructor; rewrite S.
  - reflexivity.
  - rewrite EA; intros i j Hi Hj; destruct i as [|[|]]; destruct j as [|[|]]; try lia; first [apply Z; reflexivity|apply O; reflexivity].
  - rewrite Eb; intros i Hi; destruct i as [|[|]]; try lia; apply Hf; reflexivity.
  - rewrite Ec; intros i Hi; destruct i as [|[|]]; try lia; first [apply Z; reflexivity|apply O; reflexivity].
Qed.
End Format.

(** Formats and step sizes for which all errors are small. *)
Lemma pow2_above x : exists g, x <= 2 ^ g.
Proof.
  destruct (Pow_x_infinity 2 ltac:(rewrite Rabs_pos_eq; lra) x) as [g G]; exists g.
  specialize (G g (le_n _)); rewrite Rabs_pos_eq in G by (apply pow_le; lra); lra.
Qed.
Lemma fine_format K H : 1 <= K -> 0 < H -> exists prec emax e M, (53 <= prec < emax)%Z /\
  16 + K <= powerRZ 2 (emax - 1) /\ 4 * powerRZ 2 (- prec) <= 1 /\
  let u := powerRZ 2 (- prec) in let h := float_value (fl prec emax 1 e) in
  float_finite prec emax (fl prec emax 1 e) /\ 0 < h <= H /\ (0 < M)%nat /\ 0 + INR M * h <= 1 /\
  K * (2 * u + h ^ 2 + Q2R 0 + Q2R 0 + 13 * u + (u + 3 * u) / h) <= 1 / 3.
Proof.
  intros HK HH.
  destruct (pow2_above (300000 * K)) as [g1 G1]; destruct (pow2_above (4 / H)) as [g2 G2].
  set (g := S (g1 + g2)).
  assert (P1 : 1 <= 2 ^ g1) by (apply pow_R1_Rle; lra); assert (P2 : 1 <= 2 ^ g2) by (apply pow_R1_Rle; lra).
  assert (Eg : 2 ^ g = 2 * 2 ^ g1 * 2 ^ g2) by (unfold g; cbn [pow]; rewrite pow_add; ring).
  set (x := 2 ^ g) in *.
  assert (X3 : 300000 * K <= x) by (rewrite Eg; nra).
  assert (X1 : 1000 * K <= x) by lra.
  assert (X2 : 4 / H <= x) by (rewrite Eg; nra).
  assert (X0 : 1000 <= x) by nra.
  assert (Hx : 4 <= H * x).
  { apply Rmult_le_compat_l with (r := H) in X2; [|lra]; replace (H * (4 / H)) with 4 in X2 by (field; lra); exact X2. }
  exists (3 * Z.of_nat g)%Z, (4 * Z.of_nat g)%Z, (- Z.of_nat g)%Z, (2 ^ (g1 + g2))%nat.
  assert (G10 : (18 <= Z.of_nat g)%Z).
  { destruct (Z_lt_le_dec (Z.of_nat g) 18) as [Hlt|Hle]; [|exact Hle]. exfalso.
    assert (x <= 2 ^ 17) by (unfold x; apply Rle_pow; [lra|lia]). lra. }
  assert (Pg : powerRZ 2 (Z.of_nat g) = x) by apply pw_nat.
  assert (Ix : powerRZ 2 (- Z.of_nat g) = / x).
  { pose proof (pw_opp (Z.of_nat g)) as O; rewrite Pg in O; apply (Rmult_eq_reg_r x); [|lra]; rewrite O; field; lra. }
  assert (Hu : powerRZ 2 (- (3 * Z.of_nat g)) = / x ^ 3).
  { replace (- (3 * Z.of_nat g))%Z with (- Z.of_nat g + (- Z.of_nat g + - Z.of_nat g))%Z by lia.
    rewrite !pw_add, Ix; field; lra. }
  assert (Hfmt : (2 <= 3 * Z.of_nat g < 4 * Z.of_nat g)%Z) by lia.
  assert (Hfmt' : (53 <= 3 * Z.of_nat g < 4 * Z.of_nat g)%Z) by lia.
  destruct (fl_near _ _ Hfmt 1 (- Z.of_nat g)) as [F1 F2].
  { rewrite Ix, Rmult_1_l, Rabs_pos_eq by (left; apply Rinv_0_lt_compat; lra).
    rewrite <- Rinv_1; apply Rinv_le_contravar; lra. }
  rewrite Hu, Ix, Rmult_1_l in F2.
  set (h := float_value (fl (3 * Z.of_nat g) (4 * Z.of_nat g) 1 (- Z.of_nat g))) in *.
  assert (Q : 2 * / x ^ 3 <= / (2 * x)).
  { replace (/ (2 * x)) with (2 * / (4 * x)) by (field; lra); apply Rmult_le_compat_l; [lra|]; apply Rinv_le_contravar; [lra|]. 
    replace (x ^ 3) with (x * x * x) by ring; nra. }
  assert (Ex : / (2 * x) = / x / 2) by (field; lra).
  apply Rabs_le_inv in F2.
  assert (Ip : 0 < / x) by (apply Rinv_0_lt_compat; lra).
  assert (Hh : / x / 2 <= h <= 2 * / x) by lra.
  split; [exact Hfmt'|]; split.
  { apply Rle_trans with x; [lra|]; rewrite <- Pg; apply pw_le; lia. }
  assert (U0 : 0 < / x ^ 3) by (apply Rinv_0_lt_compat, pow_lt; lra).
  assert (U1 : / x ^ 3 <= / 1000 * / x * / x).
  { replace (/ 1000 * / x * / x) with (/ (1000 * x * x)) by (field; lra); apply Rinv_le_contravar; [nra|].
    replace (x ^ 3) with (x * x * x) by ring; nra. }
  assert (Ix2 : / x <= / 1000) by (apply Rinv_le_contravar; lra).
  assert (XK : K * / x <= / 1000).
  { apply Rmult_le_reg_r with (1000 * x); [lra|]; replace (K * / x * (1000 * x)) with (1000 * K) by (field; lra);
    replace (/ 1000 * (1000 * x)) with x by field; exact X1. }
  rewrite Hu; split; [nra|].
  cbv zeta; fold h; split; [exact F1|]; split; [|split; [|split]].
  - split; [lra|]; apply Rle_trans with (2 * / x); [lra|].
    apply Rmult_le_reg_r with x; [lra|]; replace (2 * / x * x) with 2 by (field; lra); lra.
  - apply Nat.neq_0_lt_0, Nat.pow_nonzero; lia.
  - rewrite pow_INR, pow_add; cbn [INR]; replace (1 + 1) with 2 by ring.
    rewrite Rplus_0_l; apply Rle_trans with (2 ^ g1 * 2 ^ g2 * (2 * / x)); [apply Rmult_le_compat_l; [nra|lra]|].
    right; replace (2 ^ g1 * 2 ^ g2) with (x / 2) by (rewrite Eg; field); field; lra.
  - rewrite RMicromega.Q2R_0.
    assert (D : (/ x ^ 3 + 3 * / x ^ 3) / h <= 8 * / 1000 * / x).
    { apply Rmult_le_reg_r with h; [lra|].
      replace ((/ x ^ 3 + 3 * / x ^ 3) / h * h) with (4 * / x ^ 3) by (field; split; [lra|]; lra).
      apply Rle_trans with (8 * / 1000 * / x * (/ x / 2)); [|apply Rmult_le_compat_l; lra]. lra. }
    assert (H2 : h ^ 2 <= 4 * / 1000 * / x).
    { cbn [pow]; rewrite Rmult_1_r; apply Rle_trans with ((2 * / x) * (2 * / x)); [apply Rmult_le_compat; lra|]. nra. }
    assert (U2 : / x ^ 3 <= / 1000 * / x) by nra.
    apply Rle_trans with (K * (30 * / x)); [apply Rmult_le_compat_l; lra|]. lra.
Qed.
