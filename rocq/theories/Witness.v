(** A concrete ODE used in the Examples that show the hypotheses of the step
    theorems can be met: y' = y + t + p in one dimension, with one independent
    output, the square of the stage state.  It is not part of the model. *)
From Coq Require Import String.
From Coq Require Import List Reals Lia Lra Bool.
From Verif Require Import Base Ext M_Tableau M_State M_ODE M_Step SpecRK SpecShape SpecDeriv
  L_Vec L_Step L_Adjoint L_Deriv L_Tableau.
Import ListNotations.
Open Scope R_scope.

Definition wf_rhs (t : R) (p y : list R) : list R := [vnth 0 y + t + vnth 0 p].

Definition wo_k (i : ode_in R) (h a : R) : R :=
  (vnth 0 (step_input i) + h * vnth 0 (stage_input i) + time i + vnth 0 (independent_input i))
  / (1 - h * a).
Definition wo_s (i : ode_in R) (h a : R) : R :=
  vnth 0 (step_input i) + h * (vnth 0 (stage_input i) + a * wo_k i h a).

Definition wode : ode R := {|
  compute_update := fun i h a =>
    if Reqb (1 - h * a) 0 then Err SolverError
    else Ok ({| stage_update := [wo_k i h a]; stage_state := [wo_s i h a];
                independent_output := [wo_s i h a * wo_s i h a] |}, [wo_s i h a]);
  compute_update_derivative := fun lp i h a =>
    if Reqb (1 - h * a) 0 then Err SolverError
    else Ok {| stage_update := [wo_k i h a]; stage_state := [wo_s i h a];
               independent_output := [2 * vnth 0 lp * wo_s i h a] |};
  compute_update_adjoint_derivative := fun lp r h a =>
    if Reqb (1 - h * a) 0 then Err SolverError
    else
      let s := vnth 0 (stage_state r) + 2 * vnth 0 lp * vnth 0 (independent_output r) in
      let k := (vnth 0 (stage_update r) + h * a * s) / (1 - h * a) in
      Ok {| step_input := [k + s]; stage_input := [h * (k + s)];
            independent_input := [k]; time := k |};
  compute_state_norm := fun r => Rabs (vnth 0 (stage_state r));
  state_size := 1; independent_input_size := 1;
  independent_output_size := 1; linearization_point_size := 1 |}.

Lemma len1 (x : list R) : length x = 1%nat -> x = [vnth 0 x].
Proof. destruct x as [|a [|b x]]; simpl; intros H; try discriminate; reflexivity. Qed.

Ltac wode_ok H := cbn in H; 
  match type of H with (if Reqb ?x 0 then _ else _) = _ =>
    let E := fresh "E" in destruct (Reqb x 0) eqn:E; [discriminate|];
    assert (x <> 0) by (intros ?Z; apply Reqb_true in Z; congruence) end.

Lemma wode_solves : solves_stage_equation wode 1 wf_rhs.
Proof.
  intros inp h a r lp Hy Ha H; wode_ok H; injection H as <- <-; cbn.
  unfold wf_rhs, vmake, vnth at 1; simpl; f_equal.
  unfold vnth at 2; simpl. unfold wo_k, vnth; field; assumption.
Qed.

Lemma wode_result_sizes : result_sizes wode.
Proof. intros inp h a r lp H; wode_ok H; injection H as <- <-; cbn; auto. Qed.

Lemma wode_derivative_sizes : derivative_sizes wode.
Proof. intros lp inp h a r H; wode_ok H; injection H as <-; cbn; auto. Qed.

Lemma wode_adjoint_sizes : adjoint_sizes wode.
Proof. intros lp r h a x H; wode_ok H; injection H as <-; cbn; auto. Qed.

Lemma wode_transposed : ode_transposed wode.
Proof.
  intros lp h a inp r w x (I1 & I2 & I3) (O1 & O2 & O3) H1 H2.
  wode_ok H1; wode_ok H2; injection H1 as <-; injection H2 as <-.
  unfold dot_out, dot_in; cbn [stage_update stage_state independent_output step_input stage_input
    independent_input time].
  rewrite (len1 _ O1), (len1 _ O2), (len1 _ O3), (len1 _ I1), (len1 _ I2), (len1 _ I3).
  unfold wo_s, wo_k; rewrite (len1 _ I1), (len1 _ I2), (len1 _ I3); unfold dot, vnth; simpl nth.
  field; assumption.
Qed.

Lemma wode_linear : ode_linear wode.
Proof.
  intros lp h a al x be y rx ry (I1 & I2 & I3) (J1 & J2 & J3) H1 H2.
  wode_ok H1; wode_ok H2; injection H1 as <-; injection H2 as <-.
  cbn [compute_update_derivative wode].
  destruct (Reqb (1 - h * a) 0); [discriminate|].
  unfold lin_out, lin_in, wo_s, wo_k; cbn [stage_update stage_state independent_output step_input stage_input
    independent_input time].
  rewrite (len1 _ I1), (len1 _ I2), (len1 _ I3), (len1 _ J1), (len1 _ J2), (len1 _ J3).
  unfold vlin, vadd, vscale; simpl; unfold vnth; simpl nth.
  do 2 f_equal; f_equal; field; assumption.
Qed.

Lemma curve1 (f : R -> R) l : derivable_pt_lim f 0 l -> curve (fun e => [f e]) [l].
Proof.
  intros H [|m]; unfold vnth; simpl; [exact H|].
  destruct m; apply derivable_pt_lim_const.
Qed.

Lemma curve_near (Y Z : R -> list R) d del :
  0 < del -> (forall e, Rabs e < del -> Y e = Z e) -> curve Y d -> curve Z d.
Proof.
  intros Hd H HY m; apply (dlim_ext_near (fun e => vnth m (Y e)) _ _ del Hd); [|apply HY].
  intros e He; rewrite (H e He); reflexivity.
Qed.

Lemma wode_differentiable : ode_differentiable wode.
Proof.
  intros del h a inp d r lp dr Hdel Hi Hd Hr C1 C2 C3 C4 H.
  wode_ok H; injection H as <-.
  assert (Hr' : forall e, Rabs e < del ->
            r e = {| stage_update := [wo_k (inp e) h a]; stage_state := [wo_s (inp e) h a];
                independent_output := [wo_s (inp e) h a * wo_s (inp e) h a] |} /\
            lp e = [wo_s (inp e) h a]).
  { intros e He; specialize (Hr e He); cbn in Hr.
    destruct (Reqb (1 - h * a) 0); [discriminate|]; injection Hr as <- <-; auto. }
  assert (Dk : derivable_pt_lim (fun e => wo_k (inp e) h a) 0 (wo_k d h a)).
  { unfold wo_k, Rdiv.
    apply (dlim_ext_near (fun e => / (1 - h * a) * (vnth 0 (step_input (inp e))
       + h * vnth 0 (stage_input (inp e)) + time (inp e) + vnth 0 (independent_input (inp e))))
       _ _ del Hdel); [intros; lra|].
    rewrite (Rmult_comm _ (/ _)); apply dlim_scal, dlim_plus; [apply dlim_plus; [apply dlim_plus|]|].
    - apply C1.
    - apply dlim_scal, C2.
    - exact C4.
    - apply C3. }
  assert (Ds : derivable_pt_lim (fun e => wo_s (inp e) h a) 0 (wo_s d h a)).
  { unfold wo_s; apply dlim_plus; [apply C1|]; apply dlim_scal, dlim_plus; [apply C2|].
    apply dlim_scal, Dk. }
  split; [|split]; cbn.
  - eapply curve_near; [exact Hdel| |apply curve1, Dk].
    intros e He; destruct (Hr' e He) as [-> _]; reflexivity.
  - eapply curve_near; [exact Hdel| |apply curve1, Ds].
    intros e He; destruct (Hr' e He) as [-> _]; reflexivity.
  - eapply curve_near; [exact Hdel| |apply curve1].
    + intros e He; destruct (Hr' e He) as [-> _]; reflexivity.
    + destruct (Hr' 0) as [_ ->]; [rewrite Rabs_R0; exact Hdel|].
      unfold vnth at 1; simpl.
      replace (2 * wo_s (inp 0) h a * wo_s d h a)
        with (wo_s d h a * wo_s (inp 0) h a + wo_s (inp 0) h a * wo_s d h a) by ring.
      apply (derivable_pt_lim_mult (fun e => wo_s (inp e) h a) (fun e => wo_s (inp e) h a)); exact Ds.
Qed.

Lemma wode_update_ok inp h a : h * a <> 1 -> exists r, compute_update wode inp h a = Ok r.
Proof.
  intros H; cbn; destruct (Reqb (1 - h * a) 0) eqn:E; [|eauto].
  apply Reqb_true in E; exfalso; lra.
Qed.

(** Two-stage diagonally implicit tableau with an embedded weight vector. *)
Definition wA : mat R := {| mrows := 2; mcols := 2; mdata := [[1/4; 0]; [1/2; 1/4]] |}.
Definition wbt : tableau R := {| t_A := mdata wA; t_b := [1/2; 1/2]; t_c := [1/4; 3/4];
  t_stages := 2; t_p := Some 2%nat; t_name := "w"; t_hat := Some ([1; 0], Some 1%nat) |}.

Lemma wA_wf : mat_wf wA.
Proof. split; [reflexivity|]; repeat constructor. Qed.

Lemma wbt_built : exists ws,
  embedded_init wA [1/2; 1/2] [1; 0] (Some [1/4; 3/4]) (Some 2%nat) (Some 1%nat) "w" = Ok (wbt, ws).
Proof. eexists; reflexivity. Qed.

Lemma wbt_wf : tableau_wf wbt.
Proof. destruct wbt_built as [ws H]; eapply embedded_init_wf; [apply wA_wf|exact H]. Qed.

Lemma wbt_lower : no_upper wbt.
Proof.
  intros i j H; cbn in H.
  assert (i = 0 /\ j = 1)%nat as [-> ->] by lia; reflexivity.
Qed.

(** A start state with leftovers in its working fields. *)
Definition wst (t y p : R) : rkstate R := {|
  start_state := [7]; stage_states := [[8]; [9]]; stage_updates := [[3]; [4]];
  final_state := [y]; independent_inputs := [p];
  stage_independent_outputs := [[5]; [6]]; final_independent_outputs := [2];
  start_time := 11; stage_times := [12; 13]; final_time := t; step_size := 5;
  linearization_points := [[1]; [1]]; embedded := Some ([0], [0]) |}.

Lemma wst_shaped t y p : shaped 2 1 1 1 1 (wst t y p).
Proof. constructor; cbn; auto. Qed.

Lemma wdiag i : (i < 2)%nat -> 1/2 * entry (t_A wbt) i i <> 1.
Proof. intros H; destruct i as [|[|i]]; [| |lia]; cbn; lra. Qed.

Lemma wstep_ok t y p : exists s', compute_step wbt wode (wst t y p) (1/2) = Ok s'.
Proof.
  apply (compute_step_total wbt wode _ _ 1 1 1 1); auto using wbt_wf, wode_result_sizes, wst_shaped.
  - cbn; lia.
  - intros i inp Hi; apply wode_update_ok, wdiag, Hi.
Qed.

Lemma wdstep_ok s v : exists v', length (stage_independent_outputs s) = 2%nat ->
  compute_step_derivative wbt wode s v (1/2) = Ok v'.
Proof.
  unfold compute_step_derivative.
  destruct (for_stages_total (fun p i => compute_stage_derivative wbt wode (linearization_points s) p (1/2) i)
    (fun _ => True) (seq 0 (number_of_stages wbt)) (shift_state v)) as (s1 & E & _); auto.
  - intros i s0 Hi _; apply in_seq in Hi; cbn in Hi.
    unfold compute_stage_derivative; cbn [compute_update_derivative wode].
    destruct (Reqb (1 - 1/2 * entry (t_A wbt) i i) 0) eqn:Z.
    + apply Reqb_true in Z; exfalso; apply (wdiag i); [lia|lra].
    + cbn [bind]; eexists; split; [reflexivity|exact I].
  - rewrite E; cbn [bind].
    destruct (stage_independent_outputs s) as [|r rs]; [exists s; discriminate|].
    cbn; eexists; reflexivity.
Qed.

Lemma wastep_ok s w : exists w', compute_step_adjoint_derivative wbt wode s w (1/2) = Ok w'.
Proof.
  unfold compute_step_adjoint_derivative.
  match goal with |- context [for_stages ?f ?l ?a] =>
    destruct (for_stages_total f (fun _ => True) l a) as (s1 & E & _); auto end.
  - intros i s0 Hi _; apply in_rev, in_seq in Hi; cbn in Hi.
    unfold compute_stage_adjoint_derivative; cbn [compute_update_adjoint_derivative wode].
    destruct (Reqb (1 - 1/2 * entry (t_A wbt) i i) 0) eqn:Z.
    + apply Reqb_true in Z; exfalso; apply (wdiag i); [lia|lra].
    + cbn [bind]; eexists; split; [reflexivity|exact I].
  - rewrite E; cbn [bind]; eauto.
Qed.

(** A tableau with an entry above the diagonal, accepted by the constructor. *)
Definition uA : mat R := {| mrows := 2; mcols := 2; mdata := [[0; 1]; [0; 0]] |}.
Definition ubt : tableau R := {| t_A := mdata uA; t_b := [1/2; 1/2]; t_c := [1; 0];
  t_stages := 2; t_p := Some 1%nat; t_name := "u"; t_hat := None |}.
Lemma uA_wf : mat_wf uA.
Proof. split; [reflexivity|]; repeat constructor. Qed.
Lemma ubt_built : exists ws, tableau_init uA [1/2; 1/2] (Some [1; 0]) (Some 1%nat) "u" = Ok (ubt, ws).
Proof. eexists; reflexivity. Qed.
Lemma ubt_wf : tableau_wf ubt.
Proof. destruct ubt_built as [ws H]; eapply tableau_init_wf; [apply uA_wf|exact H]. Qed.

Lemma ubt_step_ok : exists s', compute_step ubt wode (wst 0 1 0) 1 = Ok s'.
Proof.
  apply (compute_step_total ubt wode _ _ 1 1 1 1); auto using ubt_wf, wode_result_sizes, wst_shaped.
  - cbn; lia.
  - intros i inp Hi; apply wode_update_ok; destruct i as [|[|i]]; cbn in *; [| |lia]; lra.
Qed.

(** The step with [ubt] on y' = y + t, y(0) = 1, h = 1: the first stage
    derivative comes out as y + t1 = 2; the tableau prescribes
    y + h k2 + t1 with k2 = 1, i.e. 3. *)
Lemma ubt_step_wrong s' : compute_step ubt wode (wst 0 1 0) 1 = Ok s' ->
  ~ rk_equations 2 1 (entry (t_A ubt)) (fun i => vnth i (t_b ubt)) (fun i => vnth i (t_c ubt))
      (fun t y => wf_rhs t [0] y) 0 1 [1]
      (fun i => nth i (stage_updates s') []) (final_state s').
Proof.
  intros H.
  pose proof (compute_step_facts ubt wode 1 1 1 1 ubt_wf eq_refl eq_refl eq_refl wode_result_sizes
                _ _ _ (wst_shaped 0 1 0) H) as F.
  destruct F as [[_ _ _ _ _ _ St] _ _ _ _].
  pose proof (St 0%nat ltac:(cbn; lia)) as S0; pose proof (St 1%nat ltac:(cbn; lia)) as S1.
  wode_ok S0; wode_ok S1.
  injection S0 as K0 _ _ _; injection S1 as K1 _ _ _.
  intros [Hk _]; pose proof (Hk 0%nat ltac:(lia)) as Q0; pose proof (Hk 1%nat ltac:(lia)) as Q1.
  apply (f_equal (vnth 0)) in K0; apply (f_equal (vnth 0)) in Q0; apply (f_equal (vnth 0)) in Q1.
  unfold wf_rhs, rk_stage_value, vmake in Q0, Q1.
  unfold wo_k, accumulate_stages, entry in K0; cbn [stage_input] in K0; rewrite vnth_vzeros in K0;
  simpl in K0, Q0, Q1; unfold entry in Q0, Q1.
  unfold vnth in *; simpl in K0, Q0, Q1.
  set (k0 := nth 0 (nth 0 (stage_updates s') []) 0) in *.
  set (k1 := nth 0 (nth 1 (stage_updates s') []) 0) in *.
  lra.
Qed.
