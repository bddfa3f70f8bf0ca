(** Concrete components used in the Examples and refutations of the run
    theorems; not part of the model.  The ODE is y' = t*y + p in one dimension,
    for every scalar type, evaluated explicitly; [bad] selects stage inputs on
    which the stage problem fails, [bad_weight] weights on which its adjoint
    linear problem fails.  As OpenMDAO's ODE it reports a zero stage
    state and ignores weights on it. *)
From Coq Require Import String.
From Coq Require Import List Reals Lia Lra Bool QArith.
From Verif Require Import Base Ext M_Tableau M_State M_ODE M_Step M_Controller M_Measure M_Integrator
  SpecRK SpecShape SpecDeriv SpecRun L_Vec L_Deriv L_Tableau Witness.
Import ListNotations.

(** Integers as scalars, where equality can be computed and is identity. *)
#[global] Instance ZNum : Num Z := {|
  n0 := 0%Z; n1 := 1%Z; nadd := Z.add; nsub := Z.sub; nmul := Z.mul; ndiv := Z.div; nopp := Z.opp;
  npow := Z.pow; nleb := Z.leb; nltb := Z.ltb; neqb := Z.eqb;
  nlit := fun q => (Qnum q / Zpos (Qden q))%Z |}.

Lemma Zeqb_eq : forall x y : Z, neqb x y = true -> x = y.
Proof. exact (fun x y => proj1 (Z.eqb_eq x y)). Qed.

(** Never failing. *)
Definition never {A} (_ : A) : bool := false.

Section Any.
Context {T : Type} {N : Num T}.
Notation at0 l := (nth 0 l n0).

(** Value at which the right-hand side is evaluated. *)
Definition g_val (i : ode_in T) (h : T) : T := nadd (at0 (step_input i)) (nmul h (at0 (stage_input i))).

Definition gode (bad : ode_in T -> bool) (bad_weight : T -> bool) : ode T := {|
  compute_update := fun i h a =>
    if bad i then Err SolverError
    else Ok ({| stage_update := [nadd (nmul (time i) (g_val i h)) (at0 (independent_input i))];
                stage_state := [n0]; independent_output := [] |},
             [time i; g_val i h]);
  compute_update_derivative := fun lp i h a =>
    Ok {| stage_update := [nadd (nadd (nmul (at0 lp) (g_val i h)) (nmul (time i) (nth 1 lp n0)))
                                (at0 (independent_input i))];
          stage_state := [n0]; independent_output := [] |};
  compute_update_adjoint_derivative := fun lp r h a =>
    let u := at0 (stage_update r) in
    if bad_weight u then Err SolverError else
    Ok {| step_input := [nmul (at0 lp) u]; stage_input := [nmul h (nmul (at0 lp) u)];
          independent_input := [u]; time := nmul (nth 1 lp n0) u |};
  compute_state_norm := fun r => nabs (at0 (stage_state r));
  state_size := 1; independent_input_size := 1;
  independent_output_size := 0; linearization_point_size := 2 |}.

Lemma gode_sized bad bw : sized_ode (gode bad bw).
Proof.
  split; [|split].
  - intros i h a r lp H; cbn in H; destruct (bad i); [discriminate|]; injection H as <- <-; cbn; auto.
  - intros lp i h a r H; injection H as <-; cbn; auto.
  - intros lp i h a r H; cbn in H; destruct (bw _); [discriminate|]; injection H as <-; cbn; auto.
Qed.

Lemma gode_ignores bad bw : ignores_stage_state_weights (gode bad bw).
Proof. intros lp r r' h a H1 H2; cbn; rewrite H1; reflexivity. Qed.

(** Explicit Euler, and Heun's method with embedded Euler. *)
Definition euler : tableau T := {| t_A := [[n0]]; t_b := [n1]; t_c := [n0];
  t_stages := 1; t_p := Some 1%nat; t_name := "euler"; t_hat := None |}.
Definition heun : tableau T := {| t_A := [[n0; n0]; [n1; n0]];
  t_b := [nlit (1 # 2); nlit (1 # 2)]; t_c := [n0; n1];
  t_stages := 2; t_p := Some 2%nat; t_name := "heun"; t_hat := Some ([n1; n0], Some 1%nat) |}.

Lemma euler_wf : tableau_wf euler.
Proof. constructor; cbn; auto. Qed.
Lemma heun_wf : tableau_wf heun.
Proof. constructor; cbn; auto. Qed.

(** A callback that does nothing. *)
Definition quiet_cb : callback T :=
  {| before_iteration := fun _ _ => Ok tt; after_iteration := fun _ _ => Ok tt |}.

(** A controller that rejects steps larger than [m] and halves them. *)
Definition halving (m : T) (c : unit) (q : call_args T) : unit * res (status T) :=
  (c, Ok (if nleb (delta_t q) m
          then {| step_size_suggestion := delta_t q; acceptance := true |}
          else {| step_size_suggestion := nmul (nlit (1 # 2)) (delta_t q); acceptance := false |})).

(** Two callbacks in each mode. *)
Definition gop (bt : tableau T) (o : ode T) (k : checkpointing) (adaptive : bool)
    (h : T) (crit : criterion T) : options T unit := {|
  o_bt := bt; o_ode := o; o_ckpt := k; o_adaptive := adaptive; o_step := h; o_crit := crit;
  o_inf := n0; o_meas := SimpleErrorMeasurer; o_tol := n1; o_ctl := halving (nlit (1 # 4));
  o_callbacks := fun _ => [quiet_cb; quiet_cb]; retry_limit := 10; loop_limit := 10 |}.

Lemma gop_quiet bt o k ad h crit : quiet (gop bt o k ad h crit).
Proof. intros m cb [<-|[<-|[]]] n st; auto. Qed.

Lemma gop_stateless bt o k ad h crit : stateless (gop bt o k ad h crit) tt.
Proof. intros _ q; reflexivity. Qed.

Definition gin (t y p : T) : inputs T := {| time_initial := t; initial := [y]; independent := [p] |}.
Definition gout (t y : T) : outputs T := {| time_final := t; final := [y] |}.

Lemma gin_sized bad bw t y p : inputs_sized (gode bad bw) (gin t y p).
Proof. split; reflexivity. Qed.
Lemma gout_sized bad bw t y : outputs_sized (gode bad bw) (gout t y).
Proof. reflexivity. Qed.

End Any.

(** That a call returns can be computed without computing what it returns. *)
Lemma returns {W A} (p : W * res A) :
  match snd p with Ok _ => true | Err _ => false end = true -> exists w x, p = (w, Ok x).
Proof. destruct p as [w [x|e]]; [eauto|discriminate]. Qed.

(** Over the reals, and never failing. *)
Section Real.
Open Scope R_scope.


Lemma gode_transposed : ode_transposed (gode never never).
Proof.
  intros lp h a inp r w x (I1 & I2 & I3) (O1 & O2 & O3) H1 H2.
  injection H1 as <-; injection H2 as <-.
  cbn [state_size gode independent_output_size independent_input_size] in *.
  unfold dot_out, dot_in, g_val; cbn [stage_update stage_state independent_output step_input stage_input
    independent_input time].
  rewrite (len1 _ O1), (len1 _ O2), (len1 _ I1), (len1 _ I2), (len1 _ I3).
  destruct (independent_output w); [|discriminate].
  unfold dot, vnth; simpl; ring.
Qed.

Lemma gode_linear : ode_linear (gode never never).
Proof.
  intros lp h a al x be y rx ry (I1 & I2 & I3) (J1 & J2 & J3) H1 H2.
  injection H1 as <-; injection H2 as <-.
  cbn [state_size gode independent_output_size independent_input_size] in *.
  cbn [compute_update_derivative gode]; unfold lin_out, lin_in, g_val.
  cbn [stage_update stage_state independent_output step_input stage_input independent_input time].
  rewrite (len1 _ I1), (len1 _ I2), (len1 _ I3), (len1 _ J1), (len1 _ J2), (len1 _ J3).
  unfold vlin, vadd, vscale; simpl; unfold vnth; simpl.
  do 2 f_equal; f_equal; ring.
Qed.

Lemma gode_differentiable : ode_differentiable (gode never never).
Proof.
  intros del h a inp d r lp dr Hdel Hi Hd Hr C1 C2 C3 C4 H.
  injection H as <-.
  assert (Hr' : forall e, Rabs e < del ->
     r e = {| stage_update := [time (inp e) * g_val (inp e) h + vnth 0 (independent_input (inp e))];
              stage_state := [0]; independent_output := [] |} /\
     lp e = [time (inp e); g_val (inp e) h]).
  { intros e He; specialize (Hr e He); cbn in Hr; injection Hr as <- <-; auto. }
  assert (Dv : derivable_pt_lim (fun e => g_val (inp e) h) 0 (g_val d h)).
  { unfold g_val; simpl; apply dlim_plus; [apply C1|apply dlim_scal, C2]. }
  destruct (Hr' 0) as [_ ->]; [rewrite Rabs_R0; exact Hdel|].
  split; [|split]; cbn [stage_update stage_state independent_output].
  - eapply curve_near; [exact Hdel| |apply curve1].
    { intros e He; destruct (Hr' e He) as [-> _]; reflexivity. }
    apply dlim_plus; [|apply C3].
    simpl. rewrite Rplus_comm.
    apply (derivable_pt_lim_mult (fun e => time (inp e))
      (fun e => nth 0 (step_input (inp e)) 0 + h * nth 0 (stage_input (inp e)) 0)); [exact C4|exact Dv].
  - eapply curve_near; [exact Hdel| |apply curve1, (derivable_pt_lim_const 0)].
    intros e He; destruct (Hr' e He) as [-> _]; reflexivity.
  - eapply (curve_near (fun _ => [])); [exact Hdel| |].
    + intros e He; destruct (Hr' e He) as [-> _]; reflexivity.
    + intros [|m]; unfold vnth; simpl; apply derivable_pt_lim_const.
Qed.

End Real.

(** *** A nested controller *)
Section Nested.
Open Scope Q_scope.

(** y' = f(t) where f takes the values f(0) = 0, f(1) = 4, f(129/8) = 5/4 and
    1 at the other times the runs below look at. *)
Definition table (t : ext Q) : ext Q :=
  if neqb t (Fin 0) then Fin 0 else
  if neqb t (Fin 1) then Fin 4 else
  if neqb t (Fin (129 # 8)) then Fin (5 # 4) else Fin 1.

Definition quadrature : ode (ext Q) := {|
  compute_update := fun i h a =>
    Ok ({| stage_update := [table (time i)]; stage_state := [Fin 0]; independent_output := [] |}, []);
  compute_update_derivative := fun _ _ _ _ => Err NotImplementedError;
  compute_update_adjoint_derivative := fun _ _ _ _ => Err NotImplementedError;
  compute_state_norm := fun r => nabs (nth 0 (stage_state r) (Fin 0));
  state_size := 1; independent_input_size := 0;
  independent_output_size := 0; linearization_point_size := 0 |}.

Lemma quadrature_sized : sized_ode quadrature.
Proof.
  split; [|split].
  - intros i h a r lp H; injection H as <- <-; cbn; auto.
  - intros lp i h a r H; discriminate.
  - intros lp i h a r H; discriminate.
Qed.

(** Tolerance 1, no bounds, safety factor 1/2, one retry. *)
Definition ncfg : config (ext Q) := {| tol := Fin 1; lower_bound := Fin 0; upper_bound := PInf;
  safety_factor := Fin (1 # 2); max_iter := 1 |}.

(** A predictive controller of order 1 inside a pseudo controller, as built by
    the integrator from the list [pc; pseudo]. *)
Definition nctl : controller (ext Q) :=
  mk_decorated (pseudo (Fin 1)) (mk_plain (pc (Fin 1))).
Lemma nctl_built : build_chain [pc (Fin 1); pseudo (Fin 1)] = Some nctl.
Proof. reflexivity. Qed.

(** Two steps with Heun's method and embedded Euler from initial step size 1. *)
Definition nop : options (ext Q) (controller (ext Q)) := {|
  o_bt := heun; o_ode := quadrature; o_ckpt := AllCheckpointer; o_adaptive := true; o_step := Fin 1;
  o_crit := PredefinedNumberOfSteps 2; o_inf := PInf; o_meas := SimpleErrorMeasurer; o_tol := Fin 1;
  o_ctl := ctl_call ncfg; o_callbacks := fun _ => []; retry_limit := 10; loop_limit := 10 |}.

Definition nin : inputs (ext Q) := {| time_initial := Fin 0; initial := [Fin 0]; independent := [] |}.

End Nested.
