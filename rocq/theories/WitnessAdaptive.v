(** Concrete adaptive components for the Examples and refutations of
    Properties_Adaptive.v; not part of the model. *)
From Coq Require Import List Reals Lia Lra Bool QArith.
From Verif Require Import Base Ext M_Tableau M_State M_ODE M_Step M_Controller M_Measure M_Integrator
  SpecRK SpecDeriv SpecControl SpecRun SpecAdaptive L_Control L_Run L_Iter L_Log L_Adaptive L_Adaptive2
  L_Adaptive3 WitnessRun.
Import ListNotations.

(** *** Runs that get stuck *)
Section Stuck.
Local Open Scope nat_scope.
Context {T : Type} {N : Num T} {C : Type}.
Variable op : options T C.

(** The first trial of a step: how the loop ends, or how it goes on. *)
Definition first_trial (c : C) (st : tistate T) : (C * tistate T * res unit) + (C * tistate T) :=
  match compute_step (o_bt op) (o_ode op) (disc st) (suggestion st) with
  | Err e => inl (c, st, Err e)
  | Ok tmp =>
    match state_measure (o_meas op) (o_ode op) tmp with
    | Err e => inl (c, st, Err e)
    | Ok em =>
      match o_ctl op c (question op st tmp em) with
      | (c', Err e) => inl (c', st, Err e)
      | (c', Ok stat) =>
        if acceptance stat
        then inl (c', {| disc := rk_set (disc st) tmp; suggestion := step_size_suggestion stat;
                         step_hist := upd 0 (suggestion st) (roll1 (step_hist st));
                         err_hist := upd 0 em (roll1 (err_hist st)) |}, Ok tt)
        else inr (c', with_suggestion (step_size_suggestion stat) st)
      end
    end
  end.

Lemma iterate_first n c st : o_adaptive op = true ->
  iterate_on_step op (S n) c st =
  match first_trial c st with inl x => x | inr (c1, st1) => iterate_on_step op n c1 st1 end.
Proof.
  intros Ha; cbn [iterate_on_step]; rewrite Ha; unfold first_trial.
  destruct (compute_step _ _ _ _) as [tmp|e]; [|reflexivity].
  destruct (state_measure _ _ _) as [em|e]; [|reflexivity].
  unfold question; destruct (o_ctl op c _) as [c1 [stat|e]]; [|reflexivity].
  destruct (acceptance stat); reflexivity.
Qed.

Lemma iterate_forever n c st : o_adaptive op = true -> first_trial c st = inr (c, st) ->
  iterate_on_step op n c st = (c, st, Err OutOfFuel).
Proof.
  intros Ha H; induction n as [|n IH]; [reflexivity|]; rewrite iterate_first, H by exact Ha; exact IH.
Qed.

Lemma forward_loop_stuck keep e c' st' : quiet op -> forall fuel it w l c1 st1,
  going op it (ctl w) (live w) l c1 st1 -> length l < fuel ->
  is_iteration_finished (o_crit op) (it + length l) st1 = false ->
  iterate_on_step op (retry_limit op) c1 st1 = (c', st', Err e) ->
  exists w', forward_loop op keep fuel it w = (w', Err e).
Proof.
  intros Q; induction fuel as [|fuel IH]; intros it w l c1 st1 G Hl F E; [lia|].
  cbn [forward_loop]; unfold reading.
  inversion G as [|it' c2 st2 c3 st3 l' c4 st4 F1 E1 G1]; subst.
  - simpl in F; rewrite Nat.add_0_r in F; rewrite F.
    unfold mbind at 1; unfold run_step, reading, mbind.
    rewrite (before_quiet op Compute (S it) (live w) w Q).
    unfold step_live; cbn [ctl live w_log]; rewrite E; eexists; reflexivity.
  - rewrite F1; unfold mbind at 1; rewrite (run_step_quiet op (S it) w c3 st3 Q E1); unfold mbind.
    simpl in Hl, F; rewrite Nat.add_succ_r in F.
    destruct keep; unfold modify, mret; eapply IH; try eassumption; lia.
Qed.

Lemma compute_stuck i w l c1 st1 c' st' e : loops op -> quiet op ->
  going op 0 (ctl w) (live (prepare op i w)) l c1 st1 -> length l < loop_limit op ->
  is_iteration_finished (o_crit op) (length l) st1 = false ->
  iterate_on_step op (retry_limit op) c1 st1 = (c', st', Err e) ->
  exists w', compute op i w = (w', Err e).
Proof.
  unfold loops, compute, create_checkpointer, iterate_forward; intros L Q G Hl F E.
  unfold mbind; rewrite compute_preparation_eq.
  destruct (o_ckpt op) as [| |fs rs]; [| |contradiction]; unfold mret, modify, reading.
  - destruct (forward_loop_stuck false e c' st' Q (loop_limit op) 0 (prepare op i w) l c1 st1 G Hl F E)
      as (w' & ->); eauto.
  - destruct (forward_loop_stuck true e c' st' Q (loop_limit op) 0 (w_storage [] (prepare op i w))
      l c1 st1 G Hl F E) as (w' & ->); eauto.
Qed.
End Stuck.

(** *** Rational examples: y' = f(t) with Heun's method and embedded Euler *)
Section Rational.
Open Scope Q_scope.

Definition qode (f : ext Q -> ext Q) : ode (ext Q) := {|
  compute_update := fun i h a =>
    Ok ({| stage_update := [f (time i)]; stage_state := [Fin 0]; independent_output := [] |}, []);
  compute_update_derivative := fun _ _ _ _ => Err NotImplementedError;
  compute_update_adjoint_derivative := fun _ _ _ _ => Err NotImplementedError;
  compute_state_norm := fun r => nabs (nth 0 (stage_state r) (Fin 0));
  state_size := 1; independent_input_size := 0;
  independent_output_size := 0; linearization_point_size := 0 |}.

Lemma qode_sized f : sized_ode (qode f).
Proof.
  split; [|split].
  - intros i h a r lp H; injection H as <- <-; cbn; auto.
  - intros lp i h a r H; discriminate.
  - intros lp i h a r H; discriminate.
Qed.

Definition qop (f : ext Q -> ext Q) (cfg : config (ext Q)) (h tf : Q) : options (ext Q) (controller (ext Q)) := {|
  o_bt := heun; o_ode := qode f; o_ckpt := AllCheckpointer; o_adaptive := true; o_step := Fin h;
  o_crit := PredefinedFinalTime (Fin tf); o_inf := PInf; o_meas := SimpleErrorMeasurer; o_tol := tol cfg;
  o_ctl := ctl_call cfg; o_callbacks := fun _ => [quiet_cb]; retry_limit := 10; loop_limit := 10 |}.

Lemma qop_quiet f cfg h tf : quiet (qop f cfg h tf).
Proof. intros m cb [<-|[]] n st; auto. Qed.

Definition qin : inputs (ext Q) := {| time_initial := Fin 0; initial := [Fin 0]; independent := [] |}.

(** Predictive controller for Heun's method with embedded Euler (order 1),
    without a nested one; settings with tolerance [e] and lower bound [l]. *)
Definition qctl : controller (ext Q) := mk_plain (pc (Fin 1)).
Definition qcfg (e l : Q) : config (ext Q) := {| tol := Fin e; lower_bound := Fin l; upper_bound := PInf;
  safety_factor := Fin (9 # 10); max_iter := 5 |}.

(** f(t) = 2 from t = 1/2 on and 0 before; and f(t) = t^8. *)
Definition f1 (t : ext Q) : ext Q := if nltb t (Fin (1 # 2)) then Fin 0 else Fin 2.
Definition f8 (t : ext Q) : ext Q :=
  let t2 := nmul t t in let t4 := nmul t2 t2 in nmul t4 t4.

(** Tolerance 1/100, lower bound 2/5, first step 1/2 on [0, 1]. *)
Definition mid_run : options (ext Q) (controller (ext Q)) := qop f1 (qcfg (1 # 100) (2 # 5)) (1 # 2) 1.
(** Tolerance 1/20, lower bound 2/5, first step 7/10 on [0, 1]. *)
Definition closing : options (ext Q) (controller (ext Q)) := qop f8 (qcfg (1 # 20) (2 # 5)) (7 # 10) 1.

(** The right-hand side is nan; one step on [0, 1]. *)
Definition nan_closing : options (ext Q) (controller (ext Q)) :=
  qop (fun _ => NaN) (qcfg (1 # 100) (1 # 100)) 1 1.

End Rational.

(** *** A real example: y' = 4 t, where the estimated error of a step of size
    [h] is [2 h^2] *)
Section Real.
Open Scope R_scope.

Definition rode : ode (ext R) := {|
  compute_update := fun i h a =>
    Ok ({| stage_update := [nmul (Fin 4) (time i)]; stage_state := [Fin 0]; independent_output := [] |}, []);
  compute_update_derivative := fun _ _ _ _ => Err NotImplementedError;
  compute_update_adjoint_derivative := fun _ _ _ _ => Err NotImplementedError;
  compute_state_norm := fun r => match nth 0 (stage_state r) (Fin 0) with
                                 | Fin x => Fin (Rabs x) | _ => PInf end;
  state_size := 1; independent_input_size := 0;
  independent_output_size := 0; linearization_point_size := 0 |}.

Lemma rode_sized : sized_ode rode.
Proof.
  split; [|split].
  - intros i h a r lp H; injection H as <- <-; cbn; auto.
  - intros lp i h a r H; discriminate.
  - intros lp i h a r H; discriminate.
Qed.

(** Tolerance [e], lower bound 1/10, no upper bound, safety factor 9/10. *)
Definition rcfg (e : R) : config (ext R) := {| tol := Fin e; lower_bound := Fin (1/10); upper_bound := PInf;
  safety_factor := Fin (9/10); max_iter := 5 |}.

(** First step [h], final time 1, integral controller of order 1. *)
Definition raop (e h : R) : options (ext R) (controller (ext R)) := {|
  o_bt := heun; o_ode := rode; o_ckpt := AllCheckpointer; o_adaptive := true; o_step := Fin h;
  o_crit := PredefinedFinalTime (Fin 1); o_inf := PInf; o_meas := SimpleErrorMeasurer; o_tol := Fin e;
  o_ctl := ctl_call (rcfg e); o_callbacks := fun _ => [quiet_cb]; retry_limit := 40; loop_limit := 12 |}.
Definition ractl : controller (ext R) := mk_plain (integral (Fin 1)).
Definition rain : inputs (ext R) := {| time_initial := Fin 0; initial := [Fin 3]; independent := [] |}.

Lemma raop_quiet e h : quiet (raop e h).
Proof. intros m cb [<-|[]] n st; auto. Qed.
Lemma raop_controlled e h : controlled (raop e h) (rcfg e) 1 (1/10).
Proof. constructor; reflexivity || exact I. Qed.
Lemma raop_integral e h : 0 < e -> integral_control (raop e h) (rcfg e) 1 e (9/10) (1/10).
Proof. intros; constructor; try reflexivity; try exact I; try lra. Qed.

(** States the runs go through. *)
Record rform (y t : R) (s : rkstate (ext R)) : Prop := {
  rf_state : final_state s = [Fin y];
  rf_time : final_time s = Fin t;
  rf_ups : exists a b, stage_updates s = [a; b];
  rf_sts : exists a b, stage_states s = [a; b];
  rf_outs : exists a b, stage_independent_outputs s = [a; b];
  rf_times : exists a b, stage_times s = [a; b];
  rf_lps : exists a b, linearization_points s = [a; b]
}.

Lemma half : Q2R (1 # 2) = 1 / 2.
Proof. unfold Q2R; cbn; lra. Qed.

Lemma rode_step y t h s : rform y t s ->
  exists y' tmp, compute_step heun rode s (Fin h) = Ok tmp /\ rform y' (t + h) tmp /\
    state_measure SimpleErrorMeasurer rode tmp = Ok (Fin (2 * (h * h))).
Proof.
  intros [F1 F2 (a1 & b1 & F3) (a2 & b2 & F4) (a3 & b3 & F5) (a4 & b4 & F6) (a5 & b5 & F7)].
  destruct s; cbn in *; subst.
  match goal with |- context [compute_step heun rode ?s ?h] =>
    remember (compute_step heun rode s h) as r eqn:E end.
  vm_compute in E; rewrite E; clear E r; change R1 with 1.
  do 2 eexists; split; [reflexivity|]; split.
  - constructor; cbn [final_state final_time stage_updates stage_states stage_independent_outputs
      stage_times linearization_points]; eauto.
  - cbn; do 2 f_equal.
    match goal with |- Rabs ?x = _ => replace x with (2 * (h * h)) by field end.
    apply Rabs_right; nra.
Qed.

Lemma rode_total y t x s : rform y t s ->
  exists tmp em, compute_step heun rode s x = Ok tmp /\ state_measure SimpleErrorMeasurer rode tmp = Ok em.
Proof.
  intros [F1 F2 (a1 & b1 & F3) (a2 & b2 & F4) (a3 & b3 & F5) (a4 & b4 & F6) (a5 & b5 & F7)].
  destruct s; cbn in *; subst.
  match goal with |- context [compute_step heun rode ?s ?h] =>
    remember (compute_step heun rode s h) as r eqn:E end.
  destruct x; vm_compute in E; rewrite E; do 2 eexists; split; reflexivity.
Qed.

Lemma rform_setup e h : rform 3 0 (disc (live (prepare (raop e h) rain (setup (raop e h) ractl)))).
Proof. constructor; cbn; eauto. Qed.

Lemma raop_errors e h st : errors_are_numbers (raop e h) st.
Proof.
  intros g tmp em [_ H2]; cbn in H2; unfold state_measure in H2.
  destruct (embedded tmp) as [[a b]|]; [|discriminate].
  cbn in H2; injection H2 as <-; destruct (nth 0 b (Fin 0)); discriminate.
Qed.

Lemma rform_set y t s tmp : rform y t tmp -> rform y t (rk_set s tmp).
Proof. intros []; constructor; cbn; auto. Qed.

(** A run with tolerance 8 returns. *)
Lemma raop_going it c st l c' st' y t : going (raop 8 (1/2)) it c st l c' st' ->
  rform y t (disc st) -> within 1 st -> exists y' t', rform y' t' (disc st').
Proof.
  intros G; revert y t; induction G as [|it c st c1 st1 l c' st' F E G IH]; intros y t H W; [eauto|].
  pose proof (step_within _ _ _ _ (raop_controlled 8 (1/2)) _ _ _ _ _ E W) as [W1 _].
  apply iterate_spec in E as (l1 & c2 & st2 & Rt & _ & D); [|reflexivity].
  pose proof (retries_disc _ _ _ _ _ _ Rt) as Ed.
  pose proof (retries_within _ _ _ _ (raop_controlled 8 (1/2)) _ _ _ _ _ Rt W) as (t2 & h2 & (_ & A2) & _).
  destruct D as [(_ & _ & _ & D)|(_ & D)]; [discriminate|].
  inversion D as [tmp em c3 stat Ht Ec Ea| |]; subst.
  destruct Ht as [Ht _]; cbn [o_bt o_ode raop] in Ht; rewrite A2, Ed in Ht.
  destruct (rode_step y t h2 (disc st) H) as (y' & tmp' & E1 & E2 & _).
  rewrite E1 in Ht; injection Ht as <-.
  eapply IH; [cbn; apply rform_set; exact E2|exact W1].
Qed.

Lemma pow_small : (9/10) ^ 30 * (1 - 0) < 1/10 + / 10 ^ 10.
Proof. assert (0 < / 10 ^ 10) by (apply Rinv_0_lt_compat, pow_lt; lra). lra. Qed.

Lemma raop_returns : exists w' out, compute (raop 8 (1/2)) rain (setup (raop 8 (1/2)) ractl) = (w', Ok out).
Proof.
  set (op := raop 8 (1/2)); set (w := setup op ractl).
  destruct (compute op rain w) as [w' [out|e]] eqn:E; [eauto|exfalso].
  pose proof (raop_controlled 8 (1/2)) as K; pose proof (raop_integral 8 (1/2) ltac:(lra)) as KI.
  apply compute_err in E as (l & c1 & st1 & G & D); [|exact I|apply raop_quiet].
  pose proof (stateless_going op _ _ _ _ _ _ (integral_stateless _ _ _ _ _ K) G) as ->.
  assert (S : starts_at op rain (live (prepare op rain w))) by apply starts_prepare.
  assert (F : fits 1 (1/10) (live (prepare op rain w))) by (eapply (start_fits op 1 (1/10) rain _ 0 (1/2)); auto; lra).
  assert (W : within 1 (live (prepare op rain w))) by (eapply (start_within op 1 rain _ 0 (1/2)); auto; lra).
  destruct (raop_going _ _ _ _ _ _ 3 0 G (rform_setup _ _) W) as (y' & t' & FR).
  destruct (going_times op (rcfg 8) 1 (1/10) K _ _ _ _ _ _ 0 G F eq_refl ltac:(lra) ltac:(lra)) as (B1 & t1 & B2 & B3).
  pose proof (rf_time _ _ _ FR) as Et; rewrite Et in B2; injection B2 as ->.
  destruct D as [(D1 & ->)|(D1 & D2 & c' & st' & D3)].
  - rewrite D1 in B1; cbn in B1; lra.
  - assert (Hk : forall t, final_time (disc st1) = Fin t -> (9/10) ^ 30 * (1 - t) < 1/10 + / 10 ^ 10).
    { intros t Ht; rewrite Et in Ht; injection Ht as <-; pose proof pow_small.
      apply Rle_lt_trans with ((9/10) ^ 30 * (1 - 0)); [|lra]. apply Rmult_le_compat_l; [apply pow_le|]; lra. }
    pose proof (going_fits op (rcfg 8) 1 (1/10) K _ _ _ _ _ _ G F) as F1.
    destruct (integral_step_err op (rcfg 8) 1 8 (9/10) 1 (1/10) K KI st1 30 e c' st'
      (raop_errors 8 (1/2) st1) F1 Hk ltac:(cbn; lia) D3) as [(h & X)|(_ & t & h & tmp & em & A & E1 & E2 & Ht & NA)].
    + destruct (rode_total _ _ h _ FR) as (tmp & em & X1 & X2).
      destruct X as [X|(tmp' & X & X')]; cbn [disc suggestion with_suggestion o_bt o_ode o_meas raop op] in *;
        rewrite X1 in X; [discriminate|]; injection X as <-; rewrite X2 in X'; discriminate.
    + apply NA; left; destruct Ht as [T1 T2]; rewrite (proj2 A) in T1.
      destruct (rode_step _ _ h _ FR) as (y2 & tmp' & X1 & _ & X2).
      cbn [o_bt o_ode o_meas raop op] in *; rewrite X1 in T1; injection T1 as <-.
      rewrite X2 in T2; injection T2 as <-; cbn.
      destruct A as [A _]; rewrite Et in A; injection A as ->; nra.
Qed.

(** With tolerance 1 a first step of size 1 is retried. *)
Lemma raop_retried : exists c1 st1,
  retry (raop 1 1) ractl (live (prepare (raop 1 1) rain (setup (raop 1 1) ractl))) c1 st1.
Proof.
  set (op := raop 1 1); set (st := live (prepare op rain (setup op ractl))).
  destruct (rode_step 3 0 1 (disc st) (rform_setup 1 1)) as (y' & tmp & E1 & E2 & E3).
  assert (Ht : trial op st tmp (Fin (2 * (1 * 1)))) by (split; [exact E1|exact E3]).
  destruct (integral_answer op (rcfg 1) 1 1 (9/10) (1/10) (raop_integral 1 1 ltac:(lra)) st tmp _ 0 1
    (raop_errors 1 1 st) (conj eq_refl eq_refl) ltac:(lra) ltac:(cbn; lra) Ht) as (stat & E & _).
  do 2 eexists; apply (retry_intro op ractl st tmp _ ractl stat Ht E).
  destruct (acceptance stat) eqn:F; [exfalso|reflexivity].
  eapply (c13 (rcfg 1)) in F; [|exact E]; destruct F as [F|[F|F]]; cbn in F; [lra| |].
  - apply Rlt_not_le in F; apply F; rewrite Rabs_right by lra; lra.
  - rewrite (rf_time _ _ _ E2) in F; cbn in F; rewrite Rabs_right in F by lra; lra.
Qed.

(** The same with error measure nan throughout. *)
Definition nanode : ode (ext R) := {|
  compute_update := compute_update rode;
  compute_update_derivative := compute_update_derivative rode;
  compute_update_adjoint_derivative := compute_update_adjoint_derivative rode;
  compute_state_norm := fun _ => NaN;
  state_size := 1; independent_input_size := 0;
  independent_output_size := 0; linearization_point_size := 0 |}.
Definition nanop (h : R) : options (ext R) (controller (ext R)) := {|
  o_bt := heun; o_ode := nanode; o_ckpt := AllCheckpointer; o_adaptive := true; o_step := Fin h;
  o_crit := PredefinedFinalTime (Fin 1); o_inf := PInf; o_meas := SimpleErrorMeasurer; o_tol := Fin 1;
  o_ctl := ctl_call (rcfg 1); o_callbacks := fun _ => [quiet_cb]; retry_limit := 40; loop_limit := 12 |}.

Definition nanstart (h : R) := live (prepare (nanop h) rain (setup (nanop h) ractl)).

Lemma nan_step y t h s : rform y t s ->
  exists tmp, compute_step heun nanode s (Fin h) = Ok tmp /\ final_time tmp = Fin (t + h) /\
    state_measure SimpleErrorMeasurer nanode tmp = Ok NaN.
Proof.
  intros [F1 F2 (a1 & b1 & F3) (a2 & b2 & F4) (a3 & b3 & F5) (a4 & b4 & F6) (a5 & b5 & F7)].
  destruct s; cbn in *; subst.
  match goal with |- context [compute_step heun nanode ?s ?h] =>
    remember (compute_step heun nanode s h) as r eqn:E end.
  vm_compute in E; rewrite E; clear E r; change R1 with 1.
  eexists; split; [reflexivity|]; split; reflexivity.
Qed.

Lemma nan_trial h : exists tmp, trial (nanop h) (nanstart h) tmp NaN /\ final_time tmp = Fin (0 + h).
Proof.
  assert (F : rform 3 0 (disc (nanstart h))) by (constructor; cbn; eauto).
  destruct (nan_step 3 0 h (disc (nanstart h)) F) as (tmp & E1 & E2 & E3).
  exists tmp; split; [|exact E2]; split; [exact E1|exact E3].
Qed.
End Real.

Section More.
Open Scope R_scope.

Lemma bound_exists kappa d lb : 0 < kappa < 1 -> 0 <= d -> 0 <= lb -> exists n, kappa ^ n * d < lb + / 10 ^ 10.
Proof.
  intros Hk Hd Hl.
  assert (P : 0 < / 10 ^ 10) by (apply Rinv_0_lt_compat, pow_lt; lra).
  destruct (pow_lt_1_zero kappa ltac:(rewrite Rabs_right; lra) (/ 10 ^ 10 / (d + 1))) as (n & Hn).
  { apply Rdiv_lt_0_compat; lra. }
  exists n; specialize (Hn n ltac:(lia)); rewrite Rabs_right in Hn by (apply Rle_ge, pow_le; lra).
  apply Rle_lt_trans with (kappa ^ n * (d + 1)); [apply Rmult_le_compat_l; [apply pow_le; lra|lra]|].
  apply Rlt_le_trans with (/ 10 ^ 10 / (d + 1) * (d + 1)); [apply Rmult_lt_compat_r; lra|].
  unfold Rdiv; rewrite Rmult_assoc, Rinv_l, Rmult_1_r by lra; lra.
Qed.

Lemma closing_stuck n : exists w', compute (with_retry_limit closing n) qin (setup closing qctl) = (w', Err OutOfFuel).
Proof.
  destruct n as [|n].
  - assert (X : snd (compute (with_retry_limit closing 0) qin (setup closing qctl)) = Err OutOfFuel)
      by (vm_compute; reflexivity).
    destruct (compute _ _ _) as [w r]; cbn in X; subst r; eauto.
  - set (op := with_retry_limit closing (S n)).
    assert (Q : quiet op) by (intros m cb [<-|[]] k st; auto).
    set (s0 := live (prepare op qin (setup closing qctl))).
    destruct (first_trial op qctl s0) as [[[c1 st1] r1]|x] eqn:E1; [|exfalso; vm_compute in E1; discriminate].
    assert (Er : r1 = Ok tt /\ c1 = qctl) by (vm_compute in E1; injection E1 as <- <- <-; auto).
    destruct Er as [-> ->].
    assert (I1 : iterate_on_step op (retry_limit op) qctl s0 = (qctl, st1, Ok tt)).
    { change (retry_limit op) with (S n); rewrite iterate_first by reflexivity; rewrite E1; reflexivity. }
    assert (F1 : first_trial op qctl st1 = inr (qctl, st1)).
    { vm_compute in E1; injection E1 as <-; vm_compute; reflexivity. }
    apply (compute_stuck op qin (setup closing qctl) [st1] qctl st1 qctl st1 OutOfFuel I Q).
    + econstructor; [vm_compute; reflexivity|exact I1|constructor].
    + cbn; lia.
    + clear - E1; vm_compute in E1; injection E1 as <-; vm_compute; reflexivity.
    + apply iterate_forever; [reflexivity|exact F1].
Qed.

Lemma nan_stuck n : exists w', compute (with_retry_limit nan_closing n) qin (setup nan_closing qctl) = (w', Err OutOfFuel).
Proof.
  set (op := with_retry_limit nan_closing n).
  assert (Q : quiet op) by (intros m cb [<-|[]] k st; auto).
  apply (compute_stuck op qin (setup nan_closing qctl) [] qctl (live (prepare op qin (setup nan_closing qctl)))
    qctl (live (prepare op qin (setup nan_closing qctl))) OutOfFuel I Q).
  - constructor.
  - cbn; lia.
  - vm_compute; reflexivity.
  - apply iterate_forever; [reflexivity|vm_compute; reflexivity].
Qed.

Lemma nan_first : exists st tmp, starts_at nan_closing qin st /\ trial nan_closing st tmp NaN.
Proof.
  exists (live (prepare nan_closing qin (setup nan_closing qctl))).
  remember (compute_step heun (o_ode nan_closing)
    (disc (live (prepare nan_closing qin (setup nan_closing qctl)))) (Fin 1%Q)) as r eqn:E.
  destruct r as [tmp|e]; [|vm_compute in E; discriminate].
  exists tmp; split; [apply starts_prepare|]; split; [symmetry; exact E|].
  vm_compute in E; injection E as ->; vm_compute; reflexivity.
Qed.

Lemma nan_mid : exists op cfg c, controlled op cfg 1 (1/10) /\
  outermost c /\ Forall reacts (members c) /\ exists st tmp, trial op st tmp NaN /\ about_to st 0 (1/4) /\
  ~ accept_rule cfg (question op st tmp NaN) /\ xlt (Fin (1/4)) (upper_bound cfg).
Proof.
  exists (nanop (1/4)), (rcfg 1), ractl; split; [constructor; reflexivity || exact I|].
  split; [reflexivity|]; split.
  - apply Forall_cons; [|apply Forall_nil].
    assert (E : Q2R (inject_Z 1) = 1) by (unfold Q2R; cbn; lra).
    unfold reacts; cbn; rewrite E, Reqb_neq by lra; eexists; split; [reflexivity|lra].
  - destruct (nan_trial (1/4)) as (tmp & Ht & Et); exists (nanstart (1/4)), tmp.
    split; [exact Ht|]; split; [split; reflexivity|]; split.
    + assert (B : / 10 ^ 10 < 1/10).
      { assert (10 * 1 < 10 ^ 10) by (simpl; lra).
        apply Rlt_le_trans with (/ (10 * 1)); [apply Rinv_lt_contravar; [apply Rmult_lt_0_compat|]; lra|lra]. }
      intros [H|[H|H]]; cbn in H; [exact H| |].
      * rewrite Rabs_right in H; lra.
      * rewrite Et in H; cbn in H; rewrite Rabs_left in H; lra.
    + split; cbn; auto.
Qed.

Lemma nan_last : exists op cfg c, controlled op cfg 1 (1/10) /\
  Forall reacts (members c) /\ exists st tmp, trial op st tmp NaN /\ about_to st 0 1 /\
  xle (Fin 1) (upper_bound cfg).
Proof.
  exists (nanop 1), (rcfg 1), ractl; split; [constructor; reflexivity || exact I|]; split.
  - apply Forall_cons; [|apply Forall_nil].
    assert (E : Q2R (inject_Z 1) = 1) by (unfold Q2R; cbn; lra).
    unfold reacts; cbn; rewrite E, Reqb_neq by lra; eexists; split; [reflexivity|lra].
  - destruct (nan_trial 1) as (tmp & Ht & Et); exists (nanstart 1), tmp.
    split; [exact Ht|]; split; [split; reflexivity|exact I].
Qed.

(** A lower bound above the length of the interval. *)
Definition wide : config (ext R) := {| tol := Fin 1; lower_bound := Fin 3; upper_bound := PInf;
  safety_factor := Fin (9/10); max_iter := 5 |}.
Definition wideop : options (ext R) (controller (ext R)) := {|
  o_bt := heun; o_ode := rode; o_ckpt := AllCheckpointer; o_adaptive := true; o_step := Fin 1;
  o_crit := PredefinedFinalTime (Fin 1); o_inf := PInf; o_meas := SimpleErrorMeasurer; o_tol := Fin 1;
  o_ctl := ctl_call wide; o_callbacks := fun _ => [quiet_cb]; retry_limit := 40; loop_limit := 12 |}.

Lemma short_closing : exists op cfg, controlled op cfg 1 3 /\
  exists st tmp em, trial op st tmp em /\ about_to st 0 1 /\ ~ xle em (tol cfg).
Proof.
  exists wideop, wide; split; [constructor; reflexivity || exact I|].
  set (st := live (prepare wideop rain (setup wideop ractl))).
  assert (F : rform 3 0 (disc st)) by (constructor; cbn; eauto).
  destruct (rode_step 3 0 1 (disc st) F) as (y' & tmp & E1 & E2 & E3).
  exists st, tmp, (Fin (2 * (1 * 1))); split; [split; [exact E1|exact E3]|].
  split; [split; reflexivity|cbn; lra].
Qed.
End More.
