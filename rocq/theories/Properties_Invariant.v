(** Conserved quantities. *)
From Coq Require Import String.
From Coq Require Import List Reals Lra Lia Bool Arith QArith Qreals.
From Verif Require Import Base Ext M_Tableau M_State M_ODE M_Step M_Controller M_Measure M_Integrator M_Tableaux M_TableauxInit
  SpecStage SpecRK SpecShape SpecDeriv SpecRun SpecRevolve SpecConvergence SpecInvariant SpecTotal L_Vec L_Order L_Run L_RunProps L_RunConvergence L_Total L_Invariant WitnessRun L_Stage8 WitnessStage.
Import ListNotations.
Open Scope R_scope.

(** ** C91: conserved quantities stay constant *)
(** Linear ones with every tableau, step size control and checkpointer, also
    when stages are solved inexactly. *)
Theorem C91_linear : forall C (op : options R C), tableau_wf (o_bt op) -> sized_ode (o_ode op) ->
  forall q, keeps_total (o_ode op) q -> forall c w i w' out, loops op -> reachable op c w -> inputs_sized (o_ode op) i ->
  compute op i w = (w', Ok out) -> total (state_size (o_ode op)) q (final out) = total (state_size (o_ode op)) q (initial i).
Proof. exact @run_total. Qed.
Print Assumptions C91_linear.

Theorem C91_linear_recomputing : forall C (op : options R C), tableau_wf (o_bt op) -> sized_ode (o_ode op) ->
  forall q, keeps_total (o_ode op) q -> forall n fs rs c c0 w i w' out, stateless op c -> ctl w = c ->
  o_ckpt op = PyrevolveCheckpointer fs rs -> valid_schedule n fs rs -> Forall forward_action fs ->
  reachable op c0 w -> inputs_sized (o_ode op) i -> compute op i w = (w', Ok out) ->
  total (state_size (o_ode op)) q (final out) = total (state_size (o_ode op)) q (initial i).
Proof. exact @revolve_total. Qed.
Print Assumptions C91_linear_recomputing.

(** Forward products keep the quantity of the perturbation, *)
Theorem C91_forward : forall C (op : options R C), tableau_wf (o_bt op) -> sized_ode (o_ode op) ->
  forall q, tangent_keeps_total (o_ode op) q -> forall c w i d w' out, reachable op c w -> inputs_sized (o_ode op) i -> inputs_sized (o_ode op) d ->
  compute_jacvec_product_fwd op i d w = (w', Ok out) ->
  total (state_size (o_ode op)) q (final out) = total (state_size (o_ode op)) q (initial d).
Proof. exact @fwd_total. Qed.
Print Assumptions C91_forward.

(** and the reverse product for the quantity itself is the quantity: its
    gradient with respect to the initial values; the one with respect to time
    and parameters is zero. *)
Theorem C91_reverse : forall C (op : options R C) (q : nat -> R), tableau_wf (o_bt op) -> sized_ode (o_ode op) ->
  tangent_keeps_total (o_ode op) q -> forall c1 c2 h1 h2 i w2 out w3 g,
  ode_transposed (o_ode op) -> ignores_stage_state_weights (o_ode op) -> o_ckpt op = AllCheckpointer ->
  Forall (call_sized (o_ode op)) h1 -> Forall (call_sized (o_ode op)) h2 -> inputs_sized (o_ode op) i ->
  ctl (run_calls op h1 (setup op c1)) = ctl (run_calls op h2 (setup op c2)) ->
  (forall d, inputs_sized (o_ode op) d -> exists w1 dout, compute_jacvec_product_fwd op i d (run_calls op h1 (setup op c1)) = (w1, Ok dout)) ->
  compute op i (run_calls op h2 (setup op c2)) = (w2, Ok out) ->
  compute_jacvec_product_rev op i {| time_final := 0; final := vmake (state_size (o_ode op)) q |} w2 = (w3, Ok g) ->
  time_initial g = 0 /\ (forall m, (m < state_size (o_ode op))%nat -> vnth m (initial g) = q m) /\
  (forall m, (m < independent_input_size (o_ode op))%nat -> vnth m (independent g) = 0).
Proof. exact @rev_total. Qed.
Print Assumptions C91_reverse.

(** Quadratic ones, with tableaux that meet Cooper's condition, *)
Lemma c91_quadratic : forall C (op : options R C) f S,
  tableau_wf (o_bt op) -> is_implicit (o_bt op) = false -> sized_ode (o_ode op) ->
  solves_stage_equation (o_ode op) (state_size (o_ode op)) f -> (forall i j, S i j = S j i) ->
  quadratic_method (t_stages (o_bt op)) (entry (t_A (o_bt op))) (fun k => vnth k (t_b (o_bt op))) ->
  forall c w i w' out, loops op -> reachable op c w -> inputs_sized (o_ode op) i ->
  keeps_form (state_size (o_ode op)) S (fun t y => f t (independent i) y) -> compute op i w = (w', Ok out) ->
  form (state_size (o_ode op)) S (final out) (final out) = form (state_size (o_ode op)) S (initial i) (initial i).
Proof.
  intros C op f S Hbt Himp Hs Hf Sym Q c w i w' out L HR Hi K E.
  destruct (run_steps op f Hbt Himp Hs Hf c w i w' out L HR Hi E) as (a & l & _ & _ & _ & _ & St & _).
  exact (form_steps _ S Sym _ _ _ _ _ Q K _ _ _ _ St).
Qed.
Theorem C91_quadratic : forall C (op : options R C) f S,
  tableau_wf (o_bt op) -> is_implicit (o_bt op) = false -> sized_ode (o_ode op) ->
  solves_stage_equation (o_ode op) (state_size (o_ode op)) f -> (forall i j, S i j = S j i) ->
  quadratic_method (t_stages (o_bt op)) (entry (t_A (o_bt op))) (fun k => vnth k (t_b (o_bt op))) ->
  forall c w i w' out, loops op -> reachable op c w -> inputs_sized (o_ode op) i ->
  keeps_form (state_size (o_ode op)) S (fun t y => f t (independent i) y) -> compute op i w = (w', Ok out) ->
  form (state_size (o_ode op)) S (final out) (final out) = form (state_size (o_ode op)) S (initial i) (initial i).
Proof. exact c91_quadratic. Qed.
Print Assumptions C91_quadratic.

(** of which the implicit midpoint rule is one. *)
Lemma midpoint_eval : exists bt, shipped_init implicit_midpoint = Ok (bt, []) /\ tableau_wf bt /\ is_implicit bt = false /\
  t_stages bt = 1%nat /\ t_A bt = [[/ 2]] /\ t_b bt = [1] /\ t_c bt = [/ 2].
Proof.
  destruct (shipped_constructed implicit_midpoint 0%Q 0%Q) as (bt & E & W & P & I & _ & _ & EA & Eb & Ec & _);
    [apply (nth_error_In _ 2); reflexivity|].
  exists bt. split; [exact E|]. split; [exact W|]. split; [exact I|].
  assert (S : t_stages bt = 1%nat) by (rewrite <- (tw_b _ W), Eb; reflexivity).
  rewrite EA, Eb, Ec, S. split; [reflexivity|]. repeat split; cbn; unfold Q2R; cbn; repeat f_equal; field.
Qed.
Lemma c91_midpoint : exists bt, shipped_init implicit_midpoint = Ok (bt, []) /\ tableau_wf bt /\ is_implicit bt = false /\
  quadratic_method (t_stages bt) (entry (t_A bt)) (fun k => vnth k (t_b bt)).
Proof.
  destruct midpoint_eval as (bt & E & W & I & S & EA & Eb & _). exists bt. split; [exact E|]. split; [exact W|]. split; [exact I|].
  rewrite S, EA, Eb. intros i j Hi Hj. assert (i = 0%nat) by lia. assert (j = 0%nat) by lia. subst. cbn. field.
Qed.
Theorem C91_midpoint : exists bt, shipped_init implicit_midpoint = Ok (bt, []) /\ tableau_wf bt /\ is_implicit bt = false /\
  quadratic_method (t_stages bt) (entry (t_A bt)) (fun k => vnth k (t_b bt)).
Proof. exact c91_midpoint. Qed.
Print Assumptions C91_midpoint.

(** *** Two compartments that exchange mass *)
Definition exchange_rate (i : ode_in R) (h a : R) : R :=
  - ((vnth 0 (M_ODE.step_input i) + h * vnth 0 (stage_input i)) - (vnth 1 (M_ODE.step_input i) + h * vnth 1 (stage_input i))) / (1 + 2 * (h * a)).
Definition exchange : ode R := {|
  compute_update := fun i h a => Ok ({| stage_update := [exchange_rate i h a; - exchange_rate i h a]; stage_state := [0; 0]; independent_output := [] |}, []);
  compute_update_derivative := fun lp i h a => Ok {| stage_update := [exchange_rate i h a; - exchange_rate i h a]; stage_state := [0; 0]; independent_output := [] |};
  compute_update_adjoint_derivative := fun lp r h a =>
    let e := - (vnth 0 (stage_update r) - vnth 1 (stage_update r)) / (1 + 2 * (h * a)) in
    Ok {| M_ODE.step_input := [e; - e]; stage_input := [h * e; - (h * e)]; independent_input := []; time := 0 |};
  compute_state_norm := fun r => 0;
  state_size := 2; independent_input_size := 0; independent_output_size := 0; linearization_point_size := 0 |}.
Lemma exchange_sized : sized_ode exchange.
Proof.
  split; [|split].
  - intros i h a r lp H; injection H as <- <-; cbn; auto.
  - intros lp i h a r H; injection H as <-; cbn; auto.
  - intros lp i h a r H; injection H as <-; cbn; auto.
Qed.
Lemma exchange_keeps : keeps_total exchange (fun _ => 1) /\ tangent_keeps_total exchange (fun _ => 1).
Proof.
  split.
  - intros i h a r lp H; injection H as <- <-. unfold total, vnth. cbn. ring.
  - intros lp i h a r H; injection H as <-. unfold total, vnth. cbn. ring.
Qed.
Lemma len2 (l : list R) : length l = 2%nat -> l = [vnth 0 l; vnth 1 l].
Proof. destruct l as [|x [|y [|z l]]]; try discriminate. reflexivity. Qed.
Lemma exchange_transposed : ode_transposed exchange.
Proof.
  intros lp h a inp r w x (I1 & I2 & I3) (O1 & O2 & O3) H1 H2. injection H1 as <-; injection H2 as <-.
  cbn [state_size exchange independent_output_size independent_input_size] in *.
  unfold dot_out, dot_in. cbn [stage_update stage_state independent_output M_ODE.step_input stage_input independent_input time].
  unfold exchange_rate.
  rewrite (len2 _ O1), (len2 _ O2), (len2 _ I1), (len2 _ I2).
  destruct (independent_output w); [|discriminate]. destruct (independent_input inp); [|discriminate].
  unfold dot, vnth, Rdiv; simpl. ring.
Qed.
Lemma exchange_answers h a : answers exchange h a.
Proof. repeat split; intros; eexists; reflexivity. Qed.
Definition pair_in (y z : R) : inputs R := {| time_initial := 0; initial := [y; z]; independent := [] |}.

Lemma exchange_returns bt n y z : tableau_wf bt -> (0 < t_stages bt)%nat ->
  let op := study_op bt exchange (/ 2) n in
  (exists w' out, compute op (pair_in y z) (setup op tt) = (w', Ok out)) /\
  (forall d, inputs_sized exchange d -> exists w' out, compute_jacvec_product_fwd op (pair_in y z) d (setup op tt) = (w', Ok out)) /\
  (forall d w1 out, outputs_sized exchange d -> compute op (pair_in y z) (setup op tt) = (w1, Ok out) ->
     exists w' g, compute_jacvec_product_rev op (pair_in y z) d w1 = (w', Ok g)).
Proof.
  intros W P op.
  destruct (c69 _ op P (fun _ _ => exchange_answers _ _) exchange_sized eq_refl I (proj1 (proj2 (proj2 (proj2 (proj2 (proj2 (proj2 (study_fixed bt exchange (/ 2) n)))))))) ltac:(cbn; lia)
     tt (setup op tt) (pair_in y z) (reachable_setup op tt) ltac:(split; reflexivity) ltac:(unfold enough_steps; cbn; lia)) as (A & B & D).
  split; [exact A|]. split; [exact B|]. exact (D eq_refl).
Qed.

(** The hypotheses of the linear theorems, with the classical method, any number
    of steps and any initial values. *)
Example C91_linear_hypotheses_met : forall n y z, exists bt w' out w3 g w4 dout,
  let op := study_op bt exchange (/ 2) n in
  shipped_init runge_kutta_four = Ok (bt, []) /\ tableau_wf (o_bt op) /\ sized_ode (o_ode op) /\
  keeps_total (o_ode op) (fun _ => 1) /\ tangent_keeps_total (o_ode op) (fun _ => 1) /\
  ode_transposed (o_ode op) /\ ignores_stage_state_weights (o_ode op) /\ o_ckpt op = AllCheckpointer /\
  loops op /\ reachable op tt (setup op tt) /\ inputs_sized (o_ode op) (pair_in y z) /\
  (forall d, inputs_sized (o_ode op) d -> exists w1 dout, compute_jacvec_product_fwd op (pair_in y z) d (run_calls op [] (setup op tt)) = (w1, Ok dout)) /\
  compute op (pair_in y z) (run_calls op [] (setup op tt)) = (w', Ok out) /\
  compute_jacvec_product_rev op (pair_in y z) {| time_final := 0; final := vmake (state_size (o_ode op)) (fun _ => 1) |} w' = (w3, Ok g) /\
  compute_jacvec_product_fwd op (pair_in y z) (pair_in 1 2) (setup op tt) = (w4, Ok dout) /\
  total (state_size (o_ode op)) (fun _ => 1) (initial (pair_in y z)) = y + z.
Proof.
  intros n y z. destruct rk4_amplification as (bt & E & W & P & _).
  destruct (exchange_returns bt n y z W P) as ((w' & out & R1) & F & B).
  destruct (B {| time_final := 0; final := vmake 2 (fun _ => 1) |} w' out eq_refl R1) as (w3 & g & R2).
  destruct (F (pair_in 1 2) ltac:(split; reflexivity)) as (w4 & dout & R3).
  exists bt, w', out, w3, g, w4, dout. cbv zeta.
  split; [exact E|]. split; [exact W|]. split; [exact exchange_sized|]. split; [apply exchange_keeps|]. split; [apply exchange_keeps|].
  split; [exact exchange_transposed|]. split; [intros lp r r' h a H1 H2; cbn; rewrite H1; reflexivity|]. split; [reflexivity|].
  split; [exact I|]. split; [apply reachable_setup|]. split; [split; reflexivity|]. split; [exact F|]. split; [exact R1|].
  split; [exact R2|]. split; [exact R3|]. unfold total, vnth. cbn. ring.
Qed.

(** *** The rotation y0' = - y1, y1' = y0 *)
Definition rotation_f (t : R) (p y : list R) : list R := [- vnth 1 y; vnth 0 y].
Definition rotation : ode R := {|
  compute_update := fun i h a =>
    let u := vnth 0 (M_ODE.step_input i) + h * vnth 0 (stage_input i) in
    let v := vnth 1 (M_ODE.step_input i) + h * vnth 1 (stage_input i) in
    let d := 1 + (h * a) * (h * a) in
    Ok ({| stage_update := [(- v - h * a * u) / d; (u - h * a * v) / d]; stage_state := [0; 0]; independent_output := [] |}, []);
  compute_update_derivative := fun lp i h a => Ok {| stage_update := [0; 0]; stage_state := [0; 0]; independent_output := [] |};
  compute_update_adjoint_derivative := fun lp r h a =>
    Ok {| M_ODE.step_input := [0; 0]; stage_input := [0; 0]; independent_input := []; time := 0 |};
  compute_state_norm := fun r => 0;
  state_size := 2; independent_input_size := 0; independent_output_size := 0; linearization_point_size := 0 |}.
Lemma rotation_sized : sized_ode rotation.
Proof.
  split; [|split].
  - intros i h a r lp H; injection H as <- <-; cbn; auto.
  - intros lp i h a r H; injection H as <-; cbn; auto.
  - intros lp i h a r H; injection H as <-; cbn; auto.
Qed.
Lemma rotation_solves : solves_stage_equation rotation 2 rotation_f.
Proof.
  intros i h a r lp H1 H2 H. injection H as <- <-. pose proof (Rle_0_sqr (h * a)) as Q. unfold Rsqr in Q.
  unfold rotation_f. cbn [stage_update].
  rewrite (len2 _ H1), (len2 _ H2). unfold vnth; cbn. f_equal; [|f_equal]; field; lra.
Qed.
Lemma rotation_answers h a : answers rotation h a.
Proof. repeat split; intros; eexists; reflexivity. Qed.
Definition unit_form (i j : nat) : R := if Nat.eqb i j then 1 else 0.
Lemma rotation_keeps p : keeps_form 2 unit_form (fun t y => rotation_f t p y).
Proof. intros t y _. unfold form, unit_form, rotation_f, vnth. cbn. ring. Qed.
Lemma rotation_returns bt n h y z : tableau_wf bt -> (0 < t_stages bt)%nat ->
  let op := study_op bt rotation h n in exists w' out, compute op (pair_in y z) (setup op tt) = (w', Ok out).
Proof.
  intros W P op.
  exact (proj1 (c69 _ op P (fun _ _ => rotation_answers _ _) rotation_sized eq_refl I (proj1 (proj2 (proj2 (proj2 (proj2 (proj2 (proj2 (study_fixed bt rotation h n)))))))) ltac:(cbn; lia)
     tt (setup op tt) (pair_in y z) (reachable_setup op tt) ltac:(split; reflexivity) ltac:(unfold enough_steps; cbn; lia))).
Qed.

Example C91_quadratic_hypotheses_met : forall h n y z, exists bt w' out,
  let op := study_op bt rotation h n in
  shipped_init implicit_midpoint = Ok (bt, []) /\ tableau_wf (o_bt op) /\ is_implicit (o_bt op) = false /\ sized_ode (o_ode op) /\
  solves_stage_equation (o_ode op) (state_size (o_ode op)) rotation_f /\ (forall i j, unit_form i j = unit_form j i) /\
  quadratic_method (t_stages (o_bt op)) (entry (t_A (o_bt op))) (fun k => vnth k (t_b (o_bt op))) /\
  loops op /\ reachable op tt (setup op tt) /\ inputs_sized (o_ode op) (pair_in y z) /\
  keeps_form (state_size (o_ode op)) unit_form (fun t x => rotation_f t (independent (pair_in y z)) x) /\
  compute op (pair_in y z) (setup op tt) = (w', Ok out) /\
  form (state_size (o_ode op)) unit_form (initial (pair_in y z)) (initial (pair_in y z)) = y ^ 2 + z ^ 2.
Proof.
  intros h n y z. destruct c91_midpoint as (bt & E & W & I & Q). destruct midpoint_eval as (bt' & E' & _ & _ & S & _).
  rewrite E in E'. injection E' as <-.
  destruct (rotation_returns bt n h y z W ltac:(lia)) as (w' & out & R1).
  exists bt, w', out. cbv zeta. split; [exact E|]. split; [exact W|]. split; [exact I|]. split; [exact rotation_sized|].
  split; [exact rotation_solves|]. split; [intros i j; unfold unit_form; rewrite Nat.eqb_sym; reflexivity|].
  split; [exact Q|]. split; [exact Logic.I|]. split; [apply reachable_setup|]. split; [split; reflexivity|].
  split; [apply rotation_keeps|]. split; [exact R1|]. unfold form, unit_form, vnth. cbn. ring.
Qed.

(** Other tableaux do not keep quadratic quantities: the explicit Euler method
    multiplies the energy of the rotation by 1 + h^2 in every step. *)
Lemma euler_energy f s n a b c : s = 1%nat -> n = 2%nat -> a 0%nat 0%nat = 0 -> b 0%nat = 1 -> f = (fun t y => rotation_f t [] y) ->
  forall hs t y z, rk_steps s n a b c f t y hs z -> forall h, (forall x, In x hs -> x = h) ->
  form 2 unit_form z z = (1 + h ^ 2) ^ length hs * form 2 unit_form y y.
Proof.
  intros -> -> A B -> hs. induction hs as [|h0 hs IH]; cbn [rk_steps]; intros t y z H h Hh.
  - subst. cbn. ring.
  - destruct H as (k & y1 & (K & Y1) & H). rewrite (IH _ _ _ H h) by (intros x Hx; apply Hh; right; exact Hx).
    rewrite (Hh h0 (or_introl eq_refl)) in *. cbn [length pow]. specialize (K 0%nat ltac:(lia)). cbn [rsum] in Y1.
    rewrite K in Y1. unfold rk_stage_value in Y1. cbn [rsum] in Y1. rewrite A, B in Y1. subst y1.
    unfold form, unit_form, rotation_f, vmake, vnth. cbn. ring.
Qed.
Lemma euler_eval : exists bt, shipped_init explicit_euler = Ok (bt, []) /\ tableau_wf bt /\ is_implicit bt = false /\
  t_stages bt = 1%nat /\ t_A bt = [[0]] /\ t_b bt = [1].
Proof.
  destruct (shipped_constructed explicit_euler 0%Q 0%Q) as (bt & E & W & P & I & _ & _ & EA & Eb & Ec & _);
    [apply (nth_error_In _ 0); reflexivity|].
  exists bt. split; [exact E|]. split; [exact W|]. split; [exact I|].
  assert (S : t_stages bt = 1%nat) by (rewrite <- (tw_b _ W), Eb; reflexivity).
  rewrite EA, Eb, S. split; [reflexivity|]. repeat split; cbn; unfold Q2R; cbn; repeat f_equal; field.
Qed.
Lemma c91_euler : exists bt, shipped_init explicit_euler = Ok (bt, []) /\ forall h n y z, let op := study_op bt rotation h n in
  exists w' out, compute op (pair_in y z) (setup op tt) = (w', Ok out) /\
  form 2 unit_form (final out) (final out) = (1 + h ^ 2) ^ n * form 2 unit_form (initial (pair_in y z)) (initial (pair_in y z)).
Proof.
  destruct euler_eval as (bt & E & W & I & S & EA & Eb). exists bt. split; [exact E|]. intros h n y z op.
  destruct (rotation_returns bt n h y z W ltac:(lia)) as (w' & out & R1). fold op in R1. exists w', out. split; [exact R1|].
  destruct (run_steps op rotation_f W I rotation_sized rotation_solves tt _ (pair_in y z) w' out Logic.I (reachable_setup op tt) ltac:(split; reflexivity) R1)
    as (a & l & _ & _ & St & _ & Hs & _ & Hh).
  assert (L : length l = n).
  { destruct St as (F & NF). cbn [o_crit op study_op is_iteration_finished] in F, NF.
    destruct (Nat.lt_trichotomy (length l) n) as [H|[H|H]]; [|exact H|].
    - exfalso. apply Nat.leb_le in F. lia.
    - exfalso. specialize (NF n H). apply Nat.leb_gt in NF. lia. }
  cbv zeta in Hs, Hh. rewrite (Hh eq_refl), L in Hs.
  change (form 2 unit_form (final out) (final out) = (1 + h ^ 2) ^ n * form 2 unit_form [y; z] [y; z]).
  rewrite <- (repeat_length h n) at 1.
  refine (euler_energy _ _ _ _ _ _ _ _ _ _ _ _ _ _ _ Hs h _).
  - exact S.
  - reflexivity.
  - cbn [o_bt op study_op]. rewrite EA. reflexivity.
  - cbn [o_bt op study_op]. rewrite Eb. reflexivity.
  - reflexivity.
  - intros x Hx. exact (repeat_spec _ _ _ Hx).
Qed.
Theorem C91_euler : exists bt, shipped_init explicit_euler = Ok (bt, []) /\ forall h n y z, let op := study_op bt rotation h n in
  exists w' out, compute op (pair_in y z) (setup op tt) = (w', Ok out) /\
  form 2 unit_form (final out) (final out) = (1 + h ^ 2) ^ n * form 2 unit_form (initial (pair_in y z)) (initial (pair_in y z)).
Proof. exact c91_euler. Qed.
Print Assumptions C91_euler.

Definition c91_all : Prop := forall (op : options R Datatypes.unit) f S,
  (exists x, In x all_tableaux /\ shipped_init x = Ok (o_bt op, [])) -> tableau_wf (o_bt op) -> is_implicit (o_bt op) = false -> sized_ode (o_ode op) ->
  solves_stage_equation (o_ode op) (state_size (o_ode op)) f -> (forall i j, S i j = S j i) ->
  forall c w i w' out, loops op -> reachable op c w -> inputs_sized (o_ode op) i ->
  keeps_form (state_size (o_ode op)) S (fun t y => f t (independent i) y) -> compute op i w = (w', Ok out) ->
  form (state_size (o_ode op)) S (final out) (final out) = form (state_size (o_ode op)) S (initial i) (initial i).
Lemma c91_quadratic_refuted : ~ c91_all.
Proof.
  intros H. destruct c91_euler as (bt & E & R). destruct euler_eval as (bt' & E' & W & I & _). rewrite E in E'. injection E' as <-.
  destruct (R 1 1%nat 1 0) as (w' & out & R1 & F).
  specialize (H (study_op bt rotation 1 1) rotation_f unit_form
    (ex_intro _ explicit_euler (conj (or_introl eq_refl) E)) W I rotation_sized rotation_solves
    ltac:(intros i j; unfold unit_form; rewrite Nat.eqb_sym; reflexivity) tt _ (pair_in 1 0) w' out Logic.I
    (reachable_setup _ tt) ltac:(split; reflexivity) (rotation_keeps _) R1).
  change (state_size (o_ode (study_op bt rotation 1 1))) with 2%nat in H. rewrite F in H.
  unfold form, unit_form, vnth in H. cbn in H. lra.
Qed.
Theorem C91_quadratic_refuted : ~ c91_all.
Proof. exact c91_quadratic_refuted. Qed.
Print Assumptions C91_quadratic_refuted.
