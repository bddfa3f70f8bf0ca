(** Property theorems about the shipped components (C41-C44). *)
From Coq Require Import String.
From Coq Require Import List Reals Lra Lia.
From Verif Require Import Base Ext SpecRK M_Components SpecComponents L_Components L_Components2.
Import ListNotations.
Local Open Scope string_scope.
Local Open Scope R_scope.
Local Open Scope list_scope.

(** ** C41: the component computing a stage value and the one computing the
    update from it undo each other. *)
Theorem C41_value_and_update_inverse :
  forall ex n old acc x k z z' q,
  x_step_size ex * x_stage_factor ex <> 0 ->
  length old = n -> length acc = n -> length x = n -> length k = n -> length z = n -> length z' = n ->
  (stage_update_compute [q] ex [(q, x); ((q ++ "_old")%string, old); ((q ++ "_acc_stages")%string, acc)] [((q ++ "_update")%string, z)]
     = Ok [((q ++ "_update")%string, k)] <->
   stage_value_compute ex [("stage_slope", k); ("old_value", old); ("acc_stages", acc)] [("stage_value", z')]
     = Ok [("stage_value", x)]).
Proof. exact c41_inverse. Qed.
Print Assumptions C41_value_and_update_inverse.

Example C41_inverse_nonvacuous :
  stage_value_compute {| x_step_size := 1; x_stage_factor := 2 |}
    [("stage_slope", [3]); ("old_value", [4]); ("acc_stages", [5])] [("stage_value", [0])]
  = Ok [("stage_value", [4 + 1 * (5 + 2 * 3)])] /\ 1 * 2 <> 0.
Proof. split; [reflexivity|lra]. Qed.

(** The forward products are the derivatives, for full and partial views of
    the inputs, ... *)
Theorem C41_value_derivative :
  forall sz ex inp d inp' out o o' dd dd',
  sz "old_value" = sz "stage_value" -> sz "acc_stages" = sz "stage_value" -> sz "stage_slope" = sz "stage_value" ->
  sized sz inp -> sized sz inp' -> moved inp d inp' ->
  stage_value_compute ex inp out = Ok o -> stage_value_compute ex inp' out = Ok o' ->
  stage_value_fwd ex d dd = Ok dd' ->
  forall n i, mem n dd = true -> look n i dd' - look n i dd = look n i o' - look n i o.
Proof. exact c41_value_derivative. Qed.
Print Assumptions C41_value_derivative.

Theorem C41_update_derivative :
  forall sz qs ex inp d inp' out o o' dd dd',
  x_step_size ex * x_stage_factor ex <> 0 -> NoDup qs -> quantity_sizes sz qs ->
  sized sz inp -> sized sz inp' -> moved inp d inp' ->
  stage_update_compute qs ex inp out = Ok o -> stage_update_compute qs ex inp' out = Ok o' ->
  stage_update_fwd qs ex d dd = Ok dd' ->
  forall n i, mem n dd = true -> look n i dd' - look n i dd = look n i o' - look n i o.
Proof. exact c41_update_derivative. Qed.
Print Assumptions C41_update_derivative.

Example C41_derivative_nonvacuous :
  let ex := {| x_step_size := 1; x_stage_factor := 2 |} in
  let inp := [("q", [1; 2]); ("q_old", [3; 4]); ("q_acc_stages", [5; 6])] in
  let d := [("q_old", [1; 0])] in
  let inp' := [("q", [1; 2]); ("q_old", [3 + 1; 4 + 0]); ("q_acc_stages", [5; 6])] in
  (exists o, stage_update_compute ["q"] ex inp [("q_update", [0; 0])] = Ok o) /\
  (exists o, stage_update_compute ["q"] ex inp' [("q_update", [0; 0])] = Ok o) /\
  (exists o, stage_update_fwd ["q"] ex d [("q_update", [7; 7])] = Ok o) /\
  sized (fun _ => 2%nat) inp /\ sized (fun _ => 2%nat) inp' /\ quantity_sizes (fun _ => 2%nat) ["q"] /\
  NoDup ["q"] /\ moved inp d inp'.
Proof.
  cbn zeta. split; [eexists; reflexivity|]. split; [eexists; reflexivity|]. split; [eexists; reflexivity|].
  split; [repeat constructor|]. split; [repeat constructor|]. split; [intros q _; repeat split|].
  split; [repeat constructor; intros []|]. split; [reflexivity|].
  intros n i. unfold look; cbn [get]. destruct (String.eqb_spec n "q") as [->|].
  { cbn [String.eqb Ascii.eqb Bool.eqb]. ring. }
  destruct (String.eqb n "q_old").
  { destruct i as [|[|[|i]]]; cbn [nth]; ring. }
  destruct (String.eqb n "q_acc_stages"); ring.
Qed.

(** ... and the reverse products are their transposes, for all views. *)
Theorem C41_value_products_transposed :
  forall sz ex din win dout wout,
  sz "old_value" = sz "stage_value" -> sz "acc_stages" = sz "stage_value" -> sz "stage_slope" = sz "stage_value" ->
  sized sz din -> sized sz win -> sized sz dout -> sized sz wout ->
  names win = names din -> names wout = names dout ->
  exists dout' win',
    stage_value_fwd ex din dout = Ok dout' /\ stage_value_rev ex win wout = Ok win' /\
    vinner wout dout' - vinner wout dout = vinner win' din - vinner win din.
Proof. exact c41_value_transposed. Qed.
Print Assumptions C41_value_products_transposed.

Theorem C41_update_products_transposed :
  forall sz qs ex din win dout wout,
  quantity_sizes sz qs ->
  sized sz din -> sized sz win -> sized sz dout -> sized sz wout ->
  names win = names din -> names wout = names dout ->
  exists dout' win',
    stage_update_fwd qs ex din dout = Ok dout' /\ stage_update_rev qs ex win wout = Ok win' /\
    vinner wout dout' - vinner wout dout = vinner win' din - vinner win din.
Proof. exact c41_update_transposed. Qed.
Print Assumptions C41_update_products_transposed.

Example C41_views_nonvacuous : exists sz din dout,
  quantity_sizes sz ["q"; "r"] /\ sz "q" = 2%nat /\ sz "r" = 1%nat /\ sized sz din /\ sized sz dout /\
  names din = ["q"; "r_old"] /\ names dout = ["q_update"; "r_update"].
Proof.
  exists (fun n => if String.prefix "q" n then 2%nat else 1%nat), [("q", [1; 2]); ("r_old", [3])],
    [("q_update", [0; 0]); ("r_update", [0])].
  repeat split; try (repeat constructor); destruct H as [<-|[<-|[]]]; reflexivity.
Qed.

(** ** C42: the linear ODE components solve their stage equation. *)
Theorem C42_simple_linear_solves :
  forall ex inp out,
  mem "y_old" inp = true -> mem "y_accumulated_stages" inp = true -> mem "y_stage" out = true ->
  1 + x_step_size ex * x_stage_factor ex <> 0 ->
  exists o, simple_compute ex inp out = Ok o /\
    slook "y_stage" o = - (slook "y_old" inp + x_step_size ex *
       (slook "y_accumulated_stages" inp + x_stage_factor ex * slook "y_stage" o)).
Proof. exact c42_simple_solves. Qed.
Print Assumptions C42_simple_linear_solves.

Theorem C42_prothero_robinson_solves :
  forall lambda ex inp out,
  mem "time" inp = true -> mem "x" inp = true -> mem "acc_stages" inp = true -> mem "x_stage" out = true ->
  1 - lambda * x_step_size ex * x_stage_factor ex <> 0 ->
  exists o p, prothero_compute lambda ex inp out = Ok o /\
    derivable_pt_lim (fun t => sin (t + PI / 4)) (slook "time" inp) p /\
    slook "x_stage" o = lambda * (slook "x" inp + x_step_size ex * (slook "acc_stages" inp + x_stage_factor ex * slook "x_stage" o)
       - sin (slook "time" inp + PI / 4)) + p.
Proof. exact c42_prothero_solves. Qed.
Print Assumptions C42_prothero_robinson_solves.

(** The products of SimpleLinearODE are its transposed derivatives when all
    inputs are in view, ... *)
Theorem C42_simple_linear_derivative :
  forall ex inp d inp' out o o' dd dd',
  smoved 1 inp d inp' ->
  simple_compute ex inp out = Ok o -> simple_compute ex inp' out = Ok o' -> simple_fwd ex d dd = Ok dd' ->
  forall n, slook n dd' - slook n dd = slook n o' - slook n o.
Proof. exact c42_simple_derivative. Qed.
Print Assumptions C42_simple_linear_derivative.

Theorem C42_simple_linear_transposed :
  forall ex din win dout wout,
  mem "y_old" din = true -> mem "y_accumulated_stages" din = true -> mem "y_stage" dout = true ->
  names win = names din -> names wout = names dout ->
  exists dout' win',
    simple_fwd ex din dout = Ok dout' /\ simple_rev ex win wout = Ok win' /\
    sinner wout dout' - sinner wout dout = sinner win' din - sinner win din.
Proof. exact c42_simple_transposed. Qed.
Print Assumptions C42_simple_linear_transposed.

Example C42_nonvacuous : exists inp out o, let ex := {| x_step_size := 1; x_stage_factor := 2 |} in
  simple_compute ex inp out = Ok o /\ 1 + x_step_size ex * x_stage_factor ex <> 0 /\
  smoved 1 inp inp [("y_old", 3 + 3); ("y_accumulated_stages", 4 + 4)] /\
  (exists d, simple_fwd ex inp out = Ok d) /\
  (exists p, prothero_compute (-2) ex [("time", 1); ("x", 2); ("acc_stages", 3)] [("x_stage", 0)] = Ok p) /\
  1 - -2 * x_step_size ex * x_stage_factor ex <> 0.
Proof.
  exists [("y_old", 3); ("y_accumulated_stages", 4)], [("y_stage", 5)]. eexists. cbn zeta.
  split; [reflexivity|]. cbn [x_step_size x_stage_factor]. split; [lra|]. split.
  { split; [reflexivity|]. intros n. unfold slook; cbn [get]. destruct (String.eqb n "y_old"); [ring|].
    destruct (String.eqb n "y_accumulated_stages"); ring. }
  split; [eexists; reflexivity|]. split; [eexists; reflexivity|lra].
Qed.

(** ... with an input out of view they raise, ... *)
Theorem C42_simple_linear_partial_view_refuted :
  forall ex,
  exists din dout,
  simple_fwd ex din dout = Err KeyError /\ simple_rev ex din dout = Err KeyError /\
  names din = ["y_old"] /\ names dout = ["y_stage"].
Proof. exact c42_simple_partial_view. Qed.
Print Assumptions C42_simple_linear_partial_view_refuted.

(** ... and ProtheroRobinson has no derivatives at all. *)
Theorem C42_prothero_robinson_derivative_refuted :
  exists lambda ex inp d inp' out o o' dd dd',
  1 - lambda * x_step_size ex * x_stage_factor ex <> 0 /\ smoved 1 inp d inp' /\
  prothero_compute lambda ex inp out = Ok o /\ prothero_compute lambda ex inp' out = Ok o' /\
  prothero_fwd d dd = Ok dd' /\ names dd = ["x_stage"] /\
  slook "x_stage" dd' - slook "x_stage" dd <> slook "x_stage" o' - slook "x_stage" o.
Proof. exact c42_prothero_derivative_refuted. Qed.
Print Assumptions C42_prothero_robinson_derivative_refuted.

(** ** C43: solve_nonlinear of both Kaps components zeroes apply_nonlinear. *)
Theorem C43_kaps1_solves :
  forall eps ex inp out r,
  kaps1_vectors inp out -> names r = outs1 ->
  nonsingular outs1 (lin1 eps ex inp) ->
  exists o r', kaps1_solve_nonlinear eps ex inp out = Ok o /\ kaps1_apply_nonlinear eps ex inp o r = Ok r' /\
    names r' = outs1 /\ all_zero r'.
Proof. exact c43_kaps1_solves. Qed.
Print Assumptions C43_kaps1_solves.

Theorem C43_kaps2_solves :
  forall ex inp out r,
  kaps2_vectors inp out -> names r = outs2 ->
  x_step_size ex <> 0 ->
  (exists y k, y = slook "y_2_old" inp + x_step_size ex * (slook "y_2_accumulated_stages" inp + x_stage_factor ex * k) /\
               k = slook "y_1" inp - y - y ^ 2) ->
  exists o r', kaps2_solve_nonlinear ex inp out = Ok o /\ kaps2_apply_nonlinear ex inp o r = Ok r' /\
    names r' = outs2 /\ all_zero r'.
Proof. exact c43_kaps2_solves. Qed.
Print Assumptions C43_kaps2_solves.

(** apply_linear is the derivative of apply_nonlinear, for all views, ... *)
Theorem C43_kaps1_derivative :
  forall eps ex inp out din dout r dr dr' (inps outs rs : R -> omvec R),
  mem "y_2" inp = true ->
  (forall s, smoved s inp din (inps s)) -> (forall s, smoved s out dout (outs s)) ->
  (forall s, kaps1_apply_nonlinear eps ex (inps s) (outs s) r = Ok (rs s)) ->
  kaps1_apply_fwd eps ex inp din dout dr = Ok dr' ->
  forall n, mem n dr = true -> derivable_pt_lim (fun s => slook n (rs s)) 0 (slook n dr' - slook n dr).
Proof. exact c43_kaps1_derivative. Qed.
Print Assumptions C43_kaps1_derivative.

Theorem C43_kaps2_derivative :
  forall ex inp out din dout r dr dr' (inps outs rs : R -> omvec R),
  mem "y_2" out = true ->
  (forall s, smoved s inp din (inps s)) -> (forall s, smoved s out dout (outs s)) ->
  (forall s, kaps2_apply_nonlinear ex (inps s) (outs s) r = Ok (rs s)) ->
  kaps2_apply_fwd ex out din dout dr = Ok dr' ->
  forall n, mem n dr = true -> derivable_pt_lim (fun s => slook n (rs s)) 0 (slook n dr' - slook n dr).
Proof. exact c43_kaps2_derivative. Qed.
Print Assumptions C43_kaps2_derivative.

(** ... and its reverse mode the transpose of the forward mode. *)
Theorem C43_kaps1_transposed :
  forall eps ex inp din win dout wout dr wr,
  mem "y_2" inp = true ->
  names win = names din -> names wout = names dout -> names wr = names dr ->
  exists dr' win' wout', kaps1_apply_fwd eps ex inp din dout dr = Ok dr' /\
    kaps1_apply_rev eps ex inp win wout wr = Ok (win', wout') /\
    sinner wr dr' - sinner wr dr
    = (sinner win' din - sinner win din) + (sinner wout' dout - sinner wout dout).
Proof. exact c43_kaps1_transposed. Qed.
Print Assumptions C43_kaps1_transposed.

Theorem C43_kaps2_transposed :
  forall ex out din win dout wout dr wr,
  mem "y_2" out = true ->
  names win = names din -> names wout = names dout -> names wr = names dr ->
  exists dr' win' wout', kaps2_apply_fwd ex out din dout dr = Ok dr' /\
    kaps2_apply_rev ex out win wout wr = Ok (win', wout') /\
    sinner wr dr' - sinner wr dr
    = (sinner win' din - sinner win din) + (sinner wout' dout - sinner wout dout).
Proof. exact c43_kaps2_transposed. Qed.
Print Assumptions C43_kaps2_transposed.

(** solve_linear inverts apply_linear with respect to the outputs ... *)
Theorem C43_kaps1_linear_fwd :
  forall eps ex inp out d rhs,
  kaps1_vectors inp out ->
  names d = outs1 -> names rhs = outs1 -> nonsingular outs1 (lin1 eps ex inp) ->
  exists d', kaps1_solve_fwd eps ex d rhs = Ok d' /\ names d' = outs1 /\ lin1 eps ex inp d' = Ok rhs.
Proof. exact c43_kaps1_linear_fwd. Qed.
Print Assumptions C43_kaps1_linear_fwd.

Theorem C43_kaps2_linear_fwd :
  forall ex inp out d rhs,
  kaps2_vectors inp out ->
  names d = outs2 -> names rhs = outs2 -> nonsingular outs2 (lin2 ex out) ->
  exists d', kaps2_solve_fwd ex (slook "y_2" out) d rhs = Ok d' /\ names d' = outs2 /\ lin2 ex out d' = Ok rhs.
Proof. exact c43_kaps2_linear_fwd. Qed.
Print Assumptions C43_kaps2_linear_fwd.

(** ... and its transpose, ... *)
Theorem C43_kaps1_linear_rev :
  forall eps ex inp out rhs r,
  kaps1_vectors inp out ->
  names rhs = outs1 -> names r = outs1 -> nonsingular outs1 (lin1 eps ex inp) ->
  exists r', kaps1_solve_rev eps ex rhs r = Ok r' /\ names r' = outs1 /\
    kaps1_apply_rev eps ex inp [] [("y_1", 0); ("y_1_stage", 0)] r' = Ok ([], rhs).
Proof. exact c43_kaps1_linear_rev. Qed.
Print Assumptions C43_kaps1_linear_rev.

(** ... for the second component only where the quotient it uses happens to be
    the determinant (always so for explicit stages).  Missing: all other cases,
    where the statement is false, as the next theorem shows. *)
Theorem C43_kaps2_linear_rev_partial :
  forall ex inp out rhs r,
  kaps2_vectors inp out ->
  names rhs = outs2 -> names r = outs2 -> nonsingular outs2 (lin2 ex out) ->
  1 + (1 + 2 * slook "y_2" out) * (x_step_size ex * x_stage_factor ex)
    = 1 + 2 * slook "y_2" out * (x_step_size ex * x_stage_factor ex) ^ 2 ->
  exists r', kaps2_solve_rev ex (slook "y_2" out) rhs r = Ok r' /\ names r' = outs2 /\
    kaps2_apply_rev ex out [] [("y_2", 0); ("y_2_stage", 0)] r' = Ok ([], rhs).
Proof. exact c43_kaps2_linear_rev. Qed.
Print Assumptions C43_kaps2_linear_rev_partial.

Theorem C43_kaps2_linear_rev_refuted :
  exists ex inp out rhs r r' d,
  kaps2_vectors inp out /\ names rhs = outs2 /\ names r = outs2 /\ nonsingular outs2 (lin2 ex out) /\
  kaps2_solve_rev ex (slook "y_2" out) rhs r = Ok r' /\
  kaps2_apply_rev ex out [] [("y_2", 0); ("y_2_stage", 0)] r' = Ok ([], d) /\ d <> rhs.
Proof. exact c43_kaps2_linear_rev_refuted. Qed.
Print Assumptions C43_kaps2_linear_rev_refuted.

Example C43_nonvacuous :
  let ex := {| x_step_size := 1; x_stage_factor := 2 |} in
  let inp1 := [("y_1_old", 3); ("y_1_accumulated_stages", 1); ("y_2", 2)] in
  let out1 := [("y_1", 0); ("y_1_stage", 0)] in
  let inp2 := [("y_2_old", -3 / 2); ("y_2_accumulated_stages", 0); ("y_1", 7 / 4)] in
  let out2 := [("y_2", 1 / 2); ("y_2_stage", 0)] in
  kaps1_vectors inp1 out1 /\ nonsingular outs1 (lin1 1 ex inp1) /\
  kaps2_vectors inp2 out2 /\ nonsingular outs2 (lin2 ex out2) /\
  1 / 2 = slook "y_2_old" inp2 + x_step_size ex * (slook "y_2_accumulated_stages" inp2 + x_stage_factor ex * 1) /\
  1 = slook "y_1" inp2 - 1 / 2 - (1 / 2) ^ 2 /\
  1 + (1 + 2 * slook "y_2" out2) * (x_step_size ex * x_stage_factor ex)
    = 1 + 2 * slook "y_2" out2 * (x_step_size ex * x_stage_factor ex) ^ 2.
Proof.
  cbn zeta. split; [split; reflexivity|]. split.
  { intros d r Nd Lr Z. destruct (two_names _ _ _ Nd) as (y & k & ->).
    rewrite (lin1_run 1 _ _ [("y_1", 0); ("y_1_stage", 0)]) in Lr by (split; reflexivity).
    injection Lr as <-. assert (Z1 := Z "y_1"). assert (Z2 := Z "y_1_stage"). unfold slook in Z1, Z2.
    cbn [get String.eqb Ascii.eqb Bool.eqb x_step_size x_stage_factor] in Z1, Z2.
    intros n. unfold slook; cbn [get]. destruct (String.eqb n "y_1"); [lra|]. destruct (String.eqb n "y_1_stage"); [lra|reflexivity]. }
  split; [split; reflexivity|]. split.
  { intros d r Nd Lr Z. destruct (two_names _ _ _ Nd) as (y & k & ->).
    rewrite (lin2_run _ [("y_2_old", 0); ("y_2_accumulated_stages", 0); ("y_1", 0)]) in Lr by (split; reflexivity).
    injection Lr as <-. assert (Z1 := Z "y_2"). assert (Z2 := Z "y_2_stage"). unfold slook in Z1, Z2.
    cbn [get String.eqb Ascii.eqb Bool.eqb x_step_size x_stage_factor] in Z1, Z2.
    intros n. unfold slook; cbn [get]. destruct (String.eqb n "y_2"); [lra|]. destruct (String.eqb n "y_2_stage"); [lra|reflexivity]. }
  unfold slook; cbn [get String.eqb Ascii.eqb Bool.eqb x_step_size x_stage_factor]. repeat split; lra.
Qed.

(** ** C44: the reference solutions take the initial value and follow the
    component's right-hand side: for SimpleLinearODE always, ... *)
Theorem C44_simple_linear_solution :
  forall y0 t0,
  simple_solution t0 y0 t0 = y0 /\
  forall t, exists k,
    simple_compute at_once [("y_old", simple_solution t y0 t0); ("y_accumulated_stages", 0)] [("y_stage", 0)] = Ok [("y_stage", k)] /\
    derivable_pt_lim (fun s => simple_solution s y0 t0) t k.
Proof. exact c44_simple. Qed.
Print Assumptions C44_simple_linear_solution.

(** ... for ProtheroRobinson if the initial value is phi(t0).  Missing: other
    initial values, for which it is false, see the refutation below. *)
Theorem C44_prothero_robinson_solution_partial :
  forall lambda t0,
  prothero_solution t0 (phi t0) t0 = phi t0 /\
  forall t, exists k,
    prothero_compute lambda at_once [("time", t); ("x", prothero_solution t (phi t0) t0); ("acc_stages", 0)] [("x_stage", 0)] = Ok [("x_stage", k)] /\
    derivable_pt_lim (fun s => prothero_solution s (phi t0) t0) t k.
Proof. exact c44_prothero. Qed.
Print Assumptions C44_prothero_robinson_solution_partial.

Theorem C44_prothero_robinson_default :
  forall lambda,
  prothero_initial = phi 0 /\
  forall t, exists k,
    prothero_compute lambda at_once [("time", t); ("x", prothero_solution t prothero_initial 0); ("acc_stages", 0)] [("x_stage", 0)] = Ok [("x_stage", k)] /\
    derivable_pt_lim (fun s => prothero_solution s prothero_initial 0) t k.
Proof. exact c44_prothero_default. Qed.
Print Assumptions C44_prothero_robinson_default.

Theorem C44_prothero_robinson_solution_refuted :
  exists lambda x0 t0 t k k',
  prothero_compute lambda at_once [("time", t); ("x", prothero_solution t x0 t0); ("acc_stages", 0)] [("x_stage", 0)] = Ok [("x_stage", k)] /\
  derivable_pt_lim (fun s => prothero_solution s x0 t0) t k' /\ k <> k'.
Proof. exact c44_prothero_refuted. Qed.
Print Assumptions C44_prothero_robinson_solution_refuted.

(** ... for Kaps' problem with the default initial values at time zero.  Missing:
    other initial values and times, for which it is false, see below. *)
Theorem C44_kaps_solution_partial :
  forall eps,
  kaps_solution 0 kaps_initial 0 = kaps_initial /\
  forall t, exists k r1 r2,
    derivable_pt_lim (fun s => fst (kaps_solution s kaps_initial 0)) t (fst k) /\
    derivable_pt_lim (fun s => snd (kaps_solution s kaps_initial 0)) t (snd k) /\
    kaps_residuals eps (kaps_solution t kaps_initial 0) k = Ok (r1, r2) /\ all_zero r1 /\ all_zero r2.
Proof. exact c44_kaps. Qed.
Print Assumptions C44_kaps_solution_partial.

Theorem C44_kaps_initial_values_refuted :
  exists y0, kaps_solution 0 y0 0 <> y0.
Proof. exact c44_kaps_initial_refuted. Qed.
Print Assumptions C44_kaps_initial_values_refuted.

Theorem C44_kaps_initial_time_refuted :
  exists t0, kaps_solution t0 kaps_initial t0 <> kaps_initial.
Proof. exact c44_kaps_time_refuted. Qed.
Print Assumptions C44_kaps_initial_time_refuted.

