(** Stiff problems: damping at every step size, weak stage order, and errors on
    ProtheroRobinson that do not depend on its parameter. *)
From Coq Require Import String.
From Coq Require Import List Bool Arith Reals Lia Lra QArith Qreals.
From Verif Require Import Base Ext M_Tableau M_Tableaux M_TableauxInit M_State M_ODE M_Step M_Integrator M_Metadata M_Components
  M_Packing M_Component M_Stage SpecRK SpecDeriv SpecShape SpecRun SpecTree SpecOrder SpecPacking SpecComponent SpecTotal SpecStage SpecStiff
  L_Order L_RunProps L_Component3 L_Total L_Stage2 L_Stage5 L_Stage6 L_Stage7 L_Stage8 L_Stiff2 L_Stiff4 L_Stiff5 WitnessRun WitnessStage.
Import ListNotations.
Local Open Scope string_scope.
Open Scope nat_scope.
Open Scope R_scope.
Local Open Scope list_scope.

(** ** C87: the tableaux that are not explicit damp y' = -y at every step size *)
Theorem C87_factor : forall x q e (bt : tableau R) ws h rho,
  In (x, (q, e)) stiff_orders -> shipped_init x = Ok (bt, ws) -> 0 < h ->
  amplification (t_stages bt) (entry (t_A bt)) (fun k => vnth k (t_b bt)) (- h) rho ->
  -1 < rho < 1 /\ (In x vanishing -> Rabs rho <= 100 / h).
Proof.
  exact (fun x q e bt ws h rho Hx Hb Hh A => conj (c87_factor x q e bt ws Hx Hb h rho Hh A)
    (fun V => c87_vanishing x q e bt ws Hx Hb h rho V Hh A)).
Qed.
Print Assumptions C87_factor.

Theorem C87_compute : forall x q e (bt : tableau R) C (op : options R C) md v h norm n c w t y outp,
  In (x, (q, e)) stiff_orders -> shipped_init x = Ok (bt, []) ->
  metadata_of 1 simple_variables ["y"] [] = Ok [md] ->
  fixed_steps op bt (openmdao_ode (stage_problem simple_component) md (stage_vectors simple_component v) norm) h n ->
  0 < h -> in_use op md (scalar_io "y") c w -> layout outp = snd (scalar_io "y") ->
  exists w' y1, component_compute op md (vec_in "y" t y) outp w = (w', Ok (vec_out "y" (t + INR n * h) y1)) /\
    Rabs y1 <= Rabs y /\ ((0 < n)%nat -> y <> 0 -> Rabs y1 < Rabs y) /\
    (In x vanishing -> Rabs y1 <= (100 / h) ^ n * Rabs y).
Proof. exact (fun x q e bt C op md v h norm n c w t y outp Hx Hb M F H U => c87_compute x q e bt Hx Hb C op md v h norm n c w M F H U t y outp). Qed.
Print Assumptions C87_compute.

Theorem C87_forward : forall x q e (bt : tableau R) C (op : options R C) md v h norm n c w t y dt dy zo,
  In (x, (q, e)) stiff_orders -> shipped_init x = Ok (bt, []) ->
  metadata_of 1 simple_variables ["y"] [] = Ok [md] ->
  fixed_steps op bt (openmdao_ode (stage_problem simple_component) md (stage_vectors simple_component v) norm) h n ->
  0 < h -> in_use op md (scalar_io "y") c w -> layout zo = snd (scalar_io "y") -> zeros zo ->
  exists w' dy1, component_fwd op md (vec_in "y" t y) (vec_in "y" dt dy) zo w = (w', Ok (vec_out "y" dt dy1)) /\
    Rabs dy1 <= Rabs dy /\ ((0 < n)%nat -> dy <> 0 -> Rabs dy1 < Rabs dy).
Proof. exact (fun x q e bt C op md v h norm n c w t y dt dy zo Hx Hb M F H U => c87_forward x q e bt Hx Hb C op md v h norm n c w M F H U t y dt dy zo). Qed.
Print Assumptions C87_forward.

Theorem C87_reverse : forall x q e (bt : tableau R) C (op : options R C) md v h norm n c w t y wt wy outp zi w1 u,
  In (x, (q, e)) stiff_orders -> shipped_init x = Ok (bt, []) ->
  metadata_of 1 simple_variables ["y"] [] = Ok [md] ->
  fixed_steps op bt (openmdao_ode (stage_problem simple_component) md (stage_vectors simple_component v) norm) h n ->
  0 < h -> in_use op md (scalar_io "y") c w -> o_ckpt op = AllCheckpointer ->
  layout outp = snd (scalar_io "y") -> layout zi = fst (scalar_io "y") -> zeros zi ->
  component_compute op md (vec_in "y" t y) outp w = (w1, Ok u) ->
  exists w' wy1, component_rev op md (vec_in "y" t y) zi (vec_out "y" wt wy) w1 = (w', Ok (vec_in "y" wt wy1)) /\
    Rabs wy1 <= Rabs wy /\ ((0 < n)%nat -> wy <> 0 -> Rabs wy1 < Rabs wy).
Proof.
  exact (fun x q e bt C op md v h norm n c w t y wt wy outp zi w1 u Hx Hb M F H U =>
    c87_reverse x q e bt Hx Hb C op md v h norm n c w M F H U t y wt wy outp zi w1 u).
Qed.
Print Assumptions C87_reverse.

(** Which tableaux these are: all shipped ones but the explicit. *)
Theorem C87_covers : forall x, In x all_tableaux -> forall (bt : tableau R) ws, shipped_init x = Ok (bt, ws) ->
  is_explicit bt = false -> exists q e, In (x, (q, e)) stiff_orders.
Proof. exact c87_covers. Qed.
Print Assumptions C87_covers.

(** Not so for the explicit ones: the classical method with a step of size 4
    multiplies by 5. *)
Theorem C87_explicit_refuted :
  ~ (forall x, In x all_tableaux -> forall (bt : tableau R) C (op : options R C) md v h norm n c w t y outp w' y1,
     shipped_init x = Ok (bt, []) -> metadata_of 1 simple_variables ["y"] [] = Ok [md] ->
     fixed_steps op bt (openmdao_ode (stage_problem simple_component) md (stage_vectors simple_component v) norm) h n ->
     0 < h -> in_use op md (scalar_io "y") c w -> layout outp = snd (scalar_io "y") ->
     component_compute op md (vec_in "y" t y) outp w = (w', Ok (vec_out "y" (t + INR n * h) y1)) -> Rabs y1 <= Rabs y).
Proof. exact c87_explicit_refuted. Qed.
Print Assumptions C87_explicit_refuted.

(** The premises are met for any step size: the implicit Euler method. *)
Example C87_example : forall h n t y, 0 < h -> exists bt md (op : options R Datatypes.unit) c w,
  In (implicit_euler, (1%nat, 0%Q)) stiff_orders /\ In implicit_euler vanishing /\
  shipped_init implicit_euler = Ok (bt, []) /\ metadata_of 1 simple_variables ["y"] [] = Ok [md] /\
  fixed_steps op bt (openmdao_ode (stage_problem simple_component) md (stage_vectors simple_component 1) (fun _ => 0)) h n /\
  in_use op md (scalar_io "y") c w /\ o_ckpt op = AllCheckpointer /\
  exists w' y1, component_compute op md (vec_in "y" t y) (vec_out "y" 0 0) w = (w', Ok (vec_out "y" (t + INR n * h) y1)) /\
    Rabs y1 <= (100 / h) ^ n * Rabs y.
Proof.
  intros h n t y Hh. destruct ie_amplification as (bt & E & W & P & I & D & A).
  set (op := study_op bt (openmdao_ode (stage_problem simple_component) simple_md (stage_vectors simple_component 1) (fun _ => 0)) h n).
  exists bt, simple_md, op, tt, (setup op tt).
  assert (In1 : In (implicit_euler, (1%nat, 0%Q)) stiff_orders) by (left; reflexivity).
  assert (In2 : In implicit_euler vanishing) by (left; reflexivity).
  split; [exact In1|]. split; [exact In2|]. split; [exact E|]. split; [exact simple_metadata|].
  split; [apply study_fixed|]. split; [apply study_in_use|]. split; [reflexivity|].
  destruct (C87_compute implicit_euler 1 0%Q bt _ op simple_md 1 h (fun _ => 0) n tt (setup op tt) t y (vec_out "y" 0 0) In1 E simple_metadata
    (study_fixed _ _ _ _) Hh (study_in_use _ _ _ _ _ _) eq_refl) as (w' & y1 & R1 & _ & _ & R2).
  exists w', y1. auto.
Qed.

(** ** C88: weak stage order, and no order reduction where it suffices *)
Theorem C88_weak_stage_order : forall x q e (bt : tableau R) ws,
  In (x, (q, e)) stiff_orders -> shipped_init x = Ok (bt, ws) ->
  weak_stage_order (t_stages bt) (entry (t_A bt)) (fun i => vnth i (t_b bt)) (fun i => vnth i (t_c bt)) q (Q2R e) /\
  exists m, (m < t_stages bt)%nat /\
    1 / 10000 <= Rabs (weak_residual (t_stages bt) (entry (t_A bt)) (fun i => vnth i (t_b bt)) (fun i => vnth i (t_c bt)) q m).
Proof. exact (fun x q e bt ws Hx Hb => c88_weak x q e bt ws Hx Hb). Qed.
Print Assumptions C88_weak_stage_order.

(** The constant depends on the tableau only. *)
Theorem C88_uniform : forall x q e (bt : tableau R) nu eh md,
  In (x, (q, e)) stiff_orders -> shipped_init x = Ok (bt, []) -> In (x, (nu, eh)) precision -> x <> implicit_midpoint ->
  metadata_of 1 prothero_variables ["x"] [] = Ok [md] ->
  exists K, 0 <= K /\
  forall lam h n C (op : options R C) v norm c w t x0 outp, lam <= 0 -> 0 < h ->
  fixed_steps op bt (openmdao_ode (stage_problem (prothero_component lam)) md (stage_vectors (prothero_component lam) v) norm) h n ->
  in_use op md (scalar_io "x") c w -> layout outp = snd (scalar_io "x") ->
  exists w' x1 rho, component_compute op md (vec_in "x" t x0) outp w = (w', Ok (vec_out "x" (t + INR n * h) x1)) /\
    amplification (t_stages bt) (entry (t_A bt)) (fun k => vnth k (t_b bt)) (h * lam) rho /\ Rabs rho <= 1 /\
    Rabs (x1 - sin (t + INR n * h + PI / 4) - rho ^ n * (x0 - sin (t + PI / 4)))
    <= K * (INR n * h * (h ^ s_p x + Q2R nu) + h ^ S q + h * Q2R e).
Proof. exact (fun x q e bt nu eh md Hx Hb Hn Hm M => c88_uniform x q e bt Hx Hb nu eh md Hn Hm M). Qed.
Print Assumptions C88_uniform.

Theorem C88_full_order : forall x q e (bt : tableau R) nu eh md,
  In (x, (q, e)) stiff_orders -> shipped_init x = Ok (bt, []) -> In (x, (nu, eh)) precision -> x <> implicit_midpoint ->
  metadata_of 1 prothero_variables ["x"] [] = Ok [md] -> (s_p x <= S q)%nat ->
  exists K, 0 <= K /\
  forall lam h n C (op : options R C) v norm c w t outp, lam <= 0 -> 0 < h <= 1 ->
  fixed_steps op bt (openmdao_ode (stage_problem (prothero_component lam)) md (stage_vectors (prothero_component lam) v) norm) h n ->
  in_use op md (scalar_io "x") c w -> layout outp = snd (scalar_io "x") ->
  exists w' x1, component_compute op md (vec_in "x" t (sin (t + PI / 4))) outp w = (w', Ok (vec_out "x" (t + INR n * h) x1)) /\
    Rabs (x1 - prothero_exact lam t (sin (t + PI / 4)) (t + INR n * h)) <= K * ((1 + INR n * h) * (h ^ s_p x + Q2R nu + Q2R e)).
Proof. exact (fun x q e bt nu eh md Hx Hb Hn Hm M => c88_full_order x q e bt Hx Hb nu eh md Hn Hm M). Qed.
Print Assumptions C88_full_order.

(** No higher power of the step size bounds the error of one step uniformly. *)
Theorem C88_sharp : forall x q e (bt : tableau R) md K,
  In (x, (q, e)) stiff_orders -> shipped_init x = Ok (bt, []) -> metadata_of 1 prothero_variables ["x"] [] = Ok [md] ->
  exists lam h, lam < 0 /\ 0 < h <= 1 /\
  forall C (op : options R C) v norm c w outp,
  fixed_steps op bt (openmdao_ode (stage_problem (prothero_component lam)) md (stage_vectors (prothero_component lam) v) norm) h 1 ->
  in_use op md (scalar_io "x") c w -> layout outp = snd (scalar_io "x") ->
  exists w' x1, component_compute op md (vec_in "x" 0 (sin (0 + PI / 4))) outp w = (w', Ok (vec_out "x" (0 + INR 1 * h) x1)) /\
    K * h ^ S (S q) < Rabs (x1 - prothero_exact lam 0 (sin (0 + PI / 4)) (0 + INR 1 * h)).
Proof. exact c88_sharp. Qed.
Print Assumptions C88_sharp.

(** The three tableaux of butcher_tableaux.py named after their weak stage order
    keep their orders; the fourth order DIRK without it does not. *)
Example C88_tableaux :
  (exists e, In (embedded_third_order_second_weak_stage_order_four_stage_dirk, (2%nat, e)) stiff_orders /\
     s_p embedded_third_order_second_weak_stage_order_four_stage_dirk = 3%nat) /\
  (exists e, In (embedded_third_order_third_weak_stage_order_four_stage_dirk, (3%nat, e)) stiff_orders /\
     s_p embedded_third_order_third_weak_stage_order_four_stage_dirk = 3%nat) /\
  (exists e, In (embedded_fourth_order_third_weak_stage_order_six_stage_dirk, (3%nat, e)) stiff_orders /\
     s_p embedded_fourth_order_third_weak_stage_order_six_stage_dirk = 4%nat) /\
  (exists e, In (embedded_fourth_order_five_stage_sdirk, (1%nat, e)) stiff_orders /\
     s_p embedded_fourth_order_five_stage_sdirk = 4%nat).
Proof.
  split; [|split; [|split]]; eexists; (split; [|reflexivity]); unfold stiff_orders.
  - do 10 right. left. reflexivity.
  - do 11 right. left. reflexivity.
  - do 18 right. left. reflexivity.
  - do 15 right. left. reflexivity.
Qed.

Example C88_example : forall x q e, In (x, (q, e)) stiff_orders -> forall lam h n t, lam <= 0 -> 0 < h <= 1 ->
  exists nu eh bt md (op : options R Datatypes.unit) c w, In (x, (nu, eh)) precision /\ shipped_init x = Ok (bt, []) /\
  metadata_of 1 prothero_variables ["x"] [] = Ok [md] /\
  fixed_steps op bt (openmdao_ode (stage_problem (prothero_component lam)) md (stage_vectors (prothero_component lam) 1) (fun _ => 0)) h n /\
  in_use op md (scalar_io "x") c w /\
  exists w' x1, component_compute op md (vec_in "x" t (sin (t + PI / 4))) (vec_out "x" 0 0) w = (w', Ok (vec_out "x" (t + INR n * h) x1)).
Proof.
  intros x q e Hx lam h n t Hl Hh. destruct (stiff_shipped x q e Hx) as (nu & eh & P).
  destruct (shipped_constructed x nu eh P) as (bt & E & W & S0 & I & _).
  set (op := study_op bt (openmdao_ode (stage_problem (prothero_component lam)) prothero_md (stage_vectors (prothero_component lam) 1) (fun _ => 0)) h n).
  exists nu, eh, bt, prothero_md, op, tt, (setup op tt). split; [exact P|]. split; [exact E|]. split; [exact prothero_metadata|].
  split; [apply study_fixed|]. split; [apply study_in_use|].
  assert (Hr : forall i, (i < t_stages bt)%nat -> 1 - lam * h * entry (t_A bt) i i <> 0).
  { intros i Hi. replace (1 - lam * h * entry (t_A bt) i i) with (1 + - (h * lam) * entry (t_A bt) i i) by ring.
    apply (stiff_solvable x q e bt Hx E); [|exact Hi]. rewrite <- Ropp_mult_distr_r_reverse. apply Rmult_le_pos; lra. }
  destruct (prothero_compute_run op bt lam 1 h (fun _ => 0) n (study_fixed _ _ _ _) S0 W I Hr tt (setup op tt) t (sin (t + PI / 4)) (vec_out "x" 0 0)
    (study_in_use _ _ _ _ _ _) eq_refl) as (w' & x1 & R1 & _). exists w', x1. exact R1.
Qed.
