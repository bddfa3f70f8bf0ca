(** Runs of the integrator component with one scalar quantity. *)
From Coq Require Import String.
From Coq Require Import List Bool Arith Reals Lia Lra.
From Verif Require Import Base Ext M_Tableau M_State M_ODE M_Step M_Integrator M_Metadata M_Components SpecMetadata SpecRK SpecDeriv
  SpecRun SpecShape SpecComponents SpecConvergence M_Packing SpecPacking M_Component SpecComponent SpecTotal SpecStage
  L_Vec L_Step L_Deriv L_Run L_Iter L_Whole L_WholeR L_RunProps L_RunConvergence L_Packing L_Packing2 L_Packing3 L_Packing4 L_Packing5 L_Packing6
  L_Component L_Component2 L_Component3 L_Total L_Stage3.
Import ListNotations.
Local Open Scope string_scope.
Local Open Scope R_scope.
Local Open Scope list_scope.

Section Scalar.
Variables (q : string) (vs : list variable) (qs is : list string) (md : metadata).
Hypothesis Hmd : metadata_of 1 vs qs is = Ok [md].
Hypothesis Hio : declare_all (fun _ => 1%nat) md = Ok (scalar_io q).
Hypothesis Hn : time_integration_array_size md = 1%nat.
Hypothesis Hi0 : time_independent_input_size md = 0%nat.
Hypothesis Hin : forall t y, holds_inputs md (vec_in q t y) {| time_initial := t; initial := [y]; independent := [] |}.
Hypothesis Hout : forall t y, holds_outputs md (vec_out q t y) {| time_final := t; final := [y] |}.

Variables (pb : problem R) (st : om_state R) (norm : ode_out R -> R).
Hypothesis Hk : keeps_layout pb.
Notation o := (openmdao_ode pb md st norm).
Context {C : Type}.
Variables (op : options R C) (bt : tableau R) (h : R) (n : nat).
Hypothesis Hop : fixed_steps op bt o h n.
Hypothesis Hpos : (0 < t_stages bt)%nat.
Hypothesis Hwf : tableau_wf bt.
Hypothesis Hans : forall i, (i < t_stages bt)%nat -> answers o h (entry (t_A bt) i i).

Notation arr t y := {| time_initial := t; initial := [y]; independent := [] |}.
Notation res t y := {| time_final := t; final := [y] |}.

Lemma Ho : o_ode op = o.
Proof. exact (proj1 (proj2 Hop)). Qed.
Lemma sc_sized : sized_ode (o_ode op).
Proof. exact (om_sized 1 0 vs qs is [md] md Hmd eq_refl pb st norm Hk op Ho). Qed.
Lemma sc_n : state_size (o_ode op) = time_integration_array_size md.
Proof. now rewrite Ho. Qed.
Lemma sc_i : independent_input_size (o_ode op) = time_independent_input_size md.
Proof. now rewrite Ho. Qed.
Lemma sc_arr t y : inputs_sized (o_ode op) (arr t y).
Proof. split; cbn; rewrite ?sc_n, ?sc_i, ?Hn, ?Hi0; reflexivity. Qed.
Lemma sc_res t y : outputs_sized (o_ode op) (res t y).
Proof. unfold outputs_sized. cbn. now rewrite sc_n, Hn. Qed.
Lemma sc_answers i : (i < t_stages (o_bt op))%nat -> answers (o_ode op) (o_step op) (entry (t_A (o_bt op)) i i).
Proof. pose proof Hop as (E1 & E2 & _ & E3 & _). rewrite E1, E2, E3. apply Hans. Qed.
Lemma sc_enough i : enough_steps op i.
Proof. pose proof Hop as (_ & _ & _ & _ & E & _ & _ & _ & L). unfold enough_steps. now rewrite E. Qed.
Lemma sc_reach c w : in_use op md (scalar_io q) c w -> reachable op c w.
Proof. exact (in_use_reachable 1 0 vs qs is [md] md _ _ Hmd eq_refl Hio op sc_n sc_i sc_sized c w). Qed.

Lemma out_shape v : layout v = snd (scalar_io q) -> exists t y, v = vec_out q t y.
Proof.
  destruct v as [|[n1 [|x [|]]] [|[n2 [|z [|]]] [|]]]; cbn; try discriminate. intros [= -> ->]. exists x, z. reflexivity.
Qed.
Lemma in_shape v : layout v = fst (scalar_io q) -> exists t y, v = vec_in q t y.
Proof.
  destruct v as [|[n1 [|x [|]]] [|[n2 [|z [|]]] [|]]]; cbn; try discriminate. intros [= -> ->]. exists x, z. reflexivity.
Qed.
Lemma out_holds t y out : outputs_sized (o_ode op) out -> holds_outputs md (vec_out q t y) out -> out = res t y.
Proof.
  intros S H. destruct (vector_outputs 1 0 vs qs is [md] md _ _ Hmd eq_refl Hio op sc_n (vec_out q t y) eq_refl) as (d & _ & _ & U).
  rewrite (U _ S H). symmetry. apply U; [apply sc_res|apply Hout].
Qed.
Lemma in_holds t y i : inputs_sized (o_ode op) i -> holds_inputs md (vec_in q t y) i -> i = arr t y.
Proof.
  intros S H. destruct (vector_inputs 1 0 vs qs is [md] md _ _ Hmd eq_refl Hio op sc_n sc_i (vec_in q t y) eq_refl) as (d & _ & _ & U).
  rewrite (U _ S H). symmetry. apply U; [apply sc_arr|apply Hin].
Qed.

Notation steps f := (rk_steps (t_stages bt) 1 (entry (t_A bt)) (fun k => vnth k (t_b bt)) (fun k => vnth k (t_c bt))
                       (fun t y => f t [] y)).

Lemma sc_compute f c w t y outp : implements pb md f -> distinct_sources pb md -> scalar_time pb md st -> is_implicit bt = false ->
  in_use op md (scalar_io q) c w -> layout outp = snd (scalar_io q) ->
  exists w' y', component_compute op md (vec_in q t y) outp w = (w', Ok (vec_out q (t + INR n * h) y')) /\
    steps f t [y] (repeat h n) [y'] /\ compute op (arr t y) w = (w', Ok (res (t + INR n * h) y')).
Proof.
  intros Im Ds Sc Ex U Lo. pose proof Hop as (E1 & E2 & E3 & E4 & E5 & E6 & E7 & E8 & E9).
  pose proof (sc_reach c w U) as Rw.
  destruct (compute_total op) with (c := c) (w := w) (i := arr t y) as (w' & out & E); auto using sc_sized, sc_arr, sc_enough, sc_answers.
  { now rewrite E1. }
  destruct (run_steps op f) with (c := c) (w := w) (i := arr t y) (w' := w') (out := out)
    as (a & l & _ & _ & (S1 & S2) & _ & R1 & R2 & R3); auto using sc_sized, sc_arr; try (now rewrite E1).
  { apply (implements_solves 1 0 vs qs is [md] md Hmd eq_refl pb st norm op Ho f Im Ds Sc). }
  rewrite (R3 E3) in R1, R2. clear R3. rewrite E5 in S1, S2. cbn [is_iteration_finished] in S1, S2.
  assert (Ln : length l = n).
  { apply Nat.leb_le in S1. destruct (Nat.lt_ge_cases n (length l)) as [Lt|]; [|lia].
    specialize (S2 n Lt). apply Nat.leb_gt in S2. lia. }
  rewrite Ln, E4 in R1, R2.
  pose proof (by_name_compute 1 0 vs qs is [md] md _ _ Hmd eq_refl Hio op sc_n sc_i sc_sized c w (vec_in q t y) outp (arr t y)
    U eq_refl Lo (sc_arr t y) (Hin t y)) as B. rewrite E in B. destruct B as (v & -> & Lv & Hv).
  destruct (out_shape v Lv) as (t' & y' & ->).
  assert (So : outputs_sized (o_ode op) out).
  { eapply compute_sized; eauto using sc_sized, sc_arr. eapply reachable_wf; eauto using sc_sized. }
  rewrite (out_holds t' y' out So Hv) in R1, R2, E. cbn [time_final final time_initial initial independent] in R1, R2.
  rewrite covered_repeat in R2. rewrite R2 in E.
  exists w', y'. rewrite R2. split; [reflexivity|].
  rewrite E1, sc_n, Hn in R1. split; [exact R1|exact E].
Qed.
Lemma sc_fwd c w t y dt dy zo : in_use op md (scalar_io q) c w -> layout zo = snd (scalar_io q) ->
  exists w' t' y', component_fwd op md (vec_in q t y) (vec_in q dt dy) zo w = (w', Ok (vec_out q t' y')).
Proof.
  intros U Lo. pose proof Hop as (E1 & E2 & E3 & E4 & E5 & E6 & E7 & E8 & E9).
  destruct (fwd_total op) with (c := c) (w := w) (i := arr t y) (d := arr dt dy) as (w' & out & E);
    auto using sc_sized, sc_arr, sc_enough, sc_answers.
  { now rewrite E1. } { now apply sc_reach. }
  destruct (out_shape zo Lo) as (u & z & ->).
  pose proof (by_name_fwd 1 0 vs qs is [md] md _ _ Hmd eq_refl Hio op sc_n sc_i sc_sized c w (vec_in q t y) (vec_in q dt dy)
    (vec_out q u z) (arr t y) (arr dt dy) u U eq_refl eq_refl eq_refl (sc_arr _ _) (Hin _ _) (sc_arr _ _) (Hin _ _) eq_refl) as B.
  rewrite E in B. destruct B as (v & Ev & Lv & _). destruct (out_shape v Lv) as (t' & y' & ->). eauto.
Qed.
Lemma sc_rev c w t y dt dy outp zi w1 v : o_ckpt op = AllCheckpointer ->
  in_use op md (scalar_io q) c w -> layout outp = snd (scalar_io q) -> layout zi = fst (scalar_io q) ->
  component_compute op md (vec_in q t y) outp w = (w1, Ok v) ->
  exists w' t' y', component_rev op md (vec_in q t y) zi (vec_out q dt dy) w1 = (w', Ok (vec_in q t' y')).
Proof.
  intros Ck U Lo Li Ec. pose proof Hop as (E1 & E2 & E3 & E4 & E5 & E6 & E7 & E8 & E9).
  pose proof (sc_reach c w U) as Rw.
  destruct (compute_total op) with (c := c) (w := w) (i := arr t y) as (w0 & out & E); auto using sc_sized, sc_arr, sc_enough, sc_answers.
  { now rewrite E1. }
  pose proof (by_name_compute 1 0 vs qs is [md] md _ _ Hmd eq_refl Hio op sc_n sc_i sc_sized c w (vec_in q t y) outp (arr t y)
    U eq_refl Lo (sc_arr t y) (Hin t y)) as B. rewrite E in B. destruct B as (v0 & B & _). rewrite Ec in B. injection B as <- <-.
  destruct (rev_total op) with (c := c) (w := w) (i := arr t y) (d := res dt dy) (w1 := w1) (out := out) as (w' & g & Eg);
    auto using sc_sized, sc_arr, sc_res, sc_answers.
  { now rewrite E1. }
  destruct (in_shape zi Li) as (u & z & ->).
  assert (U1 : in_use op md (scalar_io q) c w1).
  { destruct U as (hist & F & ->). exists (hist ++ [OMCompute (vec_in q t y) outp]). split.
    - apply Forall_app. split; [exact F|]. repeat constructor; exact Lo.
    - unfold run_om_calls in *. rewrite fold_left_app. cbn [fold_left run_om_call]. now rewrite Ec. }
  pose proof (by_name_rev 1 0 vs qs is [md] md _ _ Hmd eq_refl Hio op sc_n sc_i sc_sized c w1 (vec_in q t y) (vec_in q u z)
    (vec_out q dt dy) (arr t y) (res dt dy) u U1 eq_refl eq_refl eq_refl (sc_arr _ _) (Hin _ _) (sc_res _ _) (Hout _ _) eq_refl) as B.
  rewrite Eg in B. destruct B as (v1 & Ev & Lv & _). destruct (in_shape v1 Lv) as (t' & y' & ->). eauto.
Qed.
End Scalar.
