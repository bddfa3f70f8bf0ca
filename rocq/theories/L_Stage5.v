(** Runs of the integrator component with SimpleLinearODE. *)
From Coq Require Import String.
From Coq Require Import List Bool Arith Reals Lia Lra.
From Verif Require Import Base Ext M_Tableau M_State M_ODE M_Step M_Integrator M_Metadata M_Components SpecMetadata SpecRK SpecDeriv
  SpecRun SpecShape SpecComponents SpecConvergence M_Packing SpecPacking M_Component SpecComponent SpecTotal M_Stage SpecStage
  L_Vec L_Step L_Deriv L_Run L_Iter L_Whole L_WholeR L_RunProps L_RunConvergence L_Packing L_Packing2 L_Packing3 L_Packing4 L_Packing5 L_Packing6
  L_Component L_Component2 L_Component3 L_Total L_Stage L_Stage2 L_Stage3 L_Stage4.
Import ListNotations.
Local Open Scope string_scope.
Local Open Scope R_scope.
Local Open Scope list_scope.

Lemma simple_md_unique md : metadata_of 1 simple_variables ["y"] [] = Ok [md] -> md = simple_md.
Proof. rewrite simple_metadata. now intros [= <-]. Qed.
Lemma simple_io : declare_all (fun _ => 1%nat) simple_md = Ok (scalar_io "y").
Proof. reflexivity. Qed.
Lemma simple_in t y : holds_inputs simple_md (vec_in "y" t y) {| time_initial := t; initial := [y]; independent := [] |}.
Proof. split; [reflexivity|]. split; [intros q [<-|[]]; reflexivity|intros q []]. Qed.
Lemma simple_out t y : holds_outputs simple_md (vec_out "y" t y) {| time_final := t; final := [y] |}.
Proof. split; [reflexivity|]. intros q [<-|[]]; reflexivity. Qed.

Section Run.
Context {C : Type}.
Variables (op : options R C) (bt : tableau R) (x h : R) (norm : ode_out R -> R) (n : nat).
Hypothesis Hop : fixed_steps op bt (openmdao_ode simple simple_md (stage_vectors simple_component x) norm) h n.
Hypothesis Hpos : (0 < t_stages bt)%nat.
Hypothesis Hwf : tableau_wf bt.
Hypothesis Hex : is_implicit bt = false.
Hypothesis Hreg : forall i, (i < t_stages bt)%nat -> 1 + h * entry (t_A bt) i i <> 0.
Notation ampl := (amplification (t_stages bt) (entry (t_A bt)) (fun k => vnth k (t_b bt)) (- h)).
Notation used := (in_use op simple_md (scalar_io "y")).

Lemma upper_zero i j : (i < j < t_stages bt)%nat -> entry (t_A bt) i j = 0.
Proof. intros H. exact (is_implicit_false_no_upper bt Hex i j H). Qed.
Lemma reg i : (i < t_stages bt)%nat -> 1 - h * - (1) * entry (t_A bt) i i <> 0.
Proof. intros Hi E. apply (Hreg i Hi). rewrite <- E. ring. Qed.
Lemma reg' i : (i < t_stages bt)%nat -> 1 - - h * entry (t_A bt) i i <> 0.
Proof. intros Hi E. apply (Hreg i Hi). rewrite <- E. ring. Qed.

Lemma simple_answer i : (i < t_stages bt)%nat ->
  answers (openmdao_ode simple simple_md (stage_vectors simple_component x) norm) h (entry (t_A bt) i i).
Proof. intros Hi. apply simple_answers, Hreg, Hi. Qed.

Lemma simple_factor : exists rho, ampl rho /\ forall rho', ampl rho' -> rho' = rho.
Proof.
  destruct (amplification_exists _ _ (fun k => vnth k (t_b bt)) upper_zero (- h) reg') as (rho & H). exists rho. split; [exact H|].
  intros r Hr. exact (amplification_unique _ _ _ upper_zero (- h) r rho reg' Hr H).
Qed.

Lemma simple_compute_run rho c w t y outp : ampl rho -> used c w -> layout outp = snd (scalar_io "y") ->
  exists w', component_compute op simple_md (vec_in "y" t y) outp w = (w', Ok (vec_out "y" (t + INR n * h) (rho ^ n * y))).
Proof.
  intros Ha U Lo.
  destruct (sc_compute "y" _ _ _ _ simple_metadata simple_io eq_refl eq_refl simple_in simple_out _ _ norm simple_keeps op bt h n Hop Hpos Hwf
    simple_answer decay c w t y outp simple_implements simple_sources (simple_time x) Hex U Lo) as (w' & y' & E & S & _).
  assert (Hf : forall t u, (fun (t : R) y => decay t [] y) t [u] = [- (1) * u + (fun _ => 0) t]).
  { intros u0 u. cbn. f_equal. ring. }
  pose proof (zero_steps (t_stages bt) (entry (t_A bt)) (fun k => vnth k (t_b bt)) (fun k => vnth k (t_c bt)) (- (1)) (fun _ => 0) (fun t y => decay t [] y) Hf h (fun _ => eq_refl) n t) as Z.
  assert (Ha' : amplification (t_stages bt) (entry (t_A bt)) (fun k => vnth k (t_b bt)) (h * - (1)) rho).
  { replace (h * - (1)) with (- h) by ring. exact Ha. }
  pose proof (affine_steps _ _ _ _ upper_zero (- (1)) (fun _ => 0) (fun t y => decay t [] y) Hf h rho reg Ha' n t y y' 0 0 S Z) as Q.
  exists w'. rewrite E. replace (rho ^ n * y) with y' by lra. reflexivity.
Qed.

Lemma vec_in_curve q t y dt dy : vec_curve (fun e => vec_in q (t + e * dt) (y + e * dy)) (vec_in q dt dy).
Proof.
  intros m i. unfold look, vec_in. cbn [get].
  assert (D : forall a b, derivable_pt_lim (fun e => a + e * b) 0 b).
  { intros a b. apply (derivable_pt_lim_value _ _ (0 + 1 * b)); [|ring].
    apply (derivable_pt_lim_plus (fun _ => a)); [apply derivable_pt_lim_const|].
    apply (derivable_pt_lim_scal_right (fun e => e)), derivable_pt_lim_id. }
  destruct (String.eqb m "time_initial"); [apply (entry_moves (fun e => t + e * dt)), D|].
  destruct (String.eqb m _); [apply (entry_moves (fun e => y + e * dy)), D|]. apply derivable_pt_lim_const.
Qed.
Lemma linear_lim a b : derivable_pt_lim (fun e => a + e * b) 0 b.
Proof.
  apply (derivable_pt_lim_value _ _ (0 + 1 * b)); [|ring].
  apply (derivable_pt_lim_plus (fun _ => a)); [apply derivable_pt_lim_const|].
  apply (derivable_pt_lim_scal_right (fun e => e)), derivable_pt_lim_id.
Qed.

Lemma simple_fwd_run rho c w t y dt dy zo : ampl rho -> used c w -> layout zo = snd (scalar_io "y") -> zeros zo ->
  exists w', component_fwd op simple_md (vec_in "y" t y) (vec_in "y" dt dy) zo w = (w', Ok (vec_out "y" dt (rho ^ n * dy))).
Proof.
  intros Ha U Lo Zo. pose proof Hop as (E1 & E2 & E3 & E4 & E5 & E6 & E7 & E8 & E9).
  destruct (sc_fwd "y" _ _ _ _ simple_metadata simple_io eq_refl eq_refl simple_in _ _ norm simple_keeps op bt h n Hop Hpos
    simple_answer c w t y dt dy zo U Lo) as (w' & t' & y' & E).
  set (I := fun e => vec_in "y" (t + e * dt) (y + e * dy)).
  set (K := fun e => component_compute op simple_md (I e) zo w).
  assert (V : vec_curve (fun e => vec_out "y" ((t + e * dt) + INR n * h) (rho ^ n * (y + e * dy))) (vec_out "y" t' y')).
  { apply (by_name_derivative 1 0 _ _ _ _ _ _ _ simple_metadata eq_refl simple_io _ _ norm simple_keeps op E2
      n 1 I (vec_in "y" dt dy) c (fun _ => w) (fun e => fst (K e)) _ (fun _ => zo) zo w w'); auto.
    - apply simple_differentiable.
    - split; reflexivity.
    - apply simple_sources.
    - apply simple_time.
    - now rewrite E1.
    - lra.
    - intros e _. split; [exact U|]. split; [reflexivity|]. split; [exact Lo|].
      destruct (simple_compute_run rho c w (t + e * dt) (y + e * dy) zo Ha U Lo) as (w1 & Q).
      unfold K, I. now rewrite Q.
    - apply vec_in_curve.
    - unfold I. rewrite !Rmult_0_l, !Rplus_0_r. exact E. }
  assert (Et : t' = dt).
  { apply (uniqueness_limite (fun e => t + e * dt + INR n * h) 0); [exact (V "time_final" 0%nat)|].
    apply (derivable_pt_lim_value _ _ (dt + 0)); [|ring].
    apply (derivable_pt_lim_plus (fun e => t + e * dt) (fun _ => INR n * h)); [apply linear_lim|apply derivable_pt_lim_const]. }
  assert (Ey : y' = rho ^ n * dy).
  { apply (uniqueness_limite (fun e => rho ^ n * (y + e * dy)) 0); [exact (V "y_final" 0%nat)|].
    apply (derivable_pt_lim_scal (fun e => y + e * dy)), linear_lim. }
  exists w'. now rewrite E, Et, Ey.
Qed.

Lemma simple_rev_run rho c w t y wt wy outp zi w1 v : o_ckpt op = AllCheckpointer -> ampl rho -> used c w ->
  layout outp = snd (scalar_io "y") -> layout zi = fst (scalar_io "y") -> zeros zi ->
  component_compute op simple_md (vec_in "y" t y) outp w = (w1, Ok v) ->
  exists w', component_rev op simple_md (vec_in "y" t y) zi (vec_out "y" wt wy) w1 = (w', Ok (vec_in "y" wt (rho ^ n * wy))).
Proof.
  intros Ck Ha U Lo Li Zi Ec. pose proof Hop as (E1 & E2 & E3 & E4 & E5 & E6 & E7 & E8 & E9).
  destruct (sc_rev "y" _ _ _ _ simple_metadata simple_io eq_refl eq_refl simple_in simple_out _ _ norm simple_keeps op bt h n Hop Hpos
    simple_answer c w t y wt wy outp zi w1 v Ck U Lo Li Ec) as (w' & t' & y' & E).
  assert (T : forall dt dy, wt * dt + wy * (rho ^ n * dy) = t' * dt + y' * dy).
  { intros dt dy.
    destruct (simple_fwd_run rho c w t y dt dy (vec_out "y" 0 0) Ha U eq_refl) as (w2 & F); [repeat constructor|].
    assert (Q : vinner (vec_out "y" wt wy) (vec_out "y" dt (rho ^ n * dy)) = vinner (vec_in "y" t' y') (vec_in "y" dt dy)).
    { eapply (by_name_transposed 1 0 _ _ _ _ _ _ _ simple_metadata eq_refl simple_io _ _ norm simple_keeps op E2 c c w w) with (zi := zi);
        try exact F; try exact Ec; try exact E; try reflexivity; auto.
      - apply simple_transposed.
      - split; reflexivity.
      - apply simple_sources.
      - apply simple_outputs.
      - apply simple_time.
      - now rewrite E1.
      - repeat constructor. }
    unfold vinner, vec_in, vec_out in Q. cbn in Q. lra. }
  exists w'. rewrite E. pose proof (T 1 0) as T1. pose proof (T 0 1) as T2.
  replace t' with wt by lra. replace y' with (rho ^ n * wy) by lra. reflexivity.
Qed.
End Run.
