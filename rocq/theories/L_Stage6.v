(** Runs of the integrator component with ProtheroRobinson. *)
From Coq Require Import String.
From Coq Require Import List Bool Arith Reals Lia Lra.
From Verif Require Import Base Ext M_Tableau M_State M_ODE M_Step M_Integrator M_Metadata M_Components SpecMetadata SpecRK SpecDeriv
  SpecRun SpecShape SpecComponents SpecConvergence M_Packing SpecPacking M_Component SpecComponent SpecTotal M_Stage SpecStage
  L_Metadata L_Vec L_Generic L_Tableau L_Step L_Adjoint L_Deriv L_Run L_Iter L_Whole L_WholeR L_RunProps L_RunConvergence L_Packing L_Packing2 L_Packing3 L_Packing4 L_Packing5 L_Packing6
  L_Component L_Component2 L_Component3 L_Total L_Stage L_Stage2 L_Stage3 L_Stage4 L_Stage5.
Import ListNotations.
Local Open Scope string_scope.
Local Open Scope R_scope.
Local Open Scope list_scope.

(** ** ODEs whose derivatives are always zero *)
Section Still.
Context {C : Type}.
Variable op : options R C.
Notation bt := (o_bt op).
Notation o := (o_ode op).
Notation shape := (shaped (t_stages bt) (state_size o) (independent_input_size o)
                          (independent_output_size o) (linearization_point_size o)).
Hypothesis Hbt : tableau_wf bt.
Hypothesis Hsz : sized_ode o.
Hypothesis Hst : forall lp d h a r, compute_update_derivative o lp d h a = Ok r -> forall k, vnth k (stage_update r) = 0.

Lemma still_step s v h v' : shape s -> shape v -> compute_step_derivative bt o s v h = Ok v' ->
  final_state v' = final_state v /\ final_time v' = final_time v.
Proof.
  intros Ss Sv E.
  destruct (compute_step_derivative_facts bt o _ _ _ _ Hbt eq_refl eq_refl (proj1 (proj2 Hsz)) s v h v' Sv
    (sh_sio _ _ _ _ _ _ Ss) (sh_sior _ _ _ _ _ _ Ss) E) as [[Sh _ _ _ Stg] Fin Ft].
  split; [|exact Ft]. rewrite Fin.
  destruct (accumulate_step_spec bt (state_size o) h (final_state v) (stage_updates v') Hbt) as (L & A); try apply Sv; try apply Sh.
  apply (nth_ext _ _ 0 0); [rewrite L; symmetry; apply Sv|]. intros k _. change (vnth k (accumulate_step bt (final_state v) (stage_updates v') h) = vnth k (final_state v)).
  rewrite A. replace (rsum _ _) with 0; [ring|]. rewrite <- (L_Vec.rsum_zero (t_stages bt)) at 1. apply L_Vec.rsum_ext.
  intros j Hj. specialize (Stg j Hj). pose proof (Hst _ _ _ _ _ Stg k) as Q. cbn [stage_update] in Q. rewrite Q. symmetry. apply Rmult_0_r.
Qed.
Lemma still_sweep l : Forall (fun x => shape (disc x)) l -> forall p p', shape (disc p) -> derivative_sweep op l p = Ok p' ->
  result_of p' = result_of p.
Proof.
  induction 1 as [|st l S _ IH]; intros p p' P E; cbn [derivative_sweep] in E; [now injection E as <-|].
  apply bind_ok in E as (p1 & E1 & E). unfold derivative_step in E1. apply bind_ok in E1 as (v & V & [= <-]).
  destruct (still_step _ _ _ _ S P V) as (F1 & F2).
  rewrite (IH (w_disc (rk_set (disc p) v) p) p');
    [|apply shape_rk_set; exact (proj1 (compute_step_derivative_shape bt o _ _ _ _ (proj1 (proj2 Hsz)) S P V))|exact E].
  unfold result_of. cbn. now rewrite F1, F2.
Qed.
Lemma still_fwd c w i d w' out : reachable op c w -> inputs_sized o i -> inputs_sized o d ->
  compute_jacvec_product_fwd op i d w = (w', Ok out) -> time_final out = time_initial d /\ final out = initial d.
Proof.
  intros Rw Hi Hd E. pose proof (reachable_wf op c w Hsz Rw) as W.
  destruct (fwd_ok op i d w w' out E) as (l & c' & st' & p' & Hc & _ & Hp & -> & _).
  pose proof (wf_prepare_fwd op i d w Hi Hd W) as Wp.
  assert (F : Forall (fun x => shape (disc x)) l).
  { apply (Forall_impl _ (fun x (Q : wf_ti op x) => wt_shape _ _ Q)).
    exact (proj2 (chain_wf op (proj1 Hsz) _ _ _ _ _ _ Hc (wf_live _ _ Wp))). }
  rewrite (still_sweep l F _ _ (wf_pert _ _ Wp) Hp). split; reflexivity.
Qed.
End Still.

(** ** ProtheroRobinson *)
Lemma prothero_md_unique md : metadata_of 1 prothero_variables ["x"] [] = Ok [md] -> md = prothero_md.
Proof. rewrite prothero_metadata. now intros [= <-]. Qed.
Lemma prothero_io : declare_all (fun _ => 1%nat) prothero_md = Ok (scalar_io "x").
Proof. reflexivity. Qed.
Lemma prothero_in t y : holds_inputs prothero_md (vec_in "x" t y) {| time_initial := t; initial := [y]; independent := [] |}.
Proof. split; [reflexivity|]. split; [intros q [<-|[]]; reflexivity|intros q []]. Qed.
Lemma prothero_out t y : holds_outputs prothero_md (vec_out "x" t y) {| time_final := t; final := [y] |}.
Proof. split; [reflexivity|]. intros q [<-|[]]; reflexivity. Qed.

Lemma prothero_transposed lam : solves_transposed (prothero lam).
Proof.
  intros h a i o g r x r' w g' w' y _ _ _ _ E1 E2.
  apply (fwd_inv _ (prothero_regular lam) _ _ i o) in E1 as (xo & rs & qs & u & L1 & L2 & L3 & -> & -> & Sg & Fu & -> & -> & L4).
  apply (rev_inv _ (prothero_regular lam) _ _ i o) in E2 as (yo & ws & us & v & M1 & M2 & M3 & -> & -> & _ & Fv & -> & -> & M4).
  cbn in L1, L2, L3, L4, M1, M2, M3, M4. lens.
  cbn in Fu, Fv. injection Fu as <-. injection Fv as <- <- <-.
  cbn. ring.
Qed.

Lemma prothero_still lam x norm lp d h a r :
  compute_update_derivative (openmdao_ode (prothero lam) prothero_md (stage_vectors (prothero_component lam) x) norm) lp d h a = Ok r ->
  forall k, vnth k (stage_update r) = 0.
Proof.
  destruct d as [y s p t].
  destruct y as [|y [|]]; try discriminate. destruct s as [|s [|]]; try discriminate. destruct p; try discriminate.
  destruct lp as [|l0 [|l1 [|l2 [|l3 [|l4 [|l5 [|l6 [|]]]]]]]]; try discriminate.
  destruct (neqb (1 - lam * h * a) 0) eqn:E.
  - cbv -[Rplus Rminus Rmult Ropp Rdiv Rinv neqb IZR RNum]. rewrite E. discriminate.
  - cbv -[Rplus Rminus Rmult Ropp Rdiv Rinv neqb IZR RNum]. rewrite E. intros [= <-]. intros [|[|k]]; cbn; ring.
Qed.

Section Run.
Context {C : Type}.
Variables (op : options R C) (bt : tableau R) (lam x h : R) (norm : ode_out R -> R) (n : nat).
Hypothesis Hop : fixed_steps op bt (openmdao_ode (prothero lam) prothero_md (stage_vectors (prothero_component lam) x) norm) h n.
Hypothesis Hpos : (0 < t_stages bt)%nat.
Hypothesis Hwf : tableau_wf bt.
Hypothesis Hex : is_implicit bt = false.
Hypothesis Hreg : forall i, (i < t_stages bt)%nat -> 1 - lam * h * entry (t_A bt) i i <> 0.
Notation ampl := (amplification (t_stages bt) (entry (t_A bt)) (fun k => vnth k (t_b bt)) (h * lam)).
Notation used := (in_use op prothero_md (scalar_io "x")).
Notation steps := (rk_steps (t_stages bt) 1 (entry (t_A bt)) (fun k => vnth k (t_b bt)) (fun k => vnth k (t_c bt))
                       (fun t y => prothero_rhs lam t [] y)).

Lemma preg i : (i < t_stages bt)%nat -> 1 - h * lam * entry (t_A bt) i i <> 0.
Proof. intros Hi E. apply (Hreg i Hi). rewrite <- E. ring. Qed.
Lemma prothero_answer i : (i < t_stages bt)%nat ->
  answers (openmdao_ode (prothero lam) prothero_md (stage_vectors (prothero_component lam) x) norm) h (entry (t_A bt) i i).
Proof. intros Hi. apply prothero_answers, Hreg, Hi. Qed.

Lemma prothero_compute_run c w t y outp : used c w -> layout outp = snd (scalar_io "x") ->
  exists w' y', component_compute op prothero_md (vec_in "x" t y) outp w = (w', Ok (vec_out "x" (t + INR n * h) y')) /\
    steps t [y] (repeat h n) [y'] /\
    compute op {| time_initial := t; initial := [y]; independent := [] |} w
    = (w', Ok {| time_final := t + INR n * h; final := [y'] |}).
Proof.
  intros U Lo.
  exact (sc_compute "x" _ _ _ _ prothero_metadata prothero_io eq_refl eq_refl prothero_in prothero_out _ _ norm (prothero_keeps lam) op bt h n Hop Hpos Hwf
    prothero_answer (prothero_rhs lam) c w t y outp (prothero_implements lam) (prothero_sources lam) (prothero_time lam x) Hex U Lo).
Qed.
(** Two runs from the same time differ by the power of the factor. *)
Lemma prothero_differ rho t y z y' z' : ampl rho -> steps t [y] (repeat h n) [z] -> steps t [y'] (repeat h n) [z'] ->
  z - z' = rho ^ n * (y - y').
Proof.
  intros Ha. apply (affine_steps _ _ _ _ (upper_zero bt Hex) lam (fun t => d_phi t - lam * phi t)); [|exact preg|exact Ha].
  intros u v. cbn. f_equal. ring.
Qed.
Lemma prothero_fwd_run c w t y dt dy zo : used c w -> layout zo = snd (scalar_io "x") -> zeros zo ->
  exists w', component_fwd op prothero_md (vec_in "x" t y) (vec_in "x" dt dy) zo w = (w', Ok (vec_out "x" dt dy)).
Proof.
  intros U Lo Zo. pose proof Hop as (E1 & E2 & E3 & E4 & E5 & E6 & E7 & E8 & E9).
  pose proof (sc_sized _ _ _ _ prothero_metadata _ _ norm (prothero_keeps lam) op bt h n Hop) as Hs.
  pose proof (sc_arr prothero_md eq_refl eq_refl _ _ norm op bt h n Hop) as Ha.
  pose proof (sc_reach "x" _ _ _ _ prothero_metadata prothero_io _ _ norm (prothero_keeps lam) op bt h n Hop c w U) as Rw.
  destruct (fwd_total op) with (c := c) (w := w) (i := {| time_initial := t; initial := [y]; independent := [] |})
     (d := {| time_initial := dt; initial := [dy]; independent := [] |}) as (w' & out & E); auto.
  { now rewrite E1. }
  { intros i Hi. rewrite E2, E1, E4. apply prothero_answer. now rewrite <- E1. }
  { unfold enough_steps. now rewrite E5. }
  destruct (still_fwd op) with (c := c) (w := w) (i := {| time_initial := t; initial := [y]; independent := [] |})
     (d := {| time_initial := dt; initial := [dy]; independent := [] |}) (w' := w') (out := out) as (F1 & F2); auto.
  { now rewrite E1. }
  { intros lp d h0 a r. rewrite E2. apply prothero_still. }
  destruct (out_shape "x" zo Lo) as (u & z & ->).
  pose proof (by_name_fwd 1 0 _ _ _ _ _ _ _ prothero_metadata eq_refl prothero_io op
    (sc_n _ _ _ norm op bt h n Hop) (sc_i _ _ _ norm op bt h n Hop) Hs c w (vec_in "x" t y) (vec_in "x" dt dy)
    (vec_out "x" u z) _ _ u U eq_refl eq_refl eq_refl (Ha _ _) (prothero_in _ _) (Ha _ _) (prothero_in _ _) eq_refl) as B.
  rewrite E in B. destruct B as (v & Ev & Lv & Hv). destruct (out_shape "x" v Lv) as (t' & y' & ->).
  assert (Zu : u = 0) by (inversion Zo as [|? ? Q _]; inversion Q; assumption). subst u.
  cbn [time_initial initial] in F1, F2. rewrite F1, F2 in Hv. destruct Hv as (H1 & H2).
  specialize (H2 _ (or_introl eq_refl)). cbn in H1, H2. injection H1 as H1. injection H2 as H2.
  exists w'. rewrite Ev, H2, H1. now rewrite Rplus_0_l.
Qed.
Lemma prothero_rev_run c w t y wt wy outp zi w1 v : o_ckpt op = AllCheckpointer -> used c w ->
  layout outp = snd (scalar_io "x") -> layout zi = fst (scalar_io "x") -> zeros zi ->
  component_compute op prothero_md (vec_in "x" t y) outp w = (w1, Ok v) ->
  exists w', component_rev op prothero_md (vec_in "x" t y) zi (vec_out "x" wt wy) w1 = (w', Ok (vec_in "x" wt wy)).
Proof.
  intros Ck U Lo Li Zi Ec. pose proof Hop as (E1 & E2 & E3 & E4 & E5 & E6 & E7 & E8 & E9).
  destruct (sc_rev "x" _ _ _ _ prothero_metadata prothero_io eq_refl eq_refl prothero_in prothero_out _ _ norm (prothero_keeps lam) op bt h n Hop Hpos
    prothero_answer c w t y wt wy outp zi w1 v Ck U Lo Li Ec) as (w' & t' & y' & E).
  assert (T : forall dt dy, wt * dt + wy * dy = t' * dt + y' * dy).
  { intros dt dy.
    destruct (prothero_fwd_run c w t y dt dy (vec_out "x" 0 0) U eq_refl) as (w2 & F); [repeat constructor|].
    assert (Q : vinner (vec_out "x" wt wy) (vec_out "x" dt dy) = vinner (vec_in "x" t' y') (vec_in "x" dt dy)).
    { eapply (by_name_transposed 1 0 _ _ _ _ _ _ _ prothero_metadata eq_refl prothero_io _ _ norm (prothero_keeps lam) op E2 c c w w) with (zi := zi);
        try exact F; try exact Ec; try exact E; try reflexivity; auto.
      - apply prothero_transposed.
      - split; reflexivity.
      - apply prothero_sources.
      - apply prothero_outputs.
      - apply prothero_time.
      - now rewrite E1.
      - repeat constructor. }
    unfold vinner, vec_in, vec_out in Q. cbn in Q. lra. }
  exists w'. rewrite E. pose proof (T 1 0) as T1. pose proof (T 0 1) as T2.
  replace t' with wt by lra. replace y' with wy by lra. reflexivity.
Qed.
End Run.
