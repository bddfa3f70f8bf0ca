(** Steps, their derivatives and fixed-step runs return when the ODE does. *)
From Coq Require Import List Bool Arith Reals Lia Lra.
From Verif Require Import Base Ext M_Tableau M_State M_ODE M_Step M_Controller M_Integrator
  SpecRK SpecDeriv SpecShape SpecRun SpecTotal L_Vec L_Generic L_Tableau L_Run L_Iter L_Whole L_WholeR L_RunProps.
Import ListNotations.
Open Scope R_scope.

Section Steps.
Variables (bt : tableau R) (o : ode R) (h : R).
Notation Sg := (t_stages bt).
Notation shape := (shaped Sg (state_size o) (independent_input_size o)
                          (independent_output_size o) (linearization_point_size o)).
Hypothesis Hpos : (0 < Sg)%nat.
Hypothesis Hans : forall i, (i < Sg)%nat -> answers o h (entry (t_A bt) i i).

Lemma len_accumulate_stages i (field : list (list R)) n : (i < Sg)%nat -> length field = Sg ->
  Forall (fun r => length r = n) field -> length (accumulate_stages bt i field) = n.
Proof.
  intros Hi L F. unfold accumulate_stages.
  assert (E : length (nth 0 field []) = n) by (apply (Forall_nth_lt (fun r => length r = n) field [] 0 F); lia).
  rewrite E. destruct i as [|i]; [apply glen_vzeros|].
  apply glen_einsum. apply Forall_forall. intros r I. rewrite Forall_forall in F. apply F. rewrite <- (firstn_skipn (S i) field). apply in_or_app. now left.
Qed.

Lemma step_total s : result_sizes o -> shape s -> exists s', compute_step bt o s h = Ok s'.
Proof.
  intros Hsz Hs. unfold compute_step, compute_step_base, number_of_stages.
  destruct (for_stages_total (fun s i => compute_stage bt o s h i) shape (seq 0 Sg) (w_step_size h (shift_state s)))
    as (s1 & E & Sh).
  - destruct Hs; constructor; cbn; auto.
  - intros i s0 Hi Hs0; apply in_seq in Hi.
    assert (G : exists s', compute_stage bt o s0 h i = Ok s').
    { unfold compute_stage.
      match goal with |- context [compute_update o ?a h ?c] =>
        destruct (proj1 (Hans i ltac:(lia)) a) as [[r lp] E] end.
      - destruct Hs0; repeat split; cbn; auto; apply len_accumulate_stages; auto; lia.
      - rewrite E; cbn [bind]; eauto. }
    destruct G as [s' G]; exists s'; split; [exact G|].
    exact (compute_stage_shape bt o s0 h i s' Hsz Hs0 G).
  - rewrite E; cbn [bind].
    cbn; destruct (stage_independent_outputs s1) as [|r rs] eqn:Er.
    + pose proof (sh_sio _ _ _ _ _ _ Sh) as L; rewrite Er in L; simpl in L; lia.
    + cbn; destruct (t_hat bt) as [[bh q]|]; eauto.
Qed.

Lemma step_derivative_total s v : derivative_sizes o -> shape s -> shape v ->
  exists v', compute_step_derivative bt o s v h = Ok v'.
Proof.
  intros Hsz Hs Hv. unfold compute_step_derivative, number_of_stages.
  destruct (for_stages_total (fun p i => compute_stage_derivative bt o (linearization_points s) p h i) shape
              (seq 0 Sg) (shift_state v)) as (v1 & E & Sh).
  - destruct Hv; constructor; cbn; auto.
  - intros i s0 Hi Hs0; apply in_seq in Hi.
    unfold compute_stage_derivative.
    match goal with |- context [compute_update_derivative o ?l ?a h ?c] =>
      destruct (proj1 (proj2 (Hans i ltac:(lia))) l a) as [r E] end.
    + destruct Hs. apply (Forall_nth_lt (fun r => length r = linearization_point_size o)); auto; lia.
    + destruct Hs0; repeat split; cbn; auto; apply len_accumulate_stages; auto; lia.
    + rewrite E; cbn [bind]. eexists; split; [reflexivity|].
      destruct (Hsz _ _ _ _ _ E) as (R1 & R2 & R3).
      destruct Hs0; constructor; cbn; rewrite ?length_upd; auto using Forall_upd.
  - rewrite E; cbn [bind]. destruct (stage_independent_outputs s) as [|r rs] eqn:Er.
    + pose proof (sh_sio _ _ _ _ _ _ Hs) as L; rewrite Er in L; simpl in L; lia.
    + cbn. eauto.
Qed.

Lemma step_adjoint_total s w : adjoint_sizes o -> shape s -> shape w ->
  exists w', compute_step_adjoint_derivative bt o s w h = Ok w'.
Proof.
  intros Hsz Hs Hw. unfold compute_step_adjoint_derivative, number_of_stages.
  match goal with |- context [for_stages ?f ?l ?x] =>
    destruct (for_stages_total f shape l x) as (w1 & E & Sh) end.
  - assert (K : forall l ups, length ups = Sg -> Forall (fun r => length r = state_size o) ups ->
        let z := fold_left (fun ups i => upd i (vscale (nmul h (nth i (t_b bt) n0)) (final_state w)) ups) l ups
        in length z = Sg /\ Forall (fun r => length r = state_size o) z).
    { induction l as [|i l IH]; intros ups U1 U2; simpl; [auto|].
      apply IH; [rewrite length_upd; exact U1|].
      apply Forall_upd; [|exact U2]; rewrite glen_vscale; apply Hw. }
    destruct (K (seq 0 Sg) (stage_updates w) (sh_su _ _ _ _ _ _ Hw) (sh_sur _ _ _ _ _ _ Hw)) as [K1 K2].
    destruct Hs, Hw; constructor; cbn; rewrite ?map_length, ?glen_vzeros; auto.
    clear - sh_sior; induction sh_sior; simpl; constructor; auto.
    rewrite glen_vzeros; assumption.
  - intros i s0 Hi Hs0. apply in_rev in Hi; apply in_seq in Hi.
    unfold compute_stage_adjoint_derivative.
    match goal with |- context [compute_update_adjoint_derivative o ?l ?a h ?c] =>
      destruct (proj2 (proj2 (Hans i ltac:(lia))) l a) as [x E] end.
    + destruct Hs. apply (Forall_nth_lt (fun r => length r = linearization_point_size o)); auto; lia.
    + destruct Hs0; cbn. apply (Forall_nth_lt (fun r => length r = state_size o)); auto; lia.
    + destruct Hs0; cbn. apply (Forall_nth_lt (fun r => length r = state_size o)); auto; lia.
    + destruct Hs0; cbn. apply (Forall_nth_lt (fun r => length r = independent_output_size o)); auto; lia.
    + rewrite E; cbn [bind]. eexists; split; [reflexivity|].
      destruct (Hsz _ _ _ _ _ E) as (R1 & R2 & R3).
      destruct (add_to_updates_shape bt i (stage_input x) (stage_updates s0) (state_size o) Sg R2
                  (sh_su _ _ _ _ _ _ Hs0) (sh_sur _ _ _ _ _ _ Hs0)) as [U1 U2].
      destruct Hs0; constructor; cbn; rewrite ?length_upd; auto using glen_vadd.
  - rewrite E. cbn [bind]. eauto.
Qed.
End Steps.

Section Runs.
Context {C : Type}.
Variable op : options R C.
Notation bt := (o_bt op).
Notation o := (o_ode op).
Notation Sg := (t_stages bt).
Notation h := (o_step op).
Notation shape := (shaped Sg (state_size o) (independent_input_size o)
                          (independent_output_size o) (linearization_point_size o)).
Hypothesis Hpos : (0 < Sg)%nat.
Hypothesis Hans : forall i, (i < Sg)%nat -> answers o h (entry (t_A bt) i i).
Hypothesis Hsz : sized_ode o.
Hypothesis Hfix : o_adaptive op = false.
Hypothesis HL : loops op.
Hypothesis Hq : quiet op.
Hypothesis Hret : (0 < retry_limit op)%nat.

Notation enough := (enough_steps op).
Lemma chain_steps_of it c st l c' st' : chain op it c st l c' st' -> wf_ti op st -> suggestion st = h ->
  Forall (fun x => shape (disc x) /\ nth 0 (step_hist x) 0 = h) l.
Proof.
  induction 1 as [|it c st c1 st1 l c' st' F I _ IH]; intros W S; constructor.
  - destruct (fixed_step op (proj1 Hsz) Hfix _ _ _ _ W I) as (s' & _ & _ & _ & Su & Hh & _ & W1).
    split; [apply W1|congruence].
  - destruct (fixed_step op (proj1 Hsz) Hfix _ _ _ _ W I) as (s' & _ & _ & _ & Su & Hh & _ & W1). apply IH; congruence.
Qed.
Lemma chain_total i c st : enough i -> final_time (disc st) = time_initial i -> wf_ti op st -> suggestion st = h ->
  exists l st', chain op 0 c st l c st' /\ (length l < loop_limit op)%nat.
Proof.
  intros En Ft W S. unfold enough_steps in En.
  assert (Htot : forall s, shape s -> exists s', compute_step bt o s h = Ok s') by
    (intros s Sh; exact (step_total bt o h Hpos Hans s (proj1 Hsz) Sh)).
  destruct (o_crit op) as [n|T] eqn:E.
  - destruct (chain_exists_count op (proj1 Hsz) Hfix Htot Hret n c E n 0 st) as (l & st' & Hch); auto; [lia|].
    exists l, st'. split; [exact Hch|]. rewrite (chain_count op _ _ _ _ _ _ n E Hch); lia.
  - destruct (chain_exists_time op (proj1 Hsz) Hfix Htot Hret T c E (loop_limit op - 1) 0 st)
      as (l & st' & Hch & Hl); auto; [rewrite Ft; apply En|]. exists l, st'. split; [exact Hch|]. lia.
Qed.

Lemma derivative_sweep_total l : Forall (fun x => shape (disc x) /\ nth 0 (step_hist x) 0 = h) l ->
  forall p, shape (disc p) -> exists p', derivative_sweep op l p = Ok p'.
Proof.
  induction 1 as [|st l [S E] _ IH]; intros p P; [simpl; eauto|]. simpl. unfold derivative_step.
  change (nth 0 (step_hist st) n0) with (nth 0 (step_hist st) 0). rewrite E. destruct (step_derivative_total bt o h Hpos Hans (disc st) (disc p) (proj1 (proj2 Hsz)) S P) as [v V].
  rewrite V. cbn [bind]. apply IH. cbn. apply shape_rk_set.
  exact (proj1 (compute_step_derivative_shape bt o _ _ _ _ (proj1 (proj2 Hsz)) S P V)).
Qed.
Lemma adjoint_sweep_total l : Forall (fun x => shape (disc x) /\ nth 0 (step_hist x) 0 = h) l ->
  forall p, shape (disc p) -> exists p', adjoint_sweep op l p = Ok p'.
Proof.
  induction 1 as [|st l [S E] _ IH]; intros p P; [simpl; eauto|]. simpl. unfold adjoint_step.
  change (nth 0 (step_hist st) n0) with (nth 0 (step_hist st) 0). rewrite E. destruct (step_adjoint_total bt o h Hpos Hans (disc st) (disc p) (proj2 (proj2 Hsz)) S P) as [v V].
  rewrite V. cbn [bind]. apply IH. cbn. apply shape_rk_set.
  exact (compute_step_adjoint_shape bt o _ _ _ _ (proj2 (proj2 Hsz)) S P V).
Qed.

Lemma compute_total c w i : reachable op c w -> inputs_sized o i -> enough i ->
  exists w' out, compute op i w = (w', Ok out).
Proof.
  intros Hr Hi En. pose proof (reachable_wf op c w Hsz Hr) as Hw.
  pose proof (wf_live _ _ (wf_prepare op i w Hi Hw)) as Wa.
  destruct (chain_total i (ctl w) (live (prepare op i w)) En eq_refl Wa eq_refl) as (l & st' & Hch & Hl).
  eexists; eexists. exact (compute_quiet op i w l (ctl w) st' HL Hq Hch Hl).
Qed.
Lemma fwd_total c w i d : reachable op c w -> inputs_sized o i -> inputs_sized o d -> enough i ->
  exists w' out, compute_jacvec_product_fwd op i d w = (w', Ok out).
Proof.
  intros Hr Hi Hd En. pose proof (reachable_wf op c w Hsz Hr) as Hw.
  pose proof (wf_prepare_fwd op i d w Hi Hd Hw) as Wp.
  pose proof (wf_live _ _ Wp) as Wa.
  destruct (chain_total i (ctl w) (live (prepare_fwd op i d w)) En eq_refl Wa eq_refl) as (l & st' & Hch & Hl).
  destruct (derivative_sweep_total l (chain_steps_of _ _ _ _ _ _ Hch Wa eq_refl) (pert (prepare_fwd op i d w)))
    as (p' & P); [apply (wf_pert _ _ Wp)|].
  eexists; eexists. exact (fwd_quiet op i d w l _ st' p' Hq Hch Hl P).
Qed.
Lemma rev_total c w i d w1 out : o_ckpt op = AllCheckpointer -> reachable op c w -> inputs_sized o i -> outputs_sized o d ->
  compute op i w = (w1, Ok out) -> exists w' g, compute_jacvec_product_rev op i d w1 = (w', Ok g).
Proof.
  intros Ck Hr Hi Hd E. pose proof (reachable_wf op c w Hsz Hr) as Hw.
  pose proof (pres_compute op (proj1 Hsz) (proj2 (proj2 Hsz)) i Hi w Hw) as W1. rewrite E in W1. cbn in W1.
  pose proof (wf_live _ _ (wf_prepare op i w Hi Hw)) as Wa.
  assert (HK : keeps op = true) by (unfold keeps; now rewrite Ck).
  pose proof (compute_hit op i w w1 out HL E) as Hit.
  destruct (compute_ok op i w w1 out HL E) as (l & c' & st' & Hch & Hl & _ & E1).
  assert (St : storage w1 = rev l) by (rewrite E1, HK; cbn; apply app_nil_r).
  destruct (adjoint_sweep_total (storage w1)) with (p := pert (prepare_rev d w1)) as (p' & P).
  - rewrite St. apply Forall_rev. exact (chain_steps_of _ _ _ _ _ _ Hch Wa eq_refl).
  - apply (wf_pert _ _ (wf_prepare_rev op d w1 Hd W1)).
  - destruct (rev_quiet op i d w1 w1 p' Ck Hq) as (w' & R); [rewrite Hit; reflexivity|exact P|]. eauto.
Qed.
End Runs.
