(** Runs with a fixed number of steps return when the stage solves do, for
    every type of numbers. *)
From Coq Require Import List Bool Arith Lia.
From Verif Require Import Base Ext M_Tableau M_State M_ODE M_Step M_Controller M_Integrator
  SpecRK SpecDeriv SpecShape SpecRun L_Vec L_Step L_Generic L_Tableau L_Run L_Iter L_RunProps L_StepT.
Import ListNotations.

Section Total.
Context {T : Type} {N : Num T} {C : Type}.
Variable op : options T C.
Notation bt := (o_bt op).
Notation o := (o_ode op).
Notation Sg := (t_stages bt).
Notation h := (o_step op).
Notation shape := (shaped Sg (state_size o) (independent_input_size o)
                          (independent_output_size o) (linearization_point_size o)).
Hypothesis Hpos : 0 < Sg.
Hypothesis Hans : forall i inp, i < Sg -> length (M_ODE.step_input inp) = state_size o ->
  length (stage_input inp) = state_size o -> length (independent_input inp) = independent_input_size o -> exists r, compute_update o inp h (entry (t_A bt) i i) = Ok r.
Hypothesis Hsz : sized_ode o.
Hypothesis Hfix : o_adaptive op = false.
Hypothesis HL : loops op.
Hypothesis Hq : quiet op.
Hypothesis Hret : 0 < retry_limit op.

Lemma len_stages i (field : list (list T)) n : i < Sg -> length field = Sg ->
  Forall (fun r => length r = n) field -> length (accumulate_stages bt i field) = n.
Proof.
  intros Hi L F. unfold accumulate_stages.
  assert (E : length (nth 0 field []) = n) by (apply (Forall_nth_lt (fun r => length r = n) field [] 0 F); lia).
  rewrite E. destruct i as [|i]; [apply glen_vzeros|].
  apply glen_einsum, Forall_forall. intros r I. rewrite Forall_forall in F. apply F. rewrite <- (firstn_skipn (S i) field). apply in_or_app. now left.
Qed.

Lemma step_totalT s : shape s -> exists s', compute_step bt o s h = Ok s'.
Proof.
  intros Hs. unfold compute_step, compute_step_base, number_of_stages.
  destruct (for_stages_total (fun s i => compute_stage bt o s h i) shape (seq 0 Sg) (w_step_size h (shift_state s)))
    as (s1 & E & Sh).
  - destruct Hs; constructor; cbn; auto.
  - intros i s0 Hi Hs0; apply in_seq in Hi.
    assert (G : exists s', compute_stage bt o s0 h i = Ok s').
    { unfold compute_stage.
      match goal with |- context [compute_update o ?a h ?c] => destruct (Hans i a ltac:(lia)) as [[r lp] E] end.
      - destruct Hs0; cbn; auto.
      - destruct Hs0; cbn; apply len_stages; auto; lia.
      - destruct Hs0; cbn; auto.
      - rewrite E; cbn [bind]; eauto. }
    destruct G as [s' G]; exists s'; split; [exact G|].
    exact (compute_stage_shape bt o s0 h i s' (proj1 Hsz) Hs0 G).
  - rewrite E; cbn [bind].
    cbn; destruct (stage_independent_outputs s1) as [|r rs] eqn:Er.
    + pose proof (sh_sio _ _ _ _ _ _ Sh) as L; rewrite Er in L; simpl in L; lia.
    + cbn; destruct (t_hat bt) as [[bh q]|]; eauto.
Qed.

Lemma fixed_stepT st c : wf_ti op st -> suggestion st = h ->
  exists st', iterate_on_step op (retry_limit op) c st = (c, st', Ok tt) /\ wf_ti op st' /\ suggestion st' = h.
Proof.
  intros Hw Hs; destruct (step_totalT _ (wt_shape _ _ Hw)) as [s' Es].
  assert (G : exists st', iterate_on_step op (retry_limit op) c st = (c, st', Ok tt) /\ suggestion st' = h).
  { destruct (retry_limit op) as [|f]; [lia|]; cbn [iterate_on_step]; rewrite Hfix, Hs.
    rewrite Es; eexists; split; reflexivity. }
  destruct G as (st' & E & S); exists st'; split; [exact E|]; split; [|exact S].
  exact (iterate_wf op (proj1 Hsz) _ _ _ _ _ _ Hw E).
Qed.

Lemma chain_existsT n c : o_crit op = PredefinedNumberOfSteps n ->
  forall k it st, n - it <= k -> wf_ti op st -> suggestion st = h ->
  exists l st', chain op it c st l c st' /\ length l <= k.
Proof.
  intros Hn; induction k as [|k IH]; intros it st Hk Hw Hs.
  - exists [], st; split; [|cbn; lia]; constructor; unfold is_iteration_finished; rewrite Hn; apply Nat.leb_le; lia.
  - destruct (Nat.leb n it) eqn:F.
    + exists [], st; split; [|cbn; lia]; constructor; unfold is_iteration_finished; rewrite Hn; exact F.
    + destruct (fixed_stepT st c Hw Hs) as (st1 & I & Hw1 & Su).
      destruct (IH (S it) st1) as (l & st' & Hc & Hl); [apply Nat.leb_gt in F; lia|exact Hw1|exact Su|].
      exists (st1 :: l), st'; split; [|cbn; lia]; econstructor; eauto.
      unfold is_iteration_finished; rewrite Hn; exact F.
Qed.

Lemma compute_totalT n c w i : o_crit op = PredefinedNumberOfSteps n -> n < loop_limit op -> reachable op c w -> inputs_sized o i ->
  exists w' out, compute op i w = (w', Ok out).
Proof.
  intros Hn Hlim Hr Hi.
  pose proof (reachable_wf op c w Hsz Hr) as Hw.
  pose proof (wf_live _ _ (wf_prepare op i w Hi Hw)) as Wa.
  destruct (chain_existsT n (ctl w) Hn n 0 (live (prepare op i w))) as (l & st' & Hch & Hl); auto; [lia|].
  eexists; eexists; exact (compute_quiet op i w l (ctl w) st' HL Hq Hch ltac:(lia)).
Qed.
End Total.
