(** Lemmas about driving the time discretization by hand. *)
From Coq Require Import List Lia Bool Arith.
From Verif Require Import Base M_Tableau M_State M_ODE M_Step M_Controller M_Measure M_Integrator
  SpecRK SpecShape SpecDeriv SpecRun SpecScheme L_Vec L_Step L_Generic L_Run L_Iter L_Whole.
Import ListNotations.

Section Any.
Context {T : Type} {N : Num T}.
Variable bt : tableau T.
Variable o : ode T.
Notation Sg := (t_stages bt).
Notation shape := (shaped Sg (state_size o) (independent_input_size o)
                          (independent_output_size o) (linearization_point_size o)).
Hypothesis Hres : result_sizes o.
Hypothesis Hdsz : derivative_sizes o.
Hypothesis Hasz : adjoint_sizes o.

Lemma empty_shaped : shape (create_empty_discretization_state bt o).
Proof. apply create_shaped. Qed.

Lemma start_shaped t y p h : length y = state_size o -> length p = independent_input_size o ->
  shape (starting_scheme bt o t y p h).
Proof. intros; destruct empty_shaped; constructor; cbn; auto. Qed.

Lemma start_derivative_shaped t y p : length y = state_size o -> length p = independent_input_size o ->
  shape (starting_scheme_derivative bt o t y p).
Proof. intros; destruct empty_shaped; constructor; cbn; auto. Qed.

Lemma finish_adjoint_shaped t y q : length y = state_size o -> length q = independent_output_size o ->
  shape (finalization_scheme_adjoint bt o (t, y, q)).
Proof. intros; destruct empty_shaped; constructor; cbn; auto. Qed.

Lemma steps_length s hs l : steps bt o s hs l -> length l = length hs.
Proof.
  revert s l; induction hs as [|h hs IH]; intros s [|s' l] H; cbn in H; try tauto.
  cbn; f_equal; eapply IH; exact (proj2 H).
Qed.

Lemma steps_shaped s hs l : shape s -> steps bt o s hs l -> Forall shape l.
Proof.
  revert s l; induction hs as [|h hs IH]; intros s [|s' l] Hs H; cbn in H; try tauto; [constructor|].
  destruct H as [H1 H2].
  pose proof (fr_shape _ _ _ _ _ (compute_step_frame bt o _ _ _ Hres Hs H1)) as Hs'.
  constructor; [exact Hs'|]; eapply IH; eauto.
Qed.

(** Final independent outputs are zero after every step. *)
Lemma last_cons {A} (x d : A) l : last (x :: l) d = last l x.
Proof.
  revert x d; induction l as [|y l IH]; intros x d; [reflexivity|].
  change (last (y :: l) d = last (y :: l) x); rewrite !IH; reflexivity.
Qed.

Lemma step_final_outputs s h s' : shape s -> compute_step bt o s h = Ok s' ->
  final_independent_outputs s' = vzeros (independent_output_size o).
Proof.
  intros Hs H; unfold compute_step in H.
  destruct (compute_step_base bt o s h) as [s1|e] eqn:E; cbn [bind] in H; [|discriminate].
  assert (K : final_independent_outputs s1 = vzeros (independent_output_size o)).
  { destruct (compute_step_base_frame bt o _ _ _ Hres Hs E) as [F _].
    unfold compute_step_base in E.
    destruct (for_stages _ _ _) as [s2|e]; cbn [bind] in E; [|discriminate].
    destruct F as [Fs _ _ _ _ _ _].
    unfold compute_final_independent_outputs in E; cbn in E.
    destruct (stage_independent_outputs s2) as [|r q] eqn:Q; cbn [bind] in E; [discriminate|].
    injection E as <-; cbn.
    pose proof (sh_sior _ _ _ _ _ _ Fs) as X; cbn in X; rewrite Q in X; inversion X; subst; congruence. }
  destruct (t_hat bt) as [[bh ph]|]; injection H as <-; exact K.
Qed.

Lemma steps_final_outputs s hs l : shape s -> final_independent_outputs s = vzeros (independent_output_size o) ->
  steps bt o s hs l -> final_independent_outputs (last l s) = vzeros (independent_output_size o).
Proof.
  revert s l; induction hs as [|h hs IH]; intros s [|s' l] Hs Hz H; cbn [steps] in H; try tauto.
  destruct H as [H1 H2]; rewrite last_cons.
  apply IH; auto; [|eapply step_final_outputs; eauto].
  exact (fr_shape _ _ _ _ _ (compute_step_frame bt o _ _ _ Hres Hs H1)).
Qed.

Lemma derivative_final_outputs s v h v' : shape s -> compute_step_derivative bt o s v h = Ok v' ->
  final_independent_outputs v' = vzeros (independent_output_size o).
Proof.
  intros Hs H; unfold compute_step_derivative in H.
  destruct (for_stages _ _ _) as [s2|e]; cbn [bind] in H; [|discriminate].
  unfold compute_final_independent_outputs in H.
  destruct (stage_independent_outputs s) as [|r q] eqn:Q; cbn [bind] in H; [discriminate|].
  injection H as <-; cbn.
  pose proof (sh_sior _ _ _ _ _ _ Hs) as X; rewrite Q in X; inversion X; subst; congruence.
Qed.

Lemma steps_derivative_final_outputs hs l v v' : Forall shape l ->
  final_independent_outputs v = vzeros (independent_output_size o) ->
  steps_derivative bt o hs l v v' -> final_independent_outputs v' = vzeros (independent_output_size o).
Proof.
  revert l v; induction hs as [|h hs IH]; intros [|s l] v Fl Hz H; cbn in H; try tauto; [congruence|].
  destruct H as (v1 & H1 & H2); inversion Fl; subst.
  apply (IH l v1); auto; eapply derivative_final_outputs; eauto.
Qed.

(** *** The embedded fields take no part *)
Lemma stage_embedded s h i s' : compute_stage bt o s h i = Ok s' -> embedded s' = embedded s.
Proof.
  unfold compute_stage; intros E.
  match type of E with context [compute_update o ?i ?h ?a] =>
    destruct (compute_update o i h a) as [[r lp]|e] end; cbn [bind] in E; [|discriminate].
  injection E as <-; reflexivity.
Qed.

Lemma stage_w_embedded e s h i :
  compute_stage bt o (w_embedded e s) h i
  = match compute_stage bt o s h i with Ok x => Ok (w_embedded e x) | Err x => Err x end.
Proof.
  unfold compute_stage; cbn.
  match goal with |- context [compute_update o ?i ?h ?a] =>
    destruct (compute_update o i h a) as [[r lp]|x] end; reflexivity.
Qed.

Lemma stages_w_embedded e h l : forall s,
  for_stages (fun s i => compute_stage bt o s h i) l (w_embedded e s)
  = match for_stages (fun s i => compute_stage bt o s h i) l s with Ok x => Ok (w_embedded e x) | Err x => Err x end.
Proof.
  induction l as [|i l IH]; intros s; cbn [for_stages]; [reflexivity|].
  rewrite stage_w_embedded; destruct (compute_stage bt o s h i) as [x|x]; cbn [bind]; auto.
Qed.

Lemma base_w_embedded e s h :
  compute_step_base bt o (w_embedded e s) h
  = match compute_step_base bt o s h with Ok x => Ok (w_embedded e x) | Err x => Err x end.
Proof.
  unfold compute_step_base.
  change (w_step_size h (shift_state (w_embedded e s))) with (w_embedded e (w_step_size h (shift_state s))).
  rewrite stages_w_embedded; destruct (for_stages _ _ _) as [x|x]; cbn [bind]; [|reflexivity].
  cbn; destruct (compute_final_independent_outputs _) as [q|q]; reflexivity.
Qed.

Lemma step_any_embedded a b h : shape a -> shape b -> same_start a b ->
  (t_hat bt = None -> embedded a = embedded b) -> compute_step bt o a h = compute_step bt o b h.
Proof.
  intros Ha Hb S He.
  rewrite (compute_step_independent bt o a (w_embedded (embedded a) b) h); auto.
  - unfold compute_step; rewrite base_w_embedded.
    destruct (t_hat bt) as [[bh ph]|] eqn:E.
    + destruct (compute_step_base bt o b h); reflexivity.
    + rewrite (He eq_refl); destruct (compute_step_base bt o b h) as [x|x] eqn:F; cbn [bind]; [|reflexivity].
      assert (X : embedded x = embedded b).
      { unfold compute_step_base in F.
        destruct (for_stages _ _ _) as [y|y] eqn:G; cbn [bind] in F; [|discriminate].
        apply (for_stages_pres (fun x => embedded x = embedded b)) in G;
          [|intros p q i P Q; rewrite (stage_embedded _ _ _ _ Q); exact P|reflexivity].
        cbn in F; destruct (compute_final_independent_outputs _); cbn [bind] in F; [|discriminate].
        injection F as <-; exact G. }
      rewrite <- X; destruct x; reflexivity.
  - destruct Hb; constructor; cbn; auto.
  - destruct S; constructor; cbn; auto.
Qed.

Lemma step_embedded s h s' : t_hat bt = None -> compute_step bt o s h = Ok s' -> embedded s' = embedded s.
Proof.
  intros Hn H; unfold compute_step in H; rewrite Hn in H.
  destruct (compute_step_base bt o s h) as [x|x] eqn:F; cbn [bind] in H; [|discriminate]; injection H as <-.
  unfold compute_step_base in F.
  destruct (for_stages _ _ _) as [y|y] eqn:G; cbn [bind] in F; [|discriminate].
  apply (for_stages_pres (fun x => embedded x = embedded s)) in G;
    [|intros p q i P Q; rewrite (stage_embedded _ _ _ _ Q); exact P|reflexivity].
  cbn in F; destruct (compute_final_independent_outputs _); cbn [bind] in F; [|discriminate].
  injection F as <-; exact G.
Qed.

Lemma derivative_embedded s v h v' : compute_step_derivative bt o s v h = Ok v' -> embedded v' = embedded v.
Proof.
  intros F; unfold compute_step_derivative in F.
  destruct (for_stages _ _ _) as [y|y] eqn:G; cbn [bind] in F; [|discriminate].
  apply (for_stages_pres (fun x => embedded x = embedded v)) in G; [| |reflexivity].
  - destruct (compute_final_independent_outputs _); cbn [bind] in F; [|discriminate].
    injection F as <-; exact G.
  - intros p q i P Q; unfold compute_stage_derivative in Q.
    match type of Q with context [compute_update_derivative ?a ?b ?c ?d ?e] =>
      destruct (compute_update_derivative a b c d e) as [r|x] end; cbn [bind] in Q; [|discriminate].
    injection Q as <-; exact P.
Qed.

Lemma adjoint_embedded s w h w' : compute_step_adjoint_derivative bt o s w h = Ok w' -> embedded w' = embedded w.
Proof.
  intros F; unfold compute_step_adjoint_derivative in F.
  destruct (for_stages _ _ _) as [y|y] eqn:G; cbn [bind] in F; [|discriminate].
  apply (for_stages_pres (fun x => embedded x = embedded w)) in G; [| |reflexivity].
  - injection F as <-; exact G.
  - intros p q i P Q; unfold compute_stage_adjoint_derivative in Q.
    match type of Q with context [compute_update_adjoint_derivative ?a ?b ?c ?d ?e] =>
      destruct (compute_update_adjoint_derivative a b c d e) as [r|x] end; cbn [bind] in Q; [|discriminate].
    injection Q as <-; exact P.
Qed.

Lemma rk_set_same (a b : rkstate T) : embedded b = embedded a -> rk_set a b = b.
Proof. intros H; unfold rk_set; rewrite <- H; destruct b; reflexivity. Qed.
End Any.

(** *** What the component does is this *)
Section Component.
Context {T : Type} {N : Num T} {C : Type}.
Variable op : options T C.
Notation bt := (o_bt op).
Notation o := (o_ode op).
Notation shape := (shaped (t_stages bt) (state_size o) (independent_input_size o)
                          (independent_output_size o) (linearization_point_size o)).
Hypothesis Hres : result_sizes o.

(** A state the user's loop may be in while the component is in [b]. *)
Record alike (a : rkstate T) (b : tistate T) : Prop := {
  al_a : shape a;
  al_b : wf_ti op b;
  al_start : same_start a (disc b);
  al_emb : t_hat bt = None -> embedded a = embedded (disc b)
}.

Lemma chain_drives it c st l c' st' : chain op it c st l c' st' -> forall a, alike a st ->
  exists hs la, steps bt o a hs la /\ length hs = length l /\
    (forall k x, nth_error l k = Some x -> exists s h, nth_error la k = Some s /\ nth_error hs k = Some h /\
       nth 0 (step_hist x) n0 = h /\ disc x = rk_set (disc st) s) /\
    same_start (last la a) (disc st') /\
    (o_adaptive op = false -> hs = repeat (suggestion st) (length l)).
Proof.
  induction 1 as [it c st F|it c st c1 st1 l c' st' F I _ IH]; intros a [A1 A2 A3 A4].
  - exists [], []; cbn; split; [exact Logic.I|]; split; [reflexivity|]; split; [intros [|k] x H; discriminate|].
    split; [exact A3|reflexivity].
  - pose proof (iterate_wf op Hres _ _ _ _ _ _ A2 I) as W1.
    destruct (iterate_step op _ _ _ _ _ (wt_sh _ _ A2) I) as (h & tmp & E & D & S0 & _ & _).
    pose proof (step_any_embedded bt o a (disc st) h A1 (wt_shape _ _ A2) A3 A4) as E'; rewrite E in E'.
    assert (Al : alike tmp st1).
    { constructor; auto.
      - exact (fr_shape _ _ _ _ _ (compute_step_frame bt o _ _ _ Hres A1 E')).
      - rewrite D; constructor; reflexivity.
      - intros Hn; rewrite D; cbn; rewrite <- (A4 Hn); eapply step_embedded; eauto. }
    destruct (IH tmp Al) as (hs & la & P1 & P2 & P3 & P4 & P5).
    exists (h :: hs), (tmp :: la); split; [split; auto|]; split; [cbn; congruence|].
    split; [|split].
    + intros [|k] x H; cbn in H.
      * injection H as <-; exists tmp, h; auto.
      * destruct (P3 k x H) as (s & g & Q1 & Q2 & Q3 & Q4); exists s, g.
        split; [exact Q1|]; split; [exact Q2|]; split; [exact Q3|]; rewrite Q4, D; reflexivity.
    + rewrite last_cons; exact P4.
    + intros Ha; destruct (iterate_fixed op _ _ _ _ _ Ha I) as (t & _ & _ & Et); subst st1.
      cbn [suggestion step_hist] in P5, S0; cbn [length repeat]; rewrite (P5 Ha); f_equal; rewrite <- S0.
      apply nth_upd_same; rewrite (wt_sh _ _ A2); lia.
Qed.

Lemma alike_prepare i w h : inputs_sized o i -> wf op w ->
  alike (starting_scheme bt o (time_initial i) (initial i) (independent i) h) (live (prepare op i w)).
Proof.
  intros Hi Hw; pose proof (wf_live _ _ (wf_prepare op i w Hi Hw)) as W; constructor; auto.
  - apply start_shaped; apply Hi.
  - constructor; reflexivity.
  - intros _; symmetry; exact (wt_emb _ _ W).
Qed.

Lemma alike_prepare_fwd i d w h : inputs_sized o i -> inputs_sized o d -> wf op w ->
  alike (starting_scheme bt o (time_initial i) (initial i) (independent i) h) (live (prepare_fwd op i d w)).
Proof.
  intros Hi Hd Hw; pose proof (wf_live _ _ (wf_prepare_fwd op i d w Hi Hd Hw)) as W; constructor; auto.
  - apply start_shaped; apply Hi.
  - constructor; reflexivity.
  - intros _; symmetry; exact (wt_emb _ _ W).
Qed.

Lemma derivative_along (st0 : rkstate T) : forall l hs la p p', length hs = length l -> length la = length l ->
  (forall k x, nth_error l k = Some x -> exists s h, nth_error la k = Some s /\ nth_error hs k = Some h /\
       nth 0 (step_hist x) n0 = h /\ disc x = rk_set st0 s) ->
  derivative_sweep op l p = Ok p' -> steps_derivative bt o hs la (disc p) (disc p').
Proof.
  induction l as [|x l IH]; intros [|h hs] [|s la] p p' L1 L2 H D; try discriminate; cbn in *.
  - injection D as <-; reflexivity.
  - destruct (H 0 x eq_refl) as (s0 & h0 & Q1 & Q2 & Q3 & Q4); cbn in Q1, Q2.
    injection Q1 as <-; injection Q2 as <-.
    unfold derivative_step in D; rewrite Q3, Q4 in D.
    change (compute_step_derivative bt o (rk_set st0 s) (disc p) h) with (compute_step_derivative bt o s (disc p) h) in D.
    destruct (compute_step_derivative bt o s (disc p) h) as [v1|] eqn:E; cbn [bind] in D; [|discriminate].
    exists v1; split; [reflexivity|].
    rewrite (rk_set_same (disc p) v1) in D by (eapply derivative_embedded; eauto).
    apply (IH hs la _ _ ltac:(lia) ltac:(lia) (fun k => H (S k)) D).
Qed.

Lemma sweep_app a b p p' : adjoint_sweep op (a ++ b) p = Ok p' ->
  exists q, adjoint_sweep op a p = Ok q /\ adjoint_sweep op b q = Ok p'.
Proof.
  revert p; induction a as [|x a IH]; intros p H; simpl in *; [eauto|].
  destruct (adjoint_step op x p) as [p1|e]; cbn [bind] in *; [|discriminate]; auto.
Qed.

Lemma adjoint_along (st0 : rkstate T) : forall l hs la p p', length hs = length l -> length la = length l ->
  (forall k x, nth_error l k = Some x -> exists s h, nth_error la k = Some s /\ nth_error hs k = Some h /\
       nth 0 (step_hist x) n0 = h /\ disc x = rk_set st0 s) ->
  adjoint_sweep op (rev l) p = Ok p' -> steps_adjoint bt o hs la (disc p) (disc p').
Proof.
  induction l as [|x l IH]; intros [|h hs] [|s la] p p' L1 L2 H D; try discriminate; cbn in *.
  - injection D as <-; reflexivity.
  - apply sweep_app in D as (q & D1 & D2).
    destruct (H 0 x eq_refl) as (s0 & h0 & Q1 & Q2 & Q3 & Q4); cbn in Q1, Q2.
    injection Q1 as <-; injection Q2 as <-.
    exists (disc q); split; [apply (IH hs la p q ltac:(lia) ltac:(lia) (fun k => H (S k)) D1)|].
    cbn in D2; unfold adjoint_step in D2; rewrite Q3, Q4 in D2.
    change (compute_step_adjoint_derivative bt o (rk_set st0 s) (disc q) h)
      with (compute_step_adjoint_derivative bt o s (disc q) h) in D2.
    destruct (compute_step_adjoint_derivative bt o s (disc q) h) as [v1|] eqn:E; cbn [bind] in D2; [|discriminate].
    injection D2 as <-; cbn; rewrite (rk_set_same (disc q) v1) by (eapply adjoint_embedded; eauto); reflexivity.
Qed.

Lemma chain_steps_number it c st l c' st' n : o_crit op = PredefinedNumberOfSteps n ->
  chain op it c st l c' st' -> length l = n - it.
Proof.
  intros Hn; induction 1 as [it c st F|it c st c1 st1 l c' st' F I _ IH];
    unfold is_iteration_finished in F; rewrite Hn in F.
  - apply Nat.leb_le in F; simpl; lia.
  - apply Nat.leb_gt in F; simpl; lia.
Qed.

Notation start i := (starting_scheme bt o (time_initial i) (initial i) (independent i) (o_step op)).

(** The step sizes a run of the component makes. *)
Definition run_sizes (hs : list T) : Prop :=
  (o_adaptive op = false -> hs = repeat (o_step op) (length hs)) /\
  (forall n, o_crit op = PredefinedNumberOfSteps n -> length hs = n).

Lemma start_outputs i h : final_independent_outputs (starting_scheme bt o (time_initial i) (initial i) (independent i) h)
  = vzeros (independent_output_size o).
Proof. reflexivity. Qed.

Lemma component_compute_drives i w w' out : loops op -> wf op w -> inputs_sized o i ->
  compute op i w = (w', Ok out) ->
  exists hs l, steps bt o (start i) hs l /\ run_sizes hs /\
    finalization_scheme (last l (start i))
    = (time_final out, final out, vzeros (independent_output_size o)).
Proof.
  intros HL Hw Hi H; destruct (compute_ok op i w w' out HL H) as (l & c' & st' & Hc & Hl & -> & _).
  pose proof (alike_prepare i w (o_step op) Hi Hw) as Al.
  destruct (chain_drives _ _ _ _ _ _ Hc _ Al) as (hs & la & P1 & P2 & _ & [S1 S2 S3] & P5).
  exists hs, la; split; [exact P1|]; split.
  - split; [intros Ha; rewrite P2; exact (P5 Ha)|].
    intros n Hn; rewrite P2, (chain_steps_number _ _ _ _ _ _ n Hn Hc); lia.
  - unfold finalization_scheme; rewrite S1, S2.
    rewrite (steps_final_outputs bt o Hres _ _ _ (al_a _ _ Al) (start_outputs i _) P1); reflexivity.
Qed.

Lemma component_fwd_drives i d c w' out : inputs_sized o i -> inputs_sized o d ->
  compute_jacvec_product_fwd op i d (setup op c) = (w', Ok out) ->
  exists hs l v', steps bt o (start i) hs l /\ run_sizes hs /\
    steps_derivative bt o hs l
      (starting_scheme_derivative bt o (time_initial d) (initial d) (independent d)) v' /\
    finalization_scheme v' = (time_final out, final out, vzeros (independent_output_size o)).
Proof.
  intros Hi Hd H; destruct (fwd_ok op i d _ w' out H) as (l & c' & st' & p' & Hc & Hl & Hp & -> & _).
  pose proof (alike_prepare_fwd i d (setup op c) (o_step op) Hi Hd (wf_setup op c)) as Al.
  destruct (chain_drives _ _ _ _ _ _ Hc _ Al) as (hs & la & P1 & P2 & P3 & _ & P5).
  pose proof (steps_length _ _ _ _ _ P1) as Ll.
  pose proof (derivative_along _ l hs la _ _ P2 ltac:(congruence) P3 Hp) as D.
  change (disc (pert (prepare_fwd op i d (setup op c))))
    with (starting_scheme_derivative bt o (time_initial d) (initial d) (independent d)) in D.
  exists hs, la, (disc p'); split; [exact P1|]; split; [split|split; [exact D|]].
  - intros Ha; rewrite P2; exact (P5 Ha).
  - intros n Hn; rewrite P2, (chain_steps_number _ _ _ _ _ _ n Hn Hc); lia.
  - unfold finalization_scheme; cbn.
    rewrite (steps_derivative_final_outputs bt o hs la
      (starting_scheme_derivative bt o (time_initial d) (initial d) (independent d)) (disc p')
      (steps_shaped bt o Hres _ _ _ (al_a _ _ Al) P1) eq_refl D); reflexivity.
Qed.

Lemma component_rev_drives i d c w' g : o_ckpt op = AllCheckpointer -> inputs_sized o i -> outputs_sized o d ->
  compute_jacvec_product_rev op i d (setup op c) = (w', Ok g) ->
  exists hs l v', steps bt o (start i) hs l /\ run_sizes hs /\
    steps_adjoint bt o hs l
      (finalization_scheme_adjoint bt o (time_final d, final d, vzeros (independent_output_size o))) v' /\
    starting_scheme_adjoint v' = (time_initial g, initial g, independent g).
Proof.
  intros HA Hi Hd H.
  assert (HL : loops op) by (unfold loops; rewrite HA; exact Logic.I).
  destruct (rev_ok op i d _ w' g HA H) as (wb & p' & Hb & Hp & -> & _).
  change (cached (setup op c)) with (@None (rkstate T)) in Hb; cbn [cache_hit] in Hb.
  destruct Hb as [out Hb].
  destruct (compute_ok op i _ wb out HL Hb) as (l & c' & st' & Hc & Hl & _ & Ew).
  assert (Es : storage wb = rev l) by (rewrite Ew; unfold after_run, keeps; rewrite HA; cbn; apply app_nil_r).
  assert (Ep : pert wb = pert (setup op c)) by (rewrite Ew; unfold after_run, keeps; rewrite HA; reflexivity).
  pose proof (alike_prepare i (setup op c) (o_step op) Hi (wf_setup op c)) as Al.
  destruct (chain_drives _ _ _ _ _ _ Hc _ Al) as (hs & la & P1 & P2 & P3 & _ & P5).
  pose proof (steps_length _ _ _ _ _ P1) as Ll.
  rewrite Es in Hp.
  pose proof (adjoint_along _ l hs la _ _ P2 ltac:(congruence) P3 Hp) as D.
  assert (E : disc (pert (prepare_rev d wb))
    = finalization_scheme_adjoint bt o (time_final d, final d, vzeros (independent_output_size o))).
  { unfold prepare_rev; rewrite Ep; cbn; unfold vzeros; rewrite repeat_length; reflexivity. }
  rewrite E in D.
  exists hs, la, (disc p'); split; [exact P1|]; split; [split|split; [exact D|reflexivity]].
  - intros Ha; rewrite P2; exact (P5 Ha).
  - intros n Hn; rewrite P2, (chain_steps_number _ _ _ _ _ _ n Hn Hc); lia.
Qed.
End Component.
