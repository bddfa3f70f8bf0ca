(** Whole runs in changed variables. *)
From Coq Require Import List Lia Bool Arith.
From Verif Require Import Base M_Tableau M_State M_ODE M_Step M_Controller M_Measure M_Integrator
  SpecRK SpecShape SpecDeriv SpecRun SpecChange L_Vec L_Step L_Generic L_Run L_Iter L_Whole L_RunProps L_Scheme L_Change.
Import ListNotations.
Local Open Scope nat_scope.

Section Change.
Context {T : Type} {N : Num T} {C : Type}.
Variables (op : options T C) (o' : ode T) (ch : change T).
Notation bt := (o_bt op).
Notation o := (o_ode op).
Notation op' := (change_options ch o' op).
Notation n := (state_size o).
Hypothesis Hch : is_change n (state_size o') ch.
Hypothesis Hpar : forall p, length p = independent_input_size o -> length (ch_parameters ch p) = independent_input_size o'.
Hypothesis Hode : changed_ode ch o o'.
Hypothesis Hres : result_sizes o.
Hypothesis Hres' : result_sizes o'.
Hypothesis Hnorm : o_adaptive op = true -> same_norms ch o o'.

Record tsim (a b : tistate T) : Prop := {
  ts_a : wf_ti op a; ts_b : wf_ti op' b; ts_state : trel op o' ch (disc a) (disc b);
  ts_sugg : suggestion a = suggestion b; ts_sh : step_hist a = step_hist b; ts_eh : err_hist a = err_hist b }.

Lemma wf_embedded a b : wf_ti op a -> wf_ti op' b -> (embedded (disc a) = None <-> embedded (disc b) = None).
Proof.
  intros Wa Wb. rewrite (wt_emb _ _ Wa), (wt_emb _ _ Wb). unfold emb0, create_empty_discretization_state, rk_init. cbn.
  destruct (is_embedded bt); cbn; split; intros H; try discriminate; reflexivity.
Qed.

Lemma change_measure s s' h s1 s1' : embedded s = None <-> embedded s' = None -> (t_hat bt = None -> embedded s = None) ->
  trel op o' ch s s' -> compute_step bt o s h = Ok s1 -> compute_step bt o' s' h = Ok s1' -> trel op o' ch s1 s1' ->
  (t_hat bt <> None -> errors_changed op ch s1 s1') -> o_adaptive op = true ->
  state_measure (o_meas op) o' s1' = state_measure (o_meas op) o s1.
Proof.
  intros He H0 Hr E E' R Er Ha. unfold state_measure.
  destruct (t_hat bt) as [hat|] eqn:Hh.
  - specialize (Er ltac:(discriminate)). unfold errors_changed in Er.
    destruct (embedded s1) as [[e1 d1]|], (embedded s1') as [[e2 d2]|]; try congruence.
    destruct Er as (Ld & ->). f_equal. destruct (Hnorm Ha d1 Ld) as (_ & N1).
    destruct (Hnorm Ha (final_state s1) (sh_final _ _ _ _ _ _ (tr_shape _ _ _ _ _ R))) as (N2 & _).
    unfold get_measure. destruct (o_meas op); rewrite N1; [reflexivity|]. rewrite (tr_final _ _ _ _ _ R), N2. reflexivity.
  - rewrite (step_embedded _ _ _ _ _ Hh E), (step_embedded _ _ _ _ _ Hh E').
    rewrite (H0 eq_refl), (proj1 He (H0 eq_refl)). reflexivity.
Qed.

Lemma change_remaining cr t : remaining_time_func (o_inf op) (change_crit ch cr) (ch_time ch t) = remaining_time_func (o_inf op) cr t.
Proof. destruct cr; [reflexivity|]. apply (cg_left _ _ _ Hch). Qed.

Lemma change_set a b tmp tmp' : wf_ti op a -> wf_ti op' b -> trel op o' ch tmp tmp' -> trel op o' ch (rk_set (disc a) tmp) (rk_set (disc b) tmp').
Proof.
  intros Wa Wb [S1 S2 H1 H2 H3 H4]. constructor; cbn; auto.
  - apply (shape_rk_set op); exact S1.
  - apply (shape_rk_set op'); exact S2.
  - apply wf_embedded; assumption.
Qed.

Lemma change_iterate fuel : forall c a b, tsim a b ->
  match iterate_on_step op fuel c a with
  | (c1, a1, Ok u) => exists b1, iterate_on_step op' fuel c b = (c1, b1, Ok u) /\ tsim a1 b1
  | (c1, a1, Err e) => exists b1, iterate_on_step op' fuel c b = (c1, b1, Err e)
  end.
Proof.
  induction fuel as [|fuel IH]; intros c a b F.
  { cbn. eauto. }
  pose proof (iterate_wf op Hres (S fuel) c a) as Wi. pose proof (iterate_wf op' Hres' (S fuel) c b) as Wi'.
  destruct F as [Wa Wb Hs Su Sh Eh]. 
  pose proof (change_step op o' ch Hch Hode Hres Hres' (disc a) (disc b) (suggestion a) Hs) as E.
  cbn [iterate_on_step] in *. cbn [o_bt o_ode o_adaptive o_meas o_inf o_crit o_ctl change_options] in *. rewrite <- Su in *.
  destruct (compute_step bt o (disc a) (suggestion a)) as [tmp|e] eqn:E1; [|rewrite E; eauto].
  destruct E as (tmp' & E2 & R & Er). rewrite E2 in *.
  assert (Em : o_adaptive op = true -> state_measure (o_meas op) o' tmp' = state_measure (o_meas op) o tmp).
  { intros Ha. apply (change_measure (disc a) (disc b) (suggestion a)); auto.
    - apply wf_embedded; assumption.
    - intros Hn. rewrite (wt_emb _ _ Wa). unfold emb0, create_empty_discretization_state, rk_init, is_embedded. rewrite Hn. reflexivity. }
  clear Hnorm. destruct (o_adaptive op) eqn:Ha.
  - specialize (Em eq_refl).
    rewrite Em in *. destruct (state_measure (o_meas op) o tmp) as [em|e]; [|eauto].
    rewrite (tr_time _ _ _ _ _ R), change_remaining, <- Eh, <- Sh in *.
    destruct (o_ctl op c _) as [c1 [stat|e]]; [|eauto].
    destruct (acceptance stat).
    + eexists. split; [reflexivity|]. constructor; cbn [disc suggestion step_hist err_hist]; auto.
      * eapply Wi; [exact Wa|reflexivity].
      * eapply Wi'; [exact Wb|reflexivity].
      * apply change_set; assumption.
    + apply IH. destruct Wa, Wb. constructor; cbn [disc suggestion step_hist err_hist]; auto; constructor; cbn; auto.
  - eexists. split; [reflexivity|]. rewrite <- Sh in *. constructor; cbn [disc suggestion step_hist err_hist]; auto.
    + eapply Wi; [exact Wa|reflexivity].
    + eapply Wi'; [exact Wb|reflexivity].
    + apply change_set; assumption.
Qed.

Lemma change_finished it a b : tsim a b -> is_iteration_finished (change_crit ch (o_crit op)) it b = is_iteration_finished (o_crit op) it a.
Proof.
  intros F. destruct (o_crit op); [reflexivity|]. cbn. rewrite (tr_time _ _ _ _ _ (ts_state _ _ F)), (cg_left _ _ _ Hch). reflexivity.
Qed.

Lemma change_chain it c a l c1 a1 : chain op it c a l c1 a1 -> forall b, tsim a b ->
  exists l' b1, chain op' it c b l' c1 b1 /\ length l' = length l /\ tsim a1 b1.
Proof.
  induction 1 as [it c a F|it c a c1 a1 l c' a' F I _ IH]; intros b H.
  - exists [], b. split; [constructor; cbn [o_crit change_options]; rewrite (change_finished it a b H); exact F|]. auto.
  - pose proof (change_iterate (retry_limit op) c a b H) as E. rewrite I in E. destruct E as (b1 & Ib & H1).
    destruct (IH b1 H1) as (l' & b' & Hc & Hl & H2). exists (b1 :: l'), b'. split; [|cbn; auto].
    econstructor; [cbn [o_crit change_options]; rewrite (change_finished it a b H); exact F|exact Ib|exact Hc].
Qed.
Lemma unchange_chain it c b l c1 b1 : chain op' it c b l c1 b1 -> forall a, tsim a b ->
  exists l' a1, chain op it c a l' c1 a1 /\ length l' = length l /\ tsim a1 b1.
Proof.
  induction 1 as [it c b F|it c b c1 b1 l c' b' F I _ IH]; intros a H; cbn [o_crit change_options] in F; rewrite (change_finished it a b H) in F.
  - exists [], a. split; [constructor; exact F|]. auto.
  - pose proof (change_iterate (retry_limit op) c a b H) as E. cbn [retry_limit change_options] in I.
    destruct (iterate_on_step op (retry_limit op) c a) as [[c2 a2] [u|e]] eqn:I2; [|destruct E as (b2 & Ib); rewrite I in Ib; discriminate].
    destruct E as (b2 & Ib & H1). rewrite I in Ib. destruct u.
    injection Ib as <- <-.
    destruct (IH a2 H1) as (l' & a' & Hc & Hl & H2). exists (a2 :: l'), a'. split; [|cbn; auto].
    econstructor; [exact F|exact I2|exact Hc].
Qed.

Lemma change_prepare i w w' : inputs_sized o i -> wf op w -> wf op' w' ->
  tsim (live (prepare op i w)) (live (prepare op' (change_inputs ch i) w')).
Proof.
  intros Hi W W'. assert (Hi' : inputs_sized o' (change_inputs ch i)).
  { destruct Hi as [H1 H2]. split; cbn; [apply (cg_states _ _ _ Hch); exact H1|apply Hpar; exact H2]. }
  pose proof (wf_live _ _ (wf_prepare op i w Hi W)) as Wa. pose proof (wf_live _ _ (wf_prepare op' _ w' Hi' W')) as Wb.
  constructor; [exact Wa|exact Wb| |reflexivity| |].
  - constructor; [apply Wa|apply Wb|reflexivity|reflexivity|reflexivity|apply wf_embedded; assumption].
  - pose proof (wt_sh _ _ Wa) as L1. pose proof (wt_sh _ _ Wb) as L2. cbn in L1, L2 |- *. rewrite map_length in L1, L2.
    destruct (step_hist (live w)) as [|? [|? [|]]], (step_hist (live w')) as [|? [|? [|]]]; cbn in L1, L2; try lia; reflexivity.
  - pose proof (wt_eh _ _ Wa) as L1. pose proof (wt_eh _ _ Wb) as L2. cbn in L1, L2 |- *. rewrite map_length in L1, L2.
    destruct (err_hist (live w)) as [|? [|? [|]]], (err_hist (live w')) as [|? [|? [|]]]; cbn in L1, L2; try lia; reflexivity.
Qed.

Lemma change_result a b : tsim a b -> result_of b = change_outputs ch (result_of a).
Proof. intros [_ _ R _ _ _]. unfold result_of, change_outputs. cbn. rewrite (tr_time _ _ _ _ _ R), (tr_final _ _ _ _ _ R). reflexivity. Qed.

Lemma change_compute i w v : loops op -> quiet op -> inputs_sized o i -> wf op w -> wf op' v -> ctl w = ctl v ->
  forall out', (exists v', compute op' (change_inputs ch i) v = (v', Ok out')) <->
  (exists w' out, compute op i w = (w', Ok out) /\ out' = change_outputs ch out).
Proof.
  intros HL Hq Hi W V Hc out'. pose proof (change_prepare i w v Hi W V) as P. split.
  - intros (v' & H). destruct (compute_ok op' _ v v' out' HL H) as (l & c & b & Hb & Hl & -> & _).
    rewrite <- Hc in Hb. destruct (unchange_chain _ _ _ _ _ _ Hb _ P) as (l' & a & Ha & Ll & R).
    pose proof (compute_quiet op i w _ _ _ HL Hq Ha ltac:(rewrite Ll; exact Hl)) as K.
    eexists. exists (result_of a). split; [exact K|]. exact (change_result a b R).
  - intros (w' & out & H & ->). destruct (compute_ok op i w w' out HL H) as (l & c & a & Ha & Hl & -> & _).
    rewrite Hc in Ha. destruct (change_chain _ _ _ _ _ _ Ha _ P) as (l' & b & Hb & Ll & R).
    pose proof (compute_quiet op' (change_inputs ch i) v _ _ _ HL Hq Hb ltac:(rewrite Ll; exact Hl)) as K.
    rewrite <- (change_result a b R). eexists. exact K.
Qed.
End Change.
