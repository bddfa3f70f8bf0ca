(** What callbacks see with the recomputing checkpointer; fixed step sizes;
    histories of calls. *)
From Coq Require Import List Lia Bool Arith Reals.
From Verif Require Import Base M_Tableau M_State M_ODE M_Step M_Controller M_Measure M_Integrator
  SpecRK SpecShape SpecDeriv SpecRun SpecRevolve L_Vec L_Step L_Generic L_Run L_Iter L_Whole L_WholeR L_Log
  L_RunProps L_Revolve.
Import ListNotations.
Local Open Scope nat_scope.

Section Log.
Context {T : Type} {N : Num T} {C : Type}.
Variable op : options T C.
Notation o := (o_ode op).
Notation ncb m := (length (o_callbacks op m)).
Variable c : C.
Hypothesis HS : stateless op c.

Lemma steps_trajectory l : forall a, steps op c a l -> trajectory op a l.
Proof.
  induction l as [|b l IH]; intros a H; [exact I|]; destruct H as [H1 H2]; split; [|auto].
  exists c, c; exact H1.
Qed.

Lemma forward_operator_log m : forall lo w w', ctl w = c ->
  forward_operator op m lo w = (w', Ok tt) ->
  exists l, length l = m /\ steps op c (live w) l /\
    log w' = log w ++ bracketed Compute (ncb Compute) lo (live w) l /\
    live w' = last l (live w) /\ ctl w' = c.
Proof.
  induction m as [|m IH]; intros lo w w' Hc H; cbn [forward_operator] in H.
  - injection H as <-; exists []; simpl; rewrite app_nil_r; auto.
  - unfold mbind in H; destruct (run_step op lo w) as [w1 [[]|e]] eqn:E; [|discriminate].
    apply run_step_ok in E as (c1 & st1 & I & ->).
    rewrite Hc in I; assert (c1 = c) by (eapply iterate_ctl; eauto); subst c1.
    apply IH in H as (l & L1 & L2 & L3 & L4 & L5); [|reflexivity].
    exists (st1 :: l); split; [simpl; auto|]; split; [split; [exact I|exact L2]|].
    split; [|split; [rewrite L4, L_Revolve.last_cons; reflexivity|exact L5]].
    rewrite L3; cbn [live log w_ctl w_live w_log bracketed].
    unfold step_events, before_events, after_events, hook_events; rewrite <- !app_assoc; reflexivity.
Qed.

Lemma steps_app l1 : forall a l2, steps op c a l1 -> steps op c (last l1 a) l2 -> steps op c a (l1 ++ l2).
Proof.
  induction l1 as [|b l1 IH]; intros a l2 H1 H2; [exact H2|].
  destruct H1 as [A B]; split; [exact A|]; apply IH; [exact B|].
  rewrite L_Revolve.last_cons in H2; exact H2.
Qed.

Lemma last_app {A} (l1 l2 : list A) a : last (l1 ++ l2) a = last l2 (last l1 a).
Proof.
  revert a; induction l1 as [|x l1 IH]; intros a; [reflexivity|].
  cbn [app]; rewrite !L_Revolve.last_cons; apply IH.
Qed.

Lemma forward_actions_log n fs : Forall forward_action fs -> forall s s' w w', ctl w = c ->
  plays n s fs = Some s' -> run_actions op fs w = (w', Ok tt) ->
  exists l, pos s + length l = pos s' /\ steps op c (live w) l /\
    log w' = log w ++ bracketed Compute (ncb Compute) (S (pos s)) (live w) l /\
    live w' = last l (live w) /\ ctl w' = c.
Proof.
  induction 1 as [|x fs Hx _ IH]; intros s s' w w' Hc HP H; cbn [plays run_actions] in HP, H.
  - injection HP as <-; injection H as <-; exists []; simpl; rewrite app_nil_r; auto.
  - destruct (play n s x) as [s1|] eqn:E; [|discriminate]; unfold mbind in H.
    destruct x as [x y|k|k|x y]; try contradiction; cbn [play run_action] in E, H.
    + destruct (_ && _ && _) eqn:B in E; [|discriminate]; injection E as <-.
      apply andb_prop in B as [B _]; apply andb_prop in B as [B1 B2].
      apply Nat.eqb_eq in B1; apply Nat.leb_le in B2; subst x.
      destruct (forward_operator op (y - pos s) (S (pos s)) w) as [w1 [[]|e]] eqn:E1; [|discriminate].
      apply forward_operator_log in E1 as (l1 & A1 & A2 & A3 & A4 & A5); [|exact Hc].
      apply (IH _ _ _ _ A5 HP) in H as (l2 & D1 & D2 & D3 & D4 & D5); cbn [pos] in *.
      exists (l1 ++ l2); split; [rewrite app_length; lia|].
      split; [apply steps_app; [exact A2|rewrite <- A4; exact D2]|].
      split; [|split; [rewrite last_app, <- A4; exact D4|exact D5]].
      rewrite D3, A3, (bracketed_app Compute (ncb Compute)), <- app_assoc, A4; do 3 f_equal.
      simpl; f_equal; lia.
    + injection E as <-; unfold modify in H.
      apply (IH _ _ (w_slots _ w) _ Hc HP) in H as (l & D1 & D2 & D3 & D4 & D5).
      exists l; auto.
Qed.

(** One call of compute. *)
Lemma revolve_log n fs rs i w w' out : o_ckpt op = PyrevolveCheckpointer fs rs -> valid_schedule n fs rs ->
  Forall forward_action fs -> ctl w = c -> compute op i w = (w', Ok out) ->
  exists l, length l = S n /\ steps op c (live (prepare op i w)) l /\
    log w' = log w ++ bracketed Compute (ncb Compute) 0 (live (prepare op i w)) l /\
    live w' = last l (live (prepare op i w)) /\ out = result_of (live w').
Proof.
  intros HP (s & s' & V1 & V2 & _) HF Hc H.
  unfold compute, create_checkpointer, iterate_forward in H; rewrite HP in H.
  unfold mbind at 1 in H; rewrite compute_preparation_eq in H; unfold mbind at 1, modify at 1 in H.
  set (w0 := w_slots [] (prepare op i w)) in H.
  unfold mbind at 1, mbind at 1 in H.
  destruct (forward_operator op 1 0 w0) as [w1 [[]|e]] eqn:E1; [|discriminate].
  apply forward_operator_log in E1 as (l1 & A1 & A2 & A3 & A4 & A5); [|exact Hc].
  unfold mbind at 1, modify at 1 in H.
  destruct (run_actions op fs (w_first_complete (ti_set (first_complete w1) (live w1)) w1)) as [w2 [[]|e]] eqn:E2;
    [|discriminate].
  apply (forward_actions_log n fs HF _ _ (w_first_complete _ w1) _ A5 V1) in E2 as (l2 & D1 & D2 & D3 & D4 & _).
  cbn [pos start_of] in D1; cbn [live log w_first_complete] in *.
  injection H as <- <-; change (live w0) with (live (prepare op i w)) in *.
  exists (l1 ++ l2); split; [rewrite app_length; lia|].
  split; [apply steps_app; [exact A2|rewrite <- A4; exact D2]|].
  split; [|split; [rewrite last_app, <- A4; exact D4|reflexivity]].
  rewrite D3, A3, (bracketed_app Compute (ncb Compute)), <- app_assoc, A4, A1; reflexivity.
Qed.

End Log.

Lemma revolve_callbacks {T} {N : Num T} {C} (op : options T C) c n fs rs i w w' out :
  stateless op c -> o_ckpt op = PyrevolveCheckpointer fs rs -> valid_schedule n fs rs ->
  Forall forward_action fs -> ctl w = c -> compute op i w = (w', Ok out) ->
  exists a l, starts_at op i a /\ trajectory op a l /\ length l = S n /\
    log w' = log w ++ bracketed Compute (length (o_callbacks op Compute)) 0 a l /\
    live w' = last l a /\
    time_final out = final_time (disc (last l a)) /\ final out = final_state (disc (last l a)).
Proof.
  intros HS HP HV HF Hc H.
  destruct (revolve_log op c HS n fs rs i w w' out HP HV HF Hc H) as (l & L1 & L2 & L3 & L4 & ->).
  exists (live (prepare op i w)), l; rewrite L4.
  split; [apply starts_prepare|]; split; [exact (steps_trajectory op c l _ L2)|]; auto.
Qed.

(** *** Reverse sweeps *)
Section Reverse.
Context {T : Type} {N : Num T} {C : Type}.
Variable op : options T C.
Notation ncb m := (length (o_callbacks op m)).

Lemma rev_numbers_app (x y : list (event T)) : rev_numbers (x ++ y) = rev_numbers x ++ rev_numbers y.
Proof. unfold rev_numbers; rewrite filter_app, map_app; reflexivity. Qed.

Lemma rev_numbers_step k st st' : rev_numbers (step_events op Rev k st st') = repeat k (2 * ncb Rev).
Proof.
  unfold step_events, before_events, after_events, hook_events; rewrite rev_numbers_app.
  assert (G : forall f, (forall i, is_rev (f i) = true) -> (forall i, number_of (f i) = k) ->
    forall j m, rev_numbers (map f (seq j m) : list (event T)) = repeat k m).
  { intros f F1 F2 j m; revert j; induction m as [|m IH]; intros j; [reflexivity|].
    cbn [seq map]; unfold rev_numbers in *; cbn [filter]; rewrite F1; cbn [map repeat]; rewrite F2, IH; reflexivity. }
  rewrite !G by (intros; reflexivity); rewrite <- repeat_app; f_equal; lia.
Qed.

Lemma rev_numbers_compute k st st' : rev_numbers (step_events op Compute k st st') = [].
Proof.
  unfold step_events, before_events, after_events, hook_events; rewrite rev_numbers_app.
  assert (G : forall f, (forall i, is_rev (f i) = false) ->
    forall j m, rev_numbers (map f (seq j m) : list (event T)) = []).
  { intros f F1 j m; revert j; induction m as [|m IH]; intros j; [reflexivity|].
    cbn [seq map]; unfold rev_numbers in *; cbn [filter]; rewrite F1; apply IH. }
  rewrite !G by (intros; reflexivity); reflexivity.
Qed.

Lemma forward_numbers m : forall lo w w', forward_operator op m lo w = (w', Ok tt) ->
  rev_numbers (log w') = rev_numbers (log w).
Proof.
  induction m as [|m IH]; intros lo w w' H; cbn [forward_operator] in H; [injection H as <-; reflexivity|].
  unfold mbind in H; destruct (run_step op lo w) as [w1 [[]|e]] eqn:E; [|discriminate].
  apply run_step_ok in E as (c1 & st1 & I & ->).
  apply IH in H; rewrite H; cbn [log w_ctl w_live w_log].
  rewrite rev_numbers_app, rev_numbers_compute, app_nil_r; reflexivity.
Qed.

Lemma actions_numbers n l : forall s s' w w', plays n s l = Some s' -> run_actions op l w = (w', Ok tt) ->
  exists x, rev_numbers (log w') = rev_numbers (log w) ++ x /\
    x ++ countdown (ncb Rev) (S (next s')) = countdown (ncb Rev) (S (next s)).
Proof.
  induction l as [|x l IH]; intros s s' w w' HP H; cbn [plays run_actions] in HP, H.
  - injection HP as <-; injection H as <-; exists []; rewrite app_nil_r; auto.
  - destruct (play n s x) as [s1|] eqn:E; [|discriminate]; unfold mbind in H.
    destruct (run_action op x w) as [w1 [[]|e]] eqn:E1; [|discriminate].
    destruct (IH s1 s' w1 w' HP H) as (y & Y1 & Y2).
    assert (G : exists z, rev_numbers (log w1) = rev_numbers (log w) ++ z /\
      z ++ countdown (ncb Rev) (S (next s1)) = countdown (ncb Rev) (S (next s))).
    { destruct x as [x z|k|k|x z]; cbn [play run_action] in E, E1.
      - destruct (_ && _ && _) in E; [|discriminate]; injection E as <-.
        apply forward_numbers in E1; exists []; rewrite app_nil_r; auto.
      - injection E as <-; injection E1 as <-; exists []; rewrite app_nil_r; auto.
      - destruct (saved s k) as [p|]; [|discriminate]; injection E as <-.
        unfold reading in E1; destruct (find _ (slots w)) as [[k' snap]|]; [|discriminate].
        injection E1 as <-; exists []; rewrite app_nil_r; auto.
      - destruct (_ && _ && _) eqn:B in E; [|discriminate]; injection E as <-.
        apply andb_prop in B as [B B3]; apply andb_prop in B as [B1 B2].
        apply Nat.eqb_eq in B1; apply Nat.eqb_eq in B2; apply Nat.eqb_eq in B3; subst z.
        replace (S x - x) with 1 in E1 by lia; cbn [reverse_operator] in E1; unfold mbind, reading in E1.
        destruct (run_step_jacvec_rev op (S (S x) + 0) (live w) w) as [w2 [[]|e]] eqn:E2; [|discriminate].
        injection E1 as <-; apply run_step_jacvec_rev_ok in E2 as (q & _ & ->).
        cbn [log w_pert w_log]; rewrite rev_numbers_app, rev_numbers_step.
        eexists; split; [reflexivity|]; rewrite B3; cbn [next countdown].
        replace (S (S x) + 0) with (S (S x)) by lia; reflexivity. }
    destruct G as (z & Z1 & Z2); exists (z ++ y); split.
    + rewrite Y1, Z1, app_assoc; reflexivity.
    + rewrite <- Z2, <- Y2, app_assoc; reflexivity.
Qed.

Lemma reverse_numbers n fs rs s s' w w' : o_ckpt op = PyrevolveCheckpointer fs rs ->
  plays n s rs = Some s' -> next s = n -> next s' = 0 -> iterate_reverse op w = (w', Ok tt) ->
  rev_numbers (log w') = rev_numbers (log w) ++ countdown (ncb Rev) (S n).
Proof.
  intros HP HA Hn H0 H; unfold iterate_reverse in H; rewrite HP in H; unfold mbind at 1 in H.
  destruct (run_actions op rs w) as [w1 [[]|e]] eqn:E; [|discriminate].
  destruct (actions_numbers n rs s s' w w1 HA E) as (x & X1 & X2); rewrite H0, Hn in X2.
  unfold mbind at 1, modify in H; cbn [reverse_operator] in H; unfold mbind, reading in H.
  match type of H with context [run_step_jacvec_rev op ?k ?st ?w] =>
    destruct (run_step_jacvec_rev op k st w) as [w2 [[]|e]] eqn:E2; [|discriminate] end.
  injection H as <-; apply run_step_jacvec_rev_ok in E2 as (q & _ & ->).
  cbn [log w_pert w_log w_live]; rewrite rev_numbers_app, rev_numbers_step, X1, <- app_assoc.
  rewrite <- X2; cbn [countdown]; rewrite app_nil_r; reflexivity.
Qed.

Lemma reverse_call_numbers n fs rs i d w w1 out w2 g : o_ckpt op = PyrevolveCheckpointer fs rs ->
  valid_schedule n fs rs -> (forall x, In x (initial i ++ independent i) -> neqb x x = true) ->
  compute op i w = (w1, Ok out) -> compute_jacvec_product_rev op i d w1 = (w2, Ok g) ->
  rev_numbers (log w2) = rev_numbers (log w1) ++ countdown (ncb Rev) (S n).
Proof.
  intros HP (s & s' & V1 & V2 & V3 & V4 & V5) Hx HC H.
  assert (HK : cache_hit i (cached w1) = true).
  { assert (E : cached w1 = cached (prepare op i w)).
    { unfold compute, create_checkpointer, iterate_forward in HC; rewrite HP in HC.
      unfold mbind at 1 in HC; rewrite compute_preparation_eq in HC; unfold mbind at 1, modify at 1 in HC.
      set (w0 := w_slots [] (prepare op i w)) in HC.
      unfold mbind at 1, mbind at 1 in HC.
      destruct (forward_operator op 1 0 w0) as [wa [[]|e]] eqn:E1; [|discriminate].
      unfold mbind at 1, modify at 1 in HC.
      match type of HC with context [run_actions op fs ?v] =>
        pose proof (L_Revolve.cached_actions op fs v) as K; destruct (run_actions op fs v) as [wb [[]|e]] eqn:E2;
        [|discriminate] end.
      injection HC as <- <-; cbn in K; rewrite K.
      cbn [forward_operator] in E1; unfold mbind in E1.
      destruct (run_step op 0 w0) as [wc [[]|e]] eqn:E3; [|discriminate].
      injection E1 as <-; apply run_step_ok in E3 as (c1 & st1 & _ & ->); reflexivity. }
    rewrite E; cbn [cached prepare cache_hit].
    assert (G : forall l : list T, (forall x, In x l -> neqb x x = true) -> array_equal l l = true).
    { induction l as [|y l IH]; intros Hl; [reflexivity|]; simpl; rewrite (Hl y) by (left; reflexivity).
      apply IH; intros; apply Hl; right; assumption. }
    apply andb_true_intro; split; apply G; intros x Hin; apply Hx, in_or_app; auto. }
  unfold compute_jacvec_product_rev, jacvec_rev_preparation_phase in H.
  unfold mbind at 1, mbind at 1, reading at 1 in H; rewrite HK in H; unfold mret at 1, modify at 1 in H.
  unfold mbind at 1 in H.
  match type of H with context [iterate_reverse op ?v] =>
    destruct (iterate_reverse op v) as [w3 [[]|e]] eqn:E; [|discriminate] end.
  unfold mbind, reading, mret, modify in H; injection H as <- _.
  apply (reverse_numbers n fs rs s s' _ _ HP V4 V3 V5) in E; exact E.
Qed.

End Reverse.

(** *** Histories of compute calls and reverse products *)
Section Histories.
Context {T : Type} {N : Num T} {C : Type}.
Variable op : options T C.
Notation o := (o_ode op).
Hypothesis Sz : sized_ode o.
Variables (n : nat) (fs rs : list action) (c : C).
Hypothesis HP : o_ckpt op = PyrevolveCheckpointer fs rs.
Hypothesis HV : valid_schedule n fs rs.
Hypothesis HS : stateless op c.
Hypothesis Heqb : forall x y : T, neqb x y = true -> x = y.
Notation begin i := (live (prepare op i (setup op c))).

Definition kept (w : component T C) : Prop :=
  forall s, cached w = Some s -> exists i x, inputs_sized o i /\ belongs s i /\
    forward_end n fs rs x /\ inv op n c (begin i) (pert w) x w.

Lemma kept_ready w i : kept w -> ctl w = c ->
  (forall s, cached w = Some s -> final_time s = time_initial i) -> revolve_ready op n fs rs c i w.
Proof.
  intros HK HC HT; unfold revolve_ready; destruct (cache_hit i (cached w)) eqn:E; [right|left; auto].
  unfold cache_hit in E; destruct (cached w) as [s|] eqn:Es; [|discriminate].
  apply andb_prop in E as [E1 E2].
  apply (array_equal_eq Heqb) in E1; apply (array_equal_eq Heqb) in E2.
  destruct (HK s Es) as (j & x & Hj & (B1 & B2 & B3) & F & HI).
  assert (j = i) as ->.
  { specialize (HT s eq_refl); destruct i, j; cbn in *; congruence. }
  split; [reflexivity|]; exists x; auto.
Qed.

Lemma history_kept t : forall hist w, Forall (call_sized o) hist -> Forall no_forward hist ->
  Forall (fun k => call_time k = t) hist ->
  all_return op hist w -> wf op w -> ctl w = c -> kept w ->
  (forall s, cached w = Some s -> final_time s = t) ->
  let w' := run_calls op hist w in
  wf op w' /\ ctl w' = c /\ kept w' /\ (forall s, cached w' = Some s -> final_time s = t).
Proof.
  induction hist as [|k hist IH]; intros w Fk Fn Ft Hr Hw Hc HC HT; [simpl; auto|].
  inversion Fk as [|? ? Fk1 Fk2]; subst; inversion Ft as [|? ? Ft1 Ft2]; subst; destruct Hr as [Hr1 Hr2].
  inversion Fn as [|? ? Fn1 Fn2]; subst.
  change (run_calls op (k :: hist) w) with (run_calls op hist (run_call op k w)).
  destruct k as [i|i d|i d]; [|contradiction|]; simpl in Fk1, Hr1, Hr2; cbn [run_call] in *.
  - destruct Hr1 as [out Hr1]; destruct (compute op i w) as [w1 r] eqn:E; cbn in Hr1; subst r.
    destruct (revolve_compute op Sz n fs rs c HP HV HS i w w1 _ Hw Hc Fk1 E) as [A _].
    destruct (A out eq_refl) as (K & s & st & S1 & S2 & _).
    pose proof (pres_compute op (proj1 Sz) (proj2 (proj2 Sz)) i Fk1 w Hw) as P; rewrite E in P.
    pose proof (ctl_compute op c HS i w Hc) as Q; rewrite E in Q.
    apply IH; auto; cbn [fst].
    + intros s0 Es; rewrite K in Es; injection Es as <-.
      exists i, s; split; [exact Fk1|]; split; [repeat split|]; auto.
    + intros s0 Es; rewrite K in Es; injection Es as <-; reflexivity.
  - destruct Hr1 as [g Hr1]; destruct (compute_jacvec_product_rev op i d w) as [w1 r] eqn:E; cbn in Hr1; subst r.
    destruct Fk1 as [Fi Fd].
    pose proof (pres_rev op (proj1 Sz) (proj2 (proj2 Sz)) i d Fi Fd w Hw) as P; rewrite E in P.
    pose proof (ctl_rev op c HS i d w Hc) as Q; rewrite E in Q.
    assert (E1 : cached w1 = None).
    { unfold compute_jacvec_product_rev in E; unfold mbind at 1 in E.
      destruct (jacvec_rev_preparation_phase op i d w) as [wa [[]|e]]; [|discriminate].
      unfold mbind at 1 in E; destruct (iterate_reverse op wa) as [wb [[]|e]]; [|discriminate].
      unfold mbind, reading, mret, modify in E; injection E as <- _; reflexivity. }
    apply IH; auto; intros s Es; cbn [fst] in Es; congruence.
Qed.

Hypothesis Q : quiet op.
Hypothesis Hign : ignores_stage_state_weights o.

Lemma revolve_history t hist i d g : Forall (call_sized o) hist -> Forall no_forward hist ->
  Forall (fun k => call_time k = t) hist -> all_return op hist (setup op c) ->
  inputs_sized o i -> outputs_sized o d -> time_initial i = t ->
  ((exists w', compute_jacvec_product_rev op i d (run_calls op hist (setup op c)) = (w', Ok g))
   <-> exists w', compute_jacvec_product_rev op i d (setup op c) = (w', Ok g)).
Proof.
  intros Fk Fn Ft Hr Hi Hd Hti.
  assert (K0 : forall s, cached (setup op c) = Some s -> final_time s = t) by (intros s E; discriminate E).
  assert (C0 : kept (setup op c)) by (intros s E; discriminate E).
  destruct (history_kept t hist (setup op c) Fk Fn Ft Hr (wf_setup op c) eq_refl C0 K0) as (H1 & H2 & H3 & H4).
  assert (R1 : revolve_ready op n fs rs c i (run_calls op hist (setup op c))).
  { apply kept_ready; auto; intros s Es; rewrite (H4 s Es); auto. }
  rewrite (revolve_rev op Sz n fs rs c HP HV HS Hign i d _ g Q H1 Hi Hd R1).
  rewrite (revolve_rev op Sz n fs rs c HP HV HS Hign i d _ g Q (wf_setup op c) Hi Hd (ready_setup op n fs rs c i)).
  reflexivity.
Qed.

End Histories.

Lemma with_own_ckpt {T} {N : Num T} {C} (op : options T C) : with_ckpt op (o_ckpt op) = op.
Proof. destruct op; reflexivity. Qed.

Lemma all_repeatable {T} {N : Num T} {C} (op : options T C) n c w1 w2 i w1' out :
  sized_ode (o_ode op) -> o_crit op = PredefinedNumberOfSteps (S n) -> S n < loop_limit op ->
  fit n (o_ckpt op) -> quiet op -> stateless op c ->
  reachable op c w1 -> reachable op c w2 -> inputs_sized (o_ode op) i ->
  compute op i w1 = (w1', Ok out) -> exists w2', compute op i w2 = (w2', Ok out).
Proof.
  intros Sz Hn Hl HF Q HS R1 R2 Hi H.
  pose proof (compute_variants op Sz n c Hn Hl Q HS (o_ckpt op) (o_ckpt op) w1 w2 i out HF HF) as X.
  rewrite with_own_ckpt in X; apply X; eauto.
Qed.

Section RealRuns.
Local Open Scope R_scope.
Context {C : Type}.
Variable op : options R C.
Notation bt := (o_bt op).
Notation o := (o_ode op).
Notation ncb m := (length (o_callbacks op m)).

Lemma revolve_fixed_times n fs rs c w i w' out : sized_ode o -> o_adaptive op = false ->
  o_ckpt op = PyrevolveCheckpointer fs rs -> valid_schedule n fs rs -> Forall forward_action fs ->
  o_crit op = PredefinedNumberOfSteps (S n) ->
  reachable op c w -> inputs_sized o i -> compute op i w = (w', Ok out) ->
  exists a l, starts_at op i a /\ trajectory op a l /\ length l = S n /\
    log w' = (log w ++ bracketed Compute (ncb Compute) 0 a l)%list /\ live w' = last l a /\
    (forall k, (k < length l)%nat ->
       let s := disc (nth k l a) in
       let t := time_initial i + INR k * o_step op in
       start_time s = t /\ final_time s = time_initial i + INR (S k) * o_step op /\
       step_size s = o_step op /\
       start_state s = final_state (disc (nth k (a :: l) a)) /\
       independent_inputs s = independent i /\
       forall j, (j < t_stages bt)%nat -> vnth j (stage_times s) = t + vnth j (t_c bt) * o_step op) /\
    time_final out = time_initial i + INR (S n) * o_step op /\
    final out = final_state (disc (last l a)).
Proof.
  intros Hs Hf HP HV HF Hn Hr Hi H; pose proof (reachable_wf op c w Hs Hr) as Hw.
  assert (HS : stateless op (ctl w)) by (intros X; congruence).
  destruct (revolve_log op (ctl w) HS n fs rs i w w' out HP HV HF eq_refl H) as (l & L1 & L2 & L3 & L4 & ->).
  destruct Hs as (Hres & _ & _).
  pose proof (wf_live _ _ (wf_prepare op i w Hi Hw)) as Wa.
  pose proof (steps_chain op (S n) (ctl w) Hn l 0 _ L2 L1) as Hch.
  exists (live (prepare op i w)), l.
  split; [apply starts_prepare|]; split; [exact (steps_trajectory op _ l _ L2)|].
  split; [exact L1|]; split; [exact L3|]; split; [exact L4|].
  split; [|split].
  - intros k Hk.
    destruct (fixed_chain op Hres Hf _ _ _ _ _ _ Hch Wa k Hk) as (F1 & F2 & F3 & F4 & F5 & F6).
    cbv zeta in *. split; [exact F2|]; split; [exact F1|]; split; [exact F6|]; split; [exact F4|].
    split; [exact F5|]; intros j Hj; unfold vnth; rewrite (F3 j Hj), Rmult_comm with (r1 := nth j _ _).
    reflexivity.
  - rewrite <- L1, L4; exact (fixed_chain_end op Hres Hf _ _ _ _ _ _ Hch Wa).
  - rewrite L4; reflexivity.
Qed.

Lemma all_transposed n c i din d w w' dout v v' g : tableau_wf bt -> sized_ode o -> ode_transposed o ->
  ignores_stage_state_weights o -> o_crit op = PredefinedNumberOfSteps (S n) -> (S n < loop_limit op)%nat ->
  quiet op -> stateless op c -> fit n (o_ckpt op) -> reversing (o_ckpt op) ->
  inputs_sized o i -> inputs_sized o din -> outputs_sized o d ->
  reachable op c w -> v = setup op c \/ (exists v0 out, reachable op c v0 /\ compute op i v0 = (v, Ok out)) ->
  compute_jacvec_product_fwd op i din w = (w', Ok dout) ->
  compute_jacvec_product_rev op i d v = (v', Ok g) ->
  dot_outputs d dout = dot_inputs g din.
Proof.
  intros Hbt Sz Htr Hign Hn Hl Q HS HF HR Hi Hdin Hd Rw Rv Hfw Hrv.
  pose proof (reachable_wf op c w Sz Rw) as Hw.
  assert (Hc : ctl w = c)
    by (destruct Rw as (h & F & ->); exact (ctl_run_calls op c HS h (setup op c) eq_refl)).
  assert (G : wf op v /\ ready op n c i v).
  { destruct Rv as [->|(v0 & out & R & H)].
    - split; [apply wf_setup|apply ready_setup', HR].
    - pose proof (reachable_wf op c v0 Sz R) as W0.
      assert (Hc0 : ctl v0 = c)
        by (destruct R as (h & F & ->); exact (ctl_run_calls op c HS h (setup op c) eq_refl)).
      split.
      + pose proof (pres_compute op (proj1 Sz) (proj2 (proj2 Sz)) i Hi v0 W0) as P; rewrite H in P; exact P.
      + exact (ready_after op Sz n c HS i v0 v out HF HR W0 Hc0 Hi H). }
  destruct G as [Wv Ry].
  pose proof (proj1 (all_rev_value op Sz n c Hn Hl Q HS Hign v i d g HF Ry Wv Hi Hd) (ex_intro _ v' Hrv)) as Pr.
  apply (rev_value_product op n c Hn Hl HS) in Pr.
  destruct Sz as (Hres & Hdsz & Hasz).
  exact (products_transposed op Hbt Hres Hdsz Hasz Htr c i din d w dout g w' Hw Hc Hi Hdin Hd Hfw Pr).
Qed.

End RealRuns.
