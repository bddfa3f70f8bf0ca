(** Structure of forward and reverse runs of the integrator, for every scalar
    type: a run is a chain of accepted steps, callbacks only add to the log. *)
From Coq Require Import List Lia Bool.
From Verif Require Import Base M_Tableau M_State M_ODE M_Step M_Controller M_Measure M_Integrator SpecRun.
Import ListNotations.

Section Run.
Context {T : Type} {N : Num T} {C : Type}.
Variable op : options T C.

(** *** Callbacks *)
Definition hook_events (ev : nat -> event T) (i : nat) (l : list (callback T)) : list (event T) :=
  map ev (seq i (length l)).
Definition before_events m n st := hook_events (fun i => Before m i n st) 0 (o_callbacks op m).
Definition after_events m n st := hook_events (fun i => After m i n st) 0 (o_callbacks op m).

Lemma call_hooks_spec ev hook l : forall i (w w' : component T C) r,
  call_hooks ev hook i l w = (w', r) ->
  w' = w_log (log w') w /\
  (exists k, log w' = log w ++ map ev (seq i k)) /\
  (forall u, r = Ok u -> log w' = log w ++ hook_events ev i l).
Proof.
  induction l as [|cb l IH]; intros i w w' r H; simpl in H.
  - injection H as <- <-; unfold hook_events; simpl; rewrite app_nil_r; destruct w; repeat split; auto.
    exists 0; simpl; rewrite app_nil_r; reflexivity.
  - unfold mbind, modify, mlift in H.
    destruct (hook cb) as [[]|e] eqn:E.
    + apply IH in H as (H1 & (k & H2) & H3); cbn [log w_log] in *.
      split; [rewrite H1; reflexivity|]; split.
      * exists (S k); rewrite H2, <- app_assoc; reflexivity.
      * intros u Hu; rewrite (H3 u Hu), <- app_assoc; reflexivity.
    + injection H as <- <-; split; [reflexivity|]; split; [exists 1; reflexivity|].
      intros u Hu; discriminate Hu.
Qed.


Lemma call_hooks_quiet ev hook l : forall i (w : component T C),
  (forall cb, In cb l -> hook cb = Ok tt) ->
  call_hooks ev hook i l w = (w_log (log w ++ hook_events ev i l) w, Ok tt).
Proof.
  induction l as [|cb l IH]; intros i w H; simpl.
  - unfold hook_events, mret; simpl; rewrite app_nil_r; destruct w; reflexivity.
  - unfold mbind, modify, mlift; rewrite (H cb) by (left; reflexivity).
    rewrite IH by (intros; apply H; right; assumption).
    cbn; rewrite <- app_assoc; reflexivity.
Qed.

Lemma before_quiet m n st w : quiet op ->
  before_hooks op m n st w = (w_log (log w ++ before_events m n st) w, Ok tt).
Proof. intros Q; apply call_hooks_quiet; intros cb Hcb; apply (Q m cb Hcb). Qed.
Lemma after_quiet m n st w : quiet op ->
  after_hooks op m n st w = (w_log (log w ++ after_events m n st) w, Ok tt).
Proof. intros Q; apply call_hooks_quiet; intros cb Hcb; apply (Q m cb Hcb). Qed.

Lemma before_ok m n st w w' : before_hooks op m n st w = (w', Ok tt) ->
  w' = w_log (log w ++ before_events m n st) w.
Proof.
  intros H; destruct (call_hooks_spec _ _ _ _ _ _ _ H) as (H1 & _ & H2).
  rewrite H1, (H2 tt eq_refl); reflexivity.
Qed.
Lemma after_ok m n st w w' : after_hooks op m n st w = (w', Ok tt) ->
  w' = w_log (log w ++ after_events m n st) w.
Proof.
  intros H; destruct (call_hooks_spec _ _ _ _ _ _ _ H) as (H1 & _ & H2).
  rewrite H1, (H2 tt eq_refl); reflexivity.
Qed.

(** *** One primal step *)
Definition step_events m n st st' := before_events m n st ++ after_events m n st'.

Lemma run_step_ok n w w' : run_step op n w = (w', Ok tt) ->
  exists c' st', iterate_on_step op (retry_limit op) (ctl w) (live w) = (c', st', Ok tt) /\
    w' = w_ctl c' (w_live st' (w_log (log w ++ step_events Compute n (live w) st') w)).
Proof.
  unfold run_step, mbind, reading, step_live; intros H.
  destruct (before_hooks op Compute n (live w) w) as [w1 [[]|e]] eqn:E1; [|discriminate].
  apply before_ok in E1; subst w1; cbn [ctl live w_log] in H.
  destruct (iterate_on_step op (retry_limit op) (ctl w) (live w)) as [[c' st'] [[]|e]] eqn:E2;
    [|discriminate].
  apply after_ok in H; cbn in H; subst w'.
  exists c', st'; split; [reflexivity|].
  unfold step_events; rewrite app_assoc; destruct w; reflexivity.
Qed.

Lemma run_step_quiet n w c' st' : quiet op ->
  iterate_on_step op (retry_limit op) (ctl w) (live w) = (c', st', Ok tt) ->
  run_step op n w
  = (w_ctl c' (w_live st' (w_log (log w ++ step_events Compute n (live w) st') w)), Ok tt).
Proof.
  intros Q H; unfold run_step, mbind, reading, step_live.
  rewrite before_quiet by exact Q; cbn [ctl live w_log]; rewrite H.
  rewrite after_quiet by exact Q; cbn; unfold step_events; rewrite app_assoc.
  destruct w; reflexivity.
Qed.

(** *** Chains of steps *)
Inductive chain : nat -> C -> tistate T -> list (tistate T) -> C -> tistate T -> Prop :=
| chain_end it c st : is_iteration_finished (o_crit op) it st = true -> chain it c st [] c st
| chain_step it c st c1 st1 l c' st' :
    is_iteration_finished (o_crit op) it st = false ->
    iterate_on_step op (retry_limit op) c st = (c1, st1, Ok tt) ->
    chain (S it) c1 st1 l c' st' ->
    chain it c st (st1 :: l) c' st'.

Fixpoint run_events m (it : nat) (st : tistate T) (l : list (tistate T)) : list (event T) :=
  match l with
  | [] => []
  | st1 :: l' => step_events m (S it) st st1 ++ run_events m (S it) st1 l'
  end.

Lemma chain_fun it c st l c' st' : chain it c st l c' st' ->
  forall l2 c2 st2, chain it c st l2 c2 st2 -> l = l2 /\ c' = c2 /\ st' = st2.
Proof.
  induction 1 as [it c st F|it c st c1 st1 l c' st' F I _ IH]; intros l2 c2 st2 H2; inversion H2; subst;
    try congruence; auto.
  rewrite H0 in I; injection I as <- <-.
  destruct (IH _ _ _ H1) as (-> & -> & ->); auto.
Qed.

Lemma chain_last it c st l c' st' : chain it c st l c' st' -> st' = last l st.
Proof.
  induction 1 as [|it c st c1 st1 l c' st' F I _ IH]; [reflexivity|].
  rewrite IH; destruct l as [|x l]; [reflexivity|].
  clear; revert x; induction l as [|y l IHl]; intros x; [reflexivity|].
  change (last (y :: l) st1 = last (y :: l) st); apply IHl.
Qed.

Definition after_run (keep : bool) (l : list (tistate T)) (c' : C) (st' : tistate T) (evs : list (event T)) (w : component T C) : component T C :=
  w_ctl c' (w_live st' (w_storage (if keep then rev l ++ storage w else storage w)
    (w_log (log w ++ evs) w))).

Lemma forward_loop_ok keep : forall fuel it w w', forward_loop op keep fuel it w = (w', Ok tt) ->
  exists l c' st', chain it (ctl w) (live w) l c' st' /\ length l < fuel /\
    w' = after_run keep l c' st' (run_events Compute it (live w) l) w.
Proof.
  induction fuel as [|fuel IH]; intros it w w' H; simpl in H; [discriminate|].
  unfold reading in H.
  destruct (is_iteration_finished (o_crit op) it (live w)) eqn:F.
  - injection H as <-; exists [], (ctl w), (live w); split; [constructor; exact F|]; split; [simpl; lia|].
    unfold after_run; simpl; rewrite app_nil_r; destruct w, keep; reflexivity.
  - unfold mbind at 1 in H.
    destruct (run_step op (S it) w) as [w1 [[]|e]] eqn:E; [|discriminate].
    apply run_step_ok in E as (c1 & st1 & I & ->).
    unfold mbind in H.
    destruct keep; unfold modify, mret in H; apply IH in H as (l & c' & st' & Hc & Hl & ->);
      cbn [ctl live w_ctl w_live w_log w_storage storage] in Hc;
      (exists (st1 :: l), c', st'; split; [econstructor; eassumption|]; split; [simpl; lia|]);
      unfold after_run; cbn; rewrite <- ?app_assoc; destruct w; reflexivity.
Qed.

Lemma forward_loop_quiet keep it c st l c' st' : quiet op -> chain it c st l c' st' ->
  forall fuel w, length l < fuel -> ctl w = c -> live w = st ->
  forward_loop op keep fuel it w
  = (after_run keep l c' st' (run_events Compute it st l) w, Ok tt).
Proof.
  intros Q; induction 1 as [it c st F|it c st c1 st1 l c' st' F I _ IH];
    intros fuel w Hf Hc Hl; (destruct fuel as [|fuel]; [simpl in Hf; lia|]); subst c st; simpl;
    unfold reading; rewrite F.
  - unfold after_run, mret; simpl; rewrite app_nil_r; destruct w, keep; reflexivity.
  - unfold mbind at 1; rewrite (run_step_quiet _ _ _ _ Q I); unfold mbind.
    destruct keep; unfold modify, mret; rewrite IH by (cbn; simpl in Hf; auto; lia);
      unfold after_run; cbn; rewrite <- ?app_assoc; destruct w; reflexivity.
Qed.

(** *** Reverse sweeps *)
Definition adjoint_step (st p : tistate T) : res (tistate T) :=
  let* d := compute_step_adjoint_derivative (o_bt op) (o_ode op) (disc st) (disc p)
              (nth 0 (step_hist st) n0) in
  Ok (w_disc (rk_set (disc p) d) p).

Fixpoint adjoint_sweep (l : list (tistate T)) (p : tistate T) : res (tistate T) :=
  match l with
  | [] => Ok p
  | st :: l' => let* p' := adjoint_step st p in adjoint_sweep l' p'
  end.

Fixpoint reverse_events (l : list (tistate T)) : list (event T) :=
  match l with
  | [] => []
  | st :: l' => step_events Rev (length l) st st ++ reverse_events l'
  end.

Lemma run_step_jacvec_rev_ok n st w w' : run_step_jacvec_rev op n st w = (w', Ok tt) ->
  exists p', adjoint_step st (pert w) = Ok p' /\
    w' = w_pert p' (w_log (log w ++ step_events Rev n st st) w).
Proof.
  unfold run_step_jacvec_rev, mbind, reading, mlift, modify; intros H.
  destruct (before_hooks op Rev n st w) as [w1 [[]|e]] eqn:E1; [|discriminate].
  apply before_ok in E1; subst w1; cbn [pert w_log] in H.
  destruct (compute_step_adjoint_derivative _ _ _ _ _) as [d|e] eqn:E2; [|discriminate].
  apply after_ok in H; cbn in H; subst w'.
  eexists; split; [unfold adjoint_step; rewrite E2; reflexivity|].
  unfold step_events; rewrite app_assoc; destruct w; reflexivity.
Qed.

Lemma run_step_jacvec_rev_quiet n st w p' : quiet op -> adjoint_step st (pert w) = Ok p' ->
  run_step_jacvec_rev op n st w
  = (w_pert p' (w_log (log w ++ step_events Rev n st st) w), Ok tt).
Proof.
  intros Q H; unfold run_step_jacvec_rev, mbind, reading, mlift, modify.
  rewrite before_quiet by exact Q; cbn [pert w_log]; unfold adjoint_step in H.
  destruct (compute_step_adjoint_derivative _ _ _ _ _) as [d|e]; [|discriminate].
  injection H as <-; rewrite after_quiet by exact Q.
  cbn; unfold step_events; rewrite app_assoc; destruct w; reflexivity.
Qed.

Lemma reverse_all_ok : forall l w w', reverse_all op l w = (w', Ok tt) ->
  exists p', adjoint_sweep l (pert w) = Ok p' /\
    w' = w_pert p' (w_log (log w ++ reverse_events l)
           (w_storage (match l with [] => storage w | _ => [] end) w)).
Proof.
  induction l as [|st l IH]; intros w w' H.
  - injection H as <-; exists (pert w); split; [reflexivity|]; simpl; rewrite app_nil_r; destruct w; reflexivity.
  - cbn [reverse_all] in H; unfold mbind, modify in H.
    destruct (run_step_jacvec_rev op (length (st :: l)) st (w_storage l w)) as [w1 [[]|e]] eqn:E;
      [|discriminate].
    apply run_step_jacvec_rev_ok in E as (p1 & A & ->).
    apply IH in H as (p' & B & ->); cbn in A, B.
    exists p'; split; [simpl; rewrite A; exact B|].
    cbn; rewrite <- app_assoc; destruct w, l; reflexivity.
Qed.

Lemma reverse_all_quiet : forall l w p', quiet op -> adjoint_sweep l (pert w) = Ok p' ->
  reverse_all op l w
  = (w_pert p' (w_log (log w ++ reverse_events l)
           (w_storage (match l with [] => storage w | _ => [] end) w)), Ok tt).
Proof.
  induction l as [|st l IH]; intros w p' Q H.
  - injection H as <-; simpl; rewrite app_nil_r; destruct w; reflexivity.
  - simpl in H; destruct (adjoint_step st (pert w)) as [p1|e] eqn:A; cbn [bind] in H; [|discriminate].
    cbn [reverse_all]; unfold mbind, modify.
    rewrite (run_step_jacvec_rev_quiet _ _ _ p1 Q) by exact A.
    rewrite (IH _ p' Q) by exact H.
    cbn; rewrite <- app_assoc; destruct w, l; reflexivity.
Qed.

(** *** Forward products *)
Definition derivative_step (st p : tistate T) : res (tistate T) :=
  let* d := compute_step_derivative (o_bt op) (o_ode op) (disc st) (disc p)
              (nth 0 (step_hist st) n0) in
  Ok (w_disc (rk_set (disc p) d) p).

Fixpoint derivative_sweep (l : list (tistate T)) (p : tistate T) : res (tistate T) :=
  match l with
  | [] => Ok p
  | st :: l' => let* p' := derivative_step st p in derivative_sweep l' p'
  end.

Lemma run_step_jacvec_fwd_ok n w w' : run_step_jacvec_fwd op n w = (w', Ok tt) ->
  exists c' st' p', iterate_on_step op (retry_limit op) (ctl w) (live w) = (c', st', Ok tt) /\
    derivative_step st' (pert w) = Ok p' /\
    w' = w_ctl c' (w_live st' (w_pert p' (w_log (log w ++ step_events Fwd n (live w) st') w))).
Proof.
  unfold run_step_jacvec_fwd, mbind, reading, step_live, step_derivative_live, mlift, modify; intros H.
  destruct (before_hooks op Fwd n (live w) w) as [w1 [[]|e]] eqn:E1; [|discriminate].
  apply before_ok in E1; subst w1; cbn [ctl live w_log] in H.
  destruct (iterate_on_step op (retry_limit op) (ctl w) (live w)) as [[c' st'] [[]|e]] eqn:E2;
    [|discriminate].
  unfold mbind, reading in H; cbn [live pert w_live w_ctl w_log] in H.
  destruct (compute_step_derivative _ _ _ _ _) as [d|e] eqn:E3; [|discriminate].
  apply after_ok in H; cbn in H; subst w'.
  exists c', st'; eexists; split; [reflexivity|]; split; [unfold derivative_step; rewrite E3; reflexivity|].
  unfold step_events; rewrite app_assoc; destruct w; reflexivity.
Qed.

Lemma run_step_jacvec_fwd_quiet n w c' st' p' : quiet op ->
  iterate_on_step op (retry_limit op) (ctl w) (live w) = (c', st', Ok tt) ->
  derivative_step st' (pert w) = Ok p' ->
  run_step_jacvec_fwd op n w
  = (w_ctl c' (w_live st' (w_pert p' (w_log (log w ++ step_events Fwd n (live w) st') w))), Ok tt).
Proof.
  intros Q H1 H2; unfold run_step_jacvec_fwd, mbind, reading, step_live, step_derivative_live, mlift, modify.
  rewrite before_quiet by exact Q; cbn [ctl live w_log]; rewrite H1.
  unfold mbind, reading; cbn [live pert w_live w_ctl w_log]; unfold derivative_step in H2.
  destruct (compute_step_derivative _ _ _ _ _) as [d|e]; [|discriminate].
  injection H2 as <-; rewrite after_quiet by exact Q; cbn; unfold step_events; rewrite app_assoc.
  destruct w; reflexivity.
Qed.

Lemma fwd_steps_ok : forall fuel it w w', jacvec_fwd_run_steps op fuel it w = (w', Ok tt) ->
  exists l c' st' p', chain it (ctl w) (live w) l c' st' /\ length l < fuel /\
    derivative_sweep l (pert w) = Ok p' /\
    w' = w_ctl c' (w_live st' (w_pert p' (w_log (log w ++ run_events Fwd it (live w) l) w))).
Proof.
  induction fuel as [|fuel IH]; intros it w w' H; simpl in H; [discriminate|].
  unfold reading in H.
  destruct (is_iteration_finished (o_crit op) it (live w)) eqn:F.
  - injection H as <-; exists [], (ctl w), (live w), (pert w); split; [constructor; exact F|].
    split; [simpl; lia|]; split; [reflexivity|]; simpl; rewrite app_nil_r; destruct w; reflexivity.
  - unfold mbind at 1 in H.
    destruct (run_step_jacvec_fwd op (S it) w) as [w1 [[]|e]] eqn:E; [|discriminate].
    apply run_step_jacvec_fwd_ok in E as (c1 & st1 & p1 & I & D & ->).
    apply IH in H as (l & c' & st' & p' & Hc & Hl & Hd & ->); cbn in Hc, Hd.
    exists (st1 :: l), c', st', p'; split; [econstructor; eassumption|]; split; [simpl; lia|].
    split; [simpl; rewrite D; exact Hd|].
    cbn; rewrite <- app_assoc; destruct w; reflexivity.
Qed.

Lemma fwd_steps_quiet it c st l c' st' : quiet op -> chain it c st l c' st' ->
  forall fuel w p', length l < fuel -> ctl w = c -> live w = st ->
  derivative_sweep l (pert w) = Ok p' ->
  jacvec_fwd_run_steps op fuel it w
  = (w_ctl c' (w_live st' (w_pert p' (w_log (log w ++ run_events Fwd it st l) w))), Ok tt).
Proof.
  intros Q; induction 1 as [it c st F|it c st c1 st1 l c' st' F I _ IH];
    intros fuel w p' Hf Hc Hl Hd; (destruct fuel as [|fuel]; [simpl in Hf; lia|]); subst c st; simpl;
    unfold reading; rewrite F.
  - injection Hd as <-; unfold mret; simpl; rewrite app_nil_r; destruct w; reflexivity.
  - simpl in Hd; destruct (derivative_step st1 (pert w)) as [p1|e] eqn:D; cbn [bind] in Hd; [|discriminate].
    unfold mbind at 1; rewrite (run_step_jacvec_fwd_quiet _ _ _ _ _ Q I D).
    rewrite (IH _ _ p') by (cbn; simpl in Hf; auto; lia).
    cbn; rewrite <- app_assoc; destruct w; reflexivity.
Qed.

(** *** The three calls *)
Definition prepare (i : inputs T) (w : component T C) : component T C :=
  let st := reset_error_control op (w_disc (put_inputs i (disc (live w))) (live w)) in
  w_cached (Some (put_inputs i (disc (live w))))
    (w_live (w_disc (w_linearization_points
       (map (fun r => vzeros (length r)) (linearization_points (disc st))) (disc st)) st) w).

Lemma compute_preparation_eq i w : compute_preparation_phase op i w = (prepare i w, Ok tt).
Proof. destruct w; reflexivity. Qed.

Definition prepare_fwd (i d : inputs T) (w : component T C) : component T C :=
  w_pert (w_disc (put_inputs d (disc (pert w))) (pert w))
    (w_live (reset_error_control op (w_disc (put_inputs i (disc (live w))) (live w))) w).

Lemma fwd_preparation_eq i d w : jacvec_fwd_preparation_phase op i d w = (prepare_fwd i d w, Ok tt).
Proof. destruct w; reflexivity. Qed.

Definition result_of (st : tistate T) : outputs T :=
  {| time_final := final_time (disc st); final := final_state (disc st) |}.

Definition keeps : bool := match o_ckpt op with AllCheckpointer => true | _ => false end.
Notation loops := (loops op).

Lemma compute_ok i w w' out : loops -> compute op i w = (w', Ok out) ->
  exists l c' st', chain 0 (ctl w) (live (prepare i w)) l c' st' /\ length l < loop_limit op /\
    out = result_of st' /\
    w' = after_run keeps l c' st' (run_events Compute 0 (live (prepare i w)) l)
           (if keeps then w_storage [] (prepare i w) else prepare i w).
Proof.
  unfold loops, keeps, compute, create_checkpointer, iterate_forward; intros L H.
  unfold mbind in H; rewrite compute_preparation_eq in H.
  destruct (o_ckpt op) as [| |fs rs]; [| |contradiction]; unfold mret, modify, reading in H.
  - destruct (forward_loop op false (loop_limit op) 0 (prepare i w)) as [w1 [[]|e]] eqn:E; [|discriminate].
    apply forward_loop_ok in E as (l & c' & st' & Hc & Hl & ->).
    injection H as <- <-; exists l, c', st'; auto.
  - destruct (forward_loop op true (loop_limit op) 0 (w_storage [] (prepare i w))) as [w1 [[]|e]] eqn:E;
      [|discriminate].
    apply forward_loop_ok in E as (l & c' & st' & Hc & Hl & ->).
    injection H as <- <-; exists l, c', st'; auto.
Qed.

Lemma compute_quiet i w l c' st' : loops -> quiet op ->
  chain 0 (ctl w) (live (prepare i w)) l c' st' -> length l < loop_limit op ->
  compute op i w
  = (after_run keeps l c' st' (run_events Compute 0 (live (prepare i w)) l)
           (if keeps then w_storage [] (prepare i w) else prepare i w), Ok (result_of st')).
Proof.
  unfold loops, keeps, compute, create_checkpointer, iterate_forward; intros L Q Hc Hl.
  unfold mbind; rewrite compute_preparation_eq.
  destruct (o_ckpt op) as [| |fs rs]; [| |contradiction]; unfold mret, modify, reading;
    rewrite (forward_loop_quiet _ _ _ _ _ _ _ Q Hc); auto.
Qed.

Lemma fwd_ok i d w w' out : compute_jacvec_product_fwd op i d w = (w', Ok out) ->
  exists l c' st' p', chain 0 (ctl w) (live (prepare_fwd i d w)) l c' st' /\ length l < loop_limit op /\
    derivative_sweep l (pert (prepare_fwd i d w)) = Ok p' /\ out = result_of p' /\
    w' = w_ctl c' (w_live st' (w_pert p'
           (w_log (log w ++ run_events Fwd 0 (live (prepare_fwd i d w)) l) (prepare_fwd i d w)))).
Proof.
  unfold compute_jacvec_product_fwd, mbind, reading; rewrite fwd_preparation_eq; intros H.
  destruct (jacvec_fwd_run_steps op (loop_limit op) 0 (prepare_fwd i d w)) as [w1 [[]|e]] eqn:E;
    [|discriminate].
  apply fwd_steps_ok in E as (l & c' & st' & p' & Hc & Hl & Hd & ->).
  injection H as <- <-; exists l, c', st', p'; auto 10.
Qed.

Lemma fwd_quiet i d w l c' st' p' : quiet op ->
  chain 0 (ctl w) (live (prepare_fwd i d w)) l c' st' -> length l < loop_limit op ->
  derivative_sweep l (pert (prepare_fwd i d w)) = Ok p' ->
  compute_jacvec_product_fwd op i d w
  = (w_ctl c' (w_live st' (w_pert p'
           (w_log (log w ++ run_events Fwd 0 (live (prepare_fwd i d w)) l) (prepare_fwd i d w)))),
     Ok (result_of p')).
Proof.
  intros Q Hc Hl Hd; unfold compute_jacvec_product_fwd, mbind, reading; rewrite fwd_preparation_eq.
  rewrite (fwd_steps_quiet _ _ _ _ _ _ Q Hc _ _ p') by auto; reflexivity.
Qed.

Definition prepare_rev (d : outputs T) (w : component T C) : component T C :=
  w_pert (w_disc
      (w_final_time (time_final d)
        (w_independent_inputs (vzeros (length (independent_inputs (disc (pert w)))))
          (w_final_state (final d) (disc (pert w))))) (pert w)) w.

Definition gradient_of (p : tistate T) : inputs T :=
  {| time_initial := final_time (disc p); initial := final_state (disc p);
     independent := independent_inputs (disc p) |}.

(** A reverse product with store-all checkpointing: the component [wb] whose
    checkpoints are used is [w] itself or the one after compute. *)
Lemma rev_ok i d w w' g : o_ckpt op = AllCheckpointer ->
  compute_jacvec_product_rev op i d w = (w', Ok g) ->
  exists wb p',
    (if cache_hit i (cached w) then wb = w
     else exists out, compute op i w = (wb, Ok out)) /\
    adjoint_sweep (storage wb) (pert (prepare_rev d wb)) = Ok p' /\
    g = gradient_of p' /\
    w' = w_cached None (w_pert p' (w_log (log wb ++ reverse_events (storage wb)) (w_storage [] wb))).
Proof.
  unfold compute_jacvec_product_rev, jacvec_rev_preparation_phase, iterate_reverse; intros EA H.
  rewrite EA in H; unfold mbind, reading, mret, modify in H.
  assert (K : forall wb, 
    (match reverse_all op (storage (prepare_rev d wb)) (prepare_rev d wb) with
     | (w'0, Ok _) => (w_cached None w'0, Ok (gradient_of (pert w'0)))
     | (w'0, Err e) => (w'0, Err e)
     end) = (w', Ok g) ->
    exists p', adjoint_sweep (storage wb) (pert (prepare_rev d wb)) = Ok p' /\
    g = gradient_of p' /\
    w' = w_cached None (w_pert p' (w_log (log wb ++ reverse_events (storage wb)) (w_storage [] wb)))).
  { intros wb K; destruct (reverse_all _ _ _) as [w1 [[]|e]] eqn:E; [|discriminate].
    apply reverse_all_ok in E as (p' & A & ->).
    injection K as <- <-; exists p'; split; [exact A|]; split; [reflexivity|].
    unfold prepare_rev; cbn; destruct wb as [? ? ? ? sto ? ? ?]; destruct sto; reflexivity. }
  destruct (cache_hit i (cached w)).
  - destruct (K w) as (p' & A & B & D); [|exists w, p'; auto].
    rewrite <- H; unfold gradient_of, prepare_rev.
    destruct (reverse_all _ _ _) as [w1 [[]|e]]; reflexivity.
  - destruct (compute op i w) as [wb [out|e]] eqn:Ec; [|discriminate].
    destruct (K wb) as (p' & A & B & D); [|exists wb, p'; split; [exists out; reflexivity|auto]].
    rewrite <- H; unfold gradient_of, prepare_rev.
    destruct (reverse_all _ _ _) as [w1 [[]|e]]; reflexivity.
Qed.

Lemma rev_quiet i d w wb p' : o_ckpt op = AllCheckpointer -> quiet op ->
  (if cache_hit i (cached w) then wb = w else exists out, compute op i w = (wb, Ok out)) ->
  adjoint_sweep (storage wb) (pert (prepare_rev d wb)) = Ok p' ->
  exists w', compute_jacvec_product_rev op i d w = (w', Ok (gradient_of p')).
Proof.
  unfold compute_jacvec_product_rev, jacvec_rev_preparation_phase, iterate_reverse; intros EA Q Hb A.
  rewrite EA; unfold mbind, reading, mret, modify.
  pose proof (reverse_all_quiet (storage (prepare_rev d wb)) (prepare_rev d wb) p' Q A) as R.
  unfold prepare_rev in R.
  destruct (cache_hit i (cached w)).
  - subst wb; rewrite R; eexists; reflexivity.
  - destruct Hb as [out ->]; rewrite R; eexists; reflexivity.
Qed.

End Run.
