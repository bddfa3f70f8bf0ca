(** The attempt loop of one step, invariants of the component under every
    sequence of calls, and repeatability of runs, for every scalar type. *)
From Coq Require Import List Lia Bool.
From Verif Require Import Base M_Tableau M_State M_ODE M_Step M_Controller M_Measure M_Integrator
  SpecRK SpecShape SpecDeriv SpecRun L_Vec L_Step L_Generic L_Run.
Import ListNotations.

Section Iter.
Context {T : Type} {N : Num T} {C : Type}.
Variable op : options T C.
Notation bt := (o_bt op).
Notation o := (o_ode op).
Notation shape := (shaped (t_stages bt) (state_size o) (independent_input_size o)
                          (independent_output_size o) (linearization_point_size o)).

(** *** What an accepted step looks like *)
Record accepted (c : C) (st : tistate T) (c' : C) (st' : tistate T) (h : T) (tmp : rkstate T)
    (em : T) (cc : C) (stat : status T) : Prop := {
  acc_step : compute_step bt o (disc st) h = Ok tmp;
  acc_disc : disc st' = rk_set (disc st) tmp;
  acc_meas : state_measure (o_meas op) o tmp = Ok em;
  acc_call : o_ctl op cc {| error_measure := em; delta_t := h;
                remaining_time := remaining_time_func (o_inf op) (o_crit op) (final_time tmp);
                error_history := err_hist st; step_size_history := step_hist st |} = (c', Ok stat);
  acc_yes : acceptance stat = true;
  acc_sugg : suggestion st' = step_size_suggestion stat;
  acc_sh : step_hist st' = upd 0 h (roll1 (step_hist st));
  acc_eh : err_hist st' = upd 0 em (roll1 (err_hist st))
}.

Lemma iterate_adaptive fuel : forall c st c' st', o_adaptive op = true ->
  iterate_on_step op fuel c st = (c', st', Ok tt) ->
  exists h tmp em cc stat, accepted c st c' st' h tmp em cc stat.
Proof.
  induction fuel as [|fuel IH]; intros c st c' st' Ha H; simpl in H; [discriminate|].
  rewrite Ha in H.
  destruct (compute_step bt o (disc st) (suggestion st)) as [tmp|e] eqn:E1; [|discriminate].
  destruct (state_measure (o_meas op) o tmp) as [em|e] eqn:E2; [|discriminate].
  match type of H with context [o_ctl op c ?q] =>
    destruct (o_ctl op c q) as [c1 [stat|e]] eqn:E3 end; [|discriminate].
  destruct (acceptance stat) eqn:E4.
  - injection H as <- <-.
    exists (suggestion st), tmp, em, c, stat; constructor; auto.
  - apply IH in H as (h & tmp' & em' & cc & stat' & [A1 A2 A3 A4 A5 A6 A7 A8]); [|exact Ha].
    exists h, tmp', em', cc, stat'; constructor; auto.
Qed.

Lemma iterate_fixed fuel c st c' st' : o_adaptive op = false ->
  iterate_on_step op fuel c st = (c', st', Ok tt) ->
  exists tmp, compute_step bt o (disc st) (suggestion st) = Ok tmp /\ c' = c /\
    st' = {| disc := rk_set (disc st) tmp; suggestion := suggestion st;
             step_hist := upd 0 (suggestion st) (step_hist st); err_hist := err_hist st |}.
Proof.
  intros Ha H; destruct fuel as [|fuel]; simpl in H; [discriminate|]; rewrite Ha in H.
  destruct (compute_step bt o (disc st) (suggestion st)) as [tmp|e]; [|discriminate].
  injection H as <- <-; eauto.
Qed.

Lemma length_removelast {A} (l : list A) : length (removelast l) = length l - 1.
Proof.
  induction l as [|a [|b l] IH]; [reflexivity..|].
  change (S (length (removelast (b :: l))) = S (length (b :: l)) - 1); rewrite IH; simpl; lia.
Qed.

Lemma length_roll1 (l : list T) : length (roll1 l) = length l.
Proof.
  destruct l as [|a l]; [reflexivity|].
  unfold roll1; cbn [length]; rewrite length_removelast; simpl; lia.
Qed.

(** Summary for both variants: the step made, and that its size is the newest
    entry of the history. *)
Lemma iterate_step fuel c st c' st' : length (step_hist st) = 2 ->
  iterate_on_step op fuel c st = (c', st', Ok tt) ->
  exists h tmp, compute_step bt o (disc st) h = Ok tmp /\ disc st' = rk_set (disc st) tmp /\
    nth 0 (step_hist st') n0 = h /\ length (step_hist st') = 2 /\
    length (err_hist st') = length (err_hist st).
Proof.
  intros Hl H; destruct (o_adaptive op) eqn:Ha.
  - destruct (iterate_adaptive _ _ _ _ _ Ha H) as (h & tmp & em & cc & stat & [A1 A2 A3 A4 A5 A6 A7 A8]).
    exists h, tmp; split; [exact A1|]; split; [exact A2|]; rewrite A7, A8, !length_upd, !length_roll1.
    split; [apply nth_upd_same; rewrite length_roll1; lia|]; auto.
  - destruct (iterate_fixed _ _ _ _ _ Ha H) as (tmp & A1 & _ & ->).
    exists (suggestion st), tmp; cbn [disc suggestion step_hist err_hist]; rewrite length_upd.
    split; [exact A1|]; split; [reflexivity|]; split; [apply nth_upd_same; lia|]; auto.
Qed.

(** *** Well-formed states *)
Definition emb0 : option (list T * list T) := embedded (create_empty_discretization_state bt o).

Record wf_ti (st : tistate T) : Prop := {
  wt_shape : shape (disc st);
  wt_emb : embedded (disc st) = emb0;
  wt_sh : length (step_hist st) = 2;
  wt_eh : length (err_hist st) = 2
}.

Hypothesis Hres : result_sizes o.

Lemma shape_rk_set (a b : rkstate T) : shape b -> shape (rk_set a b).
Proof. intros []; constructor; cbn; auto. Qed.

Lemma iterate_wf fuel : forall c st c' st' r, wf_ti st ->
  iterate_on_step op fuel c st = (c', st', r) -> wf_ti st'.
Proof.
  induction fuel as [|fuel IH]; intros c st c' st' r Hw H; cbn [iterate_on_step] in H.
  - injection H as _ <- _; exact Hw.
  - destruct (compute_step bt o (disc st) (suggestion st)) as [tmp|e] eqn:E1.
    2:{ injection H as _ <- _; exact Hw. }
    pose proof (fr_shape _ _ _ _ _ (compute_step_frame bt o _ _ _ Hres (wt_shape _ Hw) E1)) as Hs.
    destruct (o_adaptive op).
    + destruct (state_measure (o_meas op) o tmp) as [em|e].
      2:{ injection H as _ <- _; exact Hw. }
      match type of H with context [o_ctl op c ?q] =>
        destruct (o_ctl op c q) as [c1 [stat|e]] end.
      2:{ injection H as _ <- _; exact Hw. }
      destruct (acceptance stat).
      * injection H as _ <- _; destruct Hw; constructor; auto; [apply shape_rk_set; exact Hs| |].
        { change (length (upd 0 (suggestion st) (roll1 (step_hist st))) = 2).
          rewrite length_upd, length_roll1; auto. }
        { change (length (upd 0 em (roll1 (err_hist st))) = 2).
          rewrite length_upd, length_roll1; auto. }
      * revert H; apply IH; destruct Hw; constructor; auto.
    + injection H as _ <- _; destruct Hw; constructor; auto; [apply shape_rk_set; exact Hs|].
      change (length (upd 0 (suggestion st) (step_hist st)) = 2); rewrite length_upd; auto.
Qed.

(** *** Two states a run cannot tell apart *)
Record sim (a b : tistate T) : Prop := {
  si_a : wf_ti a; si_b : wf_ti b;
  si_start : same_start (disc a) (disc b);
  si_sugg : suggestion a = suggestion b;
  si_sh : step_hist a = step_hist b;
  si_eh : err_hist a = err_hist b
}.

Lemma iterate_sim fuel : forall c a b c1 a' r c2 b' r2, sim a b ->
  iterate_on_step op fuel c a = (c1, a', r) -> iterate_on_step op fuel c b = (c2, b', r2) ->
  c1 = c2 /\ r = r2 /\ (r = Ok tt -> a' = b').
Proof.
  induction fuel as [|fuel IH]; intros c a b c1 a' r c2 b' r2 S Ha Hb; simpl in Ha, Hb.
  - injection Ha as <- <- <-; injection Hb as <- <- <-; repeat split; intros K; discriminate K.
  - destruct S as [Wa Wb Ss Su Sh Se].
    rewrite (compute_step_independent bt o (disc a) (disc b)) in Ha;
      [|apply Wa|apply Wb|exact Ss|rewrite (wt_emb _ Wa), (wt_emb _ Wb); reflexivity].
    rewrite Su, Sh, Se in Ha.
    destruct (compute_step bt o (disc b) (suggestion b)) as [tmp|e] eqn:E1.
    2:{ injection Ha as <- <- <-; injection Hb as <- <- <-; repeat split; intros K; discriminate K. }
    assert (Er : rk_set (disc a) tmp = rk_set (disc b) tmp).
    { unfold rk_set; rewrite (wt_emb _ Wa), (wt_emb _ Wb); reflexivity. }
    rewrite Er in Ha.
    destruct (o_adaptive op).
    + destruct (state_measure (o_meas op) o tmp) as [em|e].
      2:{ injection Ha as <- <- <-; injection Hb as <- <- <-; repeat split; intros K; discriminate K. }
      match type of Ha with context [o_ctl op c ?q] =>
        destruct (o_ctl op c q) as [cq [stat|e]] end.
      2:{ injection Ha as <- <- <-; injection Hb as <- <- <-; repeat split; intros K; discriminate K. }
      destruct (acceptance stat).
      * injection Ha as <- <- <-; injection Hb as <- <- <-; auto.
      * refine (IH _ _ _ _ _ _ _ _ _ _ Ha Hb); constructor; cbn; auto;
          [destruct Wa|destruct Wb]; constructor; cbn; auto; congruence.
    + injection Ha as <- <- <-; injection Hb as <- <- <-; auto.
Qed.

Lemma sim_refl a : wf_ti a -> sim a a.
Proof. intros; constructor; auto; constructor; auto. Qed.

Lemma finished_sim it a b : same_start (disc a) (disc b) ->
  is_iteration_finished (o_crit op) it a = is_iteration_finished (o_crit op) it b.
Proof. intros [E _ _]; destruct (o_crit op); simpl; rewrite ?E; reflexivity. Qed.

Lemma chain_wf it c st l c' st' : chain op it c st l c' st' -> wf_ti st ->
  wf_ti st' /\ Forall wf_ti l.
Proof.
  induction 1 as [|it c st c1 st1 l c' st' F I _ IH]; intros Hw; [auto|].
  pose proof (iterate_wf _ _ _ _ _ _ Hw I) as H1.
  destruct (IH H1) as [H2 H3]; auto.
Qed.

Lemma chain_sim it c a l c' a' : chain op it c a l c' a' -> forall b, sim a b ->
  exists b', chain op it c b l c' b' /\ sim a' b'.
Proof.
  destruct 1 as [it c a F|it c a c1 a1 l c' a' F I Hc]; intros b Hs.
  - exists b; split; [|exact Hs]; constructor; rewrite <- F; symmetry; apply finished_sim, Hs.
  - destruct (iterate_on_step op (retry_limit op) c b) as [[c2 b1] r2] eqn:Ib.
    destruct (iterate_sim _ _ _ _ _ _ _ _ _ _ Hs I Ib) as (<- & <- & E).
    specialize (E eq_refl); subst b1.
    exists a'; split.
    + econstructor; [|exact Ib|exact Hc].
      rewrite <- F; symmetry; apply finished_sim, Hs.
    + apply sim_refl.
      eapply (proj1 (chain_wf _ _ _ _ _ _ Hc (iterate_wf _ _ _ _ _ _ (si_a _ _ Hs) I))).
Qed.

(** *** Invariants under calls *)
Definition preserves (P : component T C -> Prop) {A} (m : method T C A) : Prop :=
  forall w, P w -> P (fst (m w)).

Lemma pres_ret (P : component T C -> Prop) {A} (a : A) : preserves P (mret a).
Proof. intros w H; exact H. Qed.
Lemma pres_raise (P : component T C -> Prop) {A} e : preserves P (mraise (A := A) e).
Proof. intros w H; exact H. Qed.
Lemma pres_lift (P : component T C -> Prop) {A} (r : res A) : preserves P (mlift r).
Proof. intros w H; exact H. Qed.
Lemma pres_bind (P : component T C -> Prop) {A B} (m : method T C A) (k : A -> method T C B) :
  preserves P m -> (forall a, preserves P (k a)) -> preserves P (mbind m k).
Proof.
  intros Hm Hk w H; unfold mbind; specialize (Hm w H); destruct (m w) as [w' [a|e]]; [|exact Hm].
  apply (Hk a w' Hm).
Qed.
Lemma pres_reading (P : component T C -> Prop) {A} (f : component T C -> method T C A) :
  (forall w, P w -> P (fst (f w w))) -> preserves P (reading f).
Proof. intros H w Hw; apply H; exact Hw. Qed.
Lemma pres_modify (P : component T C -> Prop) f : (forall w, P w -> P (f w)) -> preserves P (modify f).
Proof. intros H w Hw; apply H; exact Hw. Qed.
Lemma pres_hooks (P : component T C -> Prop) ev hook l : (forall w v, P w -> P (w_log v w)) ->
  forall i, preserves P (call_hooks ev hook i l).
Proof.
  intros HP; induction l as [|cb l IH]; intros i; simpl; [apply pres_ret|].
  apply pres_bind; [apply pres_modify; intros; apply HP; assumption|]; intros _.
  apply pres_bind; [apply pres_lift|]; intros _; apply IH.
Qed.

Record wf (w : component T C) : Prop := {
  wf_live : wf_ti (live w);
  wf_pert : shape (disc (pert w));
  wf_storage : Forall wf_ti (storage w);
  wf_slots : Forall (fun e => wf_ti (snd e)) (slots w);
  wf_first : wf_ti (first_complete w)
}.

Lemma wf_setup c : wf (setup op c).
Proof.
  assert (W : wf_ti {| disc := create_empty_discretization_state bt o; suggestion := o_step op;
                       step_hist := [n0; n0]; err_hist := [o_tol op; o_tol op] |}).
  { constructor; cbn; auto; apply create_shaped. }
  constructor; cbn; auto; apply create_shaped.
Qed.

Lemma wf_log' w v : wf w -> wf (w_log v w).
Proof. intros []; constructor; auto. Qed.

Hypothesis Hdsz : derivative_sizes o.
Hypothesis Hasz : adjoint_sizes o.

Lemma pres_hooks_wf ev hook i l : preserves wf (call_hooks ev hook i l).
Proof. apply pres_hooks, wf_log'. Qed.

Lemma pres_step_live : preserves wf (step_live op).
Proof.
  intros w H; unfold step_live.
  destruct (iterate_on_step op (retry_limit op) (ctl w) (live w)) as [[c' st'] r] eqn:E.
  pose proof (iterate_wf _ _ _ _ _ _ (wf_live _ H) E); destruct H; constructor; auto.
Qed.

Lemma pres_run_step n : preserves wf (run_step op n).
Proof.
  apply pres_bind; [apply pres_reading; intros w H; apply pres_hooks_wf; exact H|]; intros _.
  apply pres_bind; [apply pres_step_live|]; intros _.
  apply pres_reading; intros w H; apply pres_hooks_wf; exact H.
Qed.

Lemma pres_rev_step n st : wf_ti st -> preserves wf (run_step_jacvec_rev op n st).
Proof.
  intros Hst; apply pres_bind; [apply pres_hooks_wf|]; intros _.
  apply pres_bind; [|intros _; apply pres_hooks_wf].
  intros w H; unfold reading, mbind, mlift, modify.
  destruct (compute_step_adjoint_derivative _ _ _ _ _) as [d|e] eqn:E; [|exact H].
  pose proof (compute_step_adjoint_shape _ _ _ _ _ _ Hasz (wt_shape _ Hst) (wf_pert _ H) E) as Hd.
  destruct H; constructor; cbn; auto; apply shape_rk_set; exact Hd.
Qed.

Lemma pres_forward_loop keep : forall fuel it, preserves wf (forward_loop op keep fuel it).
Proof.
  induction fuel as [|fuel IH]; intros it; simpl; [apply pres_raise|].
  apply pres_reading; intros w H.
  destruct (is_iteration_finished _ _ _); [exact H|].
  apply pres_bind; [apply pres_run_step| |exact H]; intros _.
  apply pres_bind; [|intros _; apply IH].
  destruct keep; [|apply pres_ret]; apply pres_modify.
  intros w1 []; constructor; cbn; auto.
Qed.

Lemma pres_reverse_all : forall l, Forall wf_ti l -> preserves wf (reverse_all op l).
Proof.
  induction l as [|st l IH]; intros Hl; [apply pres_ret|]; inversion Hl; subst.
  cbn [reverse_all]; apply pres_bind; [apply pres_modify; intros w []; constructor; auto|]; intros _.
  apply pres_bind; [apply pres_rev_step; assumption|]; intros _; auto.
Qed.

Lemma pres_fwd_op : forall n lo, preserves wf (forward_operator op n lo).
Proof.
  induction n as [|n IH]; intros lo; simpl; [apply pres_ret|].
  apply pres_bind; [apply pres_run_step|]; intros _; apply IH.
Qed.

Lemma pres_rev_op : forall n lo, preserves wf (reverse_operator op n lo).
Proof.
  induction n as [|n IH]; intros lo; simpl; [apply pres_ret|].
  apply pres_bind; [|intros _; apply IH].
  apply pres_reading; intros w H; apply pres_rev_step; [apply H|exact H].
Qed.

Lemma find_forall {A} (P : A -> Prop) f l x : Forall P l -> find f l = Some x -> P x.
Proof. intros H E; apply find_some in E as [E _]; rewrite Forall_forall in H; auto. Qed.

Lemma wf_load a b : wf_ti a -> wf_ti b -> wf_ti (load_snapshot a b).
Proof.
  intros [] []; constructor; cbn; auto.
  destruct wt_shape1; constructor; cbn; auto.
Qed.

Lemma wf_ti_set a b : wf_ti a -> wf_ti b -> wf_ti (ti_set a b).
Proof. intros [] []; constructor; cbn; auto; apply shape_rk_set; auto. Qed.

Lemma pres_action a : preserves wf (run_action op a).
Proof.
  destruct a as [a b|k|k|a b]; simpl; [apply pres_fwd_op| | |apply pres_rev_op].
  - apply pres_modify; intros w []; constructor; cbn; auto.
  - apply pres_reading; intros w H.
    destruct (find _ (slots w)) as [[k' snap]|] eqn:E; [|exact H].
    pose proof (find_forall _ _ _ _ (wf_slots _ H) E) as Hs; cbn in Hs.
    destruct H; constructor; cbn; auto; apply wf_load; auto.
Qed.

Lemma pres_actions : forall l, preserves wf (run_actions op l).
Proof.
  induction l as [|a l IH]; simpl; [apply pres_ret|].
  apply pres_bind; [apply pres_action|]; intros _; apply IH.
Qed.

Lemma pres_iterate_forward : preserves wf (iterate_forward op).
Proof.
  unfold iterate_forward; destruct (o_ckpt op); try apply pres_forward_loop.
  apply pres_bind; [apply pres_fwd_op|]; intros _.
  apply pres_bind; [|intros _; apply pres_actions].
  apply pres_modify; intros w []; constructor; cbn; auto; apply wf_ti_set; auto.
Qed.

Lemma pres_iterate_reverse : preserves wf (iterate_reverse op).
Proof.
  unfold iterate_reverse; destruct (o_ckpt op); [apply pres_raise| |].
  - apply pres_reading; intros w H; apply pres_reverse_all; [apply H|exact H].
  - apply pres_bind; [apply pres_actions|]; intros _.
    apply pres_bind; [|intros _; apply pres_rev_op].
    apply pres_modify; intros w []; constructor; cbn; auto; apply wf_ti_set; auto.
Qed.

Notation inputs_ok := (inputs_sized o).
Notation outputs_ok := (outputs_sized o).
Notation call_ok := (call_sized o).

Lemma shape_put i (s : rkstate T) : inputs_ok i -> shape s -> shape (put_inputs i s).
Proof. intros [] []; constructor; cbn; auto. Qed.

Lemma wf_reset st : wf_ti st -> wf_ti (reset_error_control op st).
Proof. intros []; constructor; cbn; rewrite ?map_length; auto. Qed.

Lemma wf_put i st : inputs_ok i -> wf_ti st -> wf_ti (w_disc (put_inputs i (disc st)) st).
Proof. intros Hi []; constructor; cbn; auto; apply shape_put; auto. Qed.

Lemma wf_zero_lin st : wf_ti st -> wf_ti (w_disc (w_linearization_points
   (map (fun r => vzeros (length r)) (linearization_points (disc st))) (disc st)) st).
Proof.
  intros []; constructor; cbn; auto.
  destruct wt_shape0; constructor; cbn; rewrite ?map_length; auto.
  clear - sh_lpr; induction sh_lpr; simpl; constructor; auto; rewrite glen_vzeros; assumption.
Qed.

Lemma wf_prepare i w : inputs_ok i -> wf w -> wf (prepare op i w).
Proof.
  intros Hi Hw; unfold prepare; destruct Hw; constructor; cbn [live w_live w_cached pert storage slots first_complete]; auto.
  apply wf_zero_lin, wf_reset, wf_put; auto.
Qed.

Lemma wf_prepare_fwd i d w : inputs_ok i -> inputs_ok d -> wf w -> wf (prepare_fwd op i d w).
Proof.
  intros Hi Hd Hw; unfold prepare_fwd; destruct Hw; constructor; cbn [live w_live w_pert pert storage slots first_complete]; auto.
  - apply wf_reset, wf_put; auto.
  - apply shape_put; auto.
Qed.

Lemma wf_prepare_rev d w : outputs_ok d -> wf w -> wf (prepare_rev d w).
Proof.
  intros Hd Hw; destruct Hw; constructor; cbn; auto.
  destruct wf_pert0; constructor; cbn; auto; rewrite glen_vzeros; auto.
Qed.

Lemma pres_compute i : inputs_ok i -> preserves wf (compute op i).
Proof.
  intros Hi w Hw; unfold compute; unfold mbind at 1; rewrite compute_preparation_eq.
  pose proof (wf_prepare i w Hi Hw) as H1; revert H1; generalize (prepare op i w).
  change (preserves wf (create_checkpointer op ;; iterate_forward op ;;
    reading (fun w => mret {| time_final := final_time (disc (live w));
                            final := final_state (disc (live w)) |}))).
  apply pres_bind; [|intros _].
  - unfold create_checkpointer; destruct (o_ckpt op); [apply pres_ret| |]; apply pres_modify;
      intros w1 []; constructor; cbn; auto.
  - apply pres_bind; [apply pres_iterate_forward|]; intros _.
    apply pres_reading; intros w1 H1; exact H1.
Qed.

Lemma pres_fwd_steps : forall fuel it, preserves wf (jacvec_fwd_run_steps op fuel it).
Proof.
  induction fuel as [|fuel IH]; intros it; simpl; [apply pres_raise|].
  apply pres_reading; intros w H.
  destruct (is_iteration_finished _ _ _); [exact H|].
  revert w H; change (preserves wf (run_step_jacvec_fwd op (S it) ;; jacvec_fwd_run_steps op fuel (S it))).
  apply pres_bind; [|intros _; apply IH].
  apply pres_bind; [apply pres_reading; intros w H; apply pres_hooks_wf; exact H|]; intros _.
  apply pres_bind; [apply pres_step_live|]; intros _.
  apply pres_bind; [|intros _; apply pres_reading; intros w H; apply pres_hooks_wf; exact H].
  intros w H; unfold step_derivative_live, reading, mbind, mlift, modify.
  destruct (compute_step_derivative _ _ _ _ _) as [d|e] eqn:E; [|exact H].
  pose proof (compute_step_derivative_shape _ _ _ _ _ _ Hdsz (wt_shape _ (wf_live _ H)) (wf_pert _ H) E) as [Hd _].
  destruct H; constructor; cbn; auto; apply shape_rk_set; exact Hd.
Qed.

Lemma pres_fwd i d : inputs_ok i -> inputs_ok d -> preserves wf (compute_jacvec_product_fwd op i d).
Proof.
  intros Hi Hd w Hw; unfold compute_jacvec_product_fwd; unfold mbind at 1; rewrite fwd_preparation_eq.
  pose proof (wf_prepare_fwd i d w Hi Hd Hw) as H1; revert H1; generalize (prepare_fwd op i d w).
  change (preserves wf (jacvec_fwd_run_steps op (loop_limit op) 0 ;;
    reading (fun w => mret {| time_final := final_time (disc (pert w));
                            final := final_state (disc (pert w)) |}))).
  apply pres_bind; [apply pres_fwd_steps|]; intros _; apply pres_reading; intros w1 H1; exact H1.
Qed.

Lemma pres_rev i d : inputs_ok i -> outputs_ok d -> preserves wf (compute_jacvec_product_rev op i d).
Proof.
  intros Hi Hd; unfold compute_jacvec_product_rev.
  apply pres_bind; [|intros _].
  - apply pres_bind; [|intros _; apply pres_modify; intros w H; apply (wf_prepare_rev d w Hd H)].
    apply pres_reading; intros w H; destruct (cache_hit _ _); [exact H|].
    apply pres_bind; [apply pres_compute; exact Hi|intros; apply pres_ret|exact H].
  - apply pres_bind; [apply pres_iterate_reverse|]; intros _.
    apply pres_bind; [apply pres_reading; intros w H; exact H|]; intros g.
    apply pres_bind; [apply pres_modify; intros w []; constructor; auto|]; intros _; apply pres_ret.
Qed.

Lemma wf_run_calls l w : Forall call_ok l -> wf w -> wf (run_calls op l w).
Proof.
  intros H; revert w; induction H as [|k l Hk _ IH]; intros w Hw; [exact Hw|].
  apply IH; destruct k; simpl in *; [apply pres_compute|apply pres_fwd|apply pres_rev]; tauto.
Qed.

(** *** Controllers without memory *)
Variable c : C.
Hypothesis Hst : stateless op c.

Lemma iterate_ctl fuel : forall st c' st' r,
  iterate_on_step op fuel c st = (c', st', r) -> c' = c.
Proof.
  induction fuel as [|fuel IH]; intros st c' st' r H; simpl in H.
  - injection H as <- _ _; reflexivity.
  - destruct (compute_step _ _ _ _) as [tmp|e]; [|injection H as <- _ _; reflexivity].
    destruct (o_adaptive op) eqn:HA; [|injection H as <- _ _; reflexivity].
    destruct (state_measure _ _ _) as [em|e]; [|injection H as <- _ _; reflexivity].
    match type of H with context [o_ctl op c ?q] =>
      pose proof (Hst HA q) as Hc; destruct (o_ctl op c q) as [c1 [stat|e]] end; cbn in Hc; subst c1;
      [|injection H as <- _ _; reflexivity].
    destruct (acceptance stat); [injection H as <- _ _; reflexivity|].
    exact (IH _ _ _ _ H).
Qed.

Definition has_ctl (w : component T C) : Prop := ctl w = c.

Lemma ctl_hooks ev hook i l : preserves (has_ctl) (call_hooks ev hook i l).
Proof. apply pres_hooks; intros w v H; exact H. Qed.

Lemma ctl_step_live : preserves (has_ctl) (step_live op).
Proof.
  intros w H; unfold step_live.
  destruct (iterate_on_step op (retry_limit op) (ctl w) (live w)) as [[c' st'] r] eqn:E.
  unfold has_ctl in *; rewrite H in E; apply iterate_ctl in E; exact E.
Qed.

Lemma ctl_run_step n : preserves (has_ctl) (run_step op n).
Proof.
  apply pres_bind; [apply pres_reading; intros w H; apply ctl_hooks; exact H|]; intros _.
  apply pres_bind; [apply ctl_step_live|]; intros _.
  apply pres_reading; intros w H; apply ctl_hooks; exact H.
Qed.

Lemma ctl_rev_step n st : preserves (has_ctl) (run_step_jacvec_rev op n st).
Proof.
  apply pres_bind; [apply ctl_hooks|]; intros _.
  apply pres_bind; [|intros _; apply ctl_hooks].
  intros w H; unfold reading, mbind, mlift, modify.
  destruct (compute_step_adjoint_derivative _ _ _ _ _); exact H.
Qed.

Lemma ctl_forward_loop keep : forall fuel it, preserves (has_ctl) (forward_loop op keep fuel it).
Proof.
  induction fuel as [|fuel IH]; intros it; simpl; [apply pres_raise|].
  apply pres_reading; intros w H.
  destruct (is_iteration_finished _ _ _); [exact H|].
  apply pres_bind; [apply ctl_run_step| |exact H]; intros _.
  apply pres_bind; [|intros _; apply IH].
  destruct keep; [|apply pres_ret]; apply pres_modify; intros w1 H1; exact H1.
Qed.

Lemma ctl_reverse_all : forall l, preserves (has_ctl) (reverse_all op l).
Proof.
  induction l as [|st l IH]; [apply pres_ret|].
  cbn [reverse_all]; apply pres_bind; [apply pres_modify; intros w H; exact H|]; intros _.
  apply pres_bind; [apply ctl_rev_step|]; intros _; apply IH.
Qed.

Lemma ctl_fwd_op : forall n lo, preserves (has_ctl) (forward_operator op n lo).
Proof.
  induction n as [|n IH]; intros lo; simpl; [apply pres_ret|].
  apply pres_bind; [apply ctl_run_step|]; intros _; apply IH.
Qed.

Lemma ctl_rev_op : forall n lo, preserves (has_ctl) (reverse_operator op n lo).
Proof.
  induction n as [|n IH]; intros lo; simpl; [apply pres_ret|].
  apply pres_bind; [|intros _; apply IH].
  apply pres_reading; intros w H; apply ctl_rev_step; exact H.
Qed.

Lemma ctl_actions : forall l, preserves (has_ctl) (run_actions op l).
Proof.
  induction l as [|a l IH]; simpl; [apply pres_ret|].
  apply pres_bind; [|intros _; apply IH].
  destruct a as [a b|k|k|a b]; simpl; [apply ctl_fwd_op| | |apply ctl_rev_op].
  - apply pres_modify; intros w H; exact H.
  - apply pres_reading; intros w H.
    destruct (find _ (slots w)) as [[k' snap]|]; exact H.
Qed.

Lemma ctl_compute i : preserves (has_ctl) (compute op i).
Proof.
  intros w Hw; unfold compute; unfold mbind at 1; rewrite compute_preparation_eq.
  assert (H1 : has_ctl (prepare op i w)) by exact Hw; revert H1; generalize (prepare op i w).
  change (preserves (has_ctl) (create_checkpointer op ;; iterate_forward op ;;
    reading (fun w => mret {| time_final := final_time (disc (live w));
                            final := final_state (disc (live w)) |}))).
  apply pres_bind; [|intros _].
  - unfold create_checkpointer; destruct (o_ckpt op); [apply pres_ret| |]; apply pres_modify;
      intros w1 H1; exact H1.
  - apply pres_bind; [|intros _; apply pres_reading; intros w1 H1; exact H1].
    unfold iterate_forward; destruct (o_ckpt op); try apply ctl_forward_loop.
    apply pres_bind; [apply ctl_fwd_op|]; intros _.
    apply pres_bind; [|intros _; apply ctl_actions].
    apply pres_modify; intros w1 H1; exact H1.
Qed.

Lemma ctl_fwd i d : preserves (has_ctl) (compute_jacvec_product_fwd op i d).
Proof.
  intros w Hw; unfold compute_jacvec_product_fwd; unfold mbind at 1; rewrite fwd_preparation_eq.
  assert (H1 : has_ctl (prepare_fwd op i d w)) by exact Hw; revert H1; generalize (prepare_fwd op i d w).
  change (preserves (has_ctl) (jacvec_fwd_run_steps op (loop_limit op) 0 ;;
    reading (fun w => mret {| time_final := final_time (disc (pert w));
                            final := final_state (disc (pert w)) |}))).
  apply pres_bind; [|intros _; apply pres_reading; intros w1 H1; exact H1].
  generalize 0; induction (loop_limit op) as [|fuel IH]; intros it; simpl; [apply pres_raise|].
  apply pres_reading; intros w1 H.
  destruct (is_iteration_finished _ _ _); [exact H|].
  revert w1 H; change (preserves (has_ctl) (run_step_jacvec_fwd op (S it) ;; jacvec_fwd_run_steps op fuel (S it))).
  apply pres_bind; [|intros _; apply IH].
  apply pres_bind; [apply pres_reading; intros w1 H; apply ctl_hooks; exact H|]; intros _.
  apply pres_bind; [apply ctl_step_live|]; intros _.
  apply pres_bind; [|intros _; apply pres_reading; intros w1 H; apply ctl_hooks; exact H].
  intros w1 H; unfold step_derivative_live, reading, mbind, mlift, modify.
  destruct (compute_step_derivative _ _ _ _ _); exact H.
Qed.

Lemma ctl_rev i d : preserves (has_ctl) (compute_jacvec_product_rev op i d).
Proof.
  unfold compute_jacvec_product_rev.
  apply pres_bind; [|intros _].
  - apply pres_bind; [|intros _; apply pres_modify; intros w H; exact H].
    apply pres_reading; intros w H; destruct (cache_hit _ _); [exact H|].
    apply pres_bind; [apply ctl_compute|intros; apply pres_ret|exact H].
  - apply pres_bind; [|intros _].
    + unfold iterate_reverse; destruct (o_ckpt op); [apply pres_raise| |].
      * apply pres_reading; intros w H; apply ctl_reverse_all; exact H.
      * apply pres_bind; [apply ctl_actions|]; intros _.
        apply pres_bind; [|intros _; apply ctl_rev_op]; apply pres_modify; intros w H; exact H.
    + apply pres_bind; [apply pres_reading; intros w H; exact H|]; intros g.
      apply pres_bind; [apply pres_modify; intros w H; exact H|]; intros _; apply pres_ret.
Qed.

Lemma ctl_run_calls l w : ctl w = c -> ctl (run_calls op l w) = c.
Proof.
  revert w; induction l as [|k l IH]; intros w Hw; [exact Hw|].
  apply IH; destruct k; simpl;
    [exact (ctl_compute _ w Hw)|exact (ctl_fwd _ _ w Hw)|exact (ctl_rev _ _ w Hw)].
Qed.

(** *** Repeatability *)
Lemma sim_prepare i w1 w2 : inputs_ok i -> wf w1 -> wf w2 ->
  sim (live (prepare op i w1)) (live (prepare op i w2)).
Proof.
  intros Hi H1 H2; pose proof (wf_prepare i w1 Hi H1) as P1; pose proof (wf_prepare i w2 Hi H2) as P2.
  assert (L : forall (x y : list T) (f : T), length x = 2 -> length y = 2 ->
            map (fun _ : T => f) x = map (fun _ => f) y).
  { intros [|a [|b [|? ?]]] [|a' [|b' [|? ?]]] f; simpl; intros; try discriminate; reflexivity. }
  constructor; [apply P1|apply P2| | | |]; cbn; auto.
  - constructor; reflexivity.
  - apply L; [apply H1|apply H2].
  - apply L; [apply H1|apply H2].
Qed.

Lemma sim_prepare_fwd i d w1 w2 : inputs_ok i -> inputs_ok d -> wf w1 -> wf w2 ->
  sim (live (prepare op i w1)) (live (prepare_fwd op i d w2)).
Proof.
  intros Hi Hd H1 H2; pose proof (wf_prepare i w1 Hi H1) as P1;
    pose proof (wf_prepare_fwd i d w2 Hi Hd H2) as P2.
  assert (L : forall (x y : list T) (f : T), length x = 2 -> length y = 2 ->
            map (fun _ : T => f) x = map (fun _ => f) y).
  { intros [|a [|b [|? ?]]] [|a' [|b' [|? ?]]] f; simpl; intros; try discriminate; reflexivity. }
  constructor; [apply P1|apply P2| | | |]; cbn; auto.
  - constructor; reflexivity.
  - apply L; [apply H1|apply H2].
  - apply L; [apply H1|apply H2].
Qed.

End Iter.
